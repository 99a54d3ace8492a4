(** The crate on different machines.

    The operations of [f32num] are fixed by IEEE 754 and by Rust to the last bit, except [min] and
    [max] of two zeros of opposite signs: Rust leaves open which one is returned, and x86_64 and
    aarch64 differ.  A platform says what [min] and [max] do there, which bytes lie around the
    buffers in memory (sampling_job.rs 1214-1218 reads a few of them, see Gv4.v), and whether integer
    overflow is checked (debug and release builds).  Byte order is treated in Archive.v (C09).

    Simplified: all NaNs are one value, so a platform does not choose the sign of a NaN
    (math.rs 1043-1048 notes that x86_64 and aarch64 differ there, and compares with zero instead
    of reading the sign bit). *)
From Verif Require Import Base Num NumF32 Math Keys Skeleton Blending Sampling Ik Skinning Player.

(** README.md 8, 12 ("cross-platform deterministic"), sampling_job.rs 1056, blending_job.rs 355,
    405-406: [f32::min], [f32::max], [simd_min], [simd_max]. *)
Definition arith_with {F} (A : Arith F) (mn mx : F -> F -> F) : Arith F :=
  {| nadd := nadd; nsub := nsub; nmul := nmul; ndiv := ndiv; nneg := nneg; nabs := nabs;
     nsqrt := nsqrt; ntrunc := ntrunc; nmin := mn; nmax := mx; nlit := nlit |}.
Definition num_with {F} (NF : Num F) (mn mx : F -> F -> F) : Num F :=
  {| num_arith := arith_with num_arith mn mx; nlt := nlt; nle := nle; neq := neq; nto_i32 := nto_i32 |}.

Record platform := mk_platform {
  p_min : f32 -> f32 -> f32;
  p_max : f32 -> f32 -> f32;
  p_outside : nat -> N;
  p_checks : bool
}.
Definition on (P : platform) : Num f32 := num_with f32num (p_min P) (p_max P).

(** ** The jobs, on a platform *)

(** sampling_job.rs 1055-1058 *)
Definition set_ratio_on (P : platform) (x : f32) : f32 := @set_ratio f32 (on P) x.
(** sampling_job.rs 1099-1133; animation.rs 34-38, 96-158 *)
Definition run_on (P : platform) (oa : option animf) (oc : option (context f32)) (ratio : f32)
    (oo : option (list soaf)) : res (context f32 * list soaf) :=
  @run f32 (on P) key key float3_simd_decompress (quat_simd_decompress_with (p_max P)) (p_outside P) oa oc ratio oo.
(** blending_job.rs 302-325 *)
Definition blend_on (P : platform) (j : bjob f32) : bres f32 := @blend_run f32 (on P) j.
(** local_to_model_job.rs 221-257 *)
Definition ltm_on (P : platform) (j : ltm_job f32) : res (list (mat4 f32)) := @ltm_run f32 (on P) (p_checks P) j.
(** ik_two_bone_job.rs 307-327 *)
Definition ik2_on (P : platform) (j : ik2_job f32) (o : ik2_out f32) : option (res unit * ik2_out f32) :=
  @ik2_run f32 (on P) j o.
(** ik_aim_job.rs 225-293 *)
Definition aim_on (P : platform) (j : aim_job f32) (o : aim_out f32) : option (res unit * aim_out f32) :=
  @aim_run f32 (on P) j o.

(** skinning_job.rs 531-575 *)
Definition skin_on (P : platform) (j : sjob f32) : sres f32 := @skin_run f32 (on P) (p_checks P) j.

(** ** The playback loop of Player.v, on a platform *)
Section PlayOn.
  Variable P : platform.
  Variable sk : skeleton f32.

  (** tests/blend.rs 85-90 *)
  Fixpoint sample_layers_on (ls : list (context f32 * list soaf)) (ins : list layer_input)
      : option (outcome * list (context f32 * list soaf)) :=
    match ls, ins with
    | (c, o) :: ls, i :: ins =>
        match run_on P (Some (in_anim i)) (Some c) (set_ratio_on P (in_ratio i)) (Some o) with
        | Ok (c', o') =>
            match sample_layers_on ls ins with
            | Some (r, ls') => Some (r, (c', o') :: ls')
            | None => None
            end
        | Err e => Some (Failed e, (c, o) :: ls)
        | Panic => None
        end
    | _, _ => Some (Drawn, ls)
    end.

  (** tests/blend.rs 83-102 *)
  Definition play_on (p : player) (fr : frame) : option (outcome * player) :=
    match sample_layers_on (pl_layers p) (fr_layers fr) with
    | None => None
    | Some (Failed e, ls) => Some (Failed e, mk_player ls (pl_blend p) (pl_blended p) (pl_models p))
    | Some (Drawn, ls) =>
        match blend_on P (blending_job sk fr (map snd ls) (pl_blend p) (pl_blended p)) with
        | BPanic => None
        | BErr e (c, o) => Some (Failed e, mk_player ls c o (pl_models p))
        | BOk (c, o) =>
            match ltm_on P (ltm_of sk fr o (pl_models p)) with
            | Panic => None
            | Err e => Some (Failed e, mk_player ls c o (pl_models p))
            | Ok m => Some (Drawn, mk_player ls c o m)
            end
        end
    end.
  (** Every frame's outcome and pose, as they come: what a lock-step game compares. *)
  Fixpoint play_all_on (p : player) (frs : list frame) : option (list outcome * player) :=
    match frs with
    | [] => Some ([], p)
    | fr :: t =>
        match play_on p fr with
        | Some (r, p') => match play_all_on p' t with Some (rs, q) => Some (r :: rs, q) | None => None end
        | None => None
        end
    end.
End PlayOn.
