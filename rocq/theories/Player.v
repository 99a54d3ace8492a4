(** A playback loop over the jobs, as in tests/blend.rs 40-119 (and additive.rs, partial_blend.rs):
    one SamplingJob per layer, one BlendingJob and one LocalToModelJob, kept from frame to frame.

    Simplified: every job owns its buffers as values (Buffers.v models the sharing), and all jobs see
    the same bytes [outside] the animations' buffers (C07). *)
From Verif Require Import Base Num NumF32 Math Keys Skeleton Blending Sampling.

Notation animf := (animation f32 key key).
Notation soaf := (transform (V4 f32)).

(** What the user sets for one layer before a frame (tests/blend.rs 85-99: [set_ratio], [weight];
    partial_blend.rs 66-77: [joint_weights]; additive.rs 106-136: the layer goes to [additive_layers]). *)
Record layer_input := mk_input {
  in_anim : animf;
  in_ratio : f32;
  in_weight : f32;
  in_joint_weights : list (V4 f32);
  in_additive : bool
}.
Record frame := mk_frame {
  fr_layers : list layer_input;
  fr_threshold : f32;
  fr_root : mat4 f32
}.
(** What is kept from frame to frame: contexts and buffers (tests/blend.rs 50-80). *)
Record player := mk_player {
  pl_layers : list (context f32 * list soaf);
  pl_blend : bctx f32;
  pl_blended : list soaf;
  pl_models : list (mat4 f32)
}.
Inductive outcome := Drawn | Failed (e : ozz_error).

Section Player.
  Variable outside : nat -> N.
  Variable sk : skeleton f32.

  (** tests/blend.rs 85-90: [set_ratio] and [run] of each sampling job; an error ends the frame.
      [None]: panic. *)
  Fixpoint sample_layers (ls : list (context f32 * list soaf)) (ins : list layer_input)
      : option (outcome * list (context f32 * list soaf)) :=
    match ls, ins with
    | (c, o) :: ls, i :: ins =>
        match run float3_simd_decompress quat_simd_decompress outside (Some (in_anim i)) (Some c)
                  (set_ratio (in_ratio i)) (Some o) with
        | Ok (c', o') =>
            match sample_layers ls ins with
            | Some (r, ls') => Some (r, (c', o') :: ls')
            | None => None
            end
        | Err e => Some (Failed e, (c, o) :: ls)
        | Panic => None
        end
    | _, _ => Some (Drawn, ls)
    end.

  (** tests/blend.rs 68-74, 92-100: the layers of the blending job, with the poses just sampled. *)
  Definition blend_inputs (additive : bool) (poses : list (list soaf)) (ins : list layer_input) : list (layer f32) :=
    map (fun x => mk_layer (fst x) (in_weight (snd x)) (in_joint_weights (snd x)))
        (filter (fun x => Bool.eqb (in_additive (snd x)) additive) (combine poses ins)).
  Definition blending_job (fr : frame) (poses : list (list soaf)) (ctx : bctx f32) (output : list soaf) : bjob f32 :=
    mk_bjob (Some sk) (Some ctx) (fr_threshold fr) (blend_inputs false poses (fr_layers fr))
            (blend_inputs true poses (fr_layers fr)) (Some output).
  (** tests/blend.rs 76-80, 102: the default range of joints. *)
  Definition ltm_of (fr : frame) (blended : list soaf) (output : list (mat4 f32)) : ltm_job f32 :=
    mk_ltm (Some sk) (Some blended) (fr_root fr) SKELETON_NO_PARENT SKELETON_MAX_JOINTS false (Some output).

  (** tests/blend.rs 83-102: one frame.  An error ends the frame; what was written stays. *)
  Definition play (p : player) (fr : frame) : option (outcome * player) :=
    match sample_layers (pl_layers p) (fr_layers fr) with
    | None => None
    | Some (Failed e, ls) => Some (Failed e, mk_player ls (pl_blend p) (pl_blended p) (pl_models p))
    | Some (Drawn, ls) =>
        match blend_run (blending_job fr (map snd ls) (pl_blend p) (pl_blended p)) with
        | BPanic => None
        | BErr e (c, o) => Some (Failed e, mk_player ls c o (pl_models p))
        | BOk (c, o) =>
            match ltm_run true (ltm_of fr o (pl_models p)) with
            | Panic => None
            | Err e => Some (Failed e, mk_player ls c o (pl_models p))
            | Ok m => Some (Drawn, mk_player ls c o m)
            end
        end
    end.
  Fixpoint play_all (p : player) (frs : list frame) : option player :=
    match frs with
    | [] => Some p
    | fr :: t => match play p fr with Some (_, p') => play_all p' t | None => None end
    end.
End Player.
