(** Model of BlendingJob (blending_job.rs).

    Buffers are lists (a buffer whose lock cannot be taken is modelled in Buffers.v).  The pass
    counters are unbounded naturals (u32 in the code: one step per layer). *)
From Verif Require Import Base Num Math Skeleton.
Local Open Scope num_scope.

Section Blending.
  Context {F : Type} {NF : Num F}.
  Notation soa := (transform (V4 F)).

  (** blending_job.rs 18-37 [BlendingLayer] *)
  Record layer := mk_layer {
    ly_transform : list soa;
    ly_weight : F;
    ly_joint_weights : list (V4 F)
  }.
  (** blending_job.rs 70-77 [BlendingContext] *)
  Record bctx := mk_bctx {
    bc_passes : nat;
    bc_partial : nat;
    bc_weight : F;             (* accumulated_weight *)
    bc_weights : list (V4 F)   (* accumulated_weights *)
  }.
  (** blending_job.rs 115-128 [BlendingJob] *)
  Record bjob := mk_bjob {
    bj_skeleton : option (skeleton F);
    bj_context : option bctx;
    bj_threshold : F;
    bj_layers : list layer;
    bj_additive : list layer;
    bj_output : option (list soa)
  }.
  (** blending_job.rs 134-149 [default]; 0.1f32 = 13421773 * 2^-27. *)
  Definition bjob_default : bjob :=
    mk_bjob None (Some (mk_bctx 0 0 nzero [])) (nlit 13421773 (-27)) [] [] None.

  (** blending_job.rs 484-488 *)
  Definition blend_1st_pass (input : soa) (weight : V4 F) : soa :=
    TR (v3_mul_num (tr_t input) weight) (q_mul_num (tr_r input) weight) (v3_mul_num (tr_s input) weight).
  (** blending_job.rs 491-497 *)
  Definition blend_n_pass (input : soa) (weight : V4 F) (output : soa) : soa :=
    let dot := q_dot (tr_r output) (tr_r input) in
    let rotation := q_xor_sign (tr_r input) (fx4_sign dot) in
    TR (v3_add (tr_t output) (v3_mul_num (tr_t input) weight))
       (q_add (tr_r output) (q_mul_num rotation weight))
       (v3_add (tr_s output) (v3_mul_num (tr_s input) weight)).
  (** blending_job.rs 503-509, 524-530: the weighted additive rotation *)
  Definition interp_quat (input : soa) (weight : V4 F) : quat (V4 F) :=
    let rotation := q_positive_w (tr_r input) in
    Q4 (qx rotation * weight) (qy rotation * weight) (qz rotation * weight)
       ((qw rotation - none_) * weight + none_).
  (** blending_job.rs 500-517 *)
  Definition blend_add_pass (input : soa) (weight one_minus_weight : V4 F) (output : soa) : soa :=
    TR (v3_add (tr_t output) (v3_mul_num (tr_t input) weight))
       (q_mul (tr_r output) (q_normalize (interp_quat input weight)))
       (V3 (vx (tr_s output) * (one_minus_weight + vx (tr_s input) * weight))
           (vy (tr_s output) * (one_minus_weight + vy (tr_s input) * weight))
           (vz (tr_s output) * (one_minus_weight + vz (tr_s input) * weight))).
  (** blending_job.rs 520-538 *)
  Definition blend_sub_pass (input : soa) (weight one_minus_weight : V4 F) (output : soa) : soa :=
    TR (v3_sub (tr_t output) (v3_mul_num (tr_t input) weight))
       (q_mul (tr_r output) (q_conjugate (q_normalize (interp_quat input weight))))
       (V3 (vx (tr_s output) * nrecip (vx (tr_s input) * weight + one_minus_weight))
           (vy (tr_s output) * nrecip (vy (tr_s input) * weight + one_minus_weight))
           (vz (tr_s output) * nrecip (vz (tr_s input) * weight + one_minus_weight))).

  (** blending_job.rs 354, 360, 397, 404, 452, ...: [for idx in k..k + n { body }] *)
  Fixpoint for_range {S} (n k : nat) (body : nat -> S -> res S) (s : S) : res S :=
    match n with
    | O => Ok s
    | Datatypes.S n => let* s := body k s in for_range n (Datatypes.S k) body s
    end.

  (** State the job mutates: context and output. *)
  Notation st := (bctx * list soa)%type.
  (** The [?] of blending_job.rs 330-490.  Outcome with the state left behind: a returned error keeps the writes made so far. *)
  Inductive bres := BOk (s : st) | BErr (e : ozz_error) (s : st) | BPanic.

  (** blending_job.rs 338-343, 441-446: the size checks on a layer *)
  Definition layer_ok (n : nat) (l : layer) : bool :=
    (n <=? length (ly_transform l))%nat &&
    (match ly_joint_weights l with [] => true | ws => (n <=? length ws)%nat end).
  Definition is_partial (l : layer) : bool := match ly_joint_weights l with [] => false | _ => true end.
  (** blending_job.rs 356, 363, 370: weight of the layer at a SoA index *)
  Definition weight_at (w : F) (l : layer) (idx : nat) : res (V4 F) :=
    match ly_joint_weights l with
    | [] => Ok (splat w)
    | ws => let* jw := get ws idx in Ok (splat w * nmax jw nzero)
    end.

  (** blending_job.rs 355-381: the loop over the joints of one layer ([first]: num_passes == 0) *)
  Definition layer_pass (n : nat) (l : layer) (first : bool) (s : list (V4 F) * list soa)
      : res (list (V4 F) * list soa) :=
    for_range n 0 (fun idx s =>
      let* weight := weight_at (ly_weight l) l idx in
      let* acc := get (fst s) idx in
      let* accs := set (fst s) idx (if first then weight else acc + weight) in
      let* t := get (ly_transform l) idx in
      let* o := get (snd s) idx in
      let* out := set (snd s) idx (if first then blend_1st_pass t weight else blend_n_pass t weight o) in
      Ok (accs, out)) s.

  (** blending_job.rs 327-383 [blend_layers] *)
  Fixpoint blend_layers (n : nat) (layers : list layer) (s : st) : bres :=
    match layers with
    | [] => BOk s
    | l :: rest =>
        if negb (layer_ok n l) then BErr InvalidJob s
        else if nle (ly_weight l) nzero then blend_layers n rest s
        else
          let c := fst s in
          match layer_pass n l (bc_passes c =? 0)%nat (bc_weights c, snd s) with
          | Ok (accs, out) =>
              blend_layers n rest
                (mk_bctx (S (bc_passes c)) (if is_partial l then S (bc_partial c) else bc_partial c)
                         (bc_weight c + ly_weight l) accs, out)
          | Err e => BErr e s
          | Panic => BPanic
          end
    end.

  (** blending_job.rs 393: [output.copy_from_slice(src)]: panics unless the lengths are equal. *)
  Definition copy_from_slice (dst src : list soa) : res (list soa) :=
    if (length dst =? length src)%nat then Ok src else Panic.

  (** blending_job.rs 385-410 [blend_rest_pose] *)
  Definition blend_rest_pose (rest : list soa) (threshold : F) (s : st) : res st :=
    let c := fst s in let out := snd s in
    if (bc_partial c =? 0)%nat then
      let bp_weight := threshold - bc_weight c in
      if nlt nzero bp_weight then
        if (bc_passes c =? 0)%nat then
          let* out := copy_from_slice out rest in
          Ok (mk_bctx (bc_passes c) (bc_partial c) none_ (bc_weights c), out)
        else
          let* out := for_range (length rest) 0 (fun idx out =>
            let* r := get rest idx in
            let* o := get out idx in
            set out idx (blend_n_pass r (splat bp_weight) o)) out in
          Ok (mk_bctx (bc_passes c) (bc_partial c) threshold (bc_weights c), out)
      else Ok s
    else
      let simd_threshold := splat threshold in
      let* (accs, out) := for_range (length rest) 0 (fun idx s =>
        let* acc := get (fst s) idx in
        let bp_weight := nmax (simd_threshold - acc) nzero in
        let* accs := set (fst s) idx (nmax simd_threshold acc) in
        let* r := get rest idx in
        let* o := get (snd s) idx in
        let* out := set (snd s) idx (blend_n_pass r bp_weight o) in
        Ok (accs, out)) (bc_weights c, out) in
      Ok (mk_bctx (bc_passes c) (bc_partial c) (bc_weight c) accs, out).

  (** blending_job.rs 418-420, 425-427 *)
  Definition normalize_one (ratio : V4 F) (dest : soa) : soa :=
    TR (v3_mul_num (tr_t dest) ratio) (q_normalize (tr_r dest)) (v3_mul_num (tr_s dest) ratio).
  (** blending_job.rs 412-430 [normalize]; the iteration visits min(len, take) elements. *)
  Definition normalize (rest : list soa) (s : st) : res (list soa) :=
    let c := fst s in
    for_range (Nat.min (length (snd s)) (length rest)) 0 (fun idx out =>
      let* dest := get out idx in
      let* ratio := if (bc_partial c =? 0)%nat then Ok (splat (nrecip (bc_weight c)))
                    else let* acc := get (bc_weights c) idx in Ok (nrecip acc) in
      set out idx (normalize_one ratio dest)) (snd s).

  (** blending_job.rs 448-478: the loop over the joints of one additive layer; [sub] when the
      weight is negative, [w] the absolute weight. *)
  Definition additive_pass (n : nat) (l : layer) (w : F) (sub : bool) (out : list soa) : res (list soa) :=
    for_range n 0 (fun idx out =>
      let* weight := weight_at w l idx in
      let* t := get (ly_transform l) idx in
      let* o := get out idx in
      let one_minus_weight := none_ - weight in
      set out idx (if sub then blend_sub_pass t weight one_minus_weight o
                   else blend_add_pass t weight one_minus_weight o)) out.

  (** blending_job.rs 432-481 [add_layers] ([c] is only carried along) *)
  Fixpoint add_layers (n : nat) (rest_len : nat) (layers : list layer) (s : st) : bres :=
    match layers with
    | [] => BOk s
    | l :: tl =>
        if negb (layer_ok n l) then BErr InvalidJob s
        else
          let r := if nlt nzero (ly_weight l) then additive_pass rest_len l (ly_weight l) false (snd s)
                   else if nlt (ly_weight l) nzero then additive_pass rest_len l (- ly_weight l) true (snd s)
                   else Ok (snd s) in
          match r with
          | Ok out => add_layers n rest_len tl (fst s, out)
          | Err e => BErr e s
          | Panic => BPanic
          end
    end.

  (** blending_job.rs 317: [Vec::resize] truncates or pads. *)
  Definition resize {A} (l : list A) (n : nat) (x : A) : list A :=
    firstn n l ++ repeat x (n - length l).

  (** blending_job.rs 302-325 [run] *)
  Definition blend_run (j : bjob) : bres :=
    match bj_skeleton j, bj_context j, bj_output j with
    | Some sk, Some ctx, Some output =>
        let n := num_soa_joints sk in
        if negb (nlt nzero (bj_threshold j) && (n <=? length output)%nat) then BErr InvalidJob (ctx, output)
        else
          let accs := if (length (bc_weights ctx) <? n)%nat then resize (bc_weights ctx) n nzero
                      else bc_weights ctx in
          match blend_layers n (bj_layers j) (mk_bctx 0 0 nzero accs, output) with
          | BOk s =>
              match blend_rest_pose (sk_rest sk) (bj_threshold j) s with
              | Ok s =>
                  match normalize (sk_rest sk) s with
                  | Ok out => add_layers n (length (sk_rest sk)) (bj_additive j) (fst s, out)
                  | Err e => BErr e s
                  | Panic => BPanic
                  end
              | Err e => BErr e s
              | Panic => BPanic
              end
          | r => r
          end
    | _, ctx, output =>
        (* a missing field: nothing is touched *)
        BErr InvalidJob
          (match ctx with Some c => c | None => mk_bctx 0 0 nzero [] end,
           match output with Some o => o | None => [] end)
    end.

  (** blending_job.rs 272-298 [validate] *)
  Definition blend_validate (j : bjob) : bool :=
    match bj_skeleton j, bj_context j, bj_output j with
    | Some sk, Some _, Some output =>
        let n := num_soa_joints sk in
        nlt nzero (bj_threshold j) && (n <=? length output)%nat &&
        forallb (layer_ok n) (bj_layers j) && forallb (layer_ok n) (bj_additive j)
    | _, _, _ => false
    end.
End Blending.
Arguments layer F : clear implicits.
Arguments bctx F : clear implicits.
Arguments bjob F : clear implicits.
Arguments bres F : clear implicits.
