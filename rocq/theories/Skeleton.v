(** Model of the skeleton hierarchy (skeleton.rs) and of LocalToModelJob (local_to_model_job.rs).

    i16 and i32 values are [Z]; usize values are [nat].  Buffers ([OzzBuf]) are lists: a
    buffer whose lock cannot be taken is not modelled here (see Buffers.v). *)
From Verif Require Import Base Num Math.
Local Open Scope Z_scope.

(** skeleton.rs 29-36 [Skeleton].  [num_joints] is the length of [joint_parents]; the names are in
    Archive.v. *)
Record skeleton (F : Type) := mk_skel {
  sk_rest : list (transform (V4 F));   (* joint_rest_poses *)
  sk_parents : list Z                  (* joint_parents, i16 *)
}.
Arguments mk_skel {F} sk_rest sk_parents.
Arguments sk_rest {F} s. Arguments sk_parents {F} s.

(** base.rs 104-110 *)
Definition SKELETON_MAX_JOINTS : Z := 1024.
Definition SKELETON_NO_PARENT : Z := -1.

(** skeleton.rs 105-110, 278, 292-294, 307, local_to_model_job.rs 232-236, 246-253: the casts [x as i16], [x as i32] (two's
    complement) and [x as usize] (64 bits). *)
Definition wrap (bits x : Z) : Z :=
  let y := x mod 2 ^ bits in if y <? 2 ^ (bits - 1) then y else y - 2 ^ bits.
Definition as_i16 (x : Z) : Z := wrap 16 x.
Definition as_i32 (x : Z) : Z := wrap 32 x.
Definition as_usize (x : Z) : Z := x mod 2 ^ 64.
(** local_to_model_job.rs 232-233: [a + b] on i32.  Overflow panics when overflow checks are on (debug builds), wraps otherwise. *)
Definition i32_add (checks : bool) (a b : Z) : res Z :=
  let s := a + b in
  if (-2147483648 <=? s) && (s <=? 2147483647) then Ok s
  else if checks then Panic else Ok (as_i32 s).

Section Skeleton.
  Context {F : Type}.
  Notation skel := (skeleton F).

  (** skeleton.rs 207-211 *)
  Definition num_joints (s : skel) : nat := length (sk_parents s).
  (** skeleton.rs 213-217: [(n + 3) & !3] *)
  Definition num_aligned_joints (s : skel) : nat := ((num_joints s + 3) / 4 * 4)%nat.
  (** skeleton.rs 176, 219-224: [num_joints.div_ceil(4)] *)
  Definition num_soa_joints (s : skel) : nat := ((num_joints s + 3) / 4)%nat.
  (** skeleton.rs 266-269 [joint_parent]: out of bounds panics. *)
  Definition joint_parent (s : skel) (idx : nat) : res Z := get (sk_parents s) idx.

  (** skeleton.rs 276-279 [is_leaf], for a usize [joint]. *)
  Definition is_leaf (s : skel) (joint : nat) : res bool :=
    let next := S joint in
    if (next =? num_joints s)%nat then Ok true
    else let* p := joint_parent s next in
         Ok (negb (p =? as_i32 (Z.of_nat joint))).

  (** skeleton.rs 285-296 [iter_depth_first]: the list of calls [f(joint, parent)].  [from] is an
      i32 (or i16).  [fuel] bounds the iterations; running out is [Panic]. *)
  Fixpoint iter_loop (fuel : nat) (s : skel) (from : Z) (i : nat) (process : bool)
      : res (list (Z * Z)) :=
    match fuel with
    | O => Panic
    | S fuel =>
        if process then
          let* p := joint_parent s i in
          let call := (as_i16 (Z.of_nat i), p) in
          let i := S i in
          let* process := if (i <? num_joints s)%nat
                          then let* q := joint_parent s i in Ok (from <=? q)
                          else Ok false in
          let* calls := iter_loop fuel s from i process in
          Ok (call :: calls)
        else Ok []
    end.
  Definition iter_depth_first (s : skel) (from : Z) : res (list (Z * Z)) :=
    let i := if from <? 0 then 0%nat else Z.to_nat from in
    iter_loop (S (num_joints s)) s from i (i <? num_joints s)%nat.

  (** skeleton.rs 301-309 [iter_depth_first_reverse] *)
  Fixpoint iter_rev (s : skel) (l : list nat) : res (list (Z * Z)) :=
    match l with
    | [] => Ok []
    | i :: t =>
        let* parent := joint_parent s i in
        let* calls := iter_rev s t in
        Ok ((as_i16 (Z.of_nat i), parent) :: calls)
    end.
  Definition iter_depth_first_reverse (s : skel) : res (list (Z * Z)) :=
    iter_rev s (rev (seq 0 (num_joints s))).
End Skeleton.

(** * LocalToModelJob *)

(** local_to_model_job.rs 29-42.  [AosMat4] and glam's [Mat4] have the same content. *)
Record ltm_job (F : Type) := mk_ltm {
  lj_skeleton : option (skeleton F);
  lj_input : option (list (transform (V4 F)));
  lj_root : mat4 F;
  lj_from : Z;
  lj_to : Z;
  lj_from_excluded : bool;
  lj_output : option (list (mat4 F))
}.
Arguments mk_ltm {F}.
Arguments lj_skeleton {F} l. Arguments lj_input {F} l. Arguments lj_root {F} l.
Arguments lj_from {F} l. Arguments lj_to {F} l. Arguments lj_from_excluded {F} l.
Arguments lj_output {F} l.

Section LocalToModel.
  Context {F : Type} {NF : Num F}.

  (** local_to_model_job.rs 53-63 [default] *)
  Definition ltm_default : ltm_job F :=
    mk_ltm None None mat_identity SKELETON_NO_PARENT SKELETON_MAX_JOINTS false None.

  (** local_to_model_job.rs 206-217 [validate] *)
  Definition ltm_validate (j : ltm_job F) : bool :=
    match lj_skeleton j, lj_input j, lj_output j with
    | Some s, Some input, Some output =>
        (num_soa_joints s <=? length input)%nat && (num_joints s <=? length output)%nat
    | _, _, _ => false
    end.

  (** local_to_model_job.rs 244-255: the inner loop over the joints of one SoA element. *)
  Fixpoint ltm_inner (fuel : nat) (s : skeleton F) (root : mat4 F) (from : Z) (end_ soa_end : nat)
      (aos : V4 (mat4 F)) (idx : nat) (process : bool) (output : list (mat4 F))
      : res (nat * bool * list (mat4 F)) :=
    match fuel with
    | O => Panic
    | S fuel =>
        if (idx <? soa_end)%nat && process then
          let* parent := joint_parent s idx in
          let local := lane aos (idx mod 4) in
          let* output :=
            if parent =? SKELETON_NO_PARENT then set output idx (mat_mul root local)
            else let* m := get output (Z.to_nat (as_usize parent)) in
                 set output idx (mat_mul m local) in
          let idx := S idx in
          let* process := if (idx <? end_)%nat
                          then let* q := joint_parent s idx in Ok (from <=? q)
                          else Ok false in
          ltm_inner fuel s root from end_ soa_end aos idx process output
        else Ok (idx, process, output)
    end.
  (** local_to_model_job.rs 238-256: the outer loop over the SoA elements. *)
  Fixpoint ltm_outer (fuel : nat) (s : skeleton F) (input : list (transform (V4 F))) (root : mat4 F)
      (from : Z) (end_ : nat) (idx : nat) (process : bool) (output : list (mat4 F))
      : res (list (mat4 F)) :=
    match fuel with
    | O => Panic
    | S fuel =>
        if process then
          let* transform := get input (idx / 4) in
          let aos := to_aos (from_affine (tr_t transform) (tr_r transform) (tr_s transform)) in
          let soa_end := ((idx + 4) / 4 * 4)%nat in
          let* (idx, process, output) :=
            ltm_inner 5 s root from end_ soa_end aos idx process output in
          ltm_outer fuel s input root from end_ idx process output
        else Ok output
    end.

  (** local_to_model_job.rs 221-257 [run], returning the new content of output.
      [checks]: overflow checks are compiled in. *)
  Definition ltm_run (checks : bool) (j : ltm_job F) : res (list (mat4 F)) :=
    let* s := ok_or (lj_skeleton j) InvalidJob in
    let* input := ok_or (lj_input j) InvalidJob in
    let* output := ok_or (lj_output j) InvalidJob in
    if negb ((num_soa_joints s <=? length input)%nat && (num_joints s <=? length output)%nat)
    then Err InvalidJob
    else
      let from := lj_from j in
      let excluded := lj_from_excluded j in
      let* b := i32_add checks from (if excluded then 1 else 0) in
      let begin_ := Z.to_nat (Z.max 0 b) in
      let* e := i32_add checks (lj_to j) 1 in
      let end_ := Z.to_nat (Z.max 0 (Z.min e (as_i32 (Z.of_nat (num_joints s))))) in
      let* process :=
        if (begin_ <? end_)%nat then
          if negb excluded then Ok true
          else let* p := joint_parent s begin_ in Ok (from <=? p)
        else Ok false in
      ltm_outer (S (end_ - begin_)) s input (lj_root j) from end_ begin_ process output.
End LocalToModel.
