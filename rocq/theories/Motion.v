(** Model of MotionBlendingJob (motion_blending_job.rs).

    Vectors and quaternions are glam's; [length], [dot], [normalize] are written as the sums they
    compute (glam's SIMD code may add in another order, which the theorems, in real arithmetic, do
    not see). *)
From Verif Require Import Base Num Math.
Local Open Scope num_scope.

Section Motion.
  Context {F : Type} {NF : Num F}.

  (** 12-22 [MotionBlendingLayer] *)
  Record mlayer := mk_mlayer { ml_weight : F; ml_delta : transform F }.

  (** 88-91: the accumulators *)
  Record macc := mk_macc { a_w : F; a_dl : F; a_dt : vec3 F; a_dr : quat F }.
  Definition macc0 : macc := mk_macc nzero nzero v3_zero q_zero.

  Definition v3_len2 (v : vec3 F) : F := vx v * vx v + vy v * vy v + vz v * vz v.
  Definition v3_len (v : vec3 F) : F := nsqrt (v3_len2 v).

  (** 93-114: one layer.  [weight.copysign(1.0 or -1.0)] sets the sign of [weight]. *)
  Definition mstep (a : macc) (l : mlayer) : macc :=
    let weight := ml_weight l in
    if nle weight nzero then a
    else
      let len := v3_len (tr_t (ml_delta l)) in
      let denom := if neq len nzero then nzero else weight / len in
      let rot := tr_r (ml_delta l) in
      let dot := q_dot (a_dr a) rot in
      let signed := if nle nzero dot then nabs weight else - nabs weight in
      mk_macc (a_w a + weight) (a_dl a + len * weight)
              (v3_add (a_dt a) (v3_mul_num (tr_t (ml_delta l)) denom))
              (q_add (a_dr a) (q_mul_num rot signed)).

  (** 116-128: normalisation *)
  Definition mfinish (a : macc) : transform F :=
    let denom := v3_len (a_dt a) * a_w a in
    let norm := if neq denom nzero then nzero else a_dl a / denom in
    TR (v3_mul_num (a_dt a) norm)
       (if negb (neq (q_dot (a_dr a) (a_dr a)) nzero) then q_normalize (a_dr a) else q_identity)
       v3_one.

  (** 82-130 [run]: the previous output is not read *)
  Definition motion_run (layers : list mlayer) (output : transform F) : transform F :=
    mfinish (fold_left mstep layers macc0).
End Motion.
Arguments mlayer F : clear implicits.
