(** MotionBlendingJob (motion_blending_job.rs 82-130) again, with the order of glam's additions left open.

    [Motion.v] writes [Vec4::dot] as one sequential sum and [Quat::normalize] as a multiplication by the
    reciprocal length.  In single precision the order matters.  glam's source is not in /repo; its
    builds add the four products of a dot product one after the other, two by two, or first with third
    and second with fourth, and divide by the length or multiply by its reciprocal.  All of these are
    modelled; the theorems hold for each. *)
From Verif Require Import Base Num Math Motion.
Local Open Scope num_scope.

Inductive order := Sequential | Pairwise | Alternate.

Section Glam.
  Context {F : Type} {NF : Num F}.
  Definition sum4 (o : order) (a b c d : F) : F :=
    match o with Sequential => a + b + c + d | Pairwise => (a + b) + (c + d) | Alternate => (a + c) + (b + d) end.
  (** [Vec4::dot], [Vec4::length_squared]: used on lines 109 and 122 *)
  Definition g_dot (o : order) (p q : quat F) : F := sum4 o (qx p * qx q) (qy p * qy q) (qz p * qz q) (qw p * qw q).
  (** [Quat::normalize]: used on line 123; [div] divides by the length *)
  Definition over (div : bool) (len u : F) : F := if div then u / len else u * nrecip len.
  Definition g_normalize (o : order) (div : bool) (q : quat F) : quat F :=
    let len := nsqrt (g_dot o q q) in Q4 (over div len (qx q)) (over div len (qy q)) (over div len (qz q)) (over div len (qw q)).

  (** 93-114 *)
  Definition mstep_on (o : order) (a : macc) (l : mlayer F) : macc :=
    let weight := ml_weight l in
    if nle weight nzero then a
    else
      let len := v3_len (tr_t (ml_delta l)) in
      let denom := if neq len nzero then nzero else weight / len in
      let rot := tr_r (ml_delta l) in
      let dot := g_dot o (a_dr a) rot in
      let signed := if nle nzero dot then nabs weight else - nabs weight in
      mk_macc (a_w a + weight) (a_dl a + len * weight)
              (v3_add (a_dt a) (v3_mul_num (tr_t (ml_delta l)) denom))
              (q_add (a_dr a) (q_mul_num rot signed)).
  (** 116-128 *)
  Definition mfinish_on (o : order) (div : bool) (a : macc) : transform F :=
    let denom := v3_len (a_dt a) * a_w a in
    let norm := if neq denom nzero then nzero else a_dl a / denom in
    TR (v3_mul_num (a_dt a) norm)
       (if negb (neq (g_dot o (a_dr a) (a_dr a)) nzero) then g_normalize o div (a_dr a) else q_identity)
       v3_one.
  (** 82-130 [run]: the previous output is not read *)
  Definition motion_run_on (o : order) (div : bool) (layers : list (mlayer F)) (output : transform F) : transform F :=
    mfinish_on o div (fold_left (mstep_on o) layers macc0).

  (** The model of [Motion.v] is one of them. *)
  Lemma motion_run_sequential layers output : motion_run_on Sequential false layers output = motion_run layers output.
  Proof. reflexivity. Qed.
End Glam.
