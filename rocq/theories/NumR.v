(** The real-number instance of [Num]: the same code with rounding ignored. *)
From Coq Require Import Reals Lra ZArith.
From Verif Require Import Base Num.
Local Open Scope R_scope.

Definition Rltb (x y : R) : bool := if Rlt_dec x y then true else false.
Definition Rleb (x y : R) : bool := if Rle_dec x y then true else false.
Definition Reqb (x y : R) : bool := if Req_EM_T x y then true else false.
(** Truncation toward zero. *)
Definition Rtrunc (x : R) : Z := if Rlt_dec x 0 then (- Int_part (- x))%Z else Int_part x.

#[global] Instance Rarith : Arith R := {
  nadd := Rplus; nsub := Rminus; nmul := Rmult; ndiv := Rdiv;
  nneg := Ropp; nabs := Rabs; nsqrt := R_sqrt.sqrt; ntrunc x := IZR (Rtrunc x);
  nmin := Rmin; nmax := Rmax; nlit m e := IZR m * powerRZ 2 e
}.
#[global] Instance Rnum : Num R := {
  nlt := Rltb; nle := Rleb; neq := Reqb;
  nto_i32 x := Z.max (-2147483648) (Z.min 2147483647 (Rtrunc x))
}.

Lemma Rltb_spec x y : reflect (x < y) (Rltb x y).
Proof. unfold Rltb; destruct (Rlt_dec x y); constructor; auto. Qed.
Lemma Rleb_spec x y : reflect (x <= y) (Rleb x y).
Proof. unfold Rleb; destruct (Rle_dec x y); constructor; auto. Qed.
Lemma Reqb_spec x y : reflect (x = y) (Reqb x y).
Proof. unfold Reqb; destruct (Req_EM_T x y); constructor; auto. Qed.

Lemma nzero_R : nzero = 0. Proof. unfold nzero; simpl; lra. Qed.
Lemma none_R : none_ = 1. Proof. unfold none_; simpl; lra. Qed.
Lemma ntwo_R : ntwo = 2. Proof. unfold ntwo; simpl; lra. Qed.
Lemma nthree_R : nthree = 3. Proof. unfold nthree; simpl; lra. Qed.
Lemma nhalf_R : nhalf = / 2. Proof. unfold nhalf; simpl; lra. Qed.
Lemma nmone_R : nmone = - 1. Proof. unfold nmone; simpl; lra. Qed.
Lemma nrecip_R x : nrecip x = / x.
Proof. unfold nrecip. rewrite none_R. simpl. unfold Rdiv. ring. Qed.
#[global] Hint Rewrite nzero_R none_R ntwo_R nthree_R nhalf_R nmone_R nrecip_R : num_R.
