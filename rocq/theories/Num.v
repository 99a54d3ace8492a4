(** Numbers the crate computes with.

    The code is written once, over an abstract number type [F] with the operations the Rust
    code uses on [f32].  Two instances are given elsewhere: [f32num] (NumF32.v), IEEE-754
    binary32, and [Rnum] (NumR.v), the real numbers.  A theorem "for every [Num F]" therefore
    holds bit for bit of the binary32 code; a theorem about [R] is about the code with rounding
    ignored, and says so. *)
From Verif Require Import Base.

(** Operations that also exist lanewise on [f32x4]. *)
Class Arith (A : Type) := {
  nadd : A -> A -> A;          (* + *)
  nsub : A -> A -> A;          (* - *)
  nmul : A -> A -> A;          (* * *)
  ndiv : A -> A -> A;          (* / *)
  nneg : A -> A;               (* unary - : flips the sign bit *)
  nabs : A -> A;               (* abs : clears the sign bit *)
  nsqrt : A -> A;              (* sqrt *)
  ntrunc : A -> A;             (* trunc *)
  nmin : A -> A -> A;          (* f32::min / simd_min: the other operand when one is NaN *)
  nmax : A -> A -> A;          (* f32::max / simd_max: idem *)
  nlit : Z -> Z -> A           (* literal m * 2^e, exactly representable *)
}.

(** A scalar: comparisons are the IEEE ones (false on NaN). *)
Class Num (F : Type) := {
  num_arith :> Arith F;
  nlt : F -> F -> bool;        (* < *)
  nle : F -> F -> bool;        (* <= *)
  neq : F -> F -> bool;        (* == *)
  nto_i32 : F -> Z             (* as i32: truncates, saturates, NaN to 0 *)
}.

Declare Scope num_scope.
Delimit Scope num_scope with num.
Infix "+" := nadd : num_scope.
Infix "-" := nsub : num_scope.
Infix "*" := nmul : num_scope.
Infix "/" := ndiv : num_scope.
Notation "- x" := (nneg x) : num_scope.

Section Consts.
  Context {A : Type} {AA : Arith A}.
  (** math.rs 22-27: the lanes of [ZERO], [ONE], [TWO], [THREE], [FRAC_1_2] and [NEG_ONE] *)
  Definition nzero : A := nlit 0 0.
  Definition none_ : A := nlit 1 0.
  Definition ntwo : A := nlit 2 0.
  Definition nthree : A := nlit 3 0.
  Definition nhalf : A := nlit 1 (-1).
  Definition nmone : A := nlit (-1) 0.
  (** [recip] of std::simd: 1.0 / x. *)
  Definition nrecip (x : A) : A := ndiv none_ x.
End Consts.

(** * f32x4 and other four-lane vectors
    std::simd, imported at math.rs 15-16, and the arrays of four the code builds with it.  The definitions down to the end of
    this file are the operations of std::simd the code calls. *)
Record V4 (A : Type) := mk4 { l0 : A; l1 : A; l2 : A; l3 : A }.
Arguments mk4 {A} l0 l1 l2 l3.
Arguments l0 {A} v. Arguments l1 {A} v. Arguments l2 {A} v. Arguments l3 {A} v.

(** math.rs 91-94, 99-101, std::simd: [v[i]], [v[i] = x]; callers only use constant indices 0..3 (out of range would panic). *)
Definition lane {A} (v : V4 A) (i : nat) : A :=
  match i with 0 => l0 v | 1 => l1 v | 2 => l2 v | _ => l3 v end.

Definition set_lane {A} (v : V4 A) (i : nat) (x : A) : V4 A :=
  match i with
  | 0 => mk4 x (l1 v) (l2 v) (l3 v)
  | 1 => mk4 (l0 v) x (l2 v) (l3 v)
  | 2 => mk4 (l0 v) (l1 v) x (l3 v)
  | _ => mk4 (l0 v) (l1 v) (l2 v) x
  end.

Definition splat {A} (x : A) : V4 A := mk4 x x x x.
Definition map4 {A B} (f : A -> B) (v : V4 A) : V4 B :=
  mk4 (f (l0 v)) (f (l1 v)) (f (l2 v)) (f (l3 v)).
Definition zip4 {A B C} (f : A -> B -> C) (v : V4 A) (w : V4 B) : V4 C :=
  mk4 (f (l0 v) (l0 w)) (f (l1 v) (l1 w)) (f (l2 v) (l2 w)) (f (l3 v) (l3 w)).
Definition build4 {A} (f : nat -> A) : V4 A := mk4 (f 0) (f 1) (f 2) (f 3).

(** math.rs 1003-1040, std::simd: [simd_swizzle!(v, [i, j, k, l])] *)
Definition swz {A} (v : V4 A) (i j k l : nat) : V4 A :=
  mk4 (lane v i) (lane v j) (lane v k) (lane v l).
(** math.rs 988-1000, std::simd: [simd_swizzle!(v, w, [i, j, k, l])]: indices 4..7 select from [w]. *)
Definition lane2 {A} (v w : V4 A) (i : nat) : A := if i <? 4 then lane v i else lane w (i - 4).
Definition swz2 {A} (v w : V4 A) (i j k l : nat) : V4 A :=
  mk4 (lane2 v w i) (lane2 v w j) (lane2 v w k) (lane2 v w l).

(** std::simd [mask.select(a, b)] lanewise *)
Definition select4 {A} (m : V4 bool) (a b : V4 A) : V4 A :=
  mk4 (if l0 m then l0 a else l0 b) (if l1 m then l1 a else l1 b)
      (if l2 m then l2 a else l2 b) (if l3 m then l3 a else l3 b).

(** std::simd: the operators of [f32x4] act lane by lane. *)
#[global] Instance V4_arith {A} {AA : Arith A} : Arith (V4 A) := {
  nadd := zip4 nadd; nsub := zip4 nsub; nmul := zip4 nmul; ndiv := zip4 ndiv;
  nneg := map4 nneg; nabs := map4 nabs; nsqrt := map4 nsqrt; ntrunc := map4 ntrunc;
  nmin := zip4 nmin; nmax := zip4 nmax; nlit m e := splat (nlit m e)
}.

Section Masks.
  Context {F : Type} {NF : Num F}.
  (** std::simd: [a.simd_lt(b)] etc. *)
  Definition lt4 : V4 F -> V4 F -> V4 bool := zip4 nlt.
  Definition le4 : V4 F -> V4 F -> V4 bool := zip4 nle.
  Definition eq4 : V4 F -> V4 F -> V4 bool := zip4 neq.

  (** math.rs 37-38 and their uses, with std::simd's integer vectors: flip the sign bit when the mask bit is set, [v ^ (mask & SIGN)]. *)
  Definition flip (b : bool) (x : F) : F := if b then nneg x else x.
  Definition flip4 (m : V4 bool) (v : V4 F) : V4 F := zip4 flip m v.
  (** std::simd integer vectors: [v & mask] with a full-width mask, the value or +0. *)
  Definition keep (b : bool) (x : F) : F := if b then x else nzero.
  Definition keep4 (m : V4 bool) (v : V4 F) : V4 F := zip4 keep m v.

  (** math.rs 1043-1048 [fx4_sign]: mask of the negative lanes (NaN and -0 count as positive). *)
  Definition fx4_sign (v : V4 F) : V4 bool := lt4 v nzero.
End Masks.

(** * Lanes *)
Lemma lane_zip4 {A B C} (f : A -> B -> C) v w i : lane (zip4 f v w) i = f (lane v i) (lane w i).
Proof. destruct i as [|[|[|i]]]; reflexivity. Qed.
Lemma lane_map4 {A B} (f : A -> B) v i : lane (map4 f v) i = f (lane v i).
Proof. destruct i as [|[|[|i]]]; reflexivity. Qed.
Lemma lane_splat {A} (x : A) i : lane (splat x) i = x.
Proof. destruct i as [|[|[|i]]]; reflexivity. Qed.
Lemma lane_build4 {A} (f : nat -> A) i : i < 4 -> lane (build4 f) i = f i.
Proof. intros H. destruct i as [|[|[|[|i]]]]; try reflexivity; lia. Qed.
Lemma V4_ext {A} (v w : V4 A) : (forall i, i < 4 -> lane v i = lane w i) -> v = w.
Proof.
  destruct v as [a b c d], w as [a' b' c' d']; intros H.
  pose proof (H 0 ltac:(lia)); pose proof (H 1 ltac:(lia));
    pose proof (H 2 ltac:(lia)); pose proof (H 3 ltac:(lia)); simpl in *; congruence.
Qed.
