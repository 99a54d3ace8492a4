(** What C91 says: a SoA value is four independent values. *)
From Coq Require Import Reals.
From Verif Require Import Base Num NumR Math MathSpec Soa.

(** The last value a history writes at index [i], or the one that was there before. *)
Definition last_at {A} (i : nat) (x0 : transform A) (ops : list (soa_op (A := A))) : transform A :=
  fold_left (fun x o => match o with SetOne j y => if Nat.eq_dec j i then y else x | SplatAll y => y end) ops x0.
(** Every write of a history is at an index below four. *)
Definition indices_ok {A} (ops : list (soa_op (A := A))) : Prop := forall j y, In (SetOne j y) ops -> (j < 4)%nat.

Local Open Scope R_scope.
(** The length of a quaternion, and a quaternion scaled. *)
Definition qlen (q : quat R) : R := sqrt (norm2 q).
Definition qtimes (k : R) (q : quat R) : quat R := Q4 (k * qx q) (k * qy q) (k * qz q) (k * qw q).
Definition qplus (a b : quat R) : quat R := Q4 (qx a + qx b) (qy a + qy b) (qz a + qz b) (qw a + qw b).
(** The same rotation with a non-negative scalar part. *)
Definition q_abs_w (q : quat R) : quat R := if Rlt_dec (qw q) 0 then qtimes (-1) q else q.
