(** Linear blend skinning, in real arithmetic. *)
From Coq Require Import Reals.
From Verif Require Import Base Num NumR Math MathSpec Skinning.
Local Open Scope R_scope.

Fixpoint rsum (n : nat) (f : nat -> R) : R := match n with O => 0 | S n => rsum n f + f n end.

(** Weight of influence [j] of vertex [i]: the last of the [n] weights is not stored. *)
Definition weight (n : nat) (ws : list R) (i j : nat) : R :=
  if (j =? n - 1)%nat then 1 - rsum (n - 1) (fun k => nth (i * (n - 1) + k) ws 0)
  else nth (i * (n - 1) + j) ws 0.
(** Joint of influence [j] of vertex [i], and its matrix. *)
Definition influence (n : nat) (indices : list N) (i j : nat) : nat := N.to_nat (nth (i * n + j) indices 0%N).
Definition matrix (ms : list (mat4 R)) (k : nat) : mat4 R := nth k ms mat_identity.

(** Row [r] of a matrix applied to a direction (points: [apply_point]). *)
Definition apply_vector (m : mat4 R) (p : vec3 R) (r : nat) : R :=
  ent m r 0 * vx p + ent m r 1 * vy p + ent m r 2 * vz p.
Definition coord (p : vec3 R) (r : nat) : R := match r with 0%nat => vx p | 1%nat => vy p | _ => vz p end.

(** The weighted sum over the influences of vertex [i] of [apply] of each matrix. *)
Definition blended (apply : mat4 R -> vec3 R -> nat -> R) (n : nat) (ms : list (mat4 R)) (indices : list N) (ws : list R)
    (i : nat) (p : vec3 R) (r : nat) : R :=
  rsum n (fun j => weight n ws i j * apply (matrix ms (influence n indices i j)) p r).

(** [out'] is [out] with its first [v] elements replaced by the images of those of [inp]. *)
Definition replaced (v : nat) (inp out out' : option (list (vec3 R))) (image : nat -> vec3 R -> nat -> R) : Prop :=
  exists li lo lo', inp = Some li /\ out = Some lo /\ out' = Some lo' /\ length lo' = length lo /\
    (forall i, (v <= i)%nat -> nth_error lo' i = nth_error lo i) /\
    (forall i, (i < v)%nat -> exists p q, nth_error li i = Some p /\ nth_error lo' i = Some q /\
       forall r, (r < 3)%nat -> coord q r = image i p r).
