(** Skins moved by rigid joints: C97. *)
From Coq Require Import Reals.
From Flocq Require Import IEEE754.BinarySingleNaN.
From Verif Require Import Base Num NumF32 Math MathSpec Skinning SkinningSpec SkinF32Spec RigidSpec.
Local Open Scope R_scope.

(** Lengths and distances, in real numbers. *)
Definition size (p : vec3 f32) : R := sqrt (B2R (vx p) * B2R (vx p) + B2R (vy p) * B2R (vy p) + B2R (vz p) * B2R (vz p)).
Definition gap (p q : vec3 f32) : R :=
  let x := B2R (vx p) - B2R (vx q) in let y := B2R (vy p) - B2R (vy q) in let z := B2R (vz p) - B2R (vz q) in
  sqrt (x * x + y * y + z * z).

(** Every matrix turns space by a rotation, up to [a] in each entry. *)
Definition rigid_mats (a : R) (ms : list (mat4 f32)) : Prop :=
  forall m, In m ms -> exists q, is_rotation q /\ forall r c, (r < 3)%nat -> (c < 3)%nat -> Rabs (B2R (ent m r c) - q r c) <= a.
(** The weights of each of [v] vertices, the last of which is not stored, are not negative. *)
Definition proper_weights (v n : nat) (ws : list f32) : Prop :=
  forall i, (i < v)%nat ->
    (forall k, (k < n - 1)%nat -> is_finite (nth (i * (n - 1) + k) ws nzero) = true /\ 0 <= B2R (nth (i * (n - 1) + k) ws nzero)) /\
    rsum (n - 1) (fun k => B2R (nth (i * (n - 1) + k) ws nzero)) <= 1.
(** Vertices [i] and [k] hang on the same joints with the same weights. *)
Definition bound_alike (n : nat) (indices : list N) (ws : list f32) (i k : nat) : Prop :=
  (forall j, (j < n)%nat -> nth (i * n + j) indices 0%N = nth (k * n + j) indices 0%N) /\
  (forall j, (j < n - 1)%nat -> B2R (nth (i * (n - 1) + j) ws nzero) = B2R (nth (k * (n - 1) + j) ws nzero)).
