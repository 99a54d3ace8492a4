(** Skinning in single precision: C84.  The formula is that of C36 (SkinningSpec.v), on the real values of the
    inputs. *)
From Coq Require Import Reals.
From Flocq Require Import IEEE754.BinarySingleNaN.
From Verif Require Import Base Num NumR NumF32 Math MathSpec Skinning SkinningSpec.
Local Open Scope R_scope.

Definition real_mat (m : mat4 f32) : mat4 R := map4 (map4 (fun x => B2R x)) m.
Definition real_vec (p : vec3 f32) : vec3 R := V3 (B2R (vx p)) (B2R (vy p)) (B2R (vz p)).
Definition coord32 (p : vec3 f32) (r : nat) : f32 := match r with 0%nat => vx p | 1%nat => vy p | _ => vz p end.

(** Finite, and at most [b] in absolute value: the first three rows of a matrix, a vector. *)
Definition small_mat (b : R) (m : mat4 f32) : Prop :=
  forall r c, (r < 3)%nat -> (c < 4)%nat -> is_finite (ent m r c) = true /\ Rabs (B2R (ent m r c)) <= b.
Definition small_vec (b : R) (p : vec3 f32) : Prop :=
  forall r, (r < 3)%nat -> is_finite (coord32 p r) = true /\ Rabs (B2R (coord32 p r)) <= b.
(** The stored weights of each of [v] vertices are finite, their absolute values sum to at most 2. *)
Definition small_weights (v n : nat) (ws : list f32) : Prop :=
  forall i, (i < v)%nat ->
    (forall k, (k < n - 1)%nat -> is_finite (nth (i * (n - 1) + k) ws nzero) = true) /\
    rsum (n - 1) (fun k => Rabs (B2R (nth (i * (n - 1) + k) ws nzero))) <= 2.

(** [out'] is [out] with its first [v] elements replaced by finite vectors within [e] of the images of those of
    [inp]. *)
Definition replaced_near (e : R) (v : nat) (inp out out' : option (list (vec3 f32))) (image : nat -> vec3 R -> nat -> R) : Prop :=
  exists li lo lo', inp = Some li /\ out = Some lo /\ out' = Some lo' /\ length lo' = length lo /\
    (forall i, (v <= i)%nat -> nth_error lo' i = nth_error lo i) /\
    (forall i, (i < v)%nat -> exists p q, nth_error li i = Some p /\ nth_error lo' i = Some q /\
       forall r, (r < 3)%nat -> is_finite (coord32 q r) = true /\ Rabs (B2R (coord32 q r) - image i (real_vec p) r) <= e).
