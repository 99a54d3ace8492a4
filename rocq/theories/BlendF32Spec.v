(** What single-precision blending promises, joint by joint: C74, C75. *)
From Coq Require Import Reals.
From Flocq Require Import IEEE754.BinarySingleNaN.
From Verif Require Import Base Num NumR NumF32 Math KeysSpec Skeleton Blending BlendingSpec.
Local Open Scope R_scope.

(** A weight an application would use: not positive (no contribution), or between 2^-15 and 2^10. *)
Definition usable_weight (w : f32) : Prop :=
  is_finite w = true /\ (B2R w <= 0 \/ / 2 ^ 15 <= B2R w <= 2 ^ 10).
(** A threshold between 2^-20 and 2^20 (the default is 0.1). *)
Definition usable_threshold (thr : f32) : Prop := is_finite thr = true /\ / 2 ^ 20 <= B2R thr <= 2 ^ 20.
(** Translation and scale components of a transform. *)
Definition linear (t : transform f32) (c : nat) : f32 :=
  match c with
  | 0%nat => vx (tr_t t) | 1%nat => vy (tr_t t) | 2%nat => vz (tr_t t)
  | 3%nat => vx (tr_s t) | 4%nat => vy (tr_s t) | _ => vz (tr_s t)
  end.
(** A transform: finite, translation and scale up to 2^40, a rotation within 1/1024 of unit. *)
Definition usable_transform (t : transform f32) : Prop :=
  (forall c, is_finite (linear t c) = true /\ Rabs (B2R (linear t c)) <= 2 ^ 40) /\
  (forall c, is_finite (qcomp (tr_r t) c) = true) /\
  Rabs (sumsq (tr_r t) - 1) <= / 1024.
(** A layer, seen from joint [i].  A layer whose weight is not positive is not looked at. *)
Definition usable_layer (i : nat) (l : layer f32) : Prop :=
  usable_weight (ly_weight l) /\
  (0 < B2R (ly_weight l) ->
   usable_transform (joint (ly_transform l) i) /\
   (ly_joint_weights l <> [] -> usable_weight (lane (nth (i / 4) (ly_joint_weights l) nzero) (i mod 4)))).

(** ** The real job an f32 job stands for *)
Definition real3 (v : vec3 (V4 f32)) : vec3 (V4 R) := V3 (map4 (@B2R 24 128) (vx v)) (map4 (@B2R 24 128) (vy v)) (map4 (@B2R 24 128) (vz v)).
Definition realq (q : quat (V4 f32)) : quat (V4 R) :=
  Q4 (map4 (@B2R 24 128) (qx q)) (map4 (@B2R 24 128) (qy q)) (map4 (@B2R 24 128) (qz q)) (map4 (@B2R 24 128) (qw q)).
Definition real_soa (t : transform (V4 f32)) : transform (V4 R) := TR (real3 (tr_t t)) (realq (tr_r t)) (real3 (tr_s t)).
Definition real_layer (l : layer f32) : layer R :=
  mk_layer (map real_soa (ly_transform l)) (B2R (ly_weight l)) (map (map4 (@B2R 24 128)) (ly_joint_weights l)).
Definition rlinear (c : nat) (t : transform R) : R :=
  match c with
  | 0%nat => vx (tr_t t) | 1%nat => vy (tr_t t) | 2%nat => vz (tr_t t)
  | 3%nat => vx (tr_s t) | 4%nat => vy (tr_s t) | _ => vz (tr_s t)
  end.
