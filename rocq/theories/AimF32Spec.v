(** What C90 is about: an aim job as a user sets it up, read as real numbers.  Nothing here mentions the job's algorithm. *)
From Coq Require Import Reals.
From Flocq Require Import IEEE754.BinarySingleNaN Core.
From Verif Require Import Base Num NumF32 NumR Math MathSpec Ik IkSpec.
Local Open Scope R_scope.

(** The first three lanes of [v] are finite and their values are [r]. *)
Definition is_vec (v : V4 f32) (r : vec3 R) : Prop :=
  (is_finite (l0 v) = true /\ is_finite (l1 v) = true /\ is_finite (l2 v) = true) /\ V3 (B2R (l0 v)) (B2R (l1 v)) (B2R (l2 v)) = r.
(** All lanes of [v] are finite and their values are the quaternion [r]. *)
Definition is_quat (v : V4 f32) (r : quat R) : Prop :=
  (is_finite (l0 v) = true /\ is_finite (l1 v) = true /\ is_finite (l2 v) = true /\ is_finite (l3 v) = true) /\
  Q4 (B2R (l0 v)) (B2R (l1 v)) (B2R (l2 v)) (B2R (l3 v)) = r.
Definition coords_le (b : R) (r : vec3 R) : Prop := Rabs (vx r) <= b /\ Rabs (vy r) <= b /\ Rabs (vz r) <= b.
(** The matrix of real numbers a matrix of floats stands for. *)
Definition values (m : mat4 f32) : mat4 R := map4 (map4 (@B2R 24 128)) m.

(** A joint matrix: an affine placement whose axes have size at most [s] and are not flattened (the volume they span is at
    least half that of a cube of side [s]), at a distance of at most [W] along each coordinate. *)
Definition solid_joint (m : mat4 f32) (s W : R) : Prop :=
  (forall i j, (i < 4)%nat -> (j < 4)%nat -> is_finite (ent m i j) = true) /\ affine (values m) /\
  (forall i j, (i < 3)%nat -> (j < 3)%nat -> Rabs (ent (values m) i j) <= s) /\
  (forall i, (i < 3)%nat -> Rabs (ent (values m) i 3) <= W) /\
  s * s * s / 2 <= Rabs (det4 (values m)) /\ / 1024 <= s <= 1024 /\ / 1024 <= W <= 1048576.

(** The job [j]: in the joint's own space the target is at [t], the forward axis is [f], of length one up to [k], and the
    offset is [o].  The target is not on the joint, nor closer to it than 1/256 of the largest coordinates involved; the
    offset is at most half way to it. *)
Record aim_setting (j : aim_job f32) (s W k : R) (t f o : vec3 R) : Prop := mk_aim_setting {
  as_joint : solid_joint (am_joint j) s W;
  as_target : exists p, is_vec (am_target j) p /\ coords_le W p /\ pt (values (am_joint j)) t = p;
  as_forward : is_vec (am_forward j) f /\ Rabs (dot3 f f - 1) <= k /\ k <= 0.0019;
  as_offset : is_vec (am_offset j) o /\ len3 o <= len3 t / 2;
  as_size : / 128 <= len3 t <= 1048576;
  as_far : W <= 256 * s * len3 t;
  as_up : exists u, is_vec (am_up j) u /\ coords_le 1048576 u;
  as_pole : exists p, is_vec (am_pole j) p /\ coords_le 1048576 p;
  as_twist : is_finite (am_twist j) = true /\ Rabs (B2R (am_twist j)) <= 16384 }.

(** The same job with another weight. *)
Definition reweighted (j : aim_job f32) (w : f32) : aim_job f32 :=
  mk_aim_job (am_target j) (am_forward j) (am_offset j) (am_up j) (am_pole j) (am_twist j) w (am_joint j).
(** The rotation a fraction [a] of the way from the identity to [c], by normalised linear interpolation. *)
Definition part_way (a : R) (c : quat R) : quat R :=
  let m := Q4 (a * qx c) (a * qy c) (a * qz c) ((1 - a) + a * qw c) in
  let n := sqrt (norm2 m) in Q4 (qx m / n) (qy m / n) (qz m / n) (qw m / n).
Definition qdist (a b : quat R) : R :=
  sqrt (norm2 (Q4 (qx a - qx b) (qy a - qy b) (qz a - qz b) (qw a - qw b))).
