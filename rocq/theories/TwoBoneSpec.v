(** What C92 is about: a two bone job as a user sets it up, read as real numbers.  Nothing here mentions the job's algorithm.
    [is_vec], [is_quat], [values] and [coords_le] are those of C90 (AimF32Spec.v). *)
From Coq Require Import Reals.
From Flocq Require Import IEEE754.BinarySingleNaN Core.
From Verif Require Import Base Num NumF32 NumR Math MathSpec Ik IkSpec AimF32Spec.
Local Open Scope R_scope.

(** The dot product of axes [i] and [k] of a placement. *)
Definition axes_dot (m : mat4 R) (i k : nat) : R := ent m 0 i * ent m 0 k + ent m 1 i * ent m 1 k + ent m 2 i * ent m 2 k.
(** A joint matrix: an affine placement whose axes are perpendicular and of length [s], up to 2^-16 of its square, at a distance
    of at most [W] along each coordinate. *)
Definition rigid_joint (m : mat4 f32) (s W : R) : Prop :=
  (forall i k, (i < 4)%nat -> (k < 4)%nat -> is_finite (ent m i k) = true) /\ affine (values m) /\
  (forall i k, (i < 3)%nat -> (k < 3)%nat -> Rabs (axes_dot (values m) i k - (if Nat.eqb i k then s * s else 0)) <= s * s / 65536) /\
  (forall i, (i < 3)%nat -> Rabs (ent (values m) i 3) <= W) /\ / 1024 <= s <= 1024 /\ / 1024 <= W <= 1048576.

(** The job [j].  In the start joint's space the mid joint is at [A], the end joint at [B] from there, the target at [t].  In the
    mid joint's space the chain goes along [u] to the mid joint and along [v] from it, and the axis it bends about is [n].
    [e] measures how precisely all that is known: the single precision of coordinates up to [W] should be within [e] of the size of
    the bones, [n] should be a unit vector and perpendicular to the bones up to [e].  [be] is the sine of the angle at the mid
    joint: the chain is visibly bent. *)
Record bone_setting (j : ik2_job f32) (s1 s2 W e be : R) (A B t u v n : vec3 R) : Prop := mk_two_bone {
  ts_start : rigid_joint (i2_start j) s1 W;
  ts_mid : rigid_joint (i2_mid j) s2 W;
  ts_chain : pt (values (i2_start j)) A = origin (values (i2_mid j)) /\ pt (values (i2_mid j)) (neg3 u) = origin (values (i2_start j));
  ts_end : exists p, is_vec (l3 (i2_end j)) p /\ coords_le W p /\ pt (values (i2_start j)) (plus3 A B) = p /\ pt (values (i2_mid j)) v = p;
  ts_target : exists p, is_vec (i2_target j) p /\ coords_le W p /\ pt (values (i2_start j)) t = p;
  ts_axis : is_vec (i2_mid_axis j) n /\ Rabs (dot3 n n - 1) <= e / 16 /\ Rabs (dot3 n u) <= e * len3 u /\ Rabs (dot3 n v) <= e * len3 v;
  ts_e : / 32768 <= e <= / 2048;
  ts_bones : / 128 <= len3 A <= 1048576 /\ / 128 <= len3 B <= 1048576 /\ len3 A <= 4 * len3 B /\ len3 B <= 4 * len3 A;
  ts_bones' : / 128 <= len3 u <= 1048576 /\ / 128 <= len3 v <= 1048576;
  ts_far : Rmin (len3 A) (len3 B) / 2 <= len3 t <= 1048576;
  ts_near : W <= 32768 * e * (s1 * len3 A) /\ W <= 32768 * e * (s1 * len3 B) /\ W <= 32768 * e * (s2 * len3 u) /\ W <= 32768 * e * (s2 * len3 v);
  ts_bent : 0 < be <= 1 /\ be * (len3 u * len3 v) <= Rabs (dot3 u (cross3 n v));
  ts_pole : exists p q, is_vec (i2_pole j) p /\ coords_le 1024 p /\ lin (values (i2_start j)) q = p /\ / 256 <= len3 q <= 1048576 /\
    len3 t * len3 q / 64 <= len3 (cross3 t q);
  ts_twist : is_finite (i2_twist j) = true /\ Rabs (B2R (i2_twist j)) <= 16384;
  ts_soften : is_finite (i2_soften j) = true /\ (1 <= B2R (i2_soften j) \/ (1 + 16 * e) * len3 t <= B2R (i2_soften j) * (len3 A + len3 B)) }.
(** How far from the start joint the end joint should get: as far as the target, if the bones allow. *)
Definition reach_of (A B t : vec3 R) : R := clampR (Rabs (len3 A - len3 B)) (len3 A + len3 B) (len3 t).
(** The end joint is to stay clear of the start joint: the more so the straighter the chain is, and the coarser the precision. *)
Definition clear_reach (e be : R) (A B t : vec3 R) : Prop := 800 * (e / be) * (len3 A * len3 B) <= reach_of A B t * reach_of A B t.
(** Where the end joint should get, in the start joint's space: on the line to the target, as close to it as the bones allow. *)
Definition goal_of (A B t : vec3 R) : vec3 R := scale3 (reach_of A B t / len3 t) t.
(** How close to it the job takes it: to 0.28 % of its distance and, in any case, not better than the precision allows.  The second
    is the part of it that remains if the end joint need not be turned more than 120 degrees about the start joint. *)
Definition precision (e be : R) (A B t : vec3 R) : R :=
  109 * (e / be) * (len3 A * len3 B) / reach_of A B t + 10 * e * (len3 A + len3 B).
(** The same job with another weight. *)
Definition with_weight (j : ik2_job f32) (w : f32) : ik2_job f32 :=
  mk_ik2_job (i2_target j) (i2_mid_axis j) (i2_pole j) (i2_twist j) (i2_soften j) w (i2_start j) (i2_mid j) (i2_end j).
