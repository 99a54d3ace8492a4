(** How far a pose may move between two ratios: C98. *)
From Coq Require Import Reals.
From Flocq Require Import IEEE754.BinarySingleNaN.
From Verif Require Import Base Num NumF32 Math Keys KeysSpec Sampling SamplingSpec PoseSpec AuthorSpec.
Local Open Scope R_scope.

(** From each knot to the next, every coordinate changes by at most [L] times the time between them. *)
Definition speed3 (c : list (f32 * key)) (L : R) : Prop :=
  forall x y l l', c = l ++ x :: y :: l' -> forall i, (i < 3)%nat ->
    Rabs (half_value (coord (snd y) i) - half_value (coord (snd x) i)) <= L * (B2R (fst y) - B2R (fst x)).
(** Every coordinate of every knot is at most [M] in absolute value. *)
Definition within3 (c : list (f32 * key)) (M : R) : Prop :=
  Forall (fun x => forall i, (i < 3)%nat -> Rabs (half_value (coord (snd x) i)) <= M) c.
(** The same for rotations, as distance of quaternions. *)
Definition speedq (c : list (f32 * key)) (L : R) : Prop :=
  forall x y l l', c = l ++ x :: y :: l' ->
    sqrt (sum4 (fun i => (rot (snd y) i - rot (snd x) i) * (rot (snd y) i - rot (snd x) i))) <= L * (B2R (fst y) - B2R (fst x)).

(** Joint [t] of two poses: no coordinate differs by more than the speed times the time [d] between them, plus
    rounding.  Rotations move at most three halves as fast as their keys: normalising stretches the chord. *)
Definition moved_little (au : authored) (d : R) (t : nat) (p p' : transform f32) : Prop :=
  (forall L M, speed3 (curve (au_times au) (nth t (au_t au) [])) L -> within3 (curve (au_times au) (nth t (au_t au) [])) M ->
     forall i, (i < 3)%nat -> Rabs (B2R (coord (tr_t p) i) - B2R (coord (tr_t p') i)) <= L * d + M / 2 ^ 18) /\
  (forall L, speedq (curve (au_times au) (nth t (au_r au) [])) L ->
     forall i, (i < 4)%nat -> Rabs (B2R (qcomp (tr_r p) i) - B2R (qcomp (tr_r p') i)) <= 3 / 2 * L * d + / 2 ^ 16) /\
  (forall L M, speed3 (curve (au_times au) (nth t (au_s au) [])) L -> within3 (curve (au_times au) (nth t (au_s au) [])) M ->
     forall i, (i < 3)%nat -> Rabs (B2R (coord (tr_s p) i) - B2R (coord (tr_s p') i)) <= L * d + M / 2 ^ 18).

(** ** User tracks of numbers *)
From Verif Require Import KnotSpec.
(** No knot is held, and from each knot to the next the value changes by at most [L] times the time between. *)
Definition speed_float (ks : list (knot f32)) (L : R) : Prop :=
  0 <= L /\ Forall (fun k => kt_held k = false) ks /\
  forall x y l l', ks = l ++ x :: y :: l' -> Rabs (B2R (kt_value y) - B2R (kt_value x)) <= L * (B2R (kt_time y) - B2R (kt_time x)).
(** Component [c] of a track of vectors, as a track of numbers. *)
Definition component (c : nat) (ks : list (knot (list f32))) : list (knot f32) :=
  map (fun k => mk_knot (kt_time k) (nth c (kt_value k) nzero) (kt_held k)) ks.
(** Tracks of rotations: no knot is held, every knot is a unit quaternion to within 2^-19, neighbours are less
    than half a turn apart, and their distance as quaternions is at most [L] times the time between. *)
From Verif Require Import MathSpec BlendingSpec QuatNorm MotionF32Spec.
Definition speed_rot (ks : list (knot (quat f32))) (L : R) : Prop :=
  0 <= L /\ Forall (fun k => kt_held k = false /\ Rabs (norm2 (real4 (kt_value k)) - 1) <= / 2 ^ 19) ks /\
  forall x y l l', ks = l ++ x :: y :: l' ->
    / 2 ^ 20 < qdot (real4 (kt_value x)) (real4 (kt_value y)) /\
    qn (qsub (real4 (kt_value y)) (real4 (kt_value x))) <= L * (B2R (kt_time y) - B2R (kt_time x)).
