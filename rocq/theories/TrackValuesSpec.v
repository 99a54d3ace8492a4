(** The curves vector and rotation tracks stand for, in real numbers: C89. *)
From Coq Require Import Reals.
From Flocq Require Import IEEE754.BinarySingleNaN.
From Verif Require Import Base Num NumF32 Math MathSpec BlendingSpec Tracks TracksSpec MotionF32Spec.
Local Open Scope R_scope.

(** A track as exported: one value and one step bit per key, times that increase from 0 to at most 1. *)
Definition good_keys {V} (t : ftrack f32 V) : Prop :=
  track_sized t /\
  (forall i j a b, (i < j)%nat -> nth_error (t_ratios t) i = Some a -> nth_error (t_ratios t) j = Some b -> nlt a b = true) /\
  (forall a, nth_error (t_ratios t) 0 = Some a -> neq a nzero = true) /\
  (forall i a, nth_error (t_ratios t) i = Some a -> nle a none_ = true).

(** Ratio [r] lies between key [i] (time [a], value [v]) and the next key (time [b], value [w]). *)
Definition between_keys {V} (t : ftrack f32 V) (r : R) (i : nat) (a b : R) (v w : V) : Prop :=
  exists a' b', nth_error (t_ratios t) i = Some a' /\ nth_error (t_ratios t) (S i) = Some b' /\
    nth_error (t_values t) i = Some v /\ nth_error (t_values t) (S i) = Some w /\
    B2R a' = a /\ B2R b' = b /\ a <= r < b.
(** Ratio [r] is before the start, or at or after the last key, and [v] is the value there. *)
Definition past_keys {V} (t : ftrack f32 V) (r : R) (v : V) : Prop :=
  (r < 0 /\ nth_error (t_values t) 0 = Some v) \/
  ((forall i a, nth_error (t_ratios t) i = Some a -> B2R a <= r) /\ nth_error (t_values t) (length (t_values t) - 1) = Some v).

(** Vectors of [n] finite components up to 2^100. *)
Definition usable_vec (n : nat) (v : list f32) : Prop :=
  length v = n /\ forall c x, nth_error v c = Some x -> is_finite x = true /\ Rabs (B2R x) <= 2 ^ 100.
(** Rotations of unit length to within a hundredth. *)
Definition usable_rot (q : quat f32) : Prop := finite4 q /\ Rabs (norm2 (real4 q) - 1) <= / 100.

(** The share [k] of the way from [p] to [sg * q]. *)
Definition blend_to (p q : quat R) (sg k : R) : quat R := qadd (qscale (1 - k) p) (qscale (k * sg) q).
