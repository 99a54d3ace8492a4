(** The curve a float track stands for, in real numbers: C76. *)
From Coq Require Import Reals.
From Flocq Require Import IEEE754.BinarySingleNaN.
From Verif Require Import Base Num NumF32 Tracks TracksSpec.
Local Open Scope R_scope.

(** A float track as exported: one value and one step bit per key, times that increase from 0 to at
    most 1, finite values up to 2^100. *)
Definition good_track (t : ftrack f32 f32) : Prop :=
  track_sized t /\
  (forall i j a b, (i < j)%nat -> nth_error (t_ratios t) i = Some a -> nth_error (t_ratios t) j = Some b -> nlt a b = true) /\
  (forall a, nth_error (t_ratios t) 0 = Some a -> neq a nzero = true) /\
  (forall i a, nth_error (t_ratios t) i = Some a -> nle a none_ = true) /\
  (forall i v, nth_error (t_values t) i = Some v -> is_finite v = true /\ Rabs (B2R v) <= 2 ^ 100).

(** Ratio [r] lies between key [i] (time [a], value [v]) and the next key (time [b], value [w]). *)
Definition segment (t : ftrack f32 f32) (r : R) (i : nat) (a b v w : R) : Prop :=
  exists a' b' v' w', nth_error (t_ratios t) i = Some a' /\ nth_error (t_ratios t) (S i) = Some b' /\
    nth_error (t_values t) i = Some v' /\ nth_error (t_values t) (S i) = Some w' /\
    B2R a' = a /\ B2R b' = b /\ B2R v' = v /\ B2R w' = w /\ a <= r < b.
(** Ratio [r] is before the start, or at or after the last key, and [v] is the value there. *)
Definition outside (t : ftrack f32 f32) (r v : R) : Prop :=
  exists v', B2R v' = v /\
    ((r < 0 /\ nth_error (t_values t) 0 = Some v') \/
     ((forall i a, nth_error (t_ratios t) i = Some a -> B2R a <= r) /\ nth_error (t_values t) (length (t_values t) - 1) = Some v')).
