(** User tracks as authored, and what it means that a sampled value lies on them: C96. *)
From Coq Require Import Reals Sorted.
From Flocq Require Import IEEE754.BinarySingleNaN.
From Verif Require Import Base Num NumF32 Math MathSpec BlendingSpec QuatNorm MotionF32Spec TrackValuesSpec.
From Verif Require Archive.
Local Open Scope R_scope.

(** A knot: a time, a value, and whether the value is held until the next knot. *)
Record knot (V : Type) := mk_knot { kt_time : f32; kt_value : V; kt_held : bool }.
Arguments mk_knot {V}. Arguments kt_time {V}. Arguments kt_value {V}. Arguments kt_held {V}.

(** Knots in the order of time, the first at 0, the last at most at 1. *)
Definition knots_ok {V} (good : V -> Prop) (ks : list (knot V)) : Prop :=
  (exists k l, ks = k :: l /\ neq (kt_time k) nzero = true) /\ (N.of_nat (length ks) < 2 ^ 32 - 7)%N /\
  StronglySorted (fun x y => nlt (kt_time x) (kt_time y) = true) ks /\
  Forall (fun k => nle (kt_time k) none_ = true /\ good (kt_value k)) ks.

(** Before the first knot and from the last knot on the value is that knot's.  In between it is the value
    of a held knot, or [line]: given the two knots' values and the share of the way between them. *)
Definition on_knots {V} (same : V -> V -> Prop) (line : V -> V -> R -> V -> Prop) (ks : list (knot V)) (r : f32) (x : V) : Prop :=
  (exists k l, ks = k :: l /\ B2R r < 0 /\ same x (kt_value k)) \/
  (exists l k, ks = l ++ [k] /\ B2R (kt_time k) <= B2R r /\ same x (kt_value k)) \/
  (exists l k k' l', ks = l ++ k :: k' :: l' /\ B2R (kt_time k) <= B2R r < B2R (kt_time k') /\
     if kt_held k then same x (kt_value k)
     else line (kt_value k) (kt_value k') ((B2R r - B2R (kt_time k)) / (B2R (kt_time k') - B2R (kt_time k))) x).

(** Numbers: the straight line, to within 2^-20 of the larger value. *)
Definition good_float (v : f32) : Prop := is_finite v = true /\ Rabs (B2R v) <= 2 ^ 100.
Definition near_line (tiny : R) (p q k y : R) : Prop :=
  let m := Rmax (Rabs p) (Rabs q) in
  Rabs (y - (p + (q - p) * k)) <= m / 2 ^ 20 + tiny /\
  Rmin p q - m / 2 ^ 22 - tiny <= y <= Rmax p q + m / 2 ^ 22 + tiny /\ (k = 0 -> y = p).
Definition line_float (v w : f32) (k : R) (x : f32) : Prop := near_line (/ 2 ^ 149) (B2R v) (B2R w) k (B2R x).
(** Vectors: every component. *)
Definition line_vec (v w : list f32) (k : R) (x : list f32) : Prop :=
  length x = length v /\
  forall c y p q, nth_error x c = Some y -> nth_error v c = Some p -> nth_error w c = Some q ->
    near_line (/ 2 ^ 148) (B2R p) (B2R q) k (B2R y).
(** Rotations: the normalised interpolation the shorter way round, to within 2^-17. *)
Definition line_rot (v w : quat f32) (k : R) (x : quat f32) : Prop :=
  Rabs (norm2 (real4 x) - 1) <= / 2 ^ 19 /\
  exists sg, (sg = 1 \/ sg = -1) /\ - / 2 ^ 20 <= sg * qdot (real4 v) (real4 w) /\
    let e := blend_to (real4 v) (real4 w) sg k in
    0 < qn e /\ qn (qsub (real4 x) (qscale (/ qn e) e)) <= / 2 ^ 17.

(** The content of a track file stores the knots: times and values in order, and bit [i] of the step bytes
    says whether knot [i] is held. *)
Definition stored {V} (words : V -> list N) (ks : list (knot V)) (t : Archive.track) : Prop :=
  Archive.tr_ratios t = map (fun k => f32_to_bits (kt_time k)) ks /\
  Archive.tr_values t = map (fun k => words (kt_value k)) ks /\
  forall i k, nth_error ks i = Some k -> N.testbit (nth (i / 8) (Archive.tr_steps t) 0%N) (N.of_nat (i mod 8)) = kt_held k.
Definition float_words (v : f32) : list N := [f32_to_bits v].
Definition vec_words (v : list f32) : list N := map f32_to_bits v.
Definition rot_words (q : quat f32) : list N := map f32_to_bits [qx q; qy q; qz q; qw q].
(** Two, three or four components. *)
Definition vec_kind (n : nat) : option Archive.track_kind :=
  match n with 2%nat => Some Archive.TFloat2 | 3%nat => Some Archive.TFloat3 | 4%nat => Some Archive.TFloat4 | _ => None end.
