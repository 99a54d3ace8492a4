(** What a sampled pose looks like in real numbers: C71, C72. *)
From Coq Require Import Reals.
From Flocq Require Import IEEE754.BinarySingleNaN.
From Verif Require Import Base Num NumF32 Math Keys KeysSpec Sampling SamplingSpec SamplingHist.
Local Open Scope R_scope.

(** A translation or scale key: three finite halves, none of the two the SIMD decoder gets wrong
    (C17). *)
Definition half_ok (n : N) : Prop := (n < 65536)%N /\ half_exp n <> 31%N /\ n <> 31743%N /\ n <> 64511%N.
Definition key3_ok (k : vec3 N) : Prop := half_ok (vx k) /\ half_ok (vy k) /\ half_ok (vz k).
(** Real value of one coordinate (0, 1, 2) of a vector or key. *)
Definition coord {A} (v : vec3 A) (c : nat) : A := match c with 0%nat => vx v | 1%nat => vy v | _ => vz v end.

(** Times are in [0,1]; on every track the last key is at 1 and the key before it is earlier. *)
Fixpoint ends_at_one (tm : nat -> f32) (ks : list nat) : bool :=
  match ks with
  | [] => false
  | a :: t => match t with
              | [b] => nlt (tm a) (tm b) && nle none_ (tm b)
              | _ => ends_at_one tm t
              end
  end.
Definition channel_covers (T : nat) (tp : list f32) (k : ctrl f32) : bool :=
  forallb (fun t => ends_at_one (time tp k) (track_keys T k (length (k_prev k)) t)) (seq 0 T).
Definition covers (a : animation f32 key key) : bool :=
  forallb (fun x => nle nzero x && nle x none_) (an_timepoints a) &&
  channel_covers (4 * num_soa a) (an_timepoints a) (an_t a) &&
  channel_covers (4 * num_soa a) (an_timepoints a) (an_r a) &&
  channel_covers (4 * num_soa a) (an_timepoints a) (an_s a).

(** [kl] and [kr] are neighbouring keys of track [t] around ratio [r]. *)
Definition around (T : nat) (tp : list f32) (k : ctrl f32) (r : f32) (t kl kr : nat) : Prop :=
  consecutive kl kr (track_keys T k (length (k_prev k)) t) /\
  B2R (time tp k kl) <= B2R r <= B2R (time tp k kr) /\ B2R (time tp k kl) < B2R (time tp k kr).
(** The fraction of the way from the left key to the right one. *)
Definition fraction (tp : list f32) (k : ctrl f32) (r : f32) (kl kr : nat) : R :=
  (B2R r - B2R (time tp k kl)) / (B2R (time tp k kr) - B2R (time tp k kl)).

(** [v] follows the straight line between two keys: it is finite, it differs from the exact
    interpolation by at most 2^-19 of the larger key value, it leaves the interval of the two values
    by at most 2^-22 of it, and it is exactly the left value at the time of the left key. *)
Definition follows3 (T : nat) (tp : list f32) (k : ctrl f32) (keys : list key) (d : key) (r : f32) (t : nat)
    (v : vec3 f32) : Prop :=
  exists kl kr, around T tp k r t kl kr /\
    forall c, (c < 3)%nat ->
      let a := half_value (coord (nth kl keys d) c) in
      let b := half_value (coord (nth kr keys d) c) in
      let m := Rmax (Rabs a) (Rabs b) in
      let x := B2R (coord v c) in
      is_finite (coord v c) = true /\
      Rabs (x - (a + (b - a) * fraction tp k r kl kr)) <= m * / 524288 /\
      Rmin a b - m * / 4194304 <= x <= Rmax a b + m * / 4194304 /\
      (B2R r = B2R (time tp k kl) -> x = a).

(** A rotation key as the ozz builder writes it: the three stored components are those of a unit
    quaternion. *)
Definition keyq_ok (q : key) : Prop :=
  exists g s v, (g < 4)%N /\ (s < 2)%N /\ (vx v < 32768)%N /\ (vy v < 32768)%N /\ (vz v < 32768)%N /\
    q = pack g s v /\
    let u := quat_decompress q in
    sumsq u - B2R (qcomp u (N.to_nat g)) * B2R (qcomp u (N.to_nat g)) <= 1.
(** Component [c] of a decoded rotation key. *)
Definition rot (q : key) (c : nat) : R := B2R (qcomp (quat_decompress q) c).
Definition sum4 (f : nat -> R) : R := f 0%nat + f 1%nat + f 2%nat + f 3%nat.
(** Neighbouring keys of a track are less than half a turn apart. *)
Definition hemisphere (T : nat) (k : ctrl f32) (keys : list key) (d : key) : Prop :=
  forall t kl kr, (t < T)%nat -> consecutive kl kr (track_keys T k (length (k_prev k)) t) ->
    0 <= sum4 (fun c => rot (nth kl keys d) c * rot (nth kr keys d) c).

(** [q] is the normalised linear interpolation of two keys: finite, within 2^-17 in each component,
    and a unit quaternion within 2^-19. *)
Definition followsq (T : nat) (tp : list f32) (k : ctrl f32) (keys : list key) (d : key) (r : f32) (t : nat)
    (q : quat f32) : Prop :=
  exists kl kr, around T tp k r t kl kr /\
    let e c := rot (nth kl keys d) c + (rot (nth kr keys d) c - rot (nth kl keys d) c) * fraction tp k r kl kr in
    let norm := sqrt (sum4 (fun c => e c * e c)) in
    (forall c, (c < 4)%nat -> is_finite (qcomp q c) = true /\ Rabs (B2R (qcomp q c) - e c / norm) <= / 131072) /\
    Rabs (sumsq q - 1) <= / 524288.
