(** Tracks and threshold crossings, in real arithmetic. *)
From Coq Require Import Reals Sorted.
From Verif Require Import Base Num NumR Tracks.
Local Open Scope R_scope.

(** A loaded track: as many values as ratios, one step bit per key. *)
Definition track_sized {F V} (t : ftrack F V) : Prop :=
  t_key_count t = length (t_ratios t) /\ length (t_values t) = length (t_ratios t) /\
  (length (t_ratios t) <= 8 * length (t_steps t))%nat.
Definition is_step {F V} (t : ftrack F V) (i : nat) : bool :=
  N.testbit (nth (i / 8) (t_steps t) 0%N) (N.of_nat (i mod 8)).

(** Ratios increase strictly inside [0, 1]. *)
Definition track_ordered {V} (t : ftrack R V) : Prop :=
  (forall i r, nth_error (t_ratios t) i = Some r -> 0 <= r <= 1) /\
  (forall i j a b, (i < j)%nat -> nth_error (t_ratios t) i = Some a -> nth_error (t_ratios t) j = Some b -> a < b).

(** Key [i] and the key before it; the track is cyclic. *)
Definition key_before {V} (t : ftrack R V) (i : nat) : nat := match i with O => length (t_values t) - 1 | S i => i end.

(** The track crosses [thr] upwards ([up]) or downwards on the way to key [i], at ratio [r]:
    at the key itself after a step key, at the start of the loop when the last key links to the
    first, and otherwise where the segment between the two keys reaches [thr]. *)
Definition crosses (t : ftrack R R) (thr : R) (i : nat) (r : R) (up : bool) : Prop :=
  exists v0 v1, nth_error (t_values t) (key_before t i) = Some v0 /\ nth_error (t_values t) i = Some v1 /\
    (if up then v0 <= thr /\ thr < v1 else v1 <= thr /\ thr < v0) /\
    (if is_step t (key_before t i) then nth_error (t_ratios t) i = Some r
     else match i with
          | O => r = 0
          | S i' => exists r0 r1, nth_error (t_ratios t) i' = Some r0 /\ nth_error (t_ratios t) i = Some r1 /\
                      v0 + (v1 - v0) * ((r - r0) / (r1 - r0)) = thr
          end).

(** Playback time: loop [k] of the track occupies [k, k+1].  A crossing at ratio [r] of loop [k] is
    before time [b]; at the common end of two loops, crossings of the earlier loop are before it. *)
Definition before_time (b : R) (k : Z) (r : R) : Prop := IZR k + r < b \/ IZR k + 1 <= b.
Definition in_window (a b : R) (k : Z) (r : R) : Prop := ~ before_time a k r /\ before_time b k r.

(** Playback order of (loop, key). *)
Definition earlier (p q : Z * nat) : Prop := (fst p < fst q)%Z \/ (fst p = fst q /\ (snd p < snd q)%nat).

(** [l] lists the crossings in the window [a, b], in playback order, each (loop, key) once. *)
Definition lists_crossings (t : ftrack R R) (thr a b : R) (l : list (edge R)) : Prop :=
  exists ps : list (Z * nat),
    StronglySorted earlier ps /\
    Forall2 (fun p e => exists r, crosses t thr (snd p) r (e_rising e) /\ in_window a b (fst p) r /\ e_ratio e = IZR (fst p) + r) ps l /\
    (forall k i r up, crosses t thr i r up -> in_window a b k r -> In (k, i) ps).

Definition opposite (e : edge R) : edge R := mk_edge (e_ratio e) (negb (e_rising e)).

(** Neighbours differ in direction. *)
Fixpoint alternates (l : list (edge R)) : Prop :=
  match l with
  | e :: (e' :: _) as l' => e_rising e' = negb (e_rising e) /\ alternates l'
  | _ => True
  end.
