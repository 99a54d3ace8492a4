(** What an author animates, and what it means that a pose lies on the authored curves: C95. *)
From Coq Require Import Reals Sorted.
From Flocq Require Import IEEE754.BinarySingleNaN.
From Verif Require Import Base Num NumF32 Math Keys KeysSpec Sampling SamplingSpec SamplingProps PoseSpec.
Local Open Scope R_scope.

(** Keys are set at some of the times [au_times].  For every joint and each of translation, rotation and
    scale there is a track: knots, each the number of a time and a key. *)
Record authored := mk_authored {
  au_times : list f32;
  au_t : list (list (nat * key));
  au_r : list (list (nat * key));
  au_s : list (list (nat * key))
}.
(** A track with its times. *)
Definition curve (times : list f32) (track : list (nat * key)) : list (f32 * key) :=
  map (fun x => (nth (fst x) times nzero, snd x)) track.

(** [x] and [y] are neighbouring knots around ratio [r]. *)
Definition neighbours (c : list (f32 * key)) (r : f32) (x y : f32 * key) : Prop :=
  (exists l l', c = l ++ x :: y :: l') /\
  B2R (fst x) <= B2R r <= B2R (fst y) /\ B2R (fst x) < B2R (fst y).
Definition way (r : f32) (x y : f32 * key) : R := (B2R r - B2R (fst x)) / (B2R (fst y) - B2R (fst x)).

(** A vector on the curve: straight lines between the knots, to within 2^-19 of the larger value, exactly
    the key at its own time. *)
Definition on_curve3 (c : list (f32 * key)) (r : f32) (v : vec3 f32) : Prop :=
  exists x y, neighbours c r x y /\ forall i, (i < 3)%nat ->
    let a := half_value (coord (snd x) i) in let b := half_value (coord (snd y) i) in
    is_finite (coord v i) = true /\
    Rabs (B2R (coord v i) - (a + (b - a) * way r x y)) <= Rmax (Rabs a) (Rabs b) * / 524288 /\
    (B2R r = B2R (fst x) -> B2R (coord v i) = a).
(** A rotation on the curve: the normalised linear interpolation of the neighbouring knots to within 2^-17,
    a unit quaternion to within 2^-19. *)
Definition on_curveq (c : list (f32 * key)) (r : f32) (q : quat f32) : Prop :=
  exists x y, neighbours c r x y /\
    let e i := rot (snd x) i + (rot (snd y) i - rot (snd x) i) * way r x y in
    let norm := sqrt (sum4 (fun i => e i * e i)) in
    (forall i, (i < 4)%nat -> is_finite (qcomp q i) = true /\ Rabs (B2R (qcomp q i) - e i / norm) <= / 131072) /\
    Rabs (sumsq q - 1) <= / 524288.
(** The pose of every joint at ratio [r] lies on its curves. *)
Definition on_curves (au : authored) (r : f32) (pose : list (transform (V4 f32))) : Prop :=
  forall t, (t < length (au_t au))%nat ->
    exists x, nth_error pose (t / 4) = Some x /\
      let p := lane_tr x (t mod 4) in
      on_curve3 (curve (au_times au) (nth t (au_t au) [])) r (tr_t p) /\
      on_curveq (curve (au_times au) (nth t (au_r au) [])) r (tr_r p) /\
      on_curve3 (curve (au_times au) (nth t (au_s au) [])) r (tr_s p).

(** ** What may be authored *)
Definition times_ok (times : list f32) : Prop :=
  nth 0 times nzero = nzero /\ nth (length times - 1) times nzero = none_ /\ (N.of_nat (length times) < 65536)%N /\
  forall i j, (i < j)%nat -> (j < length times)%nat -> nlt (nth i times nzero) (nth j times nzero) = true.
(** A track starts at time 0, ends at time 1 and goes forward. *)
Definition track_ok (times : list f32) (track : list (nat * key)) : Prop :=
  (2 <= length track)%nat /\ fst (nth 0 track (0%nat, key0)) = 0%nat /\
  fst (nth (length track - 1) track (0%nat, key0)) = (length times - 1)%nat /\
  StronglySorted lt (map fst track).
Definition gentle (track : list (nat * key)) : Prop :=
  forall x y l l', track = l ++ x :: y :: l' -> 0 <= sum4 (fun i => rot (snd x) i * rot (snd y) i).
Definition channel_fits (tracks : list (list (nat * key))) : Prop :=
  (N.of_nat (length (concat tracks)) < 65530)%N.
Definition authored_ok (au : authored) : Prop :=
  times_ok (au_times au) /\
  (0 < length (au_t au))%nat /\ length (au_r au) = length (au_t au) /\ length (au_s au) = length (au_t au) /\
  Forall (track_ok (au_times au)) (au_t au) /\ Forall (track_ok (au_times au)) (au_r au) /\ Forall (track_ok (au_times au)) (au_s au) /\
  channel_fits (au_t au) /\ channel_fits (au_r au) /\ channel_fits (au_s au) /\
  Forall (Forall (fun x => key3_ok (snd x))) (au_t au) /\ Forall (Forall (fun x => key3_ok (snd x))) (au_s au) /\
  Forall (Forall (fun x => keyq_ok (snd x))) (au_r au) /\ Forall gentle (au_r au).

(** ** What an animation stores *)
(** The knots of track [t] of one channel. *)
Definition stored_curve (T : nat) (tp : list f32) (k : ctrl f32) (ks : list key) (t : nat) : list (f32 * key) :=
  map (fun i => (time tp k i, nth i ks key0)) (track_keys T k (length (k_prev k)) t).
Definition stores (a : anim32) (au : authored) : Prop :=
  an_num_tracks a = length (au_t au) /\
  forall t, (t < an_num_tracks a)%nat ->
    let st := stored_curve (4 * num_soa a) (an_timepoints a) in
    st (an_t a) (an_tkeys a) t = curve (au_times au) (nth t (au_t au) []) /\
    st (an_r a) (an_rkeys a) t = curve (au_times au) (nth t (au_r au) []) /\
    st (an_s a) (an_skeys a) t = curve (au_times au) (nth t (au_s au) []).
(** The conditions of C71 and C72. *)
Definition playable (a : anim32) : Prop :=
  wf_animation a = true /\ covers a = true /\ Forall key3_ok (an_tkeys a) /\ Forall key3_ok (an_skeys a) /\
  Forall keyq_ok (an_rkeys a) /\ hemisphere (4 * num_soa a) (an_r a) (an_rkeys a) key0.

(** ** The rest pose in a skeleton file *)
(** Four joints: the ten components, translation, rotation, scale, each for the four joints in turn. *)
Definition rest_words (x : transform (V4 f32)) : list N :=
  flat_map (fun v => [f32_to_bits (l0 v); f32_to_bits (l1 v); f32_to_bits (l2 v); f32_to_bits (l3 v)])
    [vx (tr_t x); vy (tr_t x); vz (tr_t x); qx (tr_r x); qy (tr_r x); qz (tr_r x); qw (tr_r x); vx (tr_s x); vy (tr_s x); vz (tr_s x)].
