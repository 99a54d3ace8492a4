(** C76: float tracks are sampled on their curve, on binary32. *)
From Coq Require Import Reals Lra Psatz.
From Flocq Require Import IEEE754.BinarySingleNaN Core.
From Verif Require Import Base Num NumF32 F32Facts F32Err InterpF32 NormF32 BlendF32 BlendF32Proofs PoseProofs.
From Verif Require Import Tracks TracksSpec TracksProofs TracksProps TrackCurveSpec BlendF32Props.
Local Open Scope R_scope.

(** Every time of a good track is a number in [0, 1]. *)
Lemma time_range (t : ftrack f32 f32) i a : good_track t -> nth_error (t_ratios t) i = Some a -> is_finite a = true /\ 0 <= B2R a <= 1.
Proof.
  intros (_ & HI & H0 & H1 & _) E. pose proof (H1 i a E) as L1.
  assert (L0 : nle nzero a = true).
  { destruct i as [|i].
    - specialize (H0 a E). destruct a as [s|s| |s m e b]; try discriminate; try reflexivity; destruct s; discriminate.
    - destruct (nth_error (t_ratios t) 0) as [z|] eqn:Z.
      2:{ apply nth_error_None in Z. assert (S i < length (t_ratios t))%nat by (apply nth_error_Some; congruence). lia. }
      specialize (HI 0%nat (S i) z a ltac:(lia) Z E). specialize (H0 z eq_refl).
      assert (Nz : is_nan z = false) by exact (f32_eq_notnan _ _ H0).
      destruct (Bltb_notnan _ _ HI) as [_ Na].
      apply f32_eq_ext in H0; [|exact Nz|reflexivity]. apply f32_nlt_iff in HI. rewrite H0 in HI.
      change (Bleb (nzero : f32) a = true). rewrite Bleb_ext by (reflexivity || exact Na). apply Rle_bool_true. lra. }
  assert (F : is_finite a = true).
  { destruct a as [s|s| |s m e b]; try reflexivity; try discriminate. destruct s; discriminate. }
  split; [exact F|]. apply (nle_fin nzero a (proj1 fin_zero) F) in L0. apply (nle_fin a none_ F (proj1 fin_one)) in L1.
  rewrite (proj2 fin_one) in L1. rewrite (proj2 fin_zero) in L0. lra.
Qed.

(** Interpolating values up to 2^100. *)
Lemma lerp_fin100 (x y k : f32) a b u : Rabs a <= p2 100 -> Rabs b <= p2 100 -> fin x a -> fin y b -> fin k u -> 0 <= u <= 1 ->
  fin (lerp_f x y k) (lerp_r a b u).
Proof.
  intros Ba Bb Fx Fy Fk Hu.
  assert (B1 : Rabs (b - a) <= p2 101).
  { change 101%Z with (1 + 100)%Z. rewrite (p2_shift 1 100 2) by (simpl; lra). unfold Rminus.
    eapply Rle_trans; [apply Rabs_triang|]. rewrite Rabs_Ropp. lra. }
  pose proof (fin_sub _ _ _ _ Fy Fx (p2_le_HUGE 101 _ ltac:(lia) B1)) as F1. pose proof (rnd_abs_le 101 _ ltac:(lia) B1) as B1'.
  assert (B2 : Rabs (rnd32 (b - a) * u) <= p2 101).
  { rewrite Rabs_mult, (Rabs_pos_eq u) by lra. rewrite <- (Rmult_1_r (p2 101)). apply Rmult_le_compat; try apply Rabs_pos; lra. }
  pose proof (fin_mul _ _ _ _ F1 Fk (p2_le_HUGE 101 _ ltac:(lia) B2)) as F2. pose proof (rnd_abs_le 101 _ ltac:(lia) B2) as B2'.
  unfold lerp_r. rewrite Rplus_comm. unfold lerp_f. apply fin_add; [exact Fx|exact F2|].
  apply (p2_le_HUGE 102); [lia|]. change 102%Z with (1 + 101)%Z. rewrite (p2_shift 1 101 2) by (simpl; lra).
  pose proof (bpow_le radix2 100 101 ltac:(lia)). eapply Rle_trans; [apply Rabs_triang|]. lra.
Qed.
Lemma p2_100 : p2 100 = 2 ^ 100. Proof. exact (p2_pow 100 ltac:(lia)). Qed.

(** What the job computes inside a segment. *)
Lemma segment_value (t : ftrack f32 f32) d (r : f32) i a b v w : good_track t -> is_finite r = true -> segment t (B2R r) i a b v w ->
  exists x, sample_track lerp_f d t r = Ok x /\ fmt a /\ fmt b /\ fmt v /\ fmt w /\ 0 <= a /\ a < b /\ b <= 1 /\
    (is_step t i = true -> B2R x = v) /\
    (is_step t i = false -> fin x (lerp_r v w (alpha_r a b (B2R r)))).
Proof.
  intros G Fr (a' & b' & v' & w' & Ea & Eb & Ev & Ew & <- & <- & <- & <- & Hr).
  pose proof G as (HS & HI & H0 & H1 & HV).
  destruct (time_range t i a' G Ea) as [Fa Ra]. destruct (time_range t (S i) b' G Eb) as [Fb Rb].
  destruct (HV i v' Ev) as [Fv Bv]. destruct (HV (S i) w' Ew) as [Fw Bw]. rewrite <- p2_100 in Bv, Bw.
  pose proof (nlt_fin _ _ Fa Fb (HI i (S i) a' b' ltac:(lia) Ea Eb)) as Lab.
  assert (La : nle a' r = true).
  { change (Bleb a' r = true). rewrite Bleb_ext by (destruct a', r; try reflexivity; discriminate). rewrite !ext_finite by assumption. apply Rle_bool_true. lra. }
  assert (Lb : nlt r b' = true).
  { change (Bltb r b' = true). rewrite Bltb_ext by (destruct b', r; try reflexivity; discriminate). rewrite !ext_finite by assumption. apply Rlt_bool_true. lra. }
  pose proof (fin_of _ Fa) as FA. pose proof (fin_of _ Fb) as FB. pose proof (fin_of _ Fr) as FR.
  pose proof (fin_fmt _ _ FA) as fA. pose proof (fin_fmt _ _ FB) as fB.
  exists (if is_step t i then v' else lerp_f v' w' (ndiv (nsub r a') (nsub b' a'))). split.
  { apply (C39_sampling lerp_f d t r HS); auto. right. right. right. exists i, a', b', v', w'. repeat (split; [assumption|]). reflexivity. }
  split; [exact fA|]. split; [exact fB|]. split; [eapply fin_fmt, fin_of, Fv|]. split; [eapply fin_fmt, fin_of, Fw|].
  split; [lra|]. split; [lra|]. split; [lra|]. split; [intros ->; reflexivity|]. intros ->.
  assert (D : 0 < rnd32 (B2R b' - B2R a') <= 1) by (apply den_pos; auto; lra).
  assert (Q : 0 <= rnd32 (B2R r - B2R a') / rnd32 (B2R b' - B2R a') <= 1) by (apply quot_range; auto; lra).
  assert (HU : forall y, -1 <= y <= 1 -> Rabs y <= HUGE).
  { intros y Hy. apply (p2_le_HUGE 0); [lia|]. simpl. apply Rabs_le. lra. }
  apply lerp_fin100; [exact Bv|exact Bw|apply fin_of, Fv|apply fin_of, Fw| |].
  - unfold alpha_r. apply fin_div; [apply fin_sub; [exact FR|exact FA|apply HU; lra]|apply fin_sub; [exact FB|exact FA|apply HU; lra]|lra|apply HU; lra].
  - apply alpha_range; auto; lra.
Qed.

(** C76.  Sampling a good float track that has keys, at any finite ratio, gives a finite value.
    Outside the keys it is the value of the nearest key; after a step key it is that key's value;
    between two other keys it is on the straight line between them within 2^-20 of the larger of
    the two values, leaves their interval by at most 2^-22 of it, and at the time of a key it is
    exactly that key's value. *)
Theorem C76_on_curve :
  forall (t : ftrack f32 f32) (r : f32), good_track t -> t_ratios t <> [] -> is_finite r = true ->
  exists x, sample_track lerp_f nzero t r = Ok x /\ is_finite x = true /\
    (outside t (B2R r) (B2R x) \/
     exists i a b v w, segment t (B2R r) i a b v w /\
       let m := Rmax (Rabs v) (Rabs w) in
       (is_step t i = true -> B2R x = v) /\
       (is_step t i = false ->
         Rabs (B2R x - (v + (w - v) * ((B2R r - a) / (b - a)))) <= m / 2 ^ 20 + / 2 ^ 149 /\
         Rmin v w - m / 2 ^ 22 <= B2R x <= Rmax v w + m / 2 ^ 22 /\
         (B2R r = a -> B2R x = v))).
Proof.
  intros t r G N Fr. pose proof G as (HS & HI & H0 & H1 & HV).
  destruct (C39_sampling lerp_f nzero t r HS HI H0 H1) as [[x Ex] IFF].
  exists x. split; [exact Ex|]. destruct (proj2 (IFF x) Ex) as [[E _]|[[L E]|[(L & A & E)|(i & a & b & v & w & Ea & Eb & Ev & Ew & La & Lb & Sx)]]].
  - contradiction.
  - destruct (HV 0%nat x E) as [Fx _]. split; [exact Fx|]. left. exists x. split; [reflexivity|]. left. split; [|exact E].
    apply (nlt_fin r nzero Fr (proj1 fin_zero)) in L. rewrite (proj2 fin_zero) in L. exact L.
  - destruct (HV _ x E) as [Fx _]. split; [exact Fx|]. left. exists x. split; [reflexivity|]. right. split; [|exact E].
    intros i a Ea. destruct (time_range t i a G Ea) as [Fa _]. specialize (A i a Ea).
    apply f32_nlt_ext in A; [|destruct r; try reflexivity; discriminate|destruct a; try reflexivity; discriminate].
    rewrite !ext_finite in A by assumption. exact A.
  - destruct (time_range t i a G Ea) as [Fa Ra]. destruct (time_range t (S i) b G Eb) as [Fb Rb].
    assert (SG : segment t (B2R r) i (B2R a) (B2R b) (B2R v) (B2R w)).
    { exists a, b, v, w. repeat (split; [assumption || reflexivity|]). split; [apply (nle_fin _ _ Fa Fr La)|apply (nlt_fin _ _ Fr Fb Lb)]. }
    destruct (segment_value t nzero r i _ _ _ _ G Fr SG) as (x' & Ex' & fa & fb & fv & fw & A0 & AB & B1 & S1 & S0).
    assert (X : x' = x) by congruence. subst x'.
    assert (Fx : is_finite x = true).
    { destruct (is_step t i) eqn:St; [|apply S0; reflexivity]. rewrite Sx. apply (HV i v Ev). }
    split; [exact Fx|]. right. exists i, (B2R a), (B2R b), (B2R v), (B2R w). split; [exact SG|]. cbv zeta. split; [exact S1|].
    intros St. specialize (S0 St). rewrite (proj2 S0). destruct SG as (_ & _ & _ & _ & _ & _ & _ & _ & _ & _ & _ & _ & Hr).
    pose proof (fin_fmt _ _ (fin_of _ Fr)) as fr.
    pose proof (alpha_range _ _ fa fb A0 AB B1 (B2R r) ltac:(lra)) as AR.
    pose proof (alpha_close _ _ fa fb A0 AB B1 (B2R r) fr ltac:(lra)) as AC.
    split; [|split].
    + pose proof (lerp_close _ _ fv fw _ _ (4 * eps) AR AC ltac:(unfold eps; lra)) as LC.
      eapply Rle_trans; [exact LC|]. apply Rplus_le_compat; [apply Req_le; unfold eps; field|].
      unfold tiny. rewrite <- (p2_shift 1 (-150) 2) by (simpl; lra). change (1 + -150)%Z with (- (149))%Z. apply Req_le. exact (p2_inv 149 ltac:(lia)).
    + pose proof (lerp_hull _ _ fv fw _ AR) as LH. replace (4 * eps * Rmax (Rabs (B2R v)) (Rabs (B2R w))) with (Rmax (Rabs (B2R v)) (Rabs (B2R w)) / 2 ^ 22) in LH by (unfold eps; field).
      exact LH.
    + intros E. rewrite E, alpha_left. apply lerp_0. exact fv.
Qed.
Print Assumptions C76_on_curve.

(** Between two keys the sampled values move in one direction only. *)
Theorem C76_monotone :
  forall (t : ftrack f32 f32) (r r' x x' : f32) i a b v w, good_track t -> is_finite r = true -> is_finite r' = true ->
    segment t (B2R r) i a b v w -> segment t (B2R r') i a b v w -> B2R r <= B2R r' ->
    sample_track lerp_f nzero t r = Ok x -> sample_track lerp_f nzero t r' = Ok x' ->
    (v <= w -> B2R x <= B2R x') /\ (w <= v -> B2R x' <= B2R x).
Proof.
  intros t r r' x x' i a b v w G Fr Fr' S S' L Ex Ex'.
  destruct (segment_value t nzero r i _ _ _ _ G Fr S) as (y & Ey & fa & fb & fv & fw & A0 & AB & B1 & S1 & S0).
  destruct (segment_value t nzero r' i _ _ _ _ G Fr' S') as (y' & Ey' & _ & _ & _ & _ & _ & _ & _ & S1' & S0').
  assert (X : y = x) by congruence. assert (X' : y' = x') by congruence. subst y y'.
  destruct (is_step t i).
  - rewrite S1, S1' by reflexivity. lra.
  - rewrite (proj2 (S0 eq_refl)), (proj2 (S0' eq_refl)).
    pose proof (alpha_mono _ _ fa fb A0 AB B1 _ _ L) as AM. split; intros H; [apply lerp_mono_up|apply lerp_mono_down]; assumption.
Qed.
Print Assumptions C76_monotone.

(** Keys 0 -> 1 at time 0, 2 at time 1/2 (a step key), 1 at time 1. *)
Definition ex_track : ftrack f32 f32 := mk_track 3 [nzero; nhalf; none_] [none_; ntwo; none_] [2%N].
Lemma ex_good : good_track ex_track.
Proof.
  split; [repeat split; cbn; lia|]. split; [|split; [|split]].
  - intros i j a b Hij Ha Hb. destruct i as [|[|[|i]]], j as [|[|[|j]]]; cbn in Ha, Hb; try lia; try (destruct i; discriminate); try (destruct j; discriminate);
      assert (E : forall y z : f32, Some y = Some z -> y = z) by congruence; apply E in Ha; apply E in Hb; subst a b; vm_compute; reflexivity.
  - intros a Ha. assert (E : forall y z : f32, Some y = Some z -> y = z) by congruence. apply E in Ha. subst a. vm_compute. reflexivity.
  - intros i a Ha. assert (E : forall y z : f32, Some y = Some z -> y = z) by congruence.
    destruct i as [|[|[|i]]]; cbn in Ha; [..|destruct i; discriminate]; apply E in Ha; subst a; vm_compute; reflexivity.
  - intros i v Hv. assert (E : forall y z : f32, Some y = Some z -> y = z) by congruence.
    assert (P : 1 <= 2 ^ 99) by (apply pow_R1_Rle; lra). assert (P' : 2 ^ 100 = 2 * 2 ^ 99) by (simpl; ring).
    assert (O : is_finite (none_ : f32) = true /\ Rabs (B2R (none_ : f32)) <= 2 ^ 100).
    { split; [reflexivity|]. rewrite (proj2 fin_one), Rabs_R1. lra. }
    assert (T : is_finite (ntwo : f32) = true /\ Rabs (B2R (ntwo : f32)) <= 2 ^ 100).
    { split; [reflexivity|].
      rewrite (proj2 fin_two), Rabs_pos_eq; lra. }
    destruct i as [|[|[|i]]]; cbn in Hv; [..|destruct i; discriminate]; apply E in Hv; subst v; assumption.
Qed.
(** A quarter of the way: 1.5; in the step segment: 2. *)
Example C76_example : good_track ex_track /\ t_ratios ex_track <> [] /\
  match sample_track lerp_f nzero ex_track (f32_lit 1 (-2)), sample_track lerp_f nzero ex_track (f32_lit 3 (-2)) with
  | Ok x, Ok y => f32_to_bits x = 1069547520%N /\ f32_to_bits y = 1073741824%N
  | _, _ => False
  end.
Proof. split; [exact ex_good|]. split; [discriminate|]. vm_compute. repeat split. Qed.
