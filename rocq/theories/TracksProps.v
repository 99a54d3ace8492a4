(** C39-C43: track sampling and triggering. *)
From Coq Require Import Reals Lra Psatz Sorted.
From Flocq Require Import IEEE754.BinarySingleNaN Core.
From Verif Require Import Base Num NumR NumF32 F32Facts Tracks TracksSpec TracksProofs.
Local Open Scope R_scope.

(** ** C39: binary32, every value type. *)
Lemma f32_lt_le (a b c : f32) : nlt a b = true -> nle b c = true -> nlt c a = false.
Proof.
  cbn. intros H1 H2. destruct (Bltb_notnan _ _ H1) as [Na Nb]. destruct (Bleb_notnan _ _ H2) as [_ Nc].
  apply Bltb_iff in H1. apply Bleb_iff in H2.
  destruct (Bltb c a) eqn:E; [|reflexivity]. apply Bltb_iff in E. lra.
Qed.
Lemma f32_le_nlt (b c : f32) : nle b c = true -> nlt c b = false.
Proof.
  cbn. intros H2. apply Bleb_iff in H2. destruct (Bltb c b) eqn:E; [|reflexivity]. apply Bltb_iff in E. lra.
Qed.

(** The sampled value, as a relation: what the job returns for ratio [r]. *)
Definition sampled {V} (lerp : V -> V -> f32 -> V) (default : V) (t : ftrack f32 V) (r : f32) (x : V) : Prop :=
  (* no key *)
  (t_ratios t = [] /\ x = default) \/
  (* before the track *)
  (nlt r nzero = true /\ nth_error (t_values t) 0 = Some x) \/
  (* at or after the last key; a NaN ratio also ends here *)
  (nlt r nzero = false /\ (forall i a, nth_error (t_ratios t) i = Some a -> nlt r a = false) /\
   nth_error (t_values t) (length (t_values t) - 1) = Some x) \/
  (* between two keys *)
  (exists i a b v w, nth_error (t_ratios t) i = Some a /\ nth_error (t_ratios t) (S i) = Some b /\
     nth_error (t_values t) i = Some v /\ nth_error (t_values t) (S i) = Some w /\
     nle a r = true /\ nlt r b = true /\
     x = if is_step t i then v else lerp v w (ndiv (nsub r a) (nsub b a))).

Lemma f32_nle_total (a b c : f32) : nlt b c = false -> nlt b a = true -> nlt c a = true -> nle c b = true.
Proof.
  cbn. intros H1 H2 H3. destruct (Bltb_notnan _ _ H2) as [Nb Na]. destruct (Bltb_notnan _ _ H3) as [Nc _].
  rewrite Bleb_ext by assumption. rewrite Bltb_ext in H1 by assumption.
  destruct (Rlt_bool_spec (ext b) (ext c)); [discriminate|]. apply Rle_bool_true. exact H.
Qed.

Lemma f32_eq_notnan (x y : f32) : neq x y = true -> is_nan x = false.
Proof. intros H. change (Beqb x y = true) in H. destruct x; try reflexivity. unfold Beqb in H. cbn in H. discriminate. Qed.

Lemma f32_eq_ext (x y : f32) : is_nan x = false -> is_nan y = false -> neq x y = true -> ext x = ext y.
Proof. intros Nx Ny H. change (Beqb x y = true) in H. rewrite Beqb_ext in H by assumption. destruct (Req_bool_spec (ext x) (ext y)); [assumption|discriminate]. Qed.
Lemma f32_nlt_ext (x y : f32) : is_nan x = false -> is_nan y = false -> nlt x y = false -> ext y <= ext x.
Proof. intros Nx Ny H. change (Bltb x y = false) in H. rewrite Bltb_ext in H by assumption. destruct (Rlt_bool_spec (ext x) (ext y)); [discriminate|assumption]. Qed.
Lemma f32_nlt_iff (x y : f32) : nlt x y = true -> ext x < ext y.
Proof. intros H. apply Bltb_iff in H. apply H. Qed.
Lemma f32_nle_iff (x y : f32) : nle x y = true -> ext x <= ext y.
Proof. intros H. apply Bleb_iff in H. apply H. Qed.

Theorem C39_sampling {V} (lerp : V -> V -> f32 -> V) (default : V) (t : ftrack f32 V) (r : f32) :
  track_sized t -> increasing t ->
  (forall a, nth_error (t_ratios t) 0 = Some a -> neq a nzero = true) ->
  (forall i a, nth_error (t_ratios t) i = Some a -> nle a none_ = true) ->
  (exists x, sample_track lerp default t r = Ok x) /\
  forall x, sampled lerp default t r x <-> sample_track lerp default t r = Ok x.
Proof.
  intros HS HI H0 H1. pose proof HS as (S1 & S2 & S3).
  (* every stated case is what the job returns *)
  assert (SOUND : forall x, sampled lerp default t r x -> sample_track lerp default t r = Ok x).
  { intros x [[E ->]|[[L E]|[(L & A & E)|(i & a & b & v & w & Ea & Eb & Ev & Ew & La & Lb & ->)]]].
    - apply sample_empty; assumption.
    - apply (sample_before f32_lt_le f32_le_nlt); assumption.
    - apply (sample_after f32_lt_le f32_le_nlt lerp default t r x); assumption.
    - destruct (Bltb_notnan _ _ Lb) as [Nr Nb]. destruct (Bleb_notnan _ _ La) as [Na _].
      apply (sample_between f32_lt_le f32_le_nlt); auto.
      + destruct (nth_error (t_ratios t) 0) as [z|] eqn:Ez.
        2:{ apply nth_error_None in Ez. assert (i < length (t_ratios t))%nat by (apply nth_error_Some; congruence). lia. }
        specialize (H0 z eq_refl). destruct (nlt r nzero) eqn:L0; [|reflexivity]. exfalso.
        assert (Nz : is_nan z = false) by exact (f32_eq_notnan _ _ H0).
        apply f32_nlt_iff in L0. apply f32_nle_iff in La. apply f32_eq_ext in H0; [|exact Nz|reflexivity].
        assert (ext z <= ext a).
        { destruct i as [|i]; [rewrite Ez in Ea; inversion Ea; lra|].
          pose proof (HI 0%nat (S i) z a ltac:(lia) Ez Ea) as Q. apply f32_nlt_iff in Q. lra. }
        change (@num_arith f32 f32num) with f32arith in *. lra.
      + destruct (nlt none_ r) eqn:L1; [|reflexivity]. exfalso.
        pose proof (H1 _ _ Eb) as Q. apply f32_nle_iff in Q. apply f32_nlt_iff in L1. apply f32_nlt_iff in Lb. change (@num_arith f32 f32num) with f32arith in *. lra. }
  (* some case applies *)
  assert (SOME : exists x, sampled lerp default t r x).
  { destruct (t_ratios t) as [|a0 rest] eqn:ER; [exists default; left; auto|].
    assert (LV : (0 < length (t_values t))%nat) by (rewrite S2; cbn; lia).
    destruct (nlt r nzero) eqn:L0.
    { destruct (nth_error (t_values t) 0) as [v|] eqn:Ev; [exists v; right; left; auto|]. apply nth_error_None in Ev. lia. }
    rewrite <- ER in *. clear a0 rest ER.
    destruct (position (fun x => nlt r x) (t_ratios t)) as [p|] eqn:EP.
    2:{ destruct (nth_error (t_values t) (length (t_values t) - 1)) as [v|] eqn:Ev; [|apply nth_error_None in Ev; lia].
        exists v. right. right. left. split; [exact L0|]. split; [|exact Ev]. intros i a Ha. exact (position_None _ _ EP i a Ha). }
    apply position_Some in EP. destruct EP as [(b & Eb & Lb) EP].
    destruct p as [|i].
    { exfalso. specialize (H0 b Eb). destruct (Bltb_notnan _ _ Lb) as [Nr Nb].
      apply f32_eq_ext in H0; [|exact Nb|reflexivity]. apply f32_nlt_ext in L0; [|exact Nr|reflexivity]. apply f32_nlt_iff in Lb. change (@num_arith f32 f32num) with f32arith in *. lra. }
    assert (Lp : (S i < length (t_ratios t))%nat) by (apply nth_error_Some; congruence).
    destruct (nth_error (t_ratios t) i) as [a|] eqn:Ea; [|apply nth_error_None in Ea; lia].
    destruct (nth_error (t_values t) i) as [v|] eqn:Ev; [|apply nth_error_None in Ev; lia].
    destruct (nth_error (t_values t) (S i)) as [w|] eqn:Ew; [|apply nth_error_None in Ew; lia].
    eexists. right. right. right. exists i, a, b, v, w. repeat (split; [eassumption|]). split.
    - apply (f32_nle_total b r a); [exact (EP i a ltac:(lia) Ea)|exact Lb|exact (HI i (S i) a b ltac:(lia) Ea Eb)].
    - split; [exact Lb|reflexivity]. }
  destruct SOME as [x0 Hx0]. pose proof (SOUND x0 Hx0) as E0.
  split; [exists x0; exact E0|]. intros x. split; [apply SOUND|]. intros E. rewrite E0 in E. inversion E; subst. exact Hx0.
Qed.
Print Assumptions C39_sampling.

(** A set job is never refused; an unset one is InvalidJob. *)
Theorem C39_unset {V} (lerp : V -> V -> f32 -> V) (default : V) r :
  sample_run lerp default None r = Err InvalidJob /\
  forall t, sample_run lerp default (Some t) r = sample_track lerp default t r.
Proof. split; reflexivity. Qed.

(** Real arithmetic, f32 tracks: a key's ratio gives the key's value, and between two keys the
    result lies between their values. *)
Lemma Rlt_le_nlt : forall a b c : R, nlt a b = true -> nle b c = true -> nlt c a = false.
Proof.
  cbn. intros a b c. destruct (Rltb_spec a b), (Rleb_spec b c), (Rltb_spec c a); try discriminate; try reflexivity; lra.
Qed.
Lemma Rle_nlt : forall b c : R, nle b c = true -> nlt c b = false.
Proof. cbn. intros b c. destruct (Rleb_spec b c), (Rltb_spec c b); try discriminate; try reflexivity; lra. Qed.
Lemma ordered_increasing {V} (t : ftrack R V) : track_ordered t -> increasing t.
Proof. intros [_ H] i j a b Hij Ha Hb. cbn. destruct (Rltb_spec a b); [reflexivity|]. specialize (H i j a b Hij Ha Hb). lra. Qed.

Lemma between_R (t : ftrack R R) r i a b v w d : track_sized t -> track_ordered t ->
  nth_error (t_ratios t) i = Some a -> nth_error (t_ratios t) (S i) = Some b ->
  nth_error (t_values t) i = Some v -> nth_error (t_values t) (S i) = Some w -> a <= r < b ->
  sample_track lerp_f d t r = Ok (if is_step t i then v else v + (w - v) * ((r - a) / (b - a))).
Proof.
  intros HS HO Ea Eb Ev Ew Hr. pose proof (proj1 HO i a Ea). pose proof (proj1 HO (S i) b Eb).
  rewrite (sample_between Rlt_le_nlt Rle_nlt lerp_f d t r i a b v w); auto using ordered_increasing.
  - cbn. destruct (Rleb_spec a r); [reflexivity|lra].
  - cbn. destruct (Rltb_spec r b); [reflexivity|lra].
  - change (@num_arith R Rnum) with Rarith. rewrite nzero_R. cbn. destruct (Rltb_spec r 0); [lra|reflexivity].
  - change (@num_arith R Rnum) with Rarith. rewrite none_R. cbn. destruct (Rltb_spec 1 r); [lra|reflexivity].
Qed.
Theorem C39_at_key (t : ftrack R R) i a v d : track_sized t -> track_ordered t ->
  nth_error (t_ratios t) i = Some a -> nth_error (t_values t) i = Some v -> sample_track lerp_f d t a = Ok v.
Proof.
  intros HS HO Ea Ev. pose proof HS as (S1 & S2 & S3). pose proof (proj1 HO i a Ea).
  assert (Li : (i < length (t_ratios t))%nat) by (apply nth_error_Some; congruence).
  destruct (nth_error (t_ratios t) (S i)) as [b|] eqn:Eb.
  - assert (LS : (S i < length (t_ratios t))%nat) by (apply nth_error_Some; congruence).
    destruct (nth_error (t_values t) (S i)) as [w|] eqn:Ew; [|apply nth_error_None in Ew; lia].
    pose proof (proj2 HO i (S i) a b ltac:(lia) Ea Eb).
    rewrite (between_R t a i a b v w d) by (auto; lra). destruct (is_step t i); [reflexivity|]. f_equal. field. lra.
  - apply nth_error_None in Eb. assert (i = length (t_values t) - 1)%nat as Ei by lia.
    apply (sample_after Rlt_le_nlt Rle_nlt); [assumption|unfold last_error; rewrite <- Ei; exact Ev| |].
    + change (@num_arith R Rnum) with Rarith. rewrite nzero_R. cbn. destruct (Rltb_spec a 0); [lra|reflexivity].
    + intros k x Ex. cbn. destruct (Rltb_spec a x); [|reflexivity]. exfalso.
      assert (Lk : (k < length (t_ratios t))%nat) by (apply nth_error_Some; congruence).
      destruct (Nat.eq_dec k i) as [->|]; [rewrite Ea in Ex; inversion Ex; lra|]. pose proof (proj2 HO k i x a ltac:(lia) Ex Ea). lra.
Qed.
Print Assumptions C39_at_key.
Theorem C39_bounded (t : ftrack R R) r i a b v w d : track_sized t -> track_ordered t ->
  nth_error (t_ratios t) i = Some a -> nth_error (t_ratios t) (S i) = Some b ->
  nth_error (t_values t) i = Some v -> nth_error (t_values t) (S i) = Some w -> a <= r <= b ->
  exists x, sample_track lerp_f d t r = Ok x /\ Rmin v w <= x <= Rmax v w.
Proof.
  intros HS HO Ea Eb Ev Ew Hr. pose proof (proj2 HO i (S i) a b ltac:(lia) Ea Eb).
  destruct (Rle_lt_dec b r) as [L|L].
  - replace r with b by lra. exists w. split; [apply (C39_at_key t (S i)); assumption|]. split; [apply Rmin_r|apply Rmax_r].
  - rewrite (between_R t r i a b v w d) by (auto; lra). eexists. split; [reflexivity|].
    destruct (is_step t i); [split; [apply Rmin_l|apply Rmax_l]|].
    set (k := (r - a) / (b - a)).
    assert (K : 0 <= k <= 1).
    { unfold k. split; [apply Rmult_le_pos; [lra|apply Rlt_le, Rinv_0_lt_compat; lra]|].
      apply (Rmult_le_reg_r (b - a)); [lra|]. unfold Rdiv. rewrite Rmult_assoc, Rinv_l by lra. lra. }
    unfold Rmin, Rmax. destruct (Rle_dec v w); split; nra.
Qed.
Print Assumptions C39_bounded.

(** A track whose first key is after 0 is outside the claim: between 0 and that key the code
    divides 0 by 0. *)
Definition late : ftrack f32 f32 := mk_track 2 [nhalf; none_] [none_; ntwo] [0%N].
Theorem C39_late_first_key_refuted : exists x, sample_track lerp_f nzero late (f32_lit 1 (-2)) = Ok x /\ is_nan x = true.
Proof. eexists. split; [vm_compute; reflexivity|reflexivity]. Qed.
Print Assumptions C39_late_first_key_refuted.

(** ** C40 *)
Section Listing.
  Variable t : ftrack R R.
  Variable thr : R.
  Hypothesis HS : track_sized t.
  Hypothesis HO : track_ordered t.
  Notation n := (length (t_ratios t)).

  Lemma covers_exists a b : exists k m, covers a b k m.
  Proof.
    destruct (nfloor_R a) as (k & _ & B). destruct (nfloor_R b) as (kb & _ & Bb).
    exists k, (Z.to_nat (kb + 1 - k)). split; [lra|].
    apply Rle_trans with (IZR (kb + 1)); [rewrite plus_IZR; lra|apply IZR_le; lia].
  Qed.

  Definition hits (w : Z -> R -> bool) (p : Z * nat) : bool := match pick t thr w p with Some _ => true | None => false end.
  Lemma picks_filter w ps : Forall2 (fun p e => pick t thr w p = Some e) (filter (hits w) ps) (picks t thr w ps).
  Proof.
    induction ps as [|p ps IH]; [constructor|]. rewrite picks_cons. cbn [filter]. unfold hits at 1.
    destruct (pick t thr w p) eqn:E; cbn [optl app]; [constructor; assumption|exact IH].
  Qed.
  Lemma filter_sorted {A} (P : A -> A -> Prop) f l : StronglySorted P l -> StronglySorted P (filter f l).
  Proof.
    induction l as [|x l IH]; intros H; [constructor|]. inversion H; subst. cbn. destruct (f x); [|auto]. constructor; [auto|].
    rewrite Forall_forall in *. intros y Hy. apply filter_In in Hy. apply H3, Hy.
  Qed.
  Lemma Forall2_impl_In {A B} (P Q : A -> B -> Prop) l l' : (forall x y, In x l -> P x y -> Q x y) -> Forall2 P l l' -> Forall2 Q l l'.
  Proof. intros H F. induction F; constructor; [apply H; [left; reflexivity|assumption]|]. apply IHF. intros; apply H; [right|]; assumption. Qed.

  Lemma picks_lists a b k m : covers a b k m -> lists_crossings t thr a b (picks t thr (windowb a b) (loops t k m)).
  Proof.
    intros [C1 C2]. exists (filter (hits (windowb a b)) (loops t k m)). split; [apply filter_sorted, loops_sorted|]. split.
    - eapply Forall2_impl_In; [|apply picks_filter]. intros [k' i] e Hin. cbn [fst snd]. unfold pick. cbn [fst snd].
      apply filter_In in Hin. destruct Hin as [Hin _]. apply in_loops in Hin. destruct Hin as [Hk Hi].
      destruct (cr t thr i) as [[r up]|] eqn:E; [|discriminate]. destruct (windowb a b k' r) eqn:W; [|discriminate].
      intros Q. inversion Q; subst e. cbn [e_ratio e_rising]. exists r. split; [apply cr_crosses; assumption|].
      split; [apply windowb_iff, W|]. ring.
    - intros k' i r up Hc Hw. destruct (crosses_cr t thr HS HO i r up Hc) as [Hi E].
      apply filter_In. split.
      + apply in_loops. split; [|exact Hi]. destruct (cr_bounds t thr HO i r up Hi E) as [[B1 B2] _]. pose proof (rt_bounds t HO i Hi).
        destruct Hw as [W1 W2]. unfold before_time in *.
        split.
        * destruct (Z_lt_le_dec k' k) as [L|L]; [|exact L]. exfalso. apply W1. right.
          assert (IZR k' + 1 <= IZR k) by (rewrite <- plus_IZR; apply IZR_le; lia). lra.
        * destruct (Z_lt_le_dec k' (k + Z.of_nat m)) as [L|L]; [exact L|]. exfalso. apply IZR_le in L. destruct W2; lra.
      + unfold hits, pick. cbn [fst snd]. rewrite E. apply windowb_iff in Hw. rewrite Hw. reflexivity.
  Qed.
End Listing.

Theorem C40_forward (t : ftrack R R) thr a b : track_sized t -> track_ordered t -> a < b ->
  exists l, yields (mk_tjob t a b thr) l /\ lists_crossings t thr a b l.
Proof.
  intros HS HO Hab. destruct (covers_exists a b) as (k & m & C).
  eexists. split; [apply (yields_fwd t thr HS HO a b Hab k m C)|]. apply picks_lists; assumption.
Qed.
Print Assumptions C40_forward.
Theorem C40_backward (t : ftrack R R) thr a b : track_sized t -> track_ordered t -> a < b ->
  exists l, yields (mk_tjob t b a thr) (rev (map opposite l)) /\ lists_crossings t thr a b l.
Proof.
  intros HS HO Hab. destruct (covers_exists a b) as (k & m & C).
  eexists. split; [apply (yields_bwd t thr HS HO a b Hab k m C)|]. apply picks_lists; assumption.
Qed.
Print Assumptions C40_backward.
Theorem C40_empty_window (t : ftrack R R) thr a : yields (mk_tjob t a a thr) [].
Proof.
  exists 1%nat. unfold iter_new. cbn [j_from j_to]. assert (E : @neq R Rnum a a = true) by (cbn; destruct (Reqb_spec a a); congruence).
  rewrite E. reflexivity.
Qed.
Print Assumptions C40_empty_window.
(** The listing determines the edges, and their times do not decrease. *)
Lemma sorted_unique (ps qs : list (Z * nat)) : StronglySorted earlier ps -> StronglySorted earlier qs ->
  (forall p, In p ps <-> In p qs) -> ps = qs.
Proof.
  assert (IRR : forall p, ~ earlier p p) by (intros [k i] [H|[_ H]]; cbn in H; lia).
  assert (ASY : forall p q, earlier p q -> earlier q p -> False).
  { intros [k i] [k' i'] [H|[H H']] [G|[G G']]; cbn in *; lia. }
  revert qs. induction ps as [|p ps IH]; intros qs Hp Hq H.
  - destruct qs as [|q qs]; [reflexivity|]. destruct (proj2 (H q)). left; reflexivity.
  - destruct qs as [|q qs]; [destruct (proj1 (H p)); left; reflexivity|].
    inversion Hp as [|? ? P1 P2]; subst. inversion Hq as [|? ? Q1 Q2]; subst. rewrite Forall_forall in *.
    assert (E : p = q).
    { destruct (proj1 (H p) (or_introl eq_refl)) as [E|E]; [auto|]. destruct (proj2 (H q) (or_introl eq_refl)) as [E'|E']; [auto|].
      exfalso. apply (ASY p q); auto. }
    subst q. f_equal. apply IH; auto. intros x. split; intros Hx.
    + destruct (proj1 (H x) (or_intror Hx)) as [<-|]; [|assumption]. exfalso. apply (IRR p). auto.
    + destruct (proj2 (H x) (or_intror Hx)) as [<-|]; [|assumption]. exfalso. apply (IRR p). auto.
Qed.
Lemma crosses_fun (t : ftrack R R) thr i r up r' up' : track_sized t -> track_ordered t ->
  crosses t thr i r up -> crosses t thr i r' up' -> r = r' /\ up = up'.
Proof.
  intros HS HO H H'. apply (crosses_cr t thr HS HO) in H. apply (crosses_cr t thr HS HO) in H'. destruct H as [_ H], H' as [_ H'].
  rewrite H in H'. inversion H'; auto.
Qed.
Theorem C40_listing_unique (t : ftrack R R) thr a b l l' : track_sized t -> track_ordered t ->
  lists_crossings t thr a b l -> lists_crossings t thr a b l' -> l = l'.
Proof.
  intros HS HO (ps & P1 & P2 & P3) (qs & Q1 & Q2 & Q3).
  assert (IN : forall (ps qs : list (Z * nat)) l, Forall2 (fun p (e : edge R) => exists r, crosses t thr (snd p) r (e_rising e) /\ in_window a b (fst p) r /\ e_ratio e = IZR (fst p) + r) ps l ->
             (forall k i r up, crosses t thr i r up -> in_window a b k r -> In (k, i) qs) -> forall p, In p ps -> In p qs).
  { intros ps0 qs0 l0 F H p Hp. induction F as [|p' e ps0 l0 Hpe F IH]; [destruct Hp|]. destruct Hp as [<-|Hp]; [|auto].
    destruct Hpe as (r & C & W & _). destruct p' as [k i]. eapply H; eassumption. }
  assert (E : ps = qs). { apply sorted_unique; auto. intros p. split; eapply IN; eassumption. }
  subst qs. clear P1 Q1 P3 Q3 IN. revert l' Q2. induction P2 as [|p e ps l Hpe F IH]; intros l' Q; inversion Q; subst; [reflexivity|].
  destruct Hpe as (r & C & _ & E). destruct H1 as (r' & C' & _ & E').
  destruct (crosses_fun t thr (snd p) r (e_rising e) r' (e_rising y) HS HO C C') as [<- U].
  f_equal; [|auto]. destruct e, y; cbn in *; subst. reflexivity.
Qed.
Print Assumptions C40_listing_unique.
Theorem C40_times_sorted (t : ftrack R R) thr a b l : track_sized t -> track_ordered t ->
  lists_crossings t thr a b l -> StronglySorted Rle (map (fun e => e_ratio e) l).
Proof.
  intros HS HO (ps & P1 & P2 & _). induction P2 as [|p e ps l Hpe F IH]; [constructor|].
  inversion P1 as [|? ? P3 P4]; subst. cbn. constructor; [auto|]. rewrite Forall_forall in *.
  intros x Hx. apply in_map_iff in Hx. destruct Hx as (e' & <- & He').
  assert (Q : exists p', In p' ps /\ exists r, crosses t thr (snd p') r (e_rising e') /\ in_window a b (fst p') r /\ e_ratio e' = IZR (fst p') + r).
  { clear - F He'. induction F as [|p' e0 ps l Hpe F IH]; [destruct He'|]. destruct He' as [->|He']; [exists p'; split; [left; reflexivity|exact Hpe]|].
    destruct (IH He') as (q & Hq & H). exists q. split; [right; exact Hq|exact H]. }
  destruct Q as ([k' i'] & Hp' & r' & C' & _ & ->). destruct Hpe as (r & C & _ & ->). specialize (P4 _ Hp'). destruct p as [k i]. cbn [fst snd] in *.
  apply (crosses_cr t thr HS HO) in C. apply (crosses_cr t thr HS HO) in C'. destruct C as [Hi C], C' as [Hi' C'].
  destruct (cr_bounds t thr HO _ _ _ Hi C) as [[B1 B2] _]. destruct (cr_bounds t thr HO _ _ _ Hi' C') as [[B1' B2'] B3'].
  pose proof (rt_bounds t HO i Hi). destruct P4 as [L|[L1 L2]]; cbn [fst snd] in *.
  - assert (IZR k + 1 <= IZR k') by (rewrite <- plus_IZR; apply IZR_le; lia). lra.
  - subst k'. specialize (B3' i L2). lra.
Qed.
Print Assumptions C40_times_sorted.
(** At a crossing between two keys without step, the sampled track equals the threshold. *)
Theorem C40_crossing_value (t : ftrack R R) thr i r up d : track_sized t -> track_ordered t ->
  crosses t thr (S i) r up -> is_step t i = false -> sample_track lerp_f d t r = Ok thr.
Proof.
  intros HS HO C Hst. pose proof C as C0. apply (crosses_cr t thr HS HO) in C0. destruct C0 as [Hi C0].
  destruct (cr_bounds t thr HO _ _ _ Hi C0) as [[B1 B2] B3]. specialize (B3 i ltac:(lia)).
  destruct C as (v0 & v1 & E0 & E1 & _ & C). cbn [key_before] in *. rewrite Hst in C. destruct C as (r0 & r1 & R0 & R1 & EQ).
  assert (Q0 : rt t i = r0) by (apply nth_error_nth; exact R0). assert (Q1 : rt t (S i) = r1) by (apply nth_error_nth; exact R1).
  pose proof (proj2 HO i (S i) r0 r1 ltac:(lia) R0 R1).
  destruct (Rle_lt_dec r1 r) as [L|L].
  - replace r with r1 in * by lra. rewrite (C39_at_key t (S i) r1 v1 d HS HO R1 E1). f_equal. rewrite <- EQ. field. lra.
  - rewrite (between_R t r i r0 r1 v0 v1 d) by (auto; lra). rewrite Hst, EQ. reflexivity.
Qed.
Print Assumptions C40_crossing_value.

(** ** C41 *)
Fixpoint rising_times (x : R) (l : list R) : Prop := match l with [] => True | y :: l => x <= y /\ rising_times y l end.
Fixpoint last_time (x : R) (l : list R) : R := match l with [] => x | y :: l => last_time y l end.
(** [ls] are the edges of the successive windows. *)
Fixpoint frames (t : ftrack R R) (thr x : R) (times : list R) (ls : list (list (edge R))) : Prop :=
  match times, ls with
  | [], [] => True
  | y :: times, l :: ls => yields (mk_tjob t x y thr) l /\ frames t thr y times ls
  | _, _ => False
  end.
Lemma window_le (t : ftrack R R) thr x y : track_sized t -> track_ordered t -> x <= y ->
  forall k m, covers x y k m -> yields (mk_tjob t x y thr) (picks t thr (windowb x y) (loops t k m)).
Proof.
  intros HS HO Hxy k m C. destruct (Rle_lt_or_eq_dec _ _ Hxy) as [L|<-]; [apply yields_fwd; assumption|].
  rewrite picks_none; [apply C40_empty_window|]. intros. unfold windowb. apply andb_negb_l.
Qed.
Theorem C41_frame_by_frame (t : ftrack R R) thr x times ls l : track_sized t -> track_ordered t ->
  rising_times x times -> frames t thr x times ls -> yields (mk_tjob t x (last_time x times) thr) l -> l = concat ls.
Proof.
  intros HS HO. revert x ls l. induction times as [|y times IH]; intros x ls l HR HF HY; cbn in *.
  - destruct ls; [|contradiction]. apply (yields_unique _ _ _ HY). apply C40_empty_window.
  - destruct ls as [|l1 ls]; [contradiction|]. destruct HR as [Hxy HR], HF as [H1 HF]. cbn.
    assert (Hyz : y <= last_time y times). { clear - HR. revert y HR. induction times as [|z times IH]; intros y HR; cbn in *; [lra|]. destruct HR as [H1 H2]. specialize (IH z H2). lra. }
    destruct (covers_exists x (last_time y times)) as (k & m & C).
    assert (C1 : covers x y k m) by (destruct C; split; lra). assert (C2 : covers y (last_time y times) k m) by (destruct C; split; lra).
    rewrite <- (IH y ls _ HR HF (window_le t thr _ _ HS HO Hyz k m C2)).
    rewrite (yields_unique _ _ _ H1 (window_le t thr _ _ HS HO Hxy k m C1)).
    assert (Hxz : x <= last_time y times) by lra.
    rewrite (yields_unique _ _ _ HY (window_le t thr _ _ HS HO Hxz k m C)).
    apply (picks_split t thr HO); [lra|apply loops_sorted|]. intros k' i Hin. apply in_loops in Hin. apply Hin.
Qed.
Print Assumptions C41_frame_by_frame.

(** ** C42 *)
Theorem C42_backward_mirrors (t : ftrack R R) thr a b l : track_sized t -> track_ordered t -> a < b ->
  yields (mk_tjob t a b thr) l -> yields (mk_tjob t b a thr) (rev (map opposite l)).
Proof.
  intros HS HO Hab H. destruct (covers_exists a b) as (k & m & C).
  rewrite (yields_unique _ _ _ H (yields_fwd t thr HS HO a b Hab k m C)). apply yields_bwd; assumption.
Qed.
Print Assumptions C42_backward_mirrors.

(** ** C43 *)
Lemma alternates_rev (l : list (edge R)) : alternates l -> alternates (rev (map opposite l)).
Proof.
  assert (SN : forall l (e e' : edge R), alternates (l ++ [e]) -> e_rising e' = negb (e_rising e) -> alternates ((l ++ [e]) ++ [e'])).
  { induction l0 as [|x l0 IH]; intros e e' H E; [cbn; auto|]. cbn [app] in *.
    destruct l0 as [|y l0]; cbn [app] in *; [destruct H as [H _]; cbn; auto|]. destruct H as [H1 H2]. split; [exact H1|]. apply (IH e e'); assumption. }
  induction l as [|e l IH]; intros H; [exact I|]. cbn [map rev]. destruct l as [|e' l]; [exact I|].
  destruct H as [H1 H2]. specialize (IH H2). cbn [map rev] in *. apply SN; [exact IH|].
  unfold opposite. cbn. rewrite H1. rewrite negb_involutive. reflexivity.
Qed.
Theorem C43_edges_alternate (t : ftrack R R) thr a b l : track_sized t -> track_ordered t ->
  yields (mk_tjob t a b thr) l -> alternates l.
Proof.
  intros HS HO H.
  assert (SEG : forall x y k m, x <= y -> alternates (picks t thr (windowb x y) (loops t k m))).
  { intros x y k m Hxy. destruct (picks_segment t thr HO x y (loops t k m) Hxy (loops_sorted t m k)) as (l1 & l2 & E).
    { intros k' i Hin. apply in_loops in Hin. apply Hin. }
    apply (alternates_app_l _ l2). apply (alternates_app_r l1). rewrite <- E.
    destruct (length (t_ratios t)) eqn:En.
    - replace (loops t k m) with (@nil (Z * nat)); [exact I|]. destruct (loops t k m) as [|[k' i] q] eqn:Q; [reflexivity|].
      assert (In (k', i) (loops t k m)) by (rewrite Q; left; reflexivity). apply in_loops in H0. lia.
    - destruct (alt_loops t thr m k ltac:(lia)) as [A _]. apply alt_alternates in A. exact A. }
  destruct (Rtotal_order a b) as [L|[->|L]].
  - destruct (covers_exists a b) as (k & m & C). rewrite (yields_unique _ _ _ H (yields_fwd t thr HS HO a b L k m C)). apply SEG. lra.
  - rewrite (yields_unique _ _ _ H (C40_empty_window t thr b)). exact I.
  - destruct (covers_exists b a) as (k & m & C). rewrite (yields_unique _ _ _ H (yields_bwd t thr HS HO b a L k m C)).
    apply alternates_rev, SEG. lra.
Qed.
Print Assumptions C43_edges_alternate.

(** ** Concrete cases *)
Definition saw : ftrack R R := mk_track 3 [0; 1/2; 1] [0; 2; 0] [0%N].
Example saw_ok : track_sized saw /\ track_ordered saw.
Proof.
  split; [repeat split; cbn; lia|]. split.
  - intros [|[|[|[|i]]]] r H; inversion H; lra.
  - intros [|[|[|[|i]]]] [|[|[|[|j]]]] a b L Ha Hb; try lia; inversion Ha; inversion Hb; lra.
Qed.
Example saw_rises : crosses saw 1 1 (1/4) true /\ in_window 0 2 0 (1/4) /\ in_window 0 2 1 (1/4).
Proof.
  split; [|split; (split; [intros [H|H]; lra|left; lra])].
  exists 0, 2. split; [reflexivity|]. split; [reflexivity|]. split; [lra|]. exists 0, (1/2). repeat split. lra.
Qed.
(** The edges of two loops, frame by frame, contain the one at 1.25. *)
Example saw_frames l ls : frames saw 1 0 [1/3; 1/3; 2] ls -> yields (mk_tjob saw 0 2 1) l ->
  l = concat ls /\ In (mk_edge (5/4) true) l /\ alternates l /\ yields (mk_tjob saw 2 0 1) (rev (map opposite l)).
Proof.
  intros HF HY. destruct saw_ok as [HS HO]. split; [|split; [|split]].
  - apply (C41_frame_by_frame saw 1 0 [1/3; 1/3; 2] ls l HS HO); [cbn; lra|exact HF|exact HY].
  - destruct (C40_forward saw 1 0 2 HS HO ltac:(lra)) as (l' & Y & (ps & _ & F & A)). rewrite (yields_unique _ _ _ HY Y).
    assert (E : In (1%Z, 1%nat) ps) by (eapply A; apply saw_rises).
    clear - F E. induction F as [|p e ps l (r & C & _ & Ee) F IH]; [destruct E|]. destruct E as [->|E]; [left|right; auto].
    cbn [fst snd] in *. destruct (crosses_fun saw 1 1 r (e_rising e) (1/4) true) as [-> U]; try apply saw_ok; [exact C|apply saw_rises|].
    destruct e as [q u]. cbn in *. subst. f_equal. lra.
  - exact (C43_edges_alternate saw 1 0 2 l HS HO HY).
  - exact (C42_backward_mirrors saw 1 0 2 l HS HO ltac:(lra) HY).
Qed.

(** The same track in binary32: ratios 0, 0.5, 1; the middle key of the second one is a step. *)
Definition sawf (st : N) : ftrack f32 f32 := mk_track 3 [nzero; nhalf; none_] [nzero; ntwo; nzero] [st].
Example sawf_ok : track_sized (sawf 0) /\ increasing (sawf 0).
Proof.
  split; [repeat split; cbn; lia|].
  intros [|[|[|[|i]]]] [|[|[|[|j]]]] a b L Ha Hb; try lia; inversion Ha; inversion Hb; vm_compute; reflexivity.
Qed.
Definition bits_of (o : res f32) : option N := match o with Ok x => Some (f32_to_bits x) | _ => None end.
Example sawf_samples : map (fun r => bits_of (sample_track lerp_f nzero (sawf 2) r)) [f32_lit (-1) 0; f32_lit 1 (-2); f32_lit 3 (-2); none_; f32_lit 3 0]
  = map (fun x => Some (f32_to_bits x)) [nzero; none_; ntwo; nzero; nzero].
Proof. vm_compute. reflexivity. Qed.
Definition edges_bits (e : @edges_res f32) : option (list (N * bool)) :=
  match e with Edges l => Some (map (fun e => (f32_to_bits (e_ratio e), e_rising e)) l) | _ => None end.
Example sawf_edges :
  edges_bits (collect 20 (mk_tjob (sawf 0) nzero none_ none_) (iter_new (mk_tjob (sawf 0) nzero none_ none_)))
    = Some [(f32_to_bits (f32_lit 1 (-2)), true); (f32_to_bits (f32_lit 3 (-2)), false)] /\
  edges_bits (collect 20 (mk_tjob (sawf 0) none_ nzero none_) (iter_new (mk_tjob (sawf 0) none_ nzero none_)))
    = Some [(f32_to_bits (f32_lit 3 (-2)), true); (f32_to_bits (f32_lit 1 (-2)), false)].
Proof. split; vm_compute; reflexivity. Qed.
