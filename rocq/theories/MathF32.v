(** Binary32 facts about the clamps and the trigonometric helpers of math.rs. *)
From Coq Require Import Reals Lra Psatz.
From Flocq Require Import IEEE754.BinarySingleNaN Core.
From Verif Require Import Base Num NumF32 Math F32Facts F32Err SamplingOrd.
Local Open Scope R_scope.

Lemma clamp_min_facts (x lo hi : f32) :
  is_nan lo = false -> is_nan hi = false -> Bleb lo hi = true ->
  let y := f32_min (f32_max x lo) hi in
  Bleb lo y = true /\ Bleb y hi = true /\
  (Bleb lo x = true -> Bleb x hi = true -> y = x) /\
  (Bltb x lo = true -> y = lo) /\
  (Bltb hi x = true -> y = hi) /\
  (is_nan x = true -> y = lo).
Proof.
  intros Nl Nh Hlh.
  assert (E : f32_min (f32_max x lo) hi =
              let y := if is_nan x then lo else if Bleb lo x then x else lo in if Bleb y hi then y else hi).
  { unfold f32_max, f32_min. rewrite Nl, Nh. cbv zeta.
    destruct (is_nan x) eqn:Nx; [rewrite Nl; reflexivity|].
    destruct (Bleb lo x); rewrite ?Nx, ?Nl; reflexivity. }
  cbv zeta. rewrite E. cbv zeta.
  assert (Rl : Bleb lo lo = true) by (apply Bleb_iff; repeat split; auto; apply Rle_refl).
  assert (Rh : Bleb hi hi = true) by (apply Bleb_iff; repeat split; auto; apply Rle_refl).
  assert (LN : forall u v : f32, Bltb u v = true -> Bleb v u = true -> False).
  { intros u v H1 H2. apply Bltb_iff in H1. apply Bleb_iff in H2.
    destruct H1 as (_ & _ & H1), H2 as (_ & _ & H2). exact (Rlt_irrefl _ (Rlt_le_trans _ _ _ H1 H2)). }
  assert (LL : forall u v : f32, Bltb u v = true -> Bleb u v = true).
  { intros u v H1. apply Bltb_iff in H1. apply Bleb_iff. destruct H1 as (? & ? & H1). repeat split; auto. left; exact H1. }
  assert (TR : forall u v w : f32, Bleb u v = true -> Bleb v w = true -> Bleb u w = true).
  { intros u v w H1 H2. apply Bleb_iff in H1, H2. apply Bleb_iff.
    destruct H1 as (? & ? & H1), H2 as (? & ? & H2). repeat split; auto. exact (Rle_trans _ _ _ H1 H2). }
  destruct (is_nan x) eqn:Nx.
  - rewrite Hlh. repeat split; auto; intros H.
    + intros H2. apply Bleb_iff in H. destruct H as (_ & H & _). congruence.
    + apply Bltb_iff in H. destruct H as (_ & H & _). congruence.
  - destruct (Bleb lo x) eqn:L1.
    + destruct (Bleb x hi) eqn:L0; (repeat split; auto; try discriminate; intros H).
      * exfalso. eauto.
      * exfalso. eauto.
      * exfalso. eauto.
    + rewrite Hlh. repeat split; auto; try discriminate; intros H.
      exfalso. rewrite (TR lo hi x Hlh (LL _ _ H)) in L1. discriminate.
Qed.

(** ** Signs *)
Lemma neg_neg (x : f32) : nneg (nneg x) = x. Proof. apply Bopp_involutive. Qed.
Lemma abs_neg (x : f32) : nabs (nneg x) = nabs x.
Proof. destruct x; reflexivity. Qed.
(** neither NaN nor a zero *)
Definition nonzero (x : f32) : Prop := match x with B754_zero _ | B754_nan => False | _ => True end.
Lemma ltz_neg (x : f32) : nonzero x -> nlt (nneg x) nzero = negb (nlt x nzero).
Proof. destruct x as [s|s| |s m e H]; intros Z; try contradiction; destruct s; reflexivity. Qed.
Lemma flip_negb b (x : f32) : flip (negb b) x = nneg (flip b x).
Proof. destruct b; cbn [flip negb]; [symmetry; apply neg_neg|reflexivity]. Qed.

Lemma sin_cos_neg (v : f32) : nonzero v ->
  sin_cos_lane (nneg v) = option_map (fun sc => (nneg (fst sc), snd sc)) (sin_cos_lane v).
Proof.
  intros Z. unfold sin_cos_lane. cbv zeta. change (@num_arith f32 f32num) with f32arith. rewrite (abs_neg v), (ltz_neg v Z).
  match goal with |- context [if ?c then _ else _] => destruct c end; [|reflexivity].
  cbn [option_map fst snd]. rewrite <- flip_negb, negb_xorb_l. reflexivity.
Qed.
Lemma asin_neg (v : f32) : nonzero v -> asin_lane (nneg v) = nneg (asin_lane v).
Proof.
  intros Z. unfold asin_lane. cbv zeta. change (@num_arith f32 f32num) with f32arith. rewrite (abs_neg v), (ltz_neg v Z). apply flip_negb.
Qed.

(** Two lanes with the same sign and the same clamped magnitude have the same arcsine. *)
Lemma asin_ext (v w : f32) : nlt v nzero = nlt w nzero -> nmin (nabs v) none_ = nmin (nabs w) none_ ->
  asin_lane v = asin_lane w.
Proof. intros H1 H2. unfold asin_lane. cbv zeta. change (@num_arith f32 f32num) with f32arith. rewrite H1, H2. reflexivity. Qed.
Lemma min1 (a one : f32) : Bltb one a = true -> f32_min a one = one.
Proof.
  intros H. apply Bltb_iff in H. destruct H as (N1 & Na & H). unfold f32_min. rewrite Na, N1.
  destruct (Bleb a one) eqn:E; [|reflexivity].
  apply Bleb_iff in E. destruct E as (_ & _ & E). lra.
Qed.
Lemma ext_opp (x : f32) : ext (Bopp x) = - ext x.
Proof. destruct x as [s|s| |s m e H]; try destruct s; unfold ext; rewrite ?B2R_Bopp; simpl; lra. Qed.
Lemma ltb_opp (x y : f32) : nlt x (nneg y) = true -> nlt y (nneg x) = true.
Proof.
  change (nneg y) with (Bopp y : f32). change (nneg x) with (Bopp x : f32).
  cbn [nlt f32num].
  intros H. apply Bltb_iff in H. destruct H as (N1 & N2 & H). apply Bltb_iff.
  rewrite ext_opp in *. rewrite is_nan_Bopp in *. repeat split; auto. lra.
Qed.
Lemma one_finite : exists m e H, @none_ f32 f32arith = B754_finite false m e H.
Proof.
  destruct fin_one as [F E]. change (@num_arith f32 f32num) with f32arith in *.
  revert F E. generalize (@none_ f32 f32arith). intros x F E.
  destruct x as [s|s| |[] m e H]; try discriminate.
  - simpl in E. lra.
  - exfalso. pose proof (F2R_lt_0 radix2 (Float radix2 (Zneg m) e) eq_refl) as N. simpl in E. rewrite E in N. lra.
  - eauto.
Qed.
Lemma asin_saturates (v : f32) :
  (nlt none_ v = true -> asin_lane v = asin_lane none_) /\
  (nlt v (nneg none_) = true -> asin_lane v = asin_lane (nneg none_)).
Proof.
  assert (A1 : @nmin f32 _ (nabs none_) none_ = none_) by (apply to_bits_inj; vm_compute; reflexivity).
  assert (Z : @nzero f32 f32arith = B754_zero false) by reflexivity.
  assert (O : exists m e H, @none_ f32 f32arith = B754_finite false m e H) by exact one_finite.
  assert (P : forall v : f32, nlt none_ v = true -> asin_lane v = asin_lane none_).
  { clear v. intros v H. apply asin_ext; change (@num_arith f32 f32num) with f32arith in *.
    - destruct O as (m & e & Hb & O). rewrite Z.
      rewrite O in H |- *. destruct v as [s|s| |s m' e' H']; try destruct s; try discriminate; reflexivity.
    - rewrite A1.
      change (f32_min (nabs v) none_ = none_). apply min1.
      destruct O as (m & e & Hb & O). rewrite O in *.
      destruct v as [s|s| |s m' e' H']; try destruct s; try discriminate; exact H. }
  split; [apply P|]. intros H. apply ltb_opp in H.
  rewrite <- (neg_neg v). rewrite asin_neg, (P _ H), asin_neg; [reflexivity| |].
  - destruct O as (m & e & Hb & O). rewrite O. exact I.
  - destruct O as (m & e & Hb & O). rewrite O in H. destruct v as [s|s| |s m' e' H']; try exact I; discriminate.
Qed.

(** ** Domain of the sine *)
Lemma finite_notnan (x : f32) : is_finite x = true -> is_nan x = false.
Proof. destruct x; auto; discriminate. Qed.
Lemma rnd_id x : generic_format radix2 (SpecFloat.fexp 24 128) x -> rnd32 x = x.
Proof. apply round_generic. apply valid_rnd_N. Qed.
Lemma rnd_le_lit x m e : (Z.abs m <= 2 ^ 24)%Z -> (-149 <= e <= 103)%Z ->
  x <= IZR m * bpow radix2 e -> rnd32 x <= IZR m * bpow radix2 e.
Proof.
  intros Hm He H. rewrite <- (rnd_id (IZR m * bpow radix2 e)); [apply rnd32_le, H|].
  apply (lit_format m e Hm He).
Qed.

Lemma quadrant_range (x fr hf : f32) : is_finite x = true -> 0 <= B2R x <= 2147483648 ->
  fin fr (10680707 * / 16777216) -> fin hf (/ 2) ->
  let q := ntrunc (nadd (nmul fr x) hf) in
  is_finite q = true /\ 0 <= B2R q < 2147483648.
Proof.
  intros Fx Hx Ff Fh. cbv zeta.
  assert (B1 : 0 <= 10680707 * / 16777216 * B2R x <= IZR 3 * bpow radix2 29).
  { simpl. lra. }
  destruct (fin_mul fr x _ _ Ff (conj Fx eq_refl)) as [F1 E1].
  { rewrite Rabs_pos_eq by apply B1. eapply Rle_trans; [apply B1|].
    replace (IZR 3 * bpow radix2 29) with (bpow radix2 29 * 3) by ring.
    unfold HUGE. change 127%Z with (29 + 98)%Z. rewrite bpow_plus. apply Rmult_le_compat_l; [apply bpow_ge_0|].
    simpl. lra. }
  assert (B2 : 0 <= B2R (nmul fr x) <= IZR 3 * bpow radix2 29).
  { rewrite E1. split; [apply rnd32_ge0, B1|]. apply rnd_le_lit; [simpl; lia|lia|apply B1]. }
  assert (B3 : 0 <= B2R (nmul fr x) + / 2 <= IZR 7 * bpow radix2 28).
  { simpl in B2 |- *. lra. }
  destruct (fin_add (nmul fr x) hf _ _ (conj F1 eq_refl) Fh) as [F2 E2].
  { rewrite Rabs_pos_eq by apply B3. eapply Rle_trans; [apply B3|].
    replace (IZR 7 * bpow radix2 28) with (bpow radix2 28 * 7) by ring.
    unfold HUGE. change 127%Z with (28 + 99)%Z. rewrite bpow_plus. apply Rmult_le_compat_l; [apply bpow_ge_0|].
    simpl. lra. }
  assert (B4 : 0 <= B2R (nadd (nmul fr x) hf) <= IZR 7 * bpow radix2 28).
  { rewrite E2. split; [apply rnd32_ge0, B3|]. apply rnd_le_lit; [simpl; lia|lia|apply B3]. }
  set (y := nadd (nmul fr x) hf) in *.
  destruct (Bnearbyint_correct 24 128 _ mode_ZR y) as (C1 & C2 & _).
  change (ntrunc y) with (Bnearbyint mode_ZR y : f32). rewrite C1, C2.
  split; [exact F2|]. simpl round_mode.
  unfold round, F2R, scaled_mantissa, cexp, FIX_exp. simpl bpow. cbn [Fnum Fexp]. simpl bpow. rewrite !Rmult_1_r.
  rewrite Ztrunc_floor by apply B4. split.
  - apply IZR_le. apply Zfloor_lub. apply B4.
  - eapply Rle_lt_trans; [apply Zfloor_lb|]. eapply Rle_lt_trans; [apply B4|]. simpl. lra.
Qed.

Lemma sin_cos_defined (v : f32) : is_finite v = true -> Rabs (B2R v) <= 2147483648 ->
  exists s c, sin_cos_lane v = Some (s, c).
Proof.
  intros Fv Hv. destruct (fin_abs v (B2R v) (conj Fv eq_refl)) as [Fa Ea].
  destruct (quadrant_range (nabs v) (nlit 10680707 (-24)) nhalf) as [Fq Bq].
  - exact Fa.
  - rewrite Ea. split; [apply Rabs_pos|exact Hv].
  - destruct (fin_lit 10680707 (-24)) as [F E]; [simpl; lia|lia|]. split; [exact F|].
    change (B2R (f32_lit 10680707 (-24)) = 10680707 * / 16777216). rewrite E. simpl. lra.
  - destruct (fin_lit 1 (-1)) as [F E]; [simpl; lia|lia|]. split; [exact F|].
    change (B2R (f32_lit 1 (-1)) = / 2). rewrite E. simpl. lra.
  - unfold sin_cos_lane. cbv zeta.
    change (@num_arith f32 f32num) with f32arith in *.
    set (q := ntrunc _) in *.
    assert (G : nle (nlit (-1) 31) q && nlt q (nlit 1 31) = true).
    { destruct (fin_lit (-1) 31) as [F0 E0]; [simpl; lia|lia|]. destruct (fin_lit 1 31) as [F1 E1]; [simpl; lia|lia|].
      apply andb_true_intro. split.
      - change (Bleb (f32_lit (-1) 31) q = true). apply Bleb_iff. repeat split; try (apply finite_notnan; assumption).
        rewrite !ext_finite by assumption. rewrite E0. simpl. lra.
      - change (Bltb q (f32_lit 1 31) = true). apply Bltb_iff. repeat split; try (apply finite_notnan; assumption).
        rewrite !ext_finite by assumption. rewrite E1. simpl. lra. }
    rewrite G. eexists. eexists. reflexivity.
Qed.
