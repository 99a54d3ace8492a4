(** Facts about binary32: order, bit patterns, exactness of literals, rounding errors. *)
From Coq Require Import Reals Lra Psatz.
From Flocq Require Import IEEE754.BinarySingleNaN Core Relative.
From Verif Require Import Base Num NumF32.
Local Open Scope R_scope.

Notation BIG := (bpow radix2 128).
Notation rnd32 := (round radix2 (SpecFloat.fexp 24 128) ZnearestE).

Lemma BIG_val : BIG = IZR (2 ^ 128).
Proof. reflexivity. Qed.

(** ** Order *)

(** Value in the extended reals; infinities are put at +-2^128. *)
Definition ext (x : f32) : R :=
  match x with
  | B754_infinity s => if s then - BIG else BIG
  | _ => B2R x
  end.

Lemma ext_finite x : is_finite x = true -> ext x = B2R x.
Proof. destruct x; simpl; auto; discriminate. Qed.
Lemma finite_bound (x : f32) : is_finite x = true -> - BIG < B2R x < BIG.
Proof.
  intros H. pose proof (abs_B2R_lt_emax 24 128 x) as B. apply Rabs_lt_inv in B. exact B.
Qed.
Lemma BIG_pos : 0 < BIG. Proof. apply bpow_gt_0. Qed.
Lemma ext_bound x : - BIG <= ext x <= BIG.
Proof.
  pose proof BIG_pos. destruct x as [s|s| |s m e b]; simpl; try lra.
  - destruct s; lra.
  - pose proof (finite_bound (B754_finite s m e b) eq_refl) as B. simpl in B. lra.
Qed.

Lemma Bcompare_ext (x y : f32) :
  is_nan x = false -> is_nan y = false -> Bcompare x y = Some (Rcompare (ext x) (ext y)).
Proof.
  intros Hx Hy. pose proof BIG_pos as Hb.
  destruct (is_finite x) eqn:Fx; destruct (is_finite y) eqn:Fy.
  - rewrite !ext_finite by assumption. apply Bcompare_correct; assumption.
  - destruct y as [sy|sy| |sy my ey by_]; try discriminate.
    pose proof (finite_bound x Fx). rewrite (ext_finite x Fx).
    destruct x as [sx|sx| |sx mx ex bx]; try discriminate; destruct sy; simpl ext;
      unfold Bcompare; simpl; f_equal; symmetry;
      try (apply Rcompare_Gt; simpl in *; lra); try (apply Rcompare_Lt; simpl in *; lra).
  - destruct x as [sx|sx| |sx mx ex bx]; try discriminate.
    pose proof (finite_bound y Fy). rewrite (ext_finite y Fy).
    destruct y as [sy|sy| |sy my ey by_]; try discriminate; destruct sx; simpl ext;
      unfold Bcompare; simpl; f_equal; symmetry;
      try (apply Rcompare_Gt; simpl in *; lra); try (apply Rcompare_Lt; simpl in *; lra).
  - destruct x as [sx|sx| |sx mx ex bx]; try discriminate;
    destruct y as [sy|sy| |sy my ey by_]; try discriminate.
    destruct sx, sy; unfold Bcompare; simpl; f_equal; symmetry;
      try (apply Rcompare_Eq; lra); try (apply Rcompare_Gt; lra); try (apply Rcompare_Lt; lra).
Qed.

Lemma Bleb_ext (x y : f32) :
  is_nan x = false -> is_nan y = false -> Bleb x y = Rle_bool (ext x) (ext y).
Proof.
  intros Hx Hy. unfold Bleb, SpecFloat.SFleb.
  change (SpecFloat.SFcompare (B2SF x) (B2SF y)) with (Bcompare x y).
  rewrite Bcompare_ext by assumption. unfold Rle_bool.
  destruct (Rcompare_spec (ext x) (ext y)); reflexivity.
Qed.
Lemma Bltb_ext (x y : f32) :
  is_nan x = false -> is_nan y = false -> Bltb x y = Rlt_bool (ext x) (ext y).
Proof.
  intros Hx Hy. unfold Bltb, SpecFloat.SFltb.
  change (SpecFloat.SFcompare (B2SF x) (B2SF y)) with (Bcompare x y).
  rewrite Bcompare_ext by assumption. unfold Rlt_bool.
  destruct (Rcompare_spec (ext x) (ext y)); reflexivity.
Qed.
Lemma Beqb_ext (x y : f32) :
  is_nan x = false -> is_nan y = false -> Beqb x y = Req_bool (ext x) (ext y).
Proof.
  intros Hx Hy. unfold Beqb, SpecFloat.SFeqb.
  change (SpecFloat.SFcompare (B2SF x) (B2SF y)) with (Bcompare x y).
  rewrite Bcompare_ext by assumption. unfold Req_bool.
  destruct (Rcompare_spec (ext x) (ext y)); reflexivity.
Qed.
Lemma Bleb_notnan (x y : f32) : Bleb x y = true -> is_nan x = false /\ is_nan y = false.
Proof.
  destruct x as [|[]| |], y as [|[]| |]; cbn; intros H; split; try reflexivity; try discriminate.
Qed.
Lemma Bltb_notnan (x y : f32) : Bltb x y = true -> is_nan x = false /\ is_nan y = false.
Proof.
  destruct x as [|[]| |], y as [|[]| |]; cbn; intros H; split; try reflexivity; try discriminate.
Qed.
Lemma Bleb_iff (x y : f32) :
  Bleb x y = true <-> is_nan x = false /\ is_nan y = false /\ ext x <= ext y.
Proof.
  split.
  - intros H. destruct (Bleb_notnan _ _ H) as [Hx Hy]. rewrite Bleb_ext in H by assumption.
    destruct (Rle_bool_spec (ext x) (ext y)); [auto|discriminate].
  - intros (Hx & Hy & H). rewrite Bleb_ext by assumption. apply Rle_bool_true. exact H.
Qed.
Lemma Bltb_iff (x y : f32) :
  Bltb x y = true <-> is_nan x = false /\ is_nan y = false /\ ext x < ext y.
Proof.
  split.
  - intros H. destruct (Bltb_notnan _ _ H) as [Hx Hy]. rewrite Bltb_ext in H by assumption.
    destruct (Rlt_bool_spec (ext x) (ext y)); [auto|discriminate].
  - intros (Hx & Hy & H). rewrite Bltb_ext by assumption. apply Rlt_bool_true. exact H.
Qed.

(** ** Literals *)
Lemma lit_format m e : (Z.abs m <= 2 ^ 24)%Z -> (-149 <= e <= 103)%Z ->
  generic_format radix2 (SpecFloat.fexp 24 128) (F2R (Float radix2 m e)).
Proof.
  intros Hm He. 
  assert (A : forall m, (Z.abs m < 2 ^ 24)%Z -> forall e, (-149 <= e)%Z -> generic_format radix2 (SpecFloat.fexp 24 128) (F2R (Float radix2 m e))).
  { intros m' Hm' e' He'. apply generic_format_FLT. exists (Float radix2 m' e'); simpl; auto. }
  destruct (Z.eq_dec (Z.abs m) (2 ^ 24)) as [E|E].
  - assert (m = (m / 2) * 2)%Z as Em.
    { destruct (Z.abs_spec m) as [[_ H]|[_ H]]; rewrite H in E.
      - subst m. reflexivity.
      - assert (m = - 2 ^ 24)%Z by lia. subst m. reflexivity. }
    replace (F2R (Float radix2 m e)) with (F2R (Float radix2 (m / 2) (e + 1))).
    + apply A; [|lia]. destruct (Z.abs_spec m) as [[? H]|[? H]]; rewrite H in E.
      * subst m. reflexivity.
      * assert (m = - 2 ^ 24)%Z by lia. subst m. reflexivity.
    + unfold F2R; simpl Fnum; simpl Fexp. rewrite Em at 2. rewrite bpow_plus, mult_IZR.
      change (bpow radix2 1) with 2. ring.
  - apply A; lia.
Qed.

Lemma f32_lit_exact m e : (Z.abs m <= 2 ^ 24)%Z -> (-149 <= e <= 103)%Z ->
  is_finite (f32_lit m e) = true /\ B2R (f32_lit m e) = IZR m * bpow radix2 e.
Proof.
  intros Hm He. unfold f32_lit.
  pose proof (binary_normalize_correct 24 128 _ _ mode_NE m e false) as C. cbv zeta in C.
  assert (Rg : round radix2 (SpecFloat.fexp 24 128) (round_mode mode_NE) (F2R (Float radix2 m e))
               = F2R (Float radix2 m e)).
  { apply round_generic; [apply valid_rnd_round_mode|]. apply lit_format; assumption. }
  rewrite Rg in C. rewrite Rlt_bool_true in C.
  - destruct C as (C1 & C2 & _). rewrite C1, C2. split; reflexivity.
  - unfold F2R; cbn [Fnum Fexp]. rewrite Rabs_mult, (Rabs_pos_eq (bpow radix2 e)) by apply bpow_ge_0.
    rewrite <- abs_IZR. apply Rle_lt_trans with (bpow radix2 24 * bpow radix2 e).
    + apply Rmult_le_compat_r; [apply bpow_ge_0|].
      change (bpow radix2 24) with (IZR (2 ^ 24)). apply IZR_le. assumption.
    + rewrite <- bpow_plus. apply bpow_lt. lia.
Qed.

Lemma nzero_f32 : nzero = B754_zero false :> f32. Proof. reflexivity. Qed.
Lemma lit_fin m e : (Z.abs m <= 2 ^ 24)%Z -> (-149 <= e <= 103)%Z -> is_nan (f32_lit m e) = false.
Proof.
  intros Hm He. destruct (f32_lit_exact m e Hm He) as [H _]. destruct (f32_lit m e); auto; discriminate.
Qed.
Lemma lit_ext m e : (Z.abs m <= 2 ^ 24)%Z -> (-149 <= e <= 103)%Z -> ext (f32_lit m e) = IZR m * bpow radix2 e.
Proof.
  intros Hm He. destruct (f32_lit_exact m e Hm He) as [H1 H2]. rewrite ext_finite by assumption. assumption.
Qed.
Lemma zero_ext : ext nzero = 0. Proof. reflexivity. Qed.
Lemma one_ext : ext none_ = 1.
Proof. change (@none_ f32 _) with (f32_lit 1 0). rewrite lit_ext by (simpl; lia). simpl. lra. Qed.
Lemma half_ext : ext nhalf = / 2.
Proof. change (@nhalf f32 _) with (f32_lit 1 (-1)). rewrite lit_ext by (simpl; lia). simpl. lra. Qed.

(** ** Conversions to i32 *)
Definition clampZ (z : Z) : Z := Z.max (-2147483648) (Z.min 2147483647 z).
Lemma Btrunc_Ztrunc (x : f32) : Btrunc x = Ztrunc (B2R x).
Proof.
  apply eq_IZR. rewrite Btrunc_correct by reflexivity.
  unfold round, F2R, scaled_mantissa, cexp, FIX_exp. cbn [Fnum Fexp]. change (- (0))%Z with 0%Z.
  change (bpow radix2 0) with 1. rewrite !Rmult_1_r. reflexivity.
Qed.
Lemma to_i32_ext (x : f32) : is_nan x = false -> f32_to_i32 x = clampZ (Ztrunc (ext x)).
Proof.
  intros H. destruct x as [s|s| |s m e b]; try discriminate.
  - unfold f32_to_i32. rewrite Btrunc_Ztrunc. reflexivity.
  - unfold f32_to_i32, ext. destruct s.
    + rewrite BIG_val, <- opp_IZR, Ztrunc_IZR. reflexivity.
    + rewrite BIG_val, Ztrunc_IZR. reflexivity.
  - unfold f32_to_i32. rewrite Btrunc_Ztrunc. reflexivity.
Qed.
Lemma to_i32_le (x y : f32) : is_nan x = false -> is_nan y = false -> ext x <= ext y ->
  (f32_to_i32 x <= f32_to_i32 y)%Z.
Proof.
  intros Hx Hy H. rewrite !to_i32_ext by assumption. unfold clampZ.
  pose proof (Ztrunc_le _ _ H). lia.
Qed.

(** ** Division and addition of non-negative numbers *)
Lemma rnd32_le x y : x <= y -> rnd32 x <= rnd32 y.
Proof. apply round_le; [apply fexp_correct; reflexivity|apply valid_rnd_N]. Qed.
Lemma rnd32_0 : rnd32 0 = 0.
Proof. apply round_0, valid_rnd_N. Qed.
Lemma rnd32_ge0 x : 0 <= x -> 0 <= rnd32 x.
Proof. intros H. rewrite <- rnd32_0. apply rnd32_le, H. Qed.

Lemma div_ext (x y : f32) :
  is_finite x = true -> is_finite y = true -> 0 <= B2R x -> 0 < B2R y ->
  is_nan (ndiv x y) = false /\ ext (ndiv x y) = Rmin (rnd32 (B2R x / B2R y)) BIG.
Proof.
  intros Fx Fy Hx Hy. simpl ndiv.
  pose proof (Bdiv_correct 24 128 _ _ mode_NE x y ltac:(lra)) as C. simpl round_mode in C.
  assert (Hq : 0 <= B2R x / B2R y).
  { apply Rmult_le_pos; [assumption|]. left. apply Rinv_0_lt_compat. assumption. }
  pose proof (rnd32_ge0 _ Hq) as Hr.
  rewrite (Rabs_pos_eq (rnd32 _)) in C by assumption.
  destruct (Rlt_bool_spec (rnd32 (B2R x / B2R y)) BIG) as [Hlt|Hge].
  - destruct C as (C1 & C2 & C3). rewrite Fx in C2.
    split; [destruct (Bdiv mode_NE x y); auto; discriminate|].
    rewrite ext_finite by assumption. rewrite C1. symmetry. apply Rmin_left. lra.
  - assert (S : exists s, Bdiv mode_NE x y = B754_infinity s /\ s = xorb (Bsign x) (Bsign y)).
    { unfold binary_overflow in C. simpl overflow_to_inf in C. 
      destruct (Bdiv mode_NE x y); simpl in C; try discriminate. inversion C. eauto. }
    destruct S as (s & -> & ->). split; [reflexivity|]. simpl ext.
    rewrite Rmin_right by assumption.
    assert (0 < B2R x).
    { destruct (Req_dec (B2R x) 0) as [E|E]; [|lra]. exfalso.
      rewrite E in Hge. unfold Rdiv in Hge. rewrite Rmult_0_l, rnd32_0 in Hge.
      pose proof BIG_pos. lra. }
    assert (P : forall z : f32, is_finite z = true -> 0 < B2R z -> Bsign z = false).
    { intros z Fz Hz. destruct z as [sz|sz| |sz mz ez bz]; try discriminate; simpl in Hz; [lra|].
      destruct sz; [|reflexivity]. exfalso. unfold F2R in Hz. simpl in Hz.
      pose proof (bpow_gt_0 radix2 ez). pose proof (IZR_lt (Zneg mz) 0 eq_refl). nra. }
    rewrite (P x), (P y) by assumption. reflexivity.
Qed.

Lemma add_pos_ext (x y : f32) :
  is_finite x = true -> 0 < B2R x -> is_nan y = false -> 0 <= ext y ->
  is_nan (nadd x y) = false /\
  ext (nadd x y) = if is_finite y then Rmin (rnd32 (B2R x + B2R y)) BIG else BIG.
Proof.
  intros Fx Hx Ny Hy. simpl nadd. pose proof BIG_pos as Hb. destruct (is_finite y) eqn:Fy.
  - rewrite ext_finite in Hy by assumption.
    pose proof (Bplus_correct 24 128 _ _ mode_NE x y Fx Fy) as C. simpl round_mode in C.
    assert (Hq : 0 <= B2R x + B2R y) by lra.
    pose proof (rnd32_ge0 _ Hq) as Hr.
    rewrite (Rabs_pos_eq (rnd32 _)) in C by assumption.
    destruct (Rlt_bool_spec (rnd32 (B2R x + B2R y)) BIG) as [Hlt|Hge].
    + destruct C as (C1 & C2 & C3).
      split; [destruct (Bplus mode_NE x y); auto; discriminate|].
      rewrite ext_finite by assumption. rewrite C1. symmetry. apply Rmin_left. lra.
    + destruct C as [C _].
      assert (S : Bplus mode_NE x y = B754_infinity (Bsign x)).
      { unfold binary_overflow in C. simpl overflow_to_inf in C.
        destruct (Bplus mode_NE x y); simpl in C; try discriminate. inversion C. reflexivity. }
      rewrite S. split; [reflexivity|]. rewrite Rmin_right by assumption.
      destruct x as [sx|sx| |sx mx ex bx]; try discriminate; simpl in Hx; [lra|].
      destruct sx; [|reflexivity]. exfalso. unfold F2R in Hx. simpl in Hx.
      pose proof (bpow_gt_0 radix2 ex). pose proof (IZR_lt (Zneg mx) 0 eq_refl). nra.
  - destruct y as [sy|sy| |sy my ey by_]; try discriminate. destruct sy; simpl in Hy; [lra|].
    destruct x as [sx|sx| |sx mx ex bx]; try discriminate; simpl in Hx; [lra|].
    split; reflexivity.
Qed.

(** ** Bit patterns *)
Lemma f32_of_SF_valid x : SpecFloat.valid_binary 24 128 x = true -> B2SF (f32_of_SF x) = x.
Proof.
  intros H. unfold f32_of_SF. generalize (eq_refl (SpecFloat.valid_binary 24 128 x)).
  pattern (SpecFloat.valid_binary 24 128 x) at 2 3. rewrite H. intros e. apply B2SF_SF2B.
Qed.

Lemma finite_shape m e : SpecFloat.bounded 24 128 m e = true ->
  (e = -149 /\ Zpos m < 2 ^ 24 \/ -149 <= e <= 104 /\ 2 ^ 23 <= Zpos m < 2 ^ 24)%Z /\ (e <= 104)%Z.
Proof.
  unfold SpecFloat.bounded. intros H. apply andb_prop in H. destruct H as [H1 H2].
  apply Z.leb_le in H2. unfold SpecFloat.canonical_mantissa in H1. apply Zeq_bool_eq in H1.
  rewrite Zpos_digits2_pos in H1. unfold SpecFloat.fexp, SpecFloat.emin in H1.
  pose proof (Zdigits_correct radix2 (Zpos m)) as D. simpl Z.abs in D.
  change (128 - 24)%Z with 104%Z in H2.
  change (3 - 128 - 24)%Z with (-149)%Z in H1.
  assert (Hd : (1 <= Zdigits radix2 (Zpos m))%Z).
  { pose proof (Zdigits_gt_0 radix2 (Zpos m) ltac:(discriminate)). lia. }
  split; [|exact H2].
  destruct (Z.eq_dec (Zdigits radix2 (Zpos m)) 24) as [E|E].
  - right. rewrite E in *. simpl in D. lia.
  - left. assert (Zdigits radix2 (Zpos m) <= 23)%Z by lia. split; [lia|].
    destruct D as [_ D]. eapply Z.lt_trans; [exact D|].
    apply (Zpower_lt radix2); lia.
Qed.

Lemma of_to_bits (x : f32) : f32_of_bits (f32_to_bits x) = x.
Proof.
  destruct x as [s|s| |s m e b].
  - destruct s; reflexivity.
  - destruct s; reflexivity.
  - reflexivity.
  - apply B2SF_inj. cbn [B2SF f32_to_bits].
    destruct (finite_shape m e b) as [Hs He]. change (2 ^ 23)%Z with 8388608%Z in Hs.
    change (2 ^ 24)%Z with 16777216%Z in Hs.
    set (mm := (if (N.pos m <? 8388608)%N then N.pos m else (Z.to_N (e + 150) * 8388608 + (N.pos m - 8388608))%N)).
    assert (Hmm : (mm < 2139095040)%N).
    { unfold mm. destruct (N.ltb_spec (N.pos m) 8388608); lia. }
    unfold f32_of_bits.
    assert (Bs : N.testbit ((if s then 2147483648 else 0) + mm) 31 = s).
    { rewrite N.testbit_eqb. change (2 ^ 31)%N with 2147483648%N.
      destruct s.
      - replace ((2147483648 + mm) / 2147483648)%N with 1%N; [reflexivity|].
        apply (N.div_unique _ _ 1 mm); lia.
      - rewrite N.div_small by lia. reflexivity. }
    rewrite Bs.
    rewrite N.shiftr_div_pow2. change (2 ^ 23)%N with 8388608%N.
    change 255%N with (N.ones 8). rewrite N.land_ones. change (2 ^ 8)%N with 256%N.
    change 8388607%N with (N.ones 23). rewrite N.land_ones. change (2 ^ 23)%N with 8388608%N.
    assert (E1 : ((((if s then 2147483648 else 0) + mm) / 8388608) mod 256 = mm / 8388608)%N).
    { destruct s.
      - change 2147483648%N with (256 * 8388608)%N. rewrite N.add_comm, N.div_add by discriminate.
        change 256%N with (1 * 256)%N at 1. rewrite N.mod_add by discriminate.
        apply N.mod_small. apply N.div_lt_upper_bound; lia.
      - rewrite N.add_0_l. apply N.mod_small. apply N.div_lt_upper_bound; lia. }
    assert (E2 : (((if s then 2147483648 else 0) + mm) mod 8388608 = mm mod 8388608)%N).
    { destruct s; [|rewrite N.add_0_l; reflexivity].
      change 2147483648%N with (256 * 8388608)%N. rewrite N.add_comm. apply N.mod_add. discriminate. }
    rewrite E1, E2. clear E1 E2 Bs.
    unfold mm. destruct (N.ltb_spec (N.pos m) 8388608) as [Hlt|Hge].
    + assert (e = -149)%Z by lia. subst e.
      rewrite N.div_small, N.mod_small by lia. cbn -[f32_of_SF].
      rewrite f32_of_SF_valid; [reflexivity|exact b].
    + set (k := Z.to_N (e + 150)) in *.
      assert (Hk : (1 <= k <= 254)%N) by (unfold k; lia).
      replace ((k * 8388608 + (N.pos m - 8388608)) / 8388608)%N with k
        by (apply (N.div_unique _ _ k (N.pos m - 8388608)); lia).
      replace ((k * 8388608 + (N.pos m - 8388608)) mod 8388608)%N with (N.pos m - 8388608)%N
        by (apply (N.mod_unique _ _ k (N.pos m - 8388608)); lia).
      destruct (Z.eqb_spec (Z.of_N k) 255); [lia|]. destruct (Z.eqb_spec (Z.of_N k) 0); [lia|].
      replace (N.pos m - 8388608 + 8388608)%N with (N.pos m) by lia.
      replace (Z.of_N k - 150)%Z with e by (unfold k; lia).
      rewrite f32_of_SF_valid; [reflexivity|exact b].
Qed.

Lemma to_bits_inj (x y : f32) : f32_to_bits x = f32_to_bits y -> x = y.
Proof. intros H. rewrite <- (of_to_bits x), <- (of_to_bits y), H. reflexivity. Qed.
