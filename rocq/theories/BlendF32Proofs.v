(** Single-precision blending: the whole job for one joint. *)
From Coq Require Import Reals Lra Psatz.
From Flocq Require Import IEEE754.BinarySingleNaN Core Relative.
From Verif Require Import Base Num NumF32 F32Facts F32Err InterpF32 NormF32 Math Keys KeysSpec Skeleton Blending BlendingProofs BlendingSpec
  BlendLane BlendF32 BlendF32Spec.
Local Open Scope R_scope.

Lemma p2_pow k : (0 <= k)%Z -> p2 k = 2 ^ Z.to_nat k.
Proof. intros H. rewrite bpow_powerRZ. rewrite <- (Z2Nat.id k) at 1 by exact H. rewrite <- pow_powerRZ. reflexivity. Qed.
Lemma p2_inv k : (0 <= k)%Z -> p2 (- k) = / 2 ^ Z.to_nat k.
Proof. intros H. rewrite bpow_opp, p2_pow by exact H. reflexivity. Qed.

Lemma fin_of x : is_finite x = true -> fin x (B2R x). Proof. intros H. split; auto. Qed.
Lemma fin_max x y a b : fin x a -> fin y b -> fin (nmax x y) (Rmax a b).
Proof.
  intros (Fx & Ex) (Fy & Ey). change (@nmax f32 _ x y) with (f32_max x y). unfold f32_max.
  assert (Nx : is_nan x = false) by (destruct x; auto; discriminate). assert (Ny : is_nan y = false) by (destruct y; auto; discriminate).
  rewrite Nx, Ny, Bleb_ext by assumption. rewrite !ext_finite, Ex, Ey by assumption.
  destruct (Rle_bool_spec b a).
  - rewrite Rmax_left by assumption. split; assumption.
  - rewrite Rmax_right by lra. split; assumption.
Qed.
Lemma nle0_fin x a : fin x a -> nle x nzero = (if Rle_dec a 0 then true else false).
Proof.
  intros [F <-]. change (nle x nzero) with (Bleb x (nzero : f32)).
  rewrite Bleb_ext by (destruct x; try reflexivity; discriminate). rewrite zero_ext, ext_finite by exact F.
  destruct (Rle_bool_spec (B2R x) 0), (Rle_dec (B2R x) 0); auto; lra.
Qed.
Lemma nlt0_fin x a : fin x a -> nlt nzero x = (if Rlt_dec 0 a then true else false).
Proof.
  intros [F <-]. change (nlt nzero x) with (Bltb (nzero : f32) x).
  rewrite Bltb_ext by (destruct x; try reflexivity; discriminate). rewrite zero_ext, ext_finite by exact F.
  destruct (Rlt_bool_spec 0 (B2R x)), (Rlt_dec 0 (B2R x)); auto; lra.
Qed.
Lemma eff_fin l : usable_weight (ly_weight l) -> eff l = (if Rlt_dec 0 (B2R (ly_weight l)) then true else false).
Proof.
  intros [F _]. pose proof (nle0_fin _ _ (fin_of _ F)) as E. unfold eff.
  match goal with |- negb ?x = _ => replace x with (if Rle_dec (B2R (ly_weight l)) 0 then true else false) by (symmetry; exact E) end.
  destruct (Rle_dec (B2R (ly_weight l)) 0), (Rlt_dec 0 (B2R (ly_weight l))); auto; lra.
Qed.

(** ** The weight of an effective layer *)
Definition good_weight (W : R) : Prop := W = 0 \/ p2 (-30) <= W <= p2 20.
Lemma good_range W : good_weight W -> 0 <= W <= p2 20.
Proof. pose proof (p2_pos 20). pose proof (p2_pos (-30)). intros [->|HW]; lra. Qed.
Lemma weight_pos w : usable_weight w -> 0 < B2R w -> p2 (-15) <= B2R w <= p2 10.
Proof.
  intros [_ H] P. change (-15)%Z with (- (15))%Z. rewrite (p2_inv 15), (p2_pow 10) by lia. change (Z.to_nat 15) with 15%nat. change (Z.to_nat 10) with 10%nat.
  destruct H; lra.
Qed.
Lemma mul_lo x y k j : p2 k <= x -> p2 j <= y -> p2 (k + j) <= x * y.
Proof. intros. rewrite bpow_plus. apply Rmult_le_compat; auto; apply Rlt_le, p2_pos. Qed.
Lemma mul_hi x y k j : 0 <= x <= p2 k -> 0 <= y <= p2 j -> x * y <= p2 (k + j).
Proof. intros. rewrite bpow_plus. apply Rmult_le_compat; lra. Qed.
Lemma gw_fin i l : usable_layer i l -> 0 < B2R (ly_weight l) ->
  exists W, fin (gw l i) W /\ good_weight W /\ (ly_joint_weights l = [] -> W = B2R (ly_weight l)).
Proof.
  intros (Uw & U) P. destruct (U P) as (_ & Um). pose proof (weight_pos _ Uw P) as B. destruct Uw as [Fw _]. unfold gw.
  destruct (ly_joint_weights l) as [|a ws] eqn:E.
  - exists (B2R (ly_weight l)). split; [apply fin_of, Fw|]. split; [|reflexivity]. right.
    pose proof (bpow_le radix2 (-30) (-15) ltac:(lia)). pose proof (bpow_le radix2 10 20 ltac:(lia)). lra.
  - specialize (Um ltac:(discriminate)). set (m := lane _ _) in *. pose proof Um as [Fm Bm].
    pose proof (fin_max _ _ _ _ (fin_of _ Fm) fin_zero) as FM.
    set (M := Rmax (B2R m) 0) in *.
    assert (HM : M = 0 \/ p2 (-15) <= M <= p2 10).
    { destruct (Rle_lt_dec (B2R m) 0) as [L|G]; [left; apply Rmax_right, L|right]. unfold M. rewrite Rmax_left by lra. apply weight_pos; assumption. }
    assert (HW : B2R (ly_weight l) * M = 0 \/ p2 (-30) <= B2R (ly_weight l) * M <= p2 20).
    { destruct HM as [->|HM]; [left; ring|right]. split; [apply (mul_lo _ _ (-15) (-15)); lra|].
      pose proof (p2_pos (-15)). apply (mul_hi _ _ 10 10); lra. }
    exists (rnd32 (B2R (ly_weight l) * M)). split; [|split; [|discriminate]].
    + apply fin_mul; [apply fin_of, Fw|exact FM|]. apply (p2_le_HUGE 20); [lia|]. pose proof (p2_pos 20). pose proof (p2_pos (-30)).
      apply Rabs_le. lra.
    + destruct HW as [->|HW]; [left; apply round_0, valid_rnd_N|right]. split; [apply rnd_ge_p2; [lia|lra]|apply rnd_le_p2; [lia|lra]].
Qed.

(** ** Translation and scale *)
Definition linb (b : R) (t : transform f32) : Prop := forall c, exists v, fin (linear t c) v /\ Rabs v <= b.
Lemma lin_pass x y w a b W : fin x a -> fin y b -> fin w W -> Rabs a <= p2 86 -> Rabs b <= p2 40 -> 0 <= W <= p2 20 ->
  exists v, fin (nadd x (nmul y w)) v /\ Rabs v <= p2 86.
Proof.
  intros Fx Fy Fw Ba Bb HW.
  assert (BM : Rabs (b * W) <= p2 60).
  { rewrite Rabs_mult, (Rabs_pos_eq W) by lra. apply (mul_hi _ _ 40 20); [|lra]. split; [apply Rabs_pos|exact Bb]. }
  pose proof (rnd_abs_le 60 _ ltac:(lia) BM) as BR.
  exists (rnd32 (a + rnd32 (b * W))). split.
  - apply fin_add; [exact Fx|apply fin_mul; auto; apply (p2_le_HUGE 60); [lia|exact BM]|].
    apply (p2_le_HUGE 87); [lia|]. eapply Rle_trans; [apply Rabs_triang|]. change 87%Z with (1 + 86)%Z. rewrite (p2_shift 1 86 2) by (simpl; lra).
    pose proof (bpow_le radix2 60 86 ltac:(lia)). lra.
  - apply (absorb 60); [lia|exact Ba|exact BR].
Qed.
Lemma lin_first y w b W : fin y b -> fin w W -> Rabs b <= p2 40 -> 0 <= W <= p2 20 -> exists v, fin (nmul y w) v /\ Rabs v <= p2 86.
Proof.
  intros Fy Fw Bb HW.
  assert (BM : Rabs (b * W) <= p2 60).
  { rewrite Rabs_mult, (Rabs_pos_eq W) by lra. apply (mul_hi _ _ 40 20); [|lra]. split; [apply Rabs_pos|exact Bb]. }
  exists (rnd32 (b * W)). split; [apply fin_mul; auto; apply (p2_le_HUGE 60); [lia|exact BM]|].
  eapply Rle_trans; [apply rnd_abs_le; [|exact BM]; lia|]. apply bpow_le. lia.
Qed.
Lemma linear_npass t w o c : linear (g_npass t w o) c = nadd (linear o c) (nmul (linear t c) w).
Proof. destruct c as [|[|[|[|[|c]]]]]; reflexivity. Qed.
Lemma linear_1st t w c : linear (g_1st t w) c = nmul (linear t c) w.
Proof. destruct c as [|[|[|[|[|c]]]]]; reflexivity. Qed.
Lemma linear_norm r t c : linear (g_norm r t) c = nmul (linear t c) r.
Proof. destruct c as [|[|[|[|[|c]]]]]; reflexivity. Qed.

(** What a usable transform gives. *)
Definition bq (q : quat f32) : quat R := Q4 (B2R (qx q)) (B2R (qy q)) (B2R (qz q)) (B2R (qw q)).
Lemma usable_parts t : usable_transform t ->
  linb (p2 40) t /\ finq (tr_r t) (bq (tr_r t)) /\ boundq 2 (bq (tr_r t)) /\ 0.99 <= nq (bq (tr_r t)) <= 1.01.
Proof.
  intros (L & Fq & N).
  assert (N' : 0.99 <= nq (bq (tr_r t)) <= 1.01).
  { apply Rabs_le_inv in N. change (sumsq (tr_r t)) with (nq (bq (tr_r t))) in N. lra. }
  split; [|split; [|split; [|exact N']]].
  - intros c. destruct (L c) as [F B]. exists (B2R (linear t c)). split; [apply fin_of, F|]. rewrite (p2_pow 40) by lia. exact B.
  - pose proof (Fq 0%nat). pose proof (Fq 1%nat). pose proof (Fq 2%nat). pose proof (Fq 3%nat). repeat split; assumption.
  - unfold nq in N'. assert (SB : forall p, p * p <= 1.01 -> Rabs p <= 2) by (intros; apply Rabs_le; split; nra).
    clear - N' SB. pose proof (Rle_0_sqr (qx (bq (tr_r t)))). pose proof (Rle_0_sqr (qy (bq (tr_r t)))).
    pose proof (Rle_0_sqr (qz (bq (tr_r t)))). pose proof (Rle_0_sqr (qw (bq (tr_r t)))). unfold Rsqr in *.
    repeat split; apply SB; lra.
Qed.

(** ** The invariant of the layers *)
Definition st_ok (a : option (f32 * transform f32)) : Prop :=
  match a with
  | None => True
  | Some (acc, o) => exists A r, fin acc A /\ 0 <= A <= p2 46 /\ linb (p2 86) o /\ finq (tr_r o) r /\ boundq (p2 47) r /\
      (p2 (-61) <= nq r \/ A = 0)
  end.
Lemma wsq W : p2 (-30) <= W -> p2 (-60) <= W * W.
Proof. intros H. apply (mul_lo W W (-30) (-30)); assumption. Qed.
Lemma nq_pos a : 0 <= nq a. Proof. unfold nq. nra. Qed.
Lemma half_60 x : 0.9 * x <= x -> p2 (-60) <= x -> p2 (-61) <= 0.9 * x.
Proof. intros _ H. change (-61)%Z with (-1 + -60)%Z. rewrite (p2_shift (-1) (-60) (/ 2)) by (simpl; lra). pose proof (p2_pos (-60)). lra. Qed.

Lemma step_ok i a l : usable_layer i l -> st_ok a -> st_ok (g_step i a l).
Proof.
  intros U H. unfold g_step. rewrite (eff_fin l (proj1 U)).
  destruct (Rlt_dec 0 (B2R (ly_weight l))) as [P|P]; [|exact H].
  destruct (gw_fin i l U P) as (W & FW & GW & _). pose proof (good_range W GW) as RW.
  destruct (proj2 U P) as (Ut & _). destruct (usable_parts _ Ut) as (Lt & Fq & Bq & Nq).
  destruct a as [[acc o]|].
  - destruct H as (A & r & FA & BA & Lo & Fr & Br & Hn). cbn [st_ok].
    destruct (rot_pass _ _ _ _ _ _ Fr Fq FW Br Bq Nq RW) as (o' & Fo & Bo & Z & N).
    exists (rnd32 (A + W)), o'.
    assert (AH : Rabs (A + W) <= HUGE).
    { apply (p2_le_HUGE 47); [lia|]. change 47%Z with (1 + 46)%Z. rewrite (p2_shift 1 46 2) by (simpl; lra).
      pose proof (bpow_le radix2 20 46 ltac:(lia)). apply Rabs_le. lra. }
    split; [apply fin_add; assumption|]. split; [|split; [|split; [exact Fo|split; [exact Bo|]]]].
    + split; [apply rnd_nonneg; lra|]. eapply Rle_trans; [apply Rle_abs|].
      apply (absorb 20); [lia| |]; rewrite Rabs_pos_eq by lra; [apply BA|apply RW].
    + intros c. destruct (Lo c) as (v & Fv & Bv). destruct (Lt c) as (u & Fu & Bu). rewrite linear_npass. eapply lin_pass; eassumption.
    + destruct GW as [GW|GW].
      * subst W. rewrite (Z eq_refl). rewrite Rplus_0_r. rewrite (fmt_rnd A) by (eapply fin_fmt, FA). exact Hn.
      * left. pose proof (wsq W (proj1 GW)) as QW. pose proof (nq_pos r) as Pr.
        eapply Rle_trans; [|apply N]; [apply half_60|]; pose proof (bpow_le radix2 (-62) (-60) ltac:(lia)); pose proof (p2_pos (-60)); lra.
  - cbn [st_ok]. destruct (rot_first _ _ _ _ Fq FW Bq Nq RW) as (o' & Fo & Bo & N).
    exists W, o'. split; [exact FW|]. split; [pose proof (bpow_le radix2 20 46 ltac:(lia)); lra|].
    split; [|split; [exact Fo|split; [exact Bo|]]].
    + intros c. destruct (Lt c) as (u & Fu & Bu). rewrite linear_1st. eapply lin_first; eassumption.
    + destruct GW as [GW|GW]; [right; exact GW|left].
      pose proof (wsq W (proj1 GW)) as QW.
      eapply Rle_trans; [|apply N]; [apply half_60|]; pose proof (bpow_le radix2 (-62) (-60) ltac:(lia)); pose proof (p2_pos (-60)); lra.
Qed.
Lemma cols_ok i ls : Forall (usable_layer i) ls -> st_ok (g_cols i ls).
Proof.
  intros H. unfold g_cols. assert (G : st_ok None) by exact I. revert G. generalize (@None (f32 * transform f32)).
  induction H as [|l ls U H IH]; intros a Ha; [exact Ha|]. cbn [fold_left]. apply IH. apply step_ok; assumption.
Qed.

(** Without partial layers, every effective layer has its full weight. *)
Definition full_st (a : option (f32 * transform f32)) : Prop :=
  match a with None => True | Some (acc, o) => exists r, finq (tr_r o) r /\ p2 (-61) <= nq r end.
Lemma finq_inj q a b : finq q a -> finq q b -> a = b.
Proof.
  destruct a, b. intros ((_ & A0) & (_ & A1) & (_ & A2) & (_ & A3)) ((_ & B0) & (_ & B1) & (_ & B2) & (_ & B3)). cbn in *. congruence.
Qed.
Lemma full_ok i ls : Forall (usable_layer i) ls -> some_partial ls = false -> full_st (g_cols i ls).
Proof.
  intros H. unfold g_cols, some_partial. assert (G : st_ok None /\ full_st None) by (split; exact I). revert G. generalize (@None (f32 * transform f32)).
  induction H as [|l ls U H IH]; intros a Ha E; [apply Ha|]. cbn [fold_left existsb] in *. apply orb_false_elim in E. destruct E as [E1 E2].
  apply IH; [|exact E2]. split; [apply step_ok; [exact U|apply Ha]|].
  destruct Ha as [Ha Hf]. unfold g_step. rewrite (eff_fin l (proj1 U)) in *.
  destruct (Rlt_dec 0 (B2R (ly_weight l))) as [P|P]; [|exact Hf]. cbn [andb] in E1.
  destruct (gw_fin i l U P) as (W & FW & GW & EW). pose proof (good_range W GW) as RW.
  assert (N : ly_joint_weights l = []) by (unfold is_partial in E1; destruct (ly_joint_weights l); [reflexivity|discriminate]).
  specialize (EW N). destruct (proj2 U P) as (Ut & _). destruct (usable_parts _ Ut) as (Lt & Fq & Bq & Nq).
  assert (W30 : p2 (-30) <= W) by (destruct GW as [->|GW]; [lra|apply GW]). pose proof (wsq W W30) as QW.
  destruct a as [[acc o]|]; cbn [full_st].
  - destruct Ha as (A & r & FA & BA & Lo & Fr & Br & Hn).
    destruct (rot_pass _ _ _ _ _ _ Fr Fq FW Br Bq Nq RW) as (o' & Fo & Bo & Z & N').
    exists o'. split; [exact Fo|]. pose proof (nq_pos r) as Pr.
    eapply Rle_trans; [|apply N']; [apply half_60|]; pose proof (bpow_le radix2 (-62) (-60) ltac:(lia)); pose proof (p2_pos (-60)); lra.
  - destruct (rot_first _ _ _ _ Fq FW Bq Nq RW) as (o' & Fo & Bo & N'). exists o'. split; [exact Fo|].
    eapply Rle_trans; [|apply N']; [apply half_60|]; pose proof (bpow_le radix2 (-62) (-60) ltac:(lia)); pose proof (p2_pos (-60)); lra.
Qed.

Lemma sumw_fin i ls : Forall (usable_layer i) ls -> exists A, fin (sumw ls nzero) A /\ 0 <= A <= p2 46.
Proof.
  intros H. assert (G : exists A, fin (nzero : f32) A /\ 0 <= A <= p2 46) by (exists 0; split; [apply fin_zero|pose proof (p2_pos 46); lra]).
  revert G. unfold sumw. generalize (nzero : f32). induction H as [|l ls U H IH]; intros a Ha; [exact Ha|]. cbn [fold_left]. apply IH.
  unfold sum_step. rewrite (eff_fin l (proj1 U)). destruct (Rlt_dec 0 (B2R (ly_weight l))) as [P|P]; [|exact Ha].
  destruct Ha as (A & FA & BA). pose proof (weight_pos _ (proj1 U) P) as B. destruct U as ((Fw & _) & _).
  pose proof (bpow_le radix2 10 20 ltac:(lia)).
  exists (rnd32 (A + B2R (ly_weight l))). split; [|split].
  - apply fin_add; [exact FA|apply fin_of, Fw|]. apply (p2_le_HUGE 47); [lia|]. change 47%Z with (1 + 46)%Z. rewrite (p2_shift 1 46 2) by (simpl; lra).
    pose proof (bpow_le radix2 20 46 ltac:(lia)). apply Rabs_le. lra.
  - apply rnd_nonneg. lra.
  - eapply Rle_trans; [apply Rle_abs|]. apply (absorb 20); [lia| |]; rewrite Rabs_pos_eq by lra; [apply BA|lra].
Qed.

(** After the rest pose. *)
Lemma rest_ok thr i ls rest : usable_threshold thr -> usable_transform rest -> Forall (usable_layer i) ls ->
  exists A r, let wo := g_rest thr ls rest (g_cols i ls) in
    fin (fst wo) A /\ p2 (-20) <= A /\ linb (p2 86) (snd wo) /\ finq (tr_r (snd wo)) r /\ boundq (p2 47) r /\ p2 (-64) <= nq r.
Proof.
  intros [Ft Bt] Ur H. destruct (usable_parts _ Ur) as (Lt & Fq & Bq & Nq).
  assert (Bt' : p2 (-20) <= B2R thr <= p2 20).
  { change (-20)%Z with (- (20))%Z. rewrite (p2_inv 20), (p2_pow 20) by lia. exact Bt. }
  pose proof (fin_of _ Ft) as Ft'. pose proof (p2_pos (-20)) as P20. pose proof (p2_pos 20) as P20'. pose proof (p2_pos 46) as P46.
  pose proof (cols_ok i ls H) as HC. unfold g_rest.
  pose proof (bpow_le radix2 (-64) (-62) ltac:(lia)) as L1. pose proof (bpow_le radix2 (-62) (-61) ltac:(lia)) as L2.
  pose proof (bpow_le radix2 20 46 ltac:(lia)) as L3.
  assert (L4 : p2 (-64) <= 0.9 * p2 (-62)).
  { change (-64)%Z with (-2 + -62)%Z. rewrite (p2_shift (-2) (-62) (/ 4)) by (simpl; lra). pose proof (p2_pos (-62)). lra. }
  destruct (g_cols i ls) as [[acc o]|] eqn:EC.
  - destruct HC as (A & r & FA & BA & Lo & Fr & Br & Hn).
    destruct (some_partial ls) eqn:SP; cbn [fst snd].
    + assert (TH : Rabs (B2R thr - A) <= HUGE).
      { apply (p2_le_HUGE 47); [lia|]. change 47%Z with (1 + 46)%Z. rewrite (p2_shift 1 46 2) by (simpl; lra). apply Rabs_le. lra. }
      pose proof (fin_sub _ _ _ _ Ft' FA TH) as FS. pose proof (fin_max _ _ _ _ FS fin_zero) as FB.
      set (W := Rmax (rnd32 (B2R thr - A)) 0) in *.
      assert (RW : 0 <= W <= p2 20).
      { split; [apply Rmax_r|]. apply Rmax_lub; [|lra]. apply rnd_le_p2; [lia|lra]. }
      destruct (rot_pass _ _ _ _ _ _ Fr Fq FB Br Bq Nq RW) as (o' & Fo & Bo & Z & N).
      exists (Rmax (B2R thr) A), o'. cbv zeta. split; [apply fin_max; assumption|]. split; [eapply Rle_trans; [apply Bt'|apply Rmax_l]|].
      split; [|split; [exact Fo|split; [exact Bo|]]].
      * intros c. destruct (Lo c) as (v & Fv & Bv). destruct (Lt c) as (u & Fu & Bu). rewrite linear_npass. eapply lin_pass; eassumption.
      * pose proof (nq_pos r). pose proof (Rle_0_sqr W) as QW. unfold Rsqr in QW.
        assert (D : p2 (-62) <= nq r + W * W).
        { destruct Hn as [Hn| ->]; [lra|]. unfold W in *. rewrite Rminus_0_r in *. rewrite (fmt_rnd (B2R thr)) in * by (eapply fin_fmt, Ft').
          rewrite Rmax_left in * by lra. pose proof (mul_lo _ _ _ _ (proj1 Bt') (proj1 Bt')) as Q.
          pose proof (bpow_le radix2 (-62) (-20 + -20) ltac:(lia)). lra. }
        specialize (N D). lra.
    + destruct (sumw_fin i ls H) as (Sw & FS & BS).
      assert (TH : Rabs (B2R thr - Sw) <= HUGE).
      { apply (p2_le_HUGE 47); [lia|]. change 47%Z with (1 + 46)%Z. rewrite (p2_shift 1 46 2) by (simpl; lra). apply Rabs_le. lra. }
      pose proof (fin_sub _ _ _ _ Ft' FS TH) as FD.
      pose proof (full_ok i ls H SP) as HF. rewrite EC in HF. cbn [full_st] in HF. destruct HF as (r' & Fr' & Nr).
      rewrite (finq_inj _ _ _ Fr' Fr) in Nr. cbv zeta.
      match goal with |- context [if ?cond then _ else _] => replace cond with (if Rlt_dec 0 (rnd32 (B2R thr - Sw)) then true else false)
        by (symmetry; exact (nlt0_fin _ _ FD)) end.
      destruct (Rlt_dec 0 (rnd32 (B2R thr - Sw))) as [G|G]; cbn [fst snd].
      * assert (RW : 0 <= rnd32 (B2R thr - Sw) <= p2 20) by (split; [lra|apply rnd_le_p2; [lia|lra]]).
        destruct (rot_pass _ _ _ _ _ _ Fr Fq FD Br Bq Nq RW) as (o' & Fo & Bo & Z & N).
        exists (B2R thr), o'. split; [exact Ft'|]. split; [apply Bt'|]. split; [|split; [exact Fo|split; [exact Bo|]]].
        -- intros c. destruct (Lo c) as (v & Fv & Bv). destruct (Lt c) as (u & Fu & Bu). rewrite linear_npass. eapply lin_pass; eassumption.
        -- pose proof (Rle_0_sqr (rnd32 (B2R thr - Sw))) as QW. unfold Rsqr in QW.
           assert (D : p2 (-62) <= nq r + rnd32 (B2R thr - Sw) * rnd32 (B2R thr - Sw)) by lra. specialize (N D). lra.
      * exists Sw, r. split; [exact FS|]. split; [|split; [exact Lo|split; [exact Fr|split; [exact Br|lra]]]].
        destruct (Rle_lt_dec (B2R thr) Sw) as [L|L]; [lra|]. exfalso. apply G.
        destruct (rnd_sub_rel (B2R thr) Sw (fin_fmt _ _ Ft') (fin_fmt _ _ FS)) as (e & He & ->). apply eps_inv in He.
        apply Rmult_lt_0_compat; lra.
  - exists 1, (bq (tr_r rest)). cbv zeta. cbn [fst snd]. split; [apply fin_one|]. split; [|split; [|split; [exact Fq|split]]].
    + simpl. lra.
    + intros c. destruct (Lt c) as (v & Fv & Bv). exists v. split; [exact Fv|]. pose proof (bpow_le radix2 40 86 ltac:(lia)). lra.
    + destruct Bq as (B0 & B1 & B2 & B3). assert (2 <= p2 47) by (change 2 with (p2 1); apply bpow_le; lia). repeat split; lra.
    + assert (p2 (-64) <= p2 (-1)) by (apply bpow_le; lia). simpl (p2 (-1)) in *. lra.
Qed.

(** ** The joint *)
Lemma norm_shape (q : quat f32) :
  q_normalize q = let k := inv_len2 (qx q) (qy q) (qz q) (qw q) in
    Q4 (nmul (qx q) k) (nmul (qy q) k) (nmul (qz q) k) (nmul (qw q) k).
Proof. reflexivity. Qed.
Lemma base_ok sk thr ls i : usable_threshold thr -> usable_transform (joint (sk_rest sk) i) -> Forall (usable_layer i) ls ->
  let o := g_base sk thr ls i in
  (forall c, is_finite (linear o c) = true) /\ (forall c, is_finite (qcomp (tr_r o) c) = true) /\ Rabs (sumsq (tr_r o) - 1) <= / 2 ^ 19.
Proof.
  intros Ht Hr Hl o. destruct (rest_ok thr i ls (joint (sk_rest sk) i) Ht Hr Hl) as (A & r & FA & LA & Lo & Fr & Br & Nr).
  unfold o, g_base. set (wo := g_rest _ _ _ _) in *. cbv zeta in *. clearbody wo. split.
  - intros c. rewrite linear_norm. destruct (Lo c) as (v & Fv & Bv). pose proof (p2_pos (-20)) as P.
    assert (B1 : Rabs (1 / A) <= p2 20).
    { unfold Rdiv. rewrite Rmult_1_l, Rabs_pos_eq by (apply Rlt_le, Rinv_0_lt_compat; lra).
      change 20%Z with (- -20)%Z. rewrite bpow_opp. apply Rinv_le; assumption. }
    assert (A0 : A <> 0) by lra.
    pose proof (fin_div none_ _ _ _ fin_one FA A0 (p2_le_HUGE 20 _ ltac:(lia) B1)) as FR.
    pose proof (rnd_abs_le 20 _ ltac:(lia) B1) as B2.
    eapply proj1. apply (fin_mul _ _ _ _ Fv FR). apply (p2_le_HUGE 106); [lia|]. rewrite Rabs_mult.
    apply (mul_hi _ _ 86 20); split; auto; apply Rabs_pos.
  - destruct Fr as (F0 & F1 & F2 & F3). destruct Br as (B0 & B1 & B2 & B3).
    pose proof (bpow_le radix2 47 50 ltac:(lia)) as L.
    destruct (normalized2 _ _ _ _ _ _ _ _ F0 F1 F2 F3) as (r0 & r1 & r2 & r3 & (H0 & E0) & (H1 & E1) & (H2 & E2) & (H3 & E3) & _ & _ & _ & _ & N);
      try lra. { exact Nr. }
    set (q := tr_r (snd wo)) in *.
    change (tr_r (g_norm (nrecip (fst wo)) (snd wo))) with (q_normalize q). rewrite norm_shape.
    set (k := inv_len2 (qx q) (qy q) (qz q) (qw q)) in *. clearbody k. unfold sumsq. cbn [qx qy qz qw].
    rewrite E0, E1, E2, E3. split.
    + intros c. destruct c as [|[|[|c]]]; cbn [qcomp qx qy qz qw]; [exact H0|exact H1|exact H2|exact H3].
    + eapply Rle_trans; [exact N|]. simpl. lra.
Qed.
