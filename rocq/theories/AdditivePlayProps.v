(** C86: playback with additive layers. *)
From Coq Require Import Reals Lra Lia.
From Flocq Require Import Core.Core IEEE754.BinarySingleNaN.
From Verif Require Import Base Num NumR NumF32 Math Keys KeysSpec Skeleton SkeletonSpec Blending BlendingSpec BlendingProofs BlendingProps Sampling SamplingSpec SamplingHist.
From Verif Require Import F32Facts F32Err InterpF32 NormF32 BlendF32 BlendF32Proofs SamplingProps PoseSpec PoseProofs PoseProps Player PlayerSpec PlayerProofs PlayerProps.
From Verif Require Import BlendF32Spec BlendMean BlendF32Props PlaybackSpec PlaybackProps RigidSpec RigidF32 RigidRow SkeletonProps RigidProps RigidPlaySpec RigidPlayProps.
From Verif Require Import AdditiveSpec AdditiveProofs QuatNorm AdditiveF32 AdditiveSteps AdditiveProps AdditivePlaySpec.
Local Open Scope R_scope.

(** ** The frame without its additive layers *)
Definition plain (i : layer_input) : bool := negb (in_additive i).
Definition base_frame (fr : frame) : frame := mk_frame (filter plain (fr_layers fr)) (fr_threshold fr) (fr_root fr).
Lemma base_inputs ins poses : Forall2 layer_pose ins poses ->
  exists poses', Forall2 layer_pose (filter plain ins) poses' /\
    blend_inputs false poses' (filter plain ins) = blend_inputs false poses ins /\ blend_inputs true poses' (filter plain ins) = [].
Proof.
  intros H. induction H as [|i pose ins poses HP H (poses' & I1 & I2 & I3)]; [exists []; repeat split; constructor|].
  assert (PE : plain i = negb (in_additive i)) by reflexivity. cbn [filter]. destruct (in_additive i) eqn:E; rewrite PE; cbn [negb].
  - exists poses'. split; [exact I1|]. split; [|exact I3]. rewrite I2. unfold blend_inputs. cbn [combine filter snd]. rewrite E. reflexivity.
  - exists (pose :: poses'). split; [constructor; assumption|]. unfold blend_inputs in *. cbn [combine filter snd]. rewrite E. cbn [Bool.eqb map fst snd].
    split; [rewrite I2; reflexivity|exact I3].
Qed.
Lemma filter_Forall {A} (P : A -> Prop) f l : Forall P l -> Forall P (filter f l).
Proof. intros H. rewrite Forall_forall in *. intros x Hx. apply filter_In in Hx. apply H, Hx. Qed.
Lemma base_uses lib fr : uses lib fr -> uses lib (base_frame fr).
Proof. apply filter_Forall. Qed.
Lemma base_valid sk n fr : valid_frame sk n fr -> valid_frame sk (length (fr_layers (base_frame fr))) (base_frame fr).
Proof. intros (_ & H1 & H2). split; [reflexivity|]. split; [exact H1|]. apply filter_Forall, H2. Qed.
Lemma base_sound sk fr : sound_mixed sk fr -> sound_frame sk (base_frame fr).
Proof.
  intros (H1 & H2 & _). split; [exact H1|]. cbn [fr_layers base_frame]. rewrite Forall_forall in *. intros i Hi.
  apply filter_In in Hi. destruct Hi as [Hi P]. specialize (H2 i Hi). unfold sound_layer in H2. unfold plain in P. destruct (in_additive i); [discriminate|exact H2].
Qed.
Lemma base_run (sk : skeleton f32) ctx thr ls adds c o : rest_sized sk ->
  blend_run (mk_bjob (Some sk) (Some ctx) thr ls adds (Some (sk_rest sk))) = BOk (c, o) ->
  exists c0 o0, blend_run (mk_bjob (Some sk) (Some ctx) thr ls [] (Some (sk_rest sk))) = BOk (c0, o0).
Proof.
  intros Hr H. apply run_ok_valid in H.
  assert (V : blend_validate (mk_bjob (Some sk) (Some ctx) thr ls [] (Some (sk_rest sk))) = true).
  { unfold blend_validate in *. cbn [bj_skeleton bj_context bj_output bj_threshold bj_layers bj_additive] in *.
    apply andb_prop in H. destruct H as [H _]. rewrite H. reflexivity. }
  destruct (run_ok sub_zero_f32 sk ctx (sk_rest sk) thr ls [] Hr V (or_intror Hr)) as (c0 & o0 & R & _). eauto.
Qed.
(** The additive layers of a frame. *)
Lemma additive_from ins poses l : In l (blend_inputs true poses ins) -> Forall2 layer_pose ins poses ->
  exists i pose, In i ins /\ in_additive i = true /\ layer_pose i pose /\ l = mk_layer pose (in_weight i) (in_joint_weights i).
Proof.
  intros H F. unfold blend_inputs in H. apply in_map_iff in H. destruct H as ([pose i] & <- & H). apply filter_In in H. destruct H as [H P].
  exists i, pose. cbn [fst snd] in *. assert (A : in_additive i = true) by (destruct (in_additive i); [reflexivity|discriminate P]). clear P.
  revert H. induction F as [|i' p' ins poses HP F IH]; [intros []|].
  intros [E|H]; [injection E as -> ->; split; [left; reflexivity|auto]|].
  destruct (IH H) as (B & C & D). split; [right; exact B|auto].
Qed.
Lemma additive_length fr poses : Forall2 layer_pose (fr_layers fr) poses ->
  length (blend_inputs true poses (fr_layers fr)) = additive_count fr.
Proof.
  intros H. unfold additive_count, blend_inputs. rewrite map_length. induction H as [|i pose ins poses _ H IH]; [reflexivity|].
  cbn [combine filter snd]. destruct (in_additive i); cbn [Bool.eqb length]; rewrite IH; reflexivity.
Qed.
Lemma aw_le1 j (l : layer f32) : Rabs (B2R (ly_weight l)) <= 1 ->
  (ly_joint_weights l <> [] -> B2R (lane (nth (j / 4) (ly_joint_weights l) nzero) (j mod 4)) <= 1) -> 0 <= aw j l <= 1.
Proof.
  intros H J. split; [apply aw_nonneg|]. rewrite aw_eq.
  assert (M : forall m, 0 <= m <= 1 -> Rabs (B2R (ly_weight l)) * m <= 1).
  { intros m Hm. pose proof (Rmult_le_compat _ 1 m 1 (Rabs_pos (B2R (ly_weight l))) (proj1 Hm) H (proj2 Hm)). lra. }
  apply M. destruct (ly_joint_weights l) as [|a ws]; [cbv beta iota; lra|]. split; [apply Rmax_l|apply Rmax_lub; [lra|apply J; discriminate]].
Qed.
Lemma linear_coord (t : transform f32) k : (3 <= k)%nat -> linear t k = coord (tr_s t) (k - 3).
Proof. intros H. destruct k as [|[|[|[|[|k]]]]]; [lia|lia|lia|reflexivity..]. Qed.
Lemma linear_coord_t (t : transform f32) k : (k < 3)%nat -> linear t k = coord (tr_t t) k.
Proof. intros H. destruct k as [|[|[|k]]]; [..|lia]; reflexivity. Qed.

(** What the additive layers of a sound frame are. *)
Lemma additive_layers_ok sk lib fr poses j : animations sk lib -> uses lib fr ->
  Forall (fun i => num_soa (in_anim i) = num_soa_joints sk) (fr_layers fr) ->
  Forall (sound_layer (num_soa_joints sk)) (fr_layers fr) -> Forall2 layer_pose (fr_layers fr) poses -> (j < 4 * num_soa_joints sk)%nat ->
  Forall (fun l => usable_additive j l /\ (B2R (ly_weight l) <> 0 -> 0 <= aw j l <= 1) /\
    (forall k, (3 <= k)%nat -> moderate_scale j k (real_layer l))) (blend_inputs true poses (fr_layers fr)).
Proof.
  intros LIB HU HN HS F2 Hj. apply Forall_forall. intros l Hl.
  destruct (additive_from _ _ _ Hl F2) as (i & ps & Hi & HA & HP & ->).
  unfold uses in HU. rewrite Forall_forall in HU, HN, HS. specialize (HS i Hi). unfold sound_layer in HS. rewrite HA in HS.
  destruct HS as (W1 & W2 & W3).
  assert (AW : B2R (in_weight i) <> 0 -> 0 <= aw j (mk_layer ps (in_weight i) (in_joint_weights i)) <= 1).
  { intros NZ. destruct (W3 NZ) as (_ & _ & J). apply aw_le1; cbn [ly_weight ly_joint_weights]; [exact W2|]. intros N. apply (J j Hj N). }
  split; [|split].
  - split; [exact W1|]. cbn [ly_weight ly_transform ly_joint_weights]. split; [lra|]. intros NZ. destruct (W3 NZ) as (X & _ & J).
    split; [eapply layer_usable; eauto|]. apply J, Hj.
  - exact AW.
  - intros k Hk. unfold moderate_scale. change (ly_transform (real_layer (mk_layer ps (in_weight i) (in_joint_weights i)))) with (map real_soa ps).
    rewrite joint_exact, rlin_exact. fold (aw j (mk_layer ps (in_weight i) (in_joint_weights i))).
    destruct (Req_dec (B2R (in_weight i)) 0) as [Z|NZ].
    + rewrite aw_eq. cbn [ly_weight]. rewrite Z, Rabs_R0, Rmult_0_l. unfold partial_scale. lra.
    + specialize (AW NZ). set (a := aw j _) in *. clearbody a. destruct (W3 NZ) as (X & K & _).
      destruct (layer_follows sk lib i ps j LIB (HU i Hi) (HN i Hi) X HP Hj) as (_ & Fs & _ & Ls).
      pose proof (follows3_range _ _ _ _ _ _ _ _ (5 / 8) (15 / 8) Ls (fun q c => K q c) Fs (k - 3)) as G.
      rewrite !Rabs_pos_eq, Rmax_right in G by lra. rewrite linear_coord by exact Hk. set (s := B2R (coord (tr_s (joint ps j)) (k - 3))) in *. clearbody s.
      unfold partial_scale. assert (- (3.1 / 8) <= s - 1 <= 7.1 / 8) by lra.
      assert (a * (s - 1) <= a * (7.1 / 8)) by (apply Rmult_le_compat_l; lra).
      assert (a * - (3.1 / 8) <= a * (s - 1)) by (apply Rmult_le_compat_l; lra). lra.
Qed.

(** Scales stay finite. *)
Lemma scale_finite i c adds : (3 <= c)%nat -> Forall (fun l => usable_additive i l /\ moderate_scale i c (real_layer l)) adds ->
  forall k o v, (k + length adds <= 40)%nat -> fin (linear o c) v -> Rabs v <= p2 (41 + 2 * Z.of_nat k) ->
  is_finite (linear (fold_left (ga_step i) adds o) c) = true.
Proof.
  intros Hc U. induction U as [|l adds [U M] _ IH]; intros k o v K Fv B; [exact (proj1 Fv)|].
  cbn [length fold_left] in *.
  assert (PS : p2 (41 + 2 * Z.of_nat (S k)) = 4 * p2 (41 + 2 * Z.of_nat k)).
  { replace (41 + 2 * Z.of_nat (S k))%Z with (2 + (41 + 2 * Z.of_nat k))%Z by lia. apply (p2_shift 2). simpl. lra. }
  pose proof (p2_pos (41 + 2 * Z.of_nat k)) as PP.
  destruct (step_cases i o tr_identity l U) as [(_ & E1 & _)|(w & W' & FW & R & E & NZ & UT & C)].
  - rewrite E1. apply (IH (S k) o v); [lia|exact Fv|lra].
  - cbv zeta in C. destruct (usable_lin _ c UT) as [Fx Bx].
    unfold moderate_scale in M. change (ly_transform (real_layer l)) with (map real_soa (ly_transform l)) in M. rewrite joint_exact, rlin_exact in M.
    fold (aw i l) in M. set (x := B2R (linear (joint (ly_transform l) i) c)) in *.
    destruct (factor_err _ _ _ _ _ Fx FW Bx R E M) as [N1 N2].
    assert (ST : exists y z g, linear (ga_step i o l) c = nmul y z /\ fin y v /\ fin z g /\ Rabs g <= 2.1).
    { destruct C as [[E1 _]|[E1 _]]; rewrite E1.
      - rewrite lin_add_s by exact Hc. destruct (factor_rel _ _ N1 M) as (g & Fg & Eg). do 3 eexists. split; [reflexivity|]. split; [exact Fv|]. split; [exact Fg|].
        apply Rabs_le_inv in Eg. unfold eps in Eg. apply Rabs_le. lra.
      - rewrite lin_sub_s by exact Hc. destruct (recip_rel _ _ N2 M) as (g & Fg & Eg). do 3 eexists. split; [reflexivity|]. split; [exact Fv|]. split; [exact Fg|].
        assert (I : 0 < / partial_scale (aw i l) x <= 2).
        { split; [apply Rinv_0_lt_compat; lra|]. apply Rmult_le_reg_r with (partial_scale (aw i l) x); [lra|]. rewrite Rinv_l by lra. lra. }
        apply Rabs_le_inv in Eg. unfold eps in Eg. apply Rabs_le. lra. }
    destruct ST as (y & z & g & EQ & Fy & Fz & Bg).
    assert (PB : Rabs (v * g) <= 2.1 * p2 (41 + 2 * Z.of_nat k)).
    { rewrite Rabs_mult, Rmult_comm. apply Rmult_le_compat; auto using Rabs_pos. }
    assert (FM : fin (nmul y z) (rnd32 (v * g))).
    { apply fin_mul; auto. apply (p2_le_HUGE 123); [lia|]. eapply Rle_trans; [exact PB|]. apply Rle_trans with (p2 (41 + 2 * Z.of_nat (S k))); [lra|]. apply bpow_le. lia. }
    apply (IH (S k) (ga_step i o l) (rnd32 (v * g))); [lia|rewrite EQ; exact FM|].
    pose proof (rnd_err (v * g)) as RE. pose proof (tiny_eps) as TE.
    assert (T1 : tiny <= p2 (41 + 2 * Z.of_nat k)) by (apply bpow_le; lia).
    replace (rnd32 (v * g)) with ((rnd32 (v * g) - v * g) + v * g) by ring. eapply Rle_trans; [apply Rabs_triang|].
    assert (eps * Rabs (v * g) <= / 1000 * Rabs (v * g)) by (apply Rmult_le_compat_r; [apply Rabs_pos|unfold eps; lra]). lra.
Qed.


Lemma base_bound (sk : skeleton f32) ctx thr ls out c o j k : rest_sized sk ->
  blend_run (mk_bjob (Some sk) (Some ctx) thr ls [] (Some out)) = BOk (c, o) ->
  usable_threshold thr -> (length ls <= 4096)%nat -> (j < 4 * num_soa_joints sk)%nat ->
  usable_transform (joint (sk_rest sk) j) -> Forall (usable_layer j) ls -> Rabs (B2R (linear (joint o j) k)) <= 2 ^ 41.
Proof.
  intros Hr H HT Hn Hj HU HL.
  assert (P40 : 1 <= 2 ^ 40) by (apply pow_R1_Rle; lra).
  assert (MM : Rmax (Rabs (- 2 ^ 40)) (Rabs (2 ^ 40)) = 2 ^ 40) by (rewrite Rabs_Ropp, Rmax_left by lra; apply Rabs_pos_eq; lra).
  assert (IV : forall t, usable_transform t -> - 2 ^ 40 <= B2R (linear t k) <= 2 ^ 40) by (intros t (U & _); apply Rabs_le_inv, U).
  pose proof (C79_in_range sk ctx thr ls out c o Hr H HT Hn j Hj HU HL k (- 2 ^ 40) (2 ^ 40)) as G. rewrite MM in G. cbv zeta in G.
  specialize (G ltac:(lra)).
  assert (G' := G (fun l Hl Pl => IV _ (proj1 (proj2 (proj1 (Forall_forall _ _) HL l Hl) Pl))) (IV _ HU)). clear G.
  assert (P41 : 2 ^ 41 = 2 * 2 ^ 40) by reflexivity.
  pose proof (INR_4096 _ Hn) as N4. pose proof (pos_INR (length ls)).
  assert (D : (INR (length ls) + 4) / 2 ^ 22 * 2 ^ 40 <= / 2 * 2 ^ 40) by (apply Rmult_le_compat_r; [lra|]; simpl; lra).
  assert (/ 2 ^ 100 <= / 2) by (apply Rinv_le_contravar; [lra|]; replace 2 with (2 ^ 1) at 1 by ring; apply Rle_pow; [lra|lia]).
  apply Rabs_le. rewrite P41. set (Q := 2 ^ 40) in *. clearbody Q. lra.
Qed.

(** C86, poses: finite and with unit rotations. *)
Theorem C86_additive_sound :
  forall (outside : nat -> N) (sk : skeleton f32) (lib : list animf) (n : nat) (new : player) (history : list frame) (fr : frame),
    (forall j, (outside j < 256)%N) -> skeleton_ok sk -> animations sk lib ->
    new_player sk n new -> Forall (uses lib) history -> uses lib fr -> valid_frame sk n fr -> (n <= 4096)%nat ->
    sound_rest sk -> sound_mixed sk fr ->
    exists p p' pose, play_all outside sk new history = Some p /\ play outside sk p fr = Some (Drawn, p') /\
      model_matrices sk fr pose (pl_models p') /\ sound_within (/ 2 ^ 19 + INR (additive_count fr) / 2 ^ 18) sk pose.
Proof.
  intros outside sk lib n new history fr Ho SK LIB N HH HU HV Hn HR HS.
  destruct (C73_frames_stand_alone outside sk lib n new history fr Ho SK LIB N HH HU HV)
    as (p & p' & E1 & E2 & poses & pose & F2 & BP & MM). destruct (proj1 (blended_job _ _ _ _) BP) as (c & B).
  exists p, p', pose. split; [exact E1|]. split; [exact E2|]. split; [exact MM|]. intros j Hj.
  pose proof (proj1 (proj2 SK)) as RS. destruct (base_inputs _ _ F2) as (poses' & F2' & I1 & I2).
  pose proof (base_sound _ _ HS) as (HT & HS'). destruct HS as (_ & HS & HC).
  assert (HN : Forall (fun i => num_soa (in_anim i) = num_soa_joints sk) (fr_layers fr))
    by (eapply Forall_impl; [|exact (proj2 (proj2 HV))]; intros i [A _]; exact A).
  pose proof (additive_layers_ok sk lib fr poses j LIB HU HN HS F2 Hj) as AL.
  destruct (inputs_usable sk lib j LIB Hj _ _ F2' (base_uses _ _ HU) (filter_Forall _ _ _ HN) HS') as [_ A2]. cbn [base_frame fr_layers] in A2. rewrite I1 in A2.
  unfold blending_job in B. destruct (base_run _ _ _ _ _ _ _ RS B) as (c0 & o0 & B0).
  pose proof (C74_blended_unit sk _ _ _ _ c0 o0 RS B0 HT j Hj (HR j Hj) A2) as (FL & FQ & SQ).
  assert (LN : (length (blend_inputs false poses (fr_layers fr)) <= 4096)%nat).
  { eapply Nat.le_trans; [apply inputs_length|]. rewrite (proj1 HV). exact Hn. }
  pose proof (additive_length fr poses F2) as LA. set (adds := blend_inputs true poses (fr_layers fr)) in *.
  assert (UA : Forall (usable_additive j) adds) by (eapply Forall_impl; [|exact AL]; intros l [A _]; exact A).
  assert (P1024 : / 2 ^ 19 <= / 1024) by (simpl; lra).
  assert (L41 : forall k, Rabs (B2R (linear (joint o0 j) k)) <= 2 ^ 41).
  { intros k. eapply base_bound; eauto. }
  split; [|split].
  - intros k. destruct (Nat.lt_ge_cases k 3) as [K|K].
    + refine (proj1 (C85_translation sk _ _ _ _ _ _ _ c0 o0 c pose RS B0 B ltac:(lia) j Hj UA k K (FL k) _)).
      eapply Rle_trans; [apply L41|]. apply Rle_pow; [lra|lia].
    + rewrite (joint_steps _ _ _ _ _ _ _ _ _ _ _ _ _ RS B0 B Hj).
      apply (scale_finite j k adds K) with (k := 0%nat) (v := B2R (linear (joint o0 j) k)).
      * eapply Forall_impl; [|exact AL]. intros l (X & _ & Y). split; [exact X|apply Y, K].
      * lia.
      * split; [apply FL|reflexivity].
      * change (41 + 2 * Z.of_nat 0)%Z with 41%Z. rewrite p2_pow by lia. apply L41.
  - refine (proj1 (C85_rotation sk _ _ _ _ _ _ _ c0 o0 c pose RS B0 B ltac:(lia) j Hj UA FQ ltac:(lra))).
  - destruct (C85_rotation sk _ _ _ _ _ _ _ c0 o0 c pose RS B0 B ltac:(lia) j Hj UA FQ ltac:(lra)) as (_ & D & _). rewrite LA in D.
    replace (sumsq (tr_r (joint pose j)) - 1) with ((sumsq (tr_r (joint o0 j)) - 1) + (sumsq (tr_r (joint pose j)) - sumsq (tr_r (joint o0 j)))) by ring.
    eapply Rle_trans; [apply Rabs_triang|]. lra.
Qed.
Print Assumptions C86_additive_sound.

(** ** Unscaled animations *)
Lemma with_layers_move i c adds : (c < 3)%nat -> forall p,
  Rabs (rlinear c (with_layers i p adds)) <= Rabs (rlinear c p) + Rsum (fun l => additive_weight l i * Rabs (rlinear c (joint (ly_transform l) i))) adds.
Proof.
  intros Hc. induction adds as [|l adds IH]; intros p; [cbn; lra|]. change (with_layers i p (l :: adds)) with (with_layers i (added i p l) adds).
  specialize (IH (added i p l)). unfold Rsum in *. cbn [fold_right].
  assert (A0 : 0 <= additive_weight l i).
  { unfold additive_weight. apply Rmult_le_pos; [apply Rabs_pos|]. unfold mask. destruct (ly_joint_weights l); [lra|apply Rmax_l]. }
  pose proof (Rabs_pos (rlinear c (joint (ly_transform l) i))) as B0.
  assert (M : Rabs (rlinear c (added i p l)) <= Rabs (rlinear c p) + additive_weight l i * Rabs (rlinear c (joint (ly_transform l) i))).
  { pose proof (Rmult_le_pos _ _ A0 B0) as AB. unfold added. set (a := additive_weight l i) in *. set (t := joint (ly_transform l) i) in *.
    assert (E : a * Rabs (rlinear c t) = Rabs (rlinear c t * a)) by (rewrite Rabs_mult, (Rabs_pos_eq a) by exact A0; ring).
    rewrite E. destruct (Rlt_dec 0 (ly_weight l)); [rewrite rl_plus by exact Hc; apply Rabs_triang|].
    destruct (Rlt_dec (ly_weight l) 0); [rewrite rl_minus by exact Hc; rewrite <- (Rabs_Ropp (rlinear c t * a)); apply Rabs_triang|]. rewrite <- E. lra. }
  lra.
Qed.
Lemma with_layers_scale i c adds d : (3 <= c)%nat -> 0 <= d <= / 1000 ->
  Forall (fun l => Rabs (partial_scale (additive_weight l i) (rlinear c (joint (ly_transform l) i)) - 1) <= d) adds ->
  forall p k, 0 <= k -> (k + INR (length adds)) * (2 * d) <= / 100 -> Rabs (rlinear c p - 1) <= / 100 + k * (2 * d) ->
  Rabs (rlinear c (with_layers i p adds) - rlinear c p) <= INR (length adds) * (2 * d).
Proof.
  intros Hc Hd H. induction H as [|l adds H _ IH]; intros p k Hk HK HP.
  - cbn. replace (rlinear c p - rlinear c p) with 0 by ring. rewrite Rabs_R0. lra.
  - change (with_layers i p (l :: adds)) with (with_layers i (added i p l) adds). cbn [length] in *. rewrite S_INR in *.
    pose proof (pos_INR (length adds)) as P0.
    assert (KD : k * (2 * d) <= / 100). { eapply Rle_trans; [|exact HK]. apply Rmult_le_compat_r; lra. }
    assert (XB : Rabs (rlinear c p) <= 1.02).
    { apply Rabs_le_inv in HP. apply Rabs_le. lra. }
    assert (ST : Rabs (rlinear c (added i p l) - rlinear c p) <= 2 * d).
    { unfold added. set (a := additive_weight l i) in *. set (t := joint (ly_transform l) i) in *.
      pose proof (Rabs_le_inv _ _ H) as H'. pose proof (Rabs_pos (rlinear c p)).
      destruct (Rlt_dec 0 (ly_weight l)); [rewrite rl_times by exact Hc|destruct (Rlt_dec (ly_weight l) 0); [rewrite rl_over by exact Hc|]].
      - set (f := partial_scale a _) in *. replace (rlinear c p * f - rlinear c p) with (rlinear c p * (f - 1)) by ring. rewrite Rabs_mult.
        apply Rle_trans with (1.02 * d); [|lra]. apply Rmult_le_compat; auto using Rabs_pos.
      - set (f := partial_scale a _) in *. replace (rlinear c p * / f - rlinear c p) with (- (rlinear c p * (f - 1)) * / f) by (field; lra).
        rewrite Rabs_mult, Rabs_Ropp, Rabs_mult.
        assert (F : Rabs (/ f) <= 1.01).
        { rewrite Rabs_pos_eq; [|apply Rlt_le, Rinv_0_lt_compat; lra]. apply Rmult_le_reg_r with f; [lra|]. rewrite Rinv_l by lra. lra. }
        assert (Rabs (rlinear c p) * Rabs (f - 1) <= 1.02 * d) by (apply Rmult_le_compat; auto using Rabs_pos).
        apply Rle_trans with (1.02 * d * 1.01); [|lra]. apply Rmult_le_compat; auto using Rabs_pos. apply Rmult_le_pos; apply Rabs_pos.
      - replace (rlinear c p - rlinear c p) with 0 by ring. rewrite Rabs_R0. lra. }
    specialize (IH (added i p l) (k + 1) ltac:(lra)).
    assert (J : Rabs (rlinear c (with_layers i (added i p l) adds) - rlinear c (added i p l)) <= INR (length adds) * (2 * d)).
    { apply IH; [lra|]. replace (rlinear c (added i p l) - 1) with ((rlinear c (added i p l) - rlinear c p) + (rlinear c p - 1)) by ring.
      eapply Rle_trans; [apply Rabs_triang|]. lra. }
    replace (rlinear c (with_layers i (added i p l) adds) - rlinear c p)
      with ((rlinear c (with_layers i (added i p l) adds) - rlinear c (added i p l)) + (rlinear c (added i p l) - rlinear c p)) by ring.
    eapply Rle_trans; [apply Rabs_triang|]. lra.
Qed.
(** What additive layers of unscaled animations show. *)
Lemma additive_unscaled sk lib fr poses j len : animations sk lib -> uses lib fr ->
  Forall (fun i => num_soa (in_anim i) = num_soa_joints sk) (fr_layers fr) ->
  Forall (sound_layer (num_soa_joints sk)) (fr_layers fr) -> Forall2 layer_pose (fr_layers fr) poses -> (j < 4 * num_soa_joints sk)%nat ->
  0 < len -> Forall (unscaled_layer len) (fr_layers fr) ->
  Forall (fun l => (forall k, (3 <= k)%nat -> Rabs (partial_scale (aw j l) (B2R (linear (joint (ly_transform l) j) k)) - 1) <= / 4194304) /\
                   (forall k, (k < 3)%nat -> aw j l * Rabs (B2R (linear (joint (ly_transform l) j) k)) <= 1.001 * len)) (blend_inputs true poses (fr_layers fr)).
Proof.
  intros LIB HU HN HS F2 Hj HL UI. pose proof (additive_layers_ok sk lib fr poses j LIB HU HN HS F2 Hj) as AL.
  apply Forall_forall. intros l Hl. rewrite Forall_forall in AL. destruct (AL l Hl) as (_ & AW & _).
  destruct (additive_from _ _ _ Hl F2) as (i & ps & Hi & HA & HP & ->). cbn [ly_transform] in *.
  unfold uses in HU. rewrite Forall_forall in HU, HN, HS, UI. specialize (HS i Hi). specialize (UI i Hi). unfold sound_layer in HS. unfold unscaled_layer in UI. rewrite HA in HS, UI.
  destruct HS as (W1 & W2 & W3). cbn [ly_weight] in AW. destruct (Req_dec (B2R (in_weight i)) 0) as [Z|NZ].
  - rewrite aw_eq. cbn [ly_weight]. rewrite Z, Rabs_R0, Rmult_0_l. split; intros k _.
    + unfold partial_scale. replace (1 + 0 * _ - 1) with 0 by ring. rewrite Rabs_R0. lra.
    + rewrite Rmult_0_l. lra.
  - specialize (AW NZ). set (a := aw j _) in *. clearbody a. destruct (W3 NZ) as (X & _). destruct (UI NZ) as [U1 U2].
    destruct (layer_follows sk lib i ps j LIB (HU i Hi) (HN i Hi) X HP Hj) as (Ft & Fs & Lt & Ls). split; intros k Hk.
    + assert (K : forall q c, In q (an_skeys (in_anim i)) -> 1 <= half_value (coord q c) <= 1).
      { intros q c' Hq. rewrite (U1 q Hq). destruct c' as [|[|c']]; cbn [coord vx vy vz]; rewrite half_one; lra. }
      pose proof (follows3_range _ _ _ _ _ _ _ _ 1 1 Ls K Fs (k - 3)) as G. rewrite Rabs_R1, Rmax_left in G by lra.
      rewrite linear_coord by exact Hk. set (s := B2R (coord (tr_s (joint ps j)) (k - 3))) in *. clearbody s.
      unfold partial_scale. replace (1 + a * (s - 1) - 1) with (a * (s - 1)) by ring. rewrite Rabs_mult, (Rabs_pos_eq a) by lra.
      replace (/ 4194304) with (1 * / 4194304) by ring. apply Rmult_le_compat; try lra; [apply Rabs_pos|]. apply Rabs_le. lra.
    + assert (K : forall q c, In q (an_tkeys (in_anim i)) -> - len <= half_value (coord q c) <= len).
      { intros q c' Hq. apply Rabs_le_inv, U2, Hq. }
      pose proof (follows3_range _ _ _ _ _ _ _ _ (- len) len Lt K Ft k) as G.
      rewrite Rabs_Ropp, Rmax_left, (Rabs_pos_eq len) in G by lra. rewrite linear_coord_t by exact Hk.
      replace (1.001 * len) with (1 * (1.001 * len)) by lra. apply Rmult_le_compat; try lra; [apply Rabs_pos|]. apply Rabs_le. lra.
Qed.
Lemma sum_bound {A} (f : A -> R) (l : list A) b : Forall (fun x => f x <= b) l -> Rsum f l <= INR (length l) * b.
Proof.
  intros H. induction H as [|x l H _ IH]; [cbn; lra|]. unfold Rsum in *. cbn [fold_right length]. rewrite S_INR. lra.
Qed.
Lemma sq3_coords x y z m : x * x + y * y + z * z <= m * m -> 0 <= m -> Rabs x <= m /\ Rabs y <= m /\ Rabs z <= m.
Proof.
  intros H M. pose proof (Rle_0_sqr x). pose proof (Rle_0_sqr y). pose proof (Rle_0_sqr z). unfold Rsqr in *.
  assert (G : forall u, u * u <= m * m -> Rabs u <= m).
  { intros u Hu. apply Rsqr_le_abs_0 in Hu. rewrite (Rabs_pos_eq m) in Hu by exact M. exact Hu. }
  repeat split; apply G; lra.
Qed.

Lemma additive_near_rigid sk lib fr poses pose c len n j :
  skeleton_ok sk -> animations sk lib -> uses lib fr -> valid_frame sk n fr -> (n <= 4096)%nat ->
  sound_rest sk -> sound_mixed sk fr -> unscaled_rest len sk -> Forall (unscaled_layer len) (fr_layers fr) -> / 2 ^ 50 <= len <= 65536 ->
  Forall2 layer_pose (fr_layers fr) poses ->
  blend_run (blending_job sk fr poses (mk_bctx 0 0 nzero []) (sk_rest sk)) = BOk (c, pose) ->
  (j < 4 * num_soa_joints sk)%nat ->
  let a := INR (additive_count fr) in
  near_rigid (Rmax (/ 2 ^ 19) ((INR n + 6) / 2 ^ 22) + a / 2 ^ 17) (4 * (a + 1) * len) (joint pose j).
Proof.
  intros SK LIB HU HV Hn HR HS UR UI HL F2 B Hj a.
  pose proof (proj1 (proj2 SK)) as RS. destruct (base_inputs _ _ F2) as (poses' & F2' & I1 & I2).
  pose proof (base_sound _ _ HS) as HS0. destruct HS as (_ & HS & HC).
  assert (HN : Forall (fun i => num_soa (in_anim i) = num_soa_joints sk) (fr_layers fr))
    by (eapply Forall_impl; [|exact (proj2 (proj2 HV))]; intros i [A _]; exact A).
  unfold blending_job in B. destruct (base_run _ _ _ _ _ _ _ RS B) as (c0 & o0 & B0).
  set (n' := length (fr_layers (base_frame fr))).
  assert (N' : (n' <= n)%nat) by (unfold n'; cbn [base_frame fr_layers]; rewrite <- (proj1 HV); apply filter_short).
  assert (NR : near_rigid (Rmax (/ 2 ^ 19) ((INR n' + 6) / 2 ^ 22)) (2 * len) (joint o0 j)).
  { apply (drawn_near_rigid sk lib (base_frame fr) poses' o0 c0 len n' j); auto using base_uses; try lia.
    - eapply base_valid, HV.
    - cbn [base_frame fr_layers]. apply Forall_forall. intros i Hi. apply filter_In in Hi. destruct Hi as [Hi P].
      rewrite Forall_forall in UI. specialize (UI i Hi). unfold unscaled_layer in UI. unfold plain in P. destruct (in_additive i); [discriminate|exact UI].
    - unfold blending_job. cbn [base_frame fr_layers fr_threshold]. rewrite I1, I2. exact B0. }
  assert (E0 : Rmax (/ 2 ^ 19) ((INR n' + 6) / 2 ^ 22) <= Rmax (/ 2 ^ 19) ((INR n + 6) / 2 ^ 22)).
  { apply Rmax_lub; [apply Rmax_l|]. eapply Rle_trans; [|apply Rmax_r]. apply Rmult_le_compat_r; [simpl; lra|]. apply le_INR in N'. lra. }
  assert (E1 : Rmax (/ 2 ^ 19) ((INR n + 6) / 2 ^ 22) <= / 1000).
  { apply Rmax_lub; [simpl; lra|]. apply INR_4096 in Hn. simpl. lra. }
  set (e0 := Rmax (/ 2 ^ 19) ((INR n' + 6) / 2 ^ 22)) in *. set (e := Rmax (/ 2 ^ 19) ((INR n + 6) / 2 ^ 22)) in *.
  destruct NR as ((FT0 & FT1 & FT2) & FQ & (FS0 & FS1 & FS2) & T2 & SQ & S0 & S1 & S2).
  pose proof (additive_layers_ok sk lib fr poses j LIB HU HN HS F2 Hj) as AL.
  assert (L0 : 0 < len). { assert (0 < / 2 ^ 50) by (apply Rinv_0_lt_compat, pow_lt; lra). lra. }
  pose proof (additive_unscaled sk lib fr poses j len LIB HU HN HS F2 Hj L0 UI) as AU.
  pose proof (additive_length fr poses F2) as LA. set (adds := blend_inputs true poses (fr_layers fr)) in *.
  assert (UA : Forall (usable_additive j) adds) by (eapply Forall_impl; [|exact AL]; intros l [A _]; exact A).
  assert (A32 : 0 <= a <= 32).
  { split; [apply pos_INR|]. replace 32 with (INR 32) by (simpl; lra). apply le_INR, HC. }
  assert (P22 : 2 ^ 22 = 4194304) by (simpl; lra). assert (P23 : 2 ^ 23 = 8388608) by (simpl; lra).
  assert (P18 : 2 ^ 18 = 262144) by (simpl; lra). assert (P17 : 2 ^ 17 = 131072) by (simpl; lra).
  (* rotation *)
  destruct HS0 as (HT & HS').
  destruct (inputs_usable sk lib j LIB Hj _ _ F2' (base_uses _ _ HU) (filter_Forall _ _ _ HN) HS') as [_ A2]. cbn [base_frame fr_layers] in A2. rewrite I1 in A2.
  pose proof (C74_blended_unit sk _ _ _ _ c0 o0 RS B0 HT j Hj (HR j Hj) A2) as (_ & _ & SQ').
  assert (P1024 : / 2 ^ 19 <= / 1024) by (simpl; lra).
  destruct (C85_rotation sk _ _ _ _ _ _ _ c0 o0 c pose RS B0 B ltac:(lia) j Hj UA FQ ltac:(lra)) as (FQ' & D & _). rewrite LA in D. fold a in D.
  (* translation *)
  destruct (sq3_coords _ _ _ _ T2 ltac:(lra)) as (T0x & T0y & T0z).
  assert (TC0 : forall k, (k < 3)%nat -> is_finite (linear (joint o0 j) k) = true /\ Rabs (B2R (linear (joint o0 j) k)) <= 2 * len).
  { intros [|[|[|k]]] Hk; [..|lia]; cbn [linear]; auto. }
  assert (TC : forall k, (k < 3)%nat -> is_finite (linear (joint pose j) k) = true /\ Rabs (B2R (linear (joint pose j) k)) <= 2.1 * (a + 1) * len).
  { intros k Hk. destruct (TC0 k Hk) as [F0 B0k].
    assert (B60 : Rabs (B2R (linear (joint o0 j) k)) <= 2 ^ 60). { assert (131072 <= 2 ^ 60) by (simpl; lra). lra. }
    destruct (C85_translation sk _ _ _ _ _ _ _ c0 o0 c pose RS B0 B ltac:(lia) j Hj UA k Hk F0 B60) as (Fp & E). rewrite LA in E. fold a in E.
    split; [exact Fp|]. cbv zeta in E.
    pose proof (with_layers_move j k (map real_layer adds) Hk (exact (joint o0 j))) as W. rewrite rlin_exact in W.
    set (mag := Rabs (B2R (linear (joint o0 j) k)) + _) in *.
    assert (M : mag <= (2 + 1.001 * a) * len).
    { unfold mag. eapply Rle_trans; [apply Rplus_le_compat; [exact B0k|]|].
      - apply (sum_bound _ _ (1.001 * len)). apply Forall_map. eapply Forall_impl; [|exact AU]. intros l [_ H]. specialize (H k Hk).
        change (ly_transform (real_layer l)) with (map real_soa (ly_transform l)). rewrite joint_exact, rlin_exact. exact H.
      - rewrite map_length, LA. fold a. lra. }
    assert (M0 : 0 <= mag).
    { eapply Rle_trans; [|exact W]. apply Rabs_pos. }
    assert (EB : (a + 3) / 2 ^ 23 * mag <= / 1000 * mag) by (apply Rmult_le_compat_r; [exact M0|rewrite P23; lra]).
    assert (Q90 : / 2 ^ 90 <= / 1000 * len).
    { apply Rle_trans with (/ 1000 * / 2 ^ 50); [|apply Rmult_le_compat_l; lra]. rewrite <- Rinv_mult. apply Rinv_le_contravar; [apply Rmult_lt_0_compat; [lra|apply pow_lt; lra]|].
      replace (2 ^ 90) with (2 ^ 40 * 2 ^ 50) by (rewrite <- pow_add; reflexivity). apply Rmult_le_compat_r; [apply pow_le; lra|]. simpl. lra. }
    set (x := rlinear k (with_layers j (exact (joint o0 j)) (map real_layer adds))) in *.
    replace (B2R (linear (joint pose j) k)) with ((B2R (linear (joint pose j) k) - x) + x) by ring. eapply Rle_trans; [apply Rabs_triang|].
    assert (0 <= a * len) by (apply Rmult_le_pos; lra). lra. }
  (* scale *)
  assert (SC0 : forall k, (3 <= k)%nat -> is_finite (linear (joint o0 j) k) = true /\ Rabs (B2R (linear (joint o0 j) k) - 1) <= e).
  { clear - FS0 FS1 FS2 S0 S1 S2 E0. intros [|[|[|[|[|k]]]]] Hk; [lia|lia|lia|..]; cbn [linear]; (split; [assumption|lra]). }
  assert (SC : forall k, (3 <= k)%nat -> is_finite (linear (joint pose j) k) = true /\ Rabs (B2R (linear (joint pose j) k) - 1) <= e + a / 2 ^ 17).
  { intros k Hk. destruct (SC0 k Hk) as [F0 B0k]. pose proof (Rabs_le_inv _ _ B0k) as B0k'.
    assert (MS : Forall (moderate_scale j k) (map real_layer adds)).
    { apply Forall_map. eapply Forall_impl; [|exact AL]. intros l (_ & _ & H). apply H, Hk. }
    assert (BR : B2R (linear (joint o0 j) k) = 0 \/ / 2 ^ 40 <= Rabs (B2R (linear (joint o0 j) k)) <= 2 ^ 41).
    { right. rewrite Rabs_pos_eq by lra. assert (2 <= 2 ^ 40) by (simpl; lra). assert (2 <= 2 ^ 41) by (simpl; lra).
      assert (/ 2 ^ 40 <= / 2) by (apply Rinv_le_contravar; lra). lra. }
    destruct (C85_scale sk _ _ _ _ _ _ _ c0 o0 c pose RS B0 B ltac:(lia) j Hj UA k Hk MS F0 BR) as (Fp & E). rewrite LA in E. fold a in E.
    split; [exact Fp|].
    assert (FS : Forall (fun l => Rabs (partial_scale (additive_weight l j) (rlinear k (joint (ly_transform l) j)) - 1) <= / 4194304) (map real_layer adds)).
    { apply Forall_map. eapply Forall_impl; [|exact AU]. intros l [H _]. specialize (H k Hk).
      change (ly_transform (real_layer l)) with (map real_soa (ly_transform l)). rewrite joint_exact, rlin_exact. exact H. }
    pose proof (with_layers_scale j k (map real_layer adds) (/ 4194304) Hk ltac:(lra) FS (exact (joint o0 j)) 0 ltac:(lra)) as W.
    rewrite map_length, LA, rlin_exact in W. fold a in W. specialize (W ltac:(lra) ltac:(lra)).
    set (x := rlinear k (with_layers j (exact (joint o0 j)) (map real_layer adds))) in *.
    assert (XB : Rabs x <= 1.02). { apply Rabs_le_inv in W. apply Rabs_le. lra. }
    assert (EB : a / 2 ^ 18 * Rabs x <= a / 2 ^ 18 * 1.02) by (apply Rmult_le_compat_l; [rewrite P18; lra|exact XB]).
    replace (B2R (linear (joint pose j) k) - 1) with ((B2R (linear (joint pose j) k) - x) + ((x - B2R (linear (joint o0 j) k)) + (B2R (linear (joint o0 j) k) - 1))) by ring.
    eapply Rle_trans; [apply Rabs_triang|]. eapply Rle_trans; [apply Rplus_le_compat_l, Rabs_triang|].
    rewrite P18 in *. rewrite P17. lra. }
  destruct (TC 0%nat (le_S _ _ (le_S _ _ (le_n 1)))) as [X0 Y0]. destruct (TC 1%nat (le_S _ _ (le_n 2))) as [X1 Y1]. destruct (TC 2%nat (le_n 3)) as [X2 Y2].
  destruct (SC 3%nat (le_n 3)) as [X3 Y3]. destruct (SC 4%nat (le_S _ _ (le_n 3))) as [X4 Y4]. destruct (SC 5%nat (le_S _ _ (le_S _ _ (le_n 3)))) as [X5 Y5]. cbn [linear] in *.
  split; [auto|]. split; [exact FQ'|]. split; [auto|]. split; [|split; [|auto]].
  - set (b := (a + 1) * len). assert (B1 : 0 <= b) by (apply Rmult_le_pos; lra).
    assert (Q : forall x, Rabs x <= 2.1 * (a + 1) * len -> x * x <= (2.1 * b) * (2.1 * b)).
    { intros x Hx. rewrite <- (Rabs_pos_eq (x * x)) by apply Rle_0_sqr. rewrite Rabs_mult. unfold b. rewrite <- (Rmult_assoc 2.1 (a + 1) len). apply Rmult_le_compat; auto using Rabs_pos. }
    pose proof (Q _ Y0). pose proof (Q _ Y1). pose proof (Q _ Y2). replace (4 * (a + 1) * len * (4 * (a + 1) * len)) with (16 * (b * b)) by (unfold b; ring).
    pose proof (Rmult_le_pos _ _ B1 B1). replace (2.1 * b * (2.1 * b)) with (4.41 * (b * b)) in * by lra. lra.
  - replace (sumsq (tr_r (joint pose j)) - 1) with ((sumsq (tr_r (joint o0 j)) - 1) + (sumsq (tr_r (joint pose j)) - sumsq (tr_r (joint o0 j)))) by ring.
    eapply Rle_trans; [apply Rabs_triang|]. rewrite P18 in *. rewrite P17. lra.
Qed.

(** C86, matrices: with unscaled animations they are rigid motions, as in C80. *)
Theorem C86_additive_rigid :
  forall (outside : nat -> N) (sk : skeleton f32) (lib : list animf) (n : nat) (new : player) (history : list frame) (fr : frame)
         (len : R) (q0 : motion),
    (forall j, (outside j < 256)%N) -> skeleton_ok sk -> animations sk lib ->
    new_player sk n new -> Forall (uses lib) history -> uses lib fr -> valid_frame sk n fr -> (n <= 4096)%nat ->
    sound_rest sk -> sound_mixed sk fr ->
    / 2 ^ 50 <= len <= 65536 -> unscaled_rest len sk -> Forall (unscaled_layer len) (fr_layers fr) ->
    let a := INR (additive_count fr) in
    let e := Rmax (/ 2 ^ 19) ((INR n + 6) / 2 ^ 22) + a / 2 ^ 17 in
    let reach := 4 * (a + 1) * len in
    is_motion (fr_root fr) q0 e (e * reach) -> is_rotation (turn_of q0) -> (forall r, (r < 3)%nat -> Rabs (move_of q0 r) <= reach) ->
    exists p p', play_all outside sk new history = Some p /\ play outside sk p fr = Some (Drawn, p') /\
      forall i c, chain (sk_parents sk) i c ->
        let d := INR (length c) + 1 in d * e <= / 128 ->
        exists m q, nth_error (pl_models p') i = Some m /\
          is_motion m q (16 * d * e) (10 * (d * d) * e * reach) /\ is_rotation (turn_of q).
Proof.
  intros outside sk lib n new history fr len q0 Ho SK LIB N HH HU HV Hn HR HS HL UR UI a e reach R0 Q0 M0.
  destruct (C73_frames_stand_alone outside sk lib n new history fr Ho SK LIB N HH HU HV)
    as (p & p' & E1 & E2 & poses & pose & F2 & BP & LM & MM). destruct (proj1 (blended_job _ _ _ _) BP) as (c & B).
  exists p, p'. split; [exact E1|]. split; [exact E2|]. intros i ch HC d Hd.
  assert (A32 : 0 <= a <= 32).
  { split; [apply pos_INR|]. replace 32 with (INR 32) by (simpl; lra). apply le_INR, HS. }
  assert (E19 : / 2 ^ 19 <= e) by (unfold e; pose proof (Rmax_l (/ 2 ^ 19) ((INR n + 6) / 2 ^ 22)); assert (0 <= a / 2 ^ 17) by (simpl; lra); lra).
  assert (LP : (num_soa_joints sk <= length pose)%nat).
  { destruct (blend_total sub_zero_f32 sk (mk_bctx 0 0 nzero []) (sk_rest sk) (fr_threshold fr)
       (blend_inputs false poses (fr_layers fr)) (blend_inputs true poses (fr_layers fr)) (proj1 (proj2 SK)) (proj1 (proj2 SK)))
      as [(c3 & o3 & B3 & L3)|(e3 & c3 & o3 & B3 & L3)]; unfold blending_job in B; rewrite B in B3; [|discriminate B3].
    injection B3 as _ E3. rewrite <- E3 in L3. pose proof (proj1 (proj2 SK)). lia. }
  assert (L2 : / 2 ^ 60 <= reach <= 2 ^ 60).
  { assert (/ 2 ^ 60 <= / 2 ^ 50) by (apply Rinv_le_contravar; [apply pow_lt; lra|apply Rle_pow; [lra|lia]]).
    assert (0 < / 2 ^ 50) by (apply Rinv_0_lt_compat, pow_lt; lra). assert (16777216 <= 2 ^ 60) by (simpl; lra).
    assert (1 * len <= (a + 1) * len <= 33 * len) by (split; apply Rmult_le_compat_r; lra). unfold reach. lra. }
  assert (E20 : / 2 ^ 20 <= e) by (apply Rle_trans with (/ 2 ^ 19); [apply Rinv_le_contravar; [apply pow_lt; lra|apply Rle_pow; [lra|lia]]|exact E19]).
  destruct (rigid_fold sk pose (fr_root fr) q0 e reach i ch LP HC E20 Hd L2 R0 Q0 M0) as [K1 K2].
  { intros j Hj. eapply additive_near_rigid; try eassumption.
    pose proof (chain_joints _ _ _ HC j Hj) as Lj. pose proof (soa_index sk j Lj) as S.
    pose proof (Nat.div_mod j 4 ltac:(lia)). pose proof (Nat.mod_upper_bound j 4 ltac:(lia)). lia. }
  exists (fold_left mat_mul (map (local_matrix pose) ch) (fr_root fr)), (fold_left follow (map (fun j => joint_motion (joint pose j)) ch) q0).
  split; [apply MM, HC|]. split; [exact K1|exact K2].
Qed.
Print Assumptions C86_additive_rigid.

(** The player of C80's example; the second layer is now subtracted, with half of its weight for every
    joint, after frames full of NaNs. *)
Definition frame86 (r w : f32) : frame :=
  mk_frame [mk_input anim80 r w [] false; mk_input anim80 B754_nan (nneg none_) [splat nhalf] true] nhalf mat_identity.
Definition history86 : list frame := [frame80 B754_nan nzero; frame86 nhalf B754_nan].
Example C86_hypotheses :
  Forall (uses [anim80]) history86 /\ uses [anim80] (frame86 nhalf none_) /\
  valid_frame pe_skel 2 (frame86 nhalf none_) /\ sound_mixed pe_skel (frame86 nhalf none_) /\
  Forall (unscaled_layer 32) (fr_layers (frame86 nhalf none_)) /\ additive_count (frame86 nhalf none_) = 1%nat.
Proof.
  destruct C79_C80_hypotheses as (_ & _ & _ & U80 & _ & _ & _ & S80 & _ & _).
  assert (U : forall r w, uses [anim80] (frame86 r w)).
  { intros r w. unfold uses, frame86. cbn [fr_layers]. repeat (apply Forall_cons; [left; reflexivity|]). apply Forall_nil. }
  destruct S80 as [UT S80]. cbn [frame80 fr_layers fr_threshold] in *. inversion S80 as [|? ? S1 S2]. subst. clear S2.
  assert (P1 : 0 < B2R (none_ : f32)) by (rewrite (proj2 fin_one); lra).
  pose proof (proj1 (proj2 (proj2 S1) P1)) as E. cbn [in_anim] in E.
  assert (ON : forall k, In k (an_skeys anim80) -> k = V3 15360%N 15360%N 15360%N) by (intros k Hk; exact (repeat_spec _ _ _ Hk)).
  split; [|split; [apply U|split; [|split; [|split]]]].
  - unfold history86. apply Forall_cons; [exact (Forall_inv U80)|]. apply Forall_cons; [apply U|apply Forall_nil].
  - split; [reflexivity|]. split; [vm_compute; reflexivity|]. unfold frame86. cbn [fr_layers].
    apply Forall_cons; [split; [reflexivity|left; reflexivity]|]. apply Forall_cons; [split; [reflexivity|right; apply le_n]|]. apply Forall_nil.
  - split; [exact UT|]. split; [|cbn; lia]. unfold frame86. cbn [fr_layers].
    apply Forall_cons; [exact S1|]. apply Forall_cons; [|apply Forall_nil]. unfold sound_layer, sound_additive. cbn [in_additive in_weight in_anim in_joint_weights].
    split; [apply fin_mone|]. split; [rewrite (proj2 fin_mone), Rabs_left; lra|]. intros _. split; [exact E|]. split.
    + intros k c Hk. rewrite (ON k Hk). destruct c as [|[|c]]; cbn [coord vx vy vz]; rewrite half_one; lra.
    + intros j Hj _. change (num_soa_joints pe_skel) with 1%nat in Hj.
      rewrite Nat.div_small, Nat.mod_small by lia. cbn [nth].
      assert (H : is_finite (nhalf : f32) = true /\ B2R (nhalf : f32) <= 1) by (split; [apply fin_half|rewrite (proj2 fin_half); lra]).
      destruct j as [|[|[|[|j]]]]; [..|lia]; exact H.
  - unfold frame86. cbn [fr_layers]. repeat (apply Forall_cons; [|]); try apply Forall_nil; unfold unscaled_layer, unscaled_input; cbn [in_additive in_anim]; intros _;
      (split; [exact ON|intros k c Hk; apply short_keys, Hk]).
  - reflexivity.
Qed.
(** So the matrix of its last joint is finite and a rotation to 1/2^9; the subtracted layer has turned it. *)
Example C86_example :
  exists p p', play_all (fun _ => 0%N) pe_skel sound_new history86 = Some p /\
    play (fun _ => 0%N) pe_skel p (frame86 nhalf none_) = Some (Drawn, p') /\
    exists m q, nth_error (pl_models p') 2 = Some m /\ is_motion m q (/ 2 ^ 9) 16 /\ is_rotation (turn_of q).
Proof.
  destruct C79_C80_hypotheses as (H1 & H2 & H3 & _ & _ & _ & H7 & _ & H9 & _).
  destruct C86_hypotheses as (H4 & H5 & H6 & H8 & H10 & H11).
  assert (EE : Rmax (/ 2 ^ 19) ((INR 2 + 6) / 2 ^ 22) = / 2 ^ 19) by (apply Rmax_left; simpl; lra).
  pose proof (C86_additive_rigid (fun _ => 0%N) pe_skel [anim80] 2 sound_new _ (frame86 nhalf none_) 32 stay ltac:(reflexivity)
     H1 H2 H3 H4 H5 H6 ltac:(lia) H7 H8 ltac:(simpl; lra) H9 H10) as T. cbv zeta in T. rewrite H11, EE in T. cbn [INR] in T.
  destruct T as (p & p' & E1 & E2 & M).
  - apply identity_motion; simpl; lra.
  - apply stay_rotation.
  - intros r _. cbn [stay move_of]. rewrite Rabs_R0. lra.
  - exists p, p'. split; [exact E1|]. split; [exact E2|].
    assert (HC : chain (sk_parents pe_skel) 2 [0; 1; 2]%nat).
    { apply (chain_child (sk_parents pe_skel) 2 1 [0; 1]%nat eq_refl). apply (chain_child (sk_parents pe_skel) 1 0 [0]%nat eq_refl). apply chain_root. reflexivity. }
    destruct (M 2%nat _ HC) as (m & q & N & (I1 & I2 & I3 & I4) & Q).
    + cbn [length INR]. simpl. lra.
    + cbn [length INR] in I2, I3. exists m, q. split; [exact N|]. split; [|exact Q].
      split; [exact I1|]. split; [|split; [|exact I4]].
      * intros r c Hr Hc. eapply Rle_trans; [apply I2; assumption|]. simpl. lra.
      * intros r Hr. eapply Rle_trans; [apply I3; assumption|]. simpl. lra.
Qed.
Example C86_moves :
  match play_all (fun _ => 0%N) pe_skel sound_new history86 with
  | Some p => matrix_bits (play (fun _ => 0%N) pe_skel p (frame86 nhalf none_)) <> [] /\
              matrix_bits (play (fun _ => 0%N) pe_skel p (frame86 nhalf none_)) <>
              matrix_bits (play (fun _ => 0%N) pe_skel p (mk_frame [mk_input anim80 nhalf none_ [] false; mk_input anim80 B754_nan nzero [] true] nhalf mat_identity))
  | None => False
  end.
Proof. vm_compute. split; discriminate. Qed.
