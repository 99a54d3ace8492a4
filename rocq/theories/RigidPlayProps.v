(** C79: blending stays in the range of its inputs; C80: playing unscaled animations draws rigid
    matrices. *)
From Coq Require Import Reals Lra Lia.
From Flocq Require Import Core.Core IEEE754.BinarySingleNaN.
From Verif Require Import Base Num NumR NumF32 Math Keys KeysSpec Skeleton SkeletonSpec Blending BlendingSpec BlendingProofs BlendingProps Sampling SamplingSpec SamplingHist.
From Verif Require Import F32Facts F32Err InterpF32 NormF32 BlendF32 BlendF32Proofs SamplingProps PoseSpec PoseProofs PoseProps Player PlayerSpec PlayerProofs PlayerProps.
From Verif Require Import BlendF32Spec BlendMean BlendF32Props PlaybackSpec PlaybackProps RigidSpec RigidF32 RigidRow SkeletonProps RigidProps RigidPlaySpec.
Local Open Scope R_scope.

Lemma abs_range lo hi x : lo <= x <= hi -> Rabs x <= Rmax (Rabs lo) (Rabs hi).
Proof.
  intros H. pose proof (Rmax_l (Rabs lo) (Rabs hi)). pose proof (Rmax_r (Rabs lo) (Rabs hi)).
  pose proof (Rle_abs hi). pose proof (Rle_abs (- lo)). rewrite Rabs_Ropp in *. apply Rabs_le. lra.
Qed.
Lemma mean_hull thr (ls : list (layer f32)) rest i c lo hi : 0 < thr ->
  (forall l, In l ls -> 0 < rw i l -> lo <= B2R (linear (joint (ly_transform l) i) c) <= hi) ->
  lo <= B2R (linear (joint rest i) c) <= hi ->
  lo <= mean thr (map real_layer ls) (map real_soa rest) i (rlinear c) <= hi.
Proof.
  intros Ht HL HR. rewrite mean_TX.
  assert (S : 0 <= T i ls /\ lo * T i ls <= X i c ls <= hi * T i ls).
  { unfold T, X, Rsum. clear HR. induction ls as [|l ls IH]; [cbn; lra|]. cbn [fold_right].
    destruct IH as (I0 & I1); [intros; apply HL; [right|]; assumption|].
    pose proof (rw_nonneg i l) as [P|P].
    - specialize (HL l (or_introl eq_refl) P). change (lo <= val i c l <= hi) in HL.
      assert (lo * rw i l <= rw i l * val i c l) by (rewrite Rmult_comm; apply Rmult_le_compat_l; lra).
      assert (rw i l * val i c l <= hi * rw i l) by (rewrite (Rmult_comm hi); apply Rmult_le_compat_l; lra).
      rewrite !Rmult_plus_distr_l. lra.
    - rewrite <- P. rewrite !Rmult_plus_distr_l. lra. }
  destruct S as (S0 & S1 & S2).
  set (W := Rmax thr (T i ls)). assert (W0 : 0 < W) by (pose proof (Rmax_l thr (T i ls)); unfold W; lra).
  assert (BW : T i ls + Rmax 0 (thr - T i ls) = W).
  { unfold W, Rmax. destruct Rle_dec, Rle_dec; lra. }
  assert (B0 : 0 <= Rmax 0 (thr - T i ls)) by apply Rmax_l. set (b := Rmax 0 (thr - T i ls)) in *.
  assert (b * lo <= b * B2R (linear (joint rest i) c) <= b * hi) by (split; apply Rmult_le_compat_l; lra).
  split; (apply Rmult_le_reg_r with W; [exact W0|]); unfold Rdiv; rewrite (Rmult_assoc _ (/ W)), Rinv_l, Rmult_1_r by lra;
    rewrite <- BW, Rmult_plus_distr_l, ?(Rmult_comm _ b); lra.
Qed.

(** C79 *)
Theorem C79_in_range :
  forall (sk : skeleton f32) ctx thr ls out c o,
    rest_sized sk ->
    blend_run (mk_bjob (Some sk) (Some ctx) thr ls [] (Some out)) = BOk (c, o) ->
    usable_threshold thr -> (length ls <= 4096)%nat ->
    forall i, (i < 4 * num_soa_joints sk)%nat ->
      usable_transform (joint (sk_rest sk) i) -> Forall (usable_layer i) ls ->
      forall k lo hi, Rmax (Rabs lo) (Rabs hi) <= 2 ^ 40 ->
        (forall l, In l ls -> 0 < B2R (ly_weight l) -> lo <= B2R (linear (joint (ly_transform l) i) k) <= hi) ->
        lo <= B2R (linear (joint (sk_rest sk) i) k) <= hi ->
        let d := (INR (length ls) + 4) / 2 ^ 22 * Rmax (Rabs lo) (Rabs hi) + / 2 ^ 100 in
        lo - d <= B2R (linear (joint o i) k) <= hi + d.
Proof.
  intros sk ctx thr ls out c o RS E HT Hn i Hi HU HL k lo hi HM Hv Hr. cbv zeta.
  assert (M : forall x, lo <= x <= hi -> Rabs x <= Rmax (Rabs lo) (Rabs hi)).
  { intros x Hx. apply abs_range, Hx. }
  assert (M0 : 0 <= Rmax (Rabs lo) (Rabs hi)) by (eapply Rle_trans; [apply Rabs_pos|apply Rmax_l]).
  pose proof (C75_blended_mean sk ctx thr ls out c o RS E HT Hn i Hi HU HL k _ (conj M0 HM)
    (fun l Hl Pl => M _ (Hv l Hl Pl)) (M _ Hr)) as C.
  assert (H : lo <= mean (B2R thr) (map real_layer ls) (map real_soa (sk_rest sk)) i (rlinear k) <= hi).
  { apply mean_hull; [destruct HT as [_ HT]; assert (0 < / 2 ^ 20) by (simpl; lra); lra| |exact Hr].
    intros l Hl Pl. apply Hv; [exact Hl|]. destruct (Rlt_dec 0 (B2R (ly_weight l))) as [P|P]; [exact P|].
    rewrite rw_npos in Pl by lra. lra. }
  apply Rabs_le_inv in C. lra.
Qed.
Print Assumptions C79_in_range.

(** ** C80 *)
Lemma layer_follows sk lib i pose j : animations sk lib -> In (in_anim i) lib -> num_soa (in_anim i) = num_soa_joints sk ->
  exported (in_anim i) -> layer_pose i pose -> (j < 4 * num_soa_joints sk)%nat ->
  let a := in_anim i in
  follows3 (4 * num_soa a) (an_timepoints a) (an_t a) (an_tkeys a) key0 (set_ratio (in_ratio i)) j (tr_t (joint pose j)) /\
  follows3 (4 * num_soa a) (an_timepoints a) (an_s a) (an_skeys a) key0 (set_ratio (in_ratio i)) j (tr_s (joint pose j)) /\
  length (an_tkeys a) = length (k_prev (an_t a)) /\ length (an_skeys a) = length (k_prev (an_s a)).
Proof.
  intros [LIB _] HI HN (Cv & Kt & Ks & _) [HL HP] Hj a. unfold a.
  assert (D : (4 * (j / 4) + j mod 4 = j)%nat) by (symmetry; apply Nat.div_mod; lia).
  assert (M : (j mod 4 < 4)%nat) by (apply Nat.mod_upper_bound; lia).
  assert (Q : (j / 4 < num_soa (in_anim i))%nat) by lia.
  specialize (HP (j / 4)%nat (j mod 4)%nat Q M). rewrite D in HP.
  destruct (nth_error pose (j / 4)) as [x|] eqn:E; [|discriminate HP]. cbn [option_map] in HP.
  unfold joint. rewrite (nth_error_nth _ _ _ E). replace (lane_tr x (j mod 4)) with
    (sample_track float3_lane quat_decompress (in_anim i) key0 key0 (set_ratio (in_ratio i)) j) by congruence.
  destruct (C05_set_ratio_clamps (in_ratio i)) as (R0 & R1 & _).
  destruct (wf_parts (in_anim i) (proj1 (proj1 LIB _ HI)) ltac:(lia)) as ((Wt & Lt) & (Wr & Lr) & (Ws & Ls)).
  destruct (covers_parts _ Cv) as (Htp & Ct & Cr & Cs).
  assert (Hj' : (j < 4 * num_soa (in_anim i))%nat) by lia.
  split; [exact (sample3_follows _ _ _ _ _ key0 _ _ Wt Htp Ct R0 R1 Hj' Lt Kt)|].
  split; [exact (sample3_follows _ _ _ _ _ key0 _ _ Ws Htp Cs R0 R1 Hj' Ls Ks)|]. auto.
Qed.
(** Sampled coordinates stay in any interval around 0, or at 1, that holds the keys. *)
Lemma follows3_range T tp k keys d r t v (lo hi : R) : length keys = length (k_prev k) ->
  (forall q c, In q keys -> lo <= half_value (coord q c) <= hi) ->
  follows3 T tp k keys d r t v -> forall c,
  lo - Rmax (Rabs lo) (Rabs hi) * / 4194304 <= B2R (coord v c) <= hi + Rmax (Rabs lo) (Rabs hi) * / 4194304.
Proof.
  intros L K (kl & kr & (C & _) & H) c.
  assert (E : exists c', (c' < 3)%nat /\ coord v c = coord v c').
  { destruct c as [|[|c]]; [exists 0%nat|exists 1%nat|exists 2%nat]; (split; [lia|reflexivity]). }
  destruct E as (c' & Hc & ->). destruct (H c' Hc) as (_ & _ & B & _).
  destruct (consecutive_In _ _ _ C) as [I1 I2].
  assert (HB : forall i, In i (track_keys T k (length (k_prev k)) t) -> lo <= half_value (coord (nth i keys d) c') <= hi).
  { intros i Hi. apply filter_In in Hi. destruct Hi as [Hi _]. apply in_seq in Hi.
    apply K. exact (nth_In keys d (eq_ind_r (fun n => (i < n)%nat) (proj2 Hi) L)). }
  assert (G : forall a b x, Rmin a b - Rmax (Rabs a) (Rabs b) * / 4194304 <= x <= Rmax a b + Rmax (Rabs a) (Rabs b) * / 4194304 ->
     lo <= a <= hi -> lo <= b <= hi -> lo - Rmax (Rabs lo) (Rabs hi) * / 4194304 <= x <= hi + Rmax (Rabs lo) (Rabs hi) * / 4194304).
  { intros a b x Hx Ha Hb.
    assert (M : forall x, lo <= x <= hi -> Rabs x <= Rmax (Rabs lo) (Rabs hi)).
    { intros y Hy. apply abs_range, Hy. }
    pose proof (Rmax_lub _ _ _ (M a Ha) (M b Hb)) as HM.
    assert (HN : lo <= Rmin a b) by (apply Rmin_glb; lra). assert (HX : Rmax a b <= hi) by (apply Rmax_lub; lra). lra. }
  exact (G _ _ _ B (HB kl I1) (HB kr I2)).
Qed.

Lemma half_one : half_value 15360 = 1.
Proof. unfold half_value. change (half_mant 15360) with 1024%Z. change (half_scale 15360) with (-10)%Z. simpl. lra. Qed.
Lemma inputs_from ins poses l : In l (blend_inputs false poses ins) -> Forall2 layer_pose ins poses ->
  exists i pose, In i ins /\ layer_pose i pose /\ l = mk_layer pose (in_weight i) (in_joint_weights i).
Proof.
  intros H F. unfold blend_inputs in H. apply in_map_iff in H. destruct H as ([pose i] & <- & H). apply filter_In in H. destruct H as [H _].
  exists i, pose. cbn [fst snd]. revert H. induction F as [|i' p' ins poses HP F IH]; [intros []|].
  intros [E|H]; [injection E as -> ->; split; [left; reflexivity|auto]|].
  destruct (IH H) as (A & B & C). split; [right; exact A|auto].
Qed.
Lemma filter_short {A} (f : A -> bool) l : (length (filter f l) <= length l)%nat.
Proof. induction l as [|x l IH]; [apply le_n|]. cbn [filter]. destruct (f x); cbn [length]; lia. Qed.
Lemma inputs_length ins : forall poses, (length (blend_inputs false poses ins) <= length ins)%nat.
Proof.
  intros poses. unfold blend_inputs. rewrite map_length. eapply Nat.le_trans; [apply filter_short|]. rewrite combine_length. lia.
Qed.
Lemma tiny100 : 0 < / 2 ^ 100 <= / 2 ^ 50 * / 1000000.
Proof.
  split; [apply Rinv_0_lt_compat, pow_lt; lra|].
  rewrite <- Rinv_mult. apply Rinv_le_contravar; [apply Rmult_lt_0_compat; [apply pow_lt|]; lra|].
  replace (2 ^ 100) with (2 ^ 50 * 2 ^ 50) by (rewrite <- pow_add; reflexivity). apply Rmult_le_compat_l; [apply pow_le; lra|]. simpl. lra.
Qed.

Lemma drawn_near_rigid sk lib fr poses pose c len n j :
  skeleton_ok sk -> animations sk lib -> uses lib fr -> valid_frame sk n fr -> (n <= 4096)%nat ->
  sound_rest sk -> sound_frame sk fr -> unscaled_rest len sk -> Forall (unscaled_input len) (fr_layers fr) -> / 2 ^ 50 <= len <= 65536 ->
  Forall2 layer_pose (fr_layers fr) poses ->
  blend_run (blending_job sk fr poses (mk_bctx 0 0 nzero []) (sk_rest sk)) = BOk (c, pose) ->
  (j < 4 * num_soa_joints sk)%nat ->
  near_rigid (Rmax (/ 2 ^ 19) ((INR n + 6) / 2 ^ 22)) (2 * len) (joint pose j).
Proof.
  intros SK LIB HU (VN & _ & HV) Hn HR [HT HS] UR UI HL F2 B Hj.
  assert (HN : Forall (fun i => num_soa (in_anim i) = num_soa_joints sk) (fr_layers fr))
    by (eapply Forall_impl; [|exact HV]; intros i [A _]; exact A).
  destruct (inputs_usable sk lib j LIB Hj _ _ F2 HU HN HS) as [A1 A2].
  unfold blending_job in B. rewrite A1 in B.
  pose proof (C74_blended_unit sk _ _ _ _ c pose (proj1 (proj2 SK)) B HT j Hj (HR j Hj) A2) as (FL & FQ & SQ).
  set (ls := blend_inputs false poses (fr_layers fr)) in *.
  assert (LN : (length ls <= n)%nat) by (rewrite <- VN; apply inputs_length).
  assert (LI : INR (length ls) <= INR n) by (apply le_INR, LN).
  assert (N4 : INR n <= 4096) by (apply INR_4096 in Hn; exact Hn).
  pose proof (pos_INR (length ls)) as P0. pose proof tiny100 as T100.
  assert (L50 : 0 < / 2 ^ 50) by (apply Rinv_0_lt_compat, pow_lt; lra).
  assert (P40 : 65537 <= 2 ^ 40) by (simpl; lra).
  assert (P22 : 2 ^ 22 = 4194304) by (simpl; lra).
  (* what each layer shows at this joint *)
  assert (LV : forall l, In l ls -> 0 < B2R (ly_weight l) -> forall k,
     1 - / 4194304 <= B2R (coord (tr_s (joint (ly_transform l) j)) k) <= 1 + / 4194304 /\
     - (len * (1 + / 4194304)) <= B2R (coord (tr_t (joint (ly_transform l) j)) k) <= len * (1 + / 4194304)).
  { intros l Hl Pl k. destruct (inputs_from _ _ _ Hl F2) as (i & ps & Hi & HP & ->). cbn [ly_weight ly_transform] in *.
    rewrite Forall_forall in HN, HS, UI. unfold uses in HU. rewrite Forall_forall in HU.
    destruct (HS i Hi) as (_ & _ & HX). destruct (HX Pl) as [X _]. destruct (UI i Hi Pl) as [U1 U2].
    destruct (layer_follows sk lib i ps j LIB (HU i Hi) (HN i Hi) X HP Hj) as (Ft & Fs & Lt & Ls). split.
    - assert (K : forall q c, In q (an_skeys (in_anim i)) -> 1 <= half_value (coord q c) <= 1).
      { intros q c' Hq. rewrite (U1 q Hq). destruct c' as [|[|c']]; cbn [coord vx vy vz]; rewrite half_one; lra. }
      pose proof (follows3_range _ _ _ _ _ _ _ _ 1 1 Ls K Fs k) as G. rewrite Rabs_R1, Rmax_left in G by lra. lra.
    - assert (K : forall q c, In q (an_tkeys (in_anim i)) -> - len <= half_value (coord q c) <= len).
      { intros q c' Hq. apply Rabs_le_inv, U2, Hq. }
      pose proof (follows3_range _ _ _ _ _ _ _ _ (- len) len Lt K Ft k) as G.
      rewrite Rabs_Ropp, Rmax_left, (Rabs_pos_eq len) in G by lra. lra. }
  assert (SC : forall k, Rabs (B2R (coord (tr_s (joint pose j)) k) - 1) <= (INR n + 6) / 2 ^ 22).
  { intros k. assert (E : forall t : transform f32, coord (tr_s t) k = linear t (3 + Nat.min k 2)).
    { intros t. destruct k as [|[|[|k]]]; reflexivity. }
    rewrite E.
    assert (MM : Rmax (Rabs (1 - / 4194304)) (Rabs (1 + / 4194304)) = 1 + / 4194304) by (rewrite !Rabs_pos_eq by lra; apply Rmax_right; lra).
    pose proof (C79_in_range sk _ _ ls _ c pose (proj1 (proj2 SK)) B HT ltac:(lia) j Hj (HR j Hj) A2 (3 + Nat.min k 2) (1 - / 4194304) (1 + / 4194304)) as G.
    rewrite MM in G. cbv zeta in G. rewrite P22 in *.
    assert (G' : 1 - / 4194304 - ((INR (length ls) + 4) / 4194304 * (1 + / 4194304) + / 2 ^ 100) <= B2R (linear (joint pose j) (3 + Nat.min k 2)) <=
                 1 + / 4194304 + ((INR (length ls) + 4) / 4194304 * (1 + / 4194304) + / 2 ^ 100)).
    { apply G; [lra| |].
      - intros l Hl Pl. rewrite <- E. apply (LV l Hl Pl).
      - rewrite <- E. destruct (UR j Hj k) as [-> _]. lra. }
    clear G. apply Rabs_le. assert (/ 2 ^ 50 <= 1) by (rewrite <- Rinv_1; apply Rinv_le_contravar; [lra|apply pow_R1_Rle; lra]). lra. }
  assert (TC : forall k, Rabs (B2R (coord (tr_t (joint pose j)) k)) <= 1.01 * len).
  { intros k. assert (E : forall t : transform f32, coord (tr_t t) k = linear t (Nat.min k 2)).
    { intros t. destruct k as [|[|[|k]]]; reflexivity. }
    rewrite E.
    assert (MM : Rmax (Rabs (- (len * (1 + / 4194304)))) (Rabs (len * (1 + / 4194304))) = len * (1 + / 4194304))
      by (rewrite Rabs_Ropp, Rmax_left by lra; apply Rabs_pos_eq; lra).
    pose proof (C79_in_range sk _ _ ls _ c pose (proj1 (proj2 SK)) B HT ltac:(lia) j Hj (HR j Hj) A2 (Nat.min k 2) (- (len * (1 + / 4194304))) (len * (1 + / 4194304))) as G.
    rewrite MM in G. cbv zeta in G. rewrite P22 in *.
    assert (D : (INR (length ls) + 4) / 4194304 * (len * (1 + / 4194304)) <= / 1000 * (len * (1 + / 4194304))) by (apply Rmult_le_compat_r; lra).
    assert (G' : - (len * (1 + / 4194304)) - ((INR (length ls) + 4) / 4194304 * (len * (1 + / 4194304)) + / 2 ^ 100) <= B2R (linear (joint pose j) (Nat.min k 2)) <=
                 len * (1 + / 4194304) + ((INR (length ls) + 4) / 4194304 * (len * (1 + / 4194304)) + / 2 ^ 100)).
    { apply G; [lra| |].
      - intros l Hl Pl. rewrite <- E. apply (LV l Hl Pl).
      - rewrite <- E. destruct (UR j Hj k) as [_ H]. apply Rabs_le_inv in H. lra. }
    clear G. apply Rabs_le. lra. }
  assert (ME : (INR n + 6) / 2 ^ 22 <= Rmax (/ 2 ^ 19) ((INR n + 6) / 2 ^ 22)) by apply Rmax_r.
  split; [|split; [exact FQ|split; [|split; [|split]]]].
  - split; [exact (FL 0%nat)|]. split; [exact (FL 1%nat)|exact (FL 2%nat)].
  - split; [exact (FL 3%nat)|]. split; [exact (FL 4%nat)|exact (FL 5%nat)].
  - assert (Q : forall x, Rabs x <= 1.01 * len -> x * x <= (1.01 * len) * (1.01 * len)).
    { intros x Hx. rewrite <- (Rabs_pos_eq (x * x)) by apply Rle_0_sqr. rewrite Rabs_mult. apply Rmult_le_compat; auto using Rabs_pos. }
    pose proof (Q _ (TC 0%nat)) as Q0. pose proof (Q _ (TC 1%nat)) as Q1. pose proof (Q _ (TC 2%nat)) as Q2. cbn [coord] in *.
    pose proof (Rle_0_sqr len) as LL. unfold Rsqr in LL. replace (2 * len * (2 * len)) with (4 * (len * len)) by ring.
    replace (1.01 * len * (1.01 * len)) with (1.0201 * (len * len)) in * by lra. lra.
  - eapply Rle_trans; [exact SQ|apply Rmax_l].
  - split; [|split]; (eapply Rle_trans; [|exact ME]); [exact (SC 0%nat)|exact (SC 1%nat)|exact (SC 2%nat)].
Qed.

Theorem C80_playback_rigid :
  forall (outside : nat -> N) (sk : skeleton f32) (lib : list animf) (n : nat) (new : player) (history : list frame) (fr : frame)
         (len : R) (q0 : motion),
    (forall j, (outside j < 256)%N) -> skeleton_ok sk -> animations sk lib ->
    new_player sk n new -> Forall (uses lib) history -> uses lib fr -> valid_frame sk n fr -> (n <= 4096)%nat ->
    sound_rest sk -> sound_frame sk fr ->
    / 2 ^ 50 <= len <= 65536 -> unscaled_rest len sk -> Forall (unscaled_input len) (fr_layers fr) ->
    let e := Rmax (/ 2 ^ 19) ((INR n + 6) / 2 ^ 22) in
    is_motion (fr_root fr) q0 e (e * (2 * len)) -> is_rotation (turn_of q0) -> (forall r, (r < 3)%nat -> Rabs (move_of q0 r) <= 2 * len) ->
    exists p p', play_all outside sk new history = Some p /\ play outside sk p fr = Some (Drawn, p') /\
      forall i c, chain (sk_parents sk) i c ->
        let d := INR (length c) + 1 in d * e <= / 128 ->
        exists m q, nth_error (pl_models p') i = Some m /\
          is_motion m q (16 * d * e) (20 * (d * d) * e * len) /\ is_rotation (turn_of q).
Proof.
  intros outside sk lib n new history fr len q0 Ho SK LIB N HH HU HV Hn HR HS HL UR UI e R0 Q0 M0.
  destruct (C73_frames_stand_alone outside sk lib n new history fr Ho SK LIB N HH HU HV)
    as (p & p' & E1 & E2 & poses & pose & F2 & BP & LM & MM). destruct (proj1 (blended_job _ _ _ _) BP) as (c & B).
  exists p, p'. split; [exact E1|]. split; [exact E2|]. intros i ch HC d Hd.
  assert (E19 : / 2 ^ 19 <= e) by apply Rmax_l.
  assert (LP : (num_soa_joints sk <= length pose)%nat).
  { destruct (blend_total sub_zero_f32 sk (mk_bctx 0 0 nzero []) (sk_rest sk) (fr_threshold fr)
       (blend_inputs false poses (fr_layers fr)) (blend_inputs true poses (fr_layers fr)) (proj1 (proj2 SK)) (proj1 (proj2 SK)))
      as [(c3 & o3 & B3 & L3)|(e3 & c3 & o3 & B3 & L3)]; unfold blending_job in B; rewrite B in B3; [|discriminate B3].
    injection B3 as _ E3. rewrite <- E3 in L3. pose proof (proj1 (proj2 SK)). lia. }
  assert (L2 : / 2 ^ 60 <= 2 * len <= 2 ^ 60).
  { assert (/ 2 ^ 60 <= / 2 ^ 50) by (apply Rinv_le_contravar; [apply pow_lt; lra|apply Rle_pow; [lra|lia]]).
    assert (0 < / 2 ^ 50) by (apply Rinv_0_lt_compat, pow_lt; lra). assert (131072 <= 2 ^ 60) by (simpl; lra). lra. }
  assert (E20 : / 2 ^ 20 <= e) by (apply Rle_trans with (/ 2 ^ 19); [apply Rinv_le_contravar; [apply pow_lt; lra|apply Rle_pow; [lra|lia]]|exact E19]).
  destruct (rigid_fold sk pose (fr_root fr) q0 e (2 * len) i ch LP HC E20 Hd L2 R0 Q0 M0) as [K1 K2].
  { intros j Hj. eapply drawn_near_rigid; try eassumption.
    pose proof (chain_joints _ _ _ HC j Hj) as Lj. pose proof (soa_index sk j Lj) as S.
    pose proof (Nat.div_mod j 4 ltac:(lia)). pose proof (Nat.mod_upper_bound j 4 ltac:(lia)). lia. }
  exists (fold_left mat_mul (map (local_matrix pose) ch) (fr_root fr)), (fold_left follow (map (fun j => joint_motion (joint pose j)) ch) q0).
  split; [apply MM, HC|]. split; [|exact K2]. unfold d. replace (20 * ((INR (length ch) + 1) * (INR (length ch) + 1)) * e * len)
    with (10 * ((INR (length ch) + 1) * (INR (length ch) + 1)) * e * (2 * len)) by ring. exact K1.
Qed.
Print Assumptions C80_playback_rigid.

(** The player of C77's example, with an animation whose scales are all 1. *)
Definition ones : list key := repeat (V3 15360 15360 15360)%N (length ex_k3).
Definition anim80 : animf := mk_anim 16 3 ex_tp ex_ctrl ex_k3 ex_ctrl (map turn ex_turns) ex_ctrl ones.
Definition frame80 (r w : f32) : frame :=
  mk_frame [mk_input anim80 r w [] false; mk_input anim80 B754_nan none_ [splat nhalf] false] nhalf mat_identity.
Lemma short_keys k c : In k ex_k3 -> Rabs (half_value (coord k c)) <= 32.
Proof.
  intros H.
  assert (K : forallb (fun k => forallb (fun n => (half_mant n <=? 2048) && (0 <=? half_mant n) && (half_scale n <=? -6))%Z [vx k; vy k; vz k]) ex_k3 = true) by reflexivity.
  rewrite forallb_forall in K. apply K in H. rewrite forallb_forall in H.
  assert (I : In (coord k c) [vx k; vy k; vz k]) by (destruct c as [|[|c]]; cbn [coord In]; auto).
  apply H in I. apply andb_prop in I. destruct I as [I S]. apply andb_prop in I. destruct I as [M M0].
  apply Z.leb_le in M, M0, S. unfold half_value.
  assert (P : 0 <= powerRZ 2 (half_scale (coord k c)) <= / 64).
  { split; [apply powerRZ_le; lra|]. change 2 with (IZR radix2) at 1. rewrite <- bpow_powerRZ.
    eapply Rle_trans; [apply bpow_le, S|]. change (bpow radix2 (-6)) with (/ IZR 64). lra. }
  apply IZR_le in M, M0. rewrite Rabs_pos_eq by (apply Rmult_le_pos; lra).
  eapply Rle_trans; [apply Rmult_le_compat; [exact M0|apply P|exact M|apply P]|]. lra.
Qed.
Example C79_C80_hypotheses :
  skeleton_ok pe_skel /\ animations pe_skel [anim80] /\ new_player pe_skel 2 sound_new /\
  Forall (uses [anim80]) [frame80 B754_nan nzero; frame80 nhalf B754_nan] /\ uses [anim80] (frame80 nhalf none_) /\
  valid_frame pe_skel 2 (frame80 nhalf none_) /\ sound_rest pe_skel /\ sound_frame pe_skel (frame80 nhalf none_) /\
  unscaled_rest 32 pe_skel /\ Forall (unscaled_input 32) (fr_layers (frame80 nhalf none_)).
Proof.
  destruct C71_C72_hypotheses as (_ & _ & _ & K1 & _ & K3 & Hm).
  destruct C77_hypotheses as (SK & _ & NP & _ & _ & _ & SR & _).
  assert (U : forall r w, uses [anim80] (frame80 r w)).
  { intros r w. unfold uses, frame80. cbn [fr_layers]. repeat (apply Forall_cons; [left; reflexivity|]). apply Forall_nil. }
  assert (K2 : Forall key3_ok ones).
  { unfold ones. apply Forall_forall. intros k Hk. apply repeat_spec in Hk. subst k. repeat split; try reflexivity; discriminate. }
  assert (E : exported anim80).
  { split; [vm_compute; reflexivity|]. split; [exact K1|]. split; [exact K2|]. split; [exact K3|exact Hm]. }
  assert (UW1 : usable_weight (none_ : f32)) by (apply (usable_of _ _ fin_one); simpl; lra).
  assert (UWh : usable_weight (nhalf : f32)) by (apply (usable_of _ _ fin_half); simpl; lra).
  split; [exact SK|]. split; [|split; [exact NP|split; [|split; [apply U|split; [|split; [exact SR|split; [|split]]]]]]].
  - split; [split|].
    + intros a [<-|[]]; (split; [vm_compute; reflexivity|apply le_n]).
    + intros a b [<-|[]] [<-|[]] _; reflexivity.
    + intros a [<-|[]]; discriminate.
  - repeat (apply Forall_cons; [apply U|]). apply Forall_nil.
  - split; [reflexivity|]. split; [vm_compute; reflexivity|]. unfold frame80. cbn [fr_layers].
    apply Forall_cons; [split; [reflexivity|left; reflexivity]|]. apply Forall_cons; [split; [reflexivity|right; apply le_n]|]. apply Forall_nil.
  - split; [split; [exact (proj1 fin_half)|cbn [fr_threshold frame80]; rewrite (proj2 fin_half); simpl; lra]|].
    unfold frame80. cbn [fr_layers].
    apply Forall_cons; [|apply Forall_cons; [|apply Forall_nil]]; (split; [reflexivity|]; split; [assumption|]; intros _; split; [exact E|]).
    + intros j _ N. contradiction.
    + intros j Hj _. change (num_soa_joints pe_skel) with 1%nat in Hj. cbn [in_joint_weights].
      rewrite Nat.div_small, Nat.mod_small by lia. cbn [nth]. destruct j as [|[|[|[|j]]]]; [..|lia]; exact UWh.
  - intros j Hj c. change (num_soa_joints pe_skel) with 1%nat in Hj. unfold joint, pe_skel. cbn [sk_rest].
    rewrite Nat.div_small, Nat.mod_small by lia. cbn [nth].
    split; destruct j as [|[|[|[|j]]]]; try lia; destruct c as [|[|c]];
      first [exact (proj2 fin_one)|match goal with |- Rabs ?x <= _ => change x with (B2R (nzero : f32)) end; rewrite (proj2 fin_zero), Rabs_R0; lra].
  - unfold frame80. cbn [fr_layers]. repeat (apply Forall_cons; [|]); try apply Forall_nil; (intros _; cbn [in_anim]; split;
      [intros k Hk; exact (repeat_spec _ _ _ Hk)|intros k c Hk; apply short_keys, Hk]).
Qed.
(** So the matrix of its last joint, three joints down, is finite and a rotation to 1/2^12; it is not
    the identity. *)
Example C80_example :
  exists p p', play_all (fun _ => 0%N) pe_skel sound_new [frame80 B754_nan nzero; frame80 nhalf B754_nan] = Some p /\
    play (fun _ => 0%N) pe_skel p (frame80 nhalf none_) = Some (Drawn, p') /\
    exists m q, nth_error (pl_models p') 2 = Some m /\ is_motion m q (/ 2 ^ 12) (/ 2) /\ is_rotation (turn_of q).
Proof.
  destruct C79_C80_hypotheses as (H1 & H2 & H3 & H4 & H5 & H6 & H7 & H8 & H9 & H10).
  assert (EE : Rmax (/ 2 ^ 19) ((INR 2 + 6) / 2 ^ 22) = / 2 ^ 19) by (apply Rmax_left; simpl; lra).
  destruct (C80_playback_rigid (fun _ => 0%N) pe_skel [anim80] 2 sound_new _ (frame80 nhalf none_) 32 stay ltac:(reflexivity)
     H1 H2 H3 H4 H5 H6 ltac:(lia) H7 H8 ltac:(simpl; lra) H9 H10) as (p & p' & E1 & E2 & M).
  - rewrite EE. apply identity_motion; simpl; lra.
  - apply stay_rotation.
  - intros r _. cbn [stay move_of]. rewrite Rabs_R0. lra.
  - exists p, p'. split; [exact E1|]. split; [exact E2|].
    assert (HC : chain (sk_parents pe_skel) 2 [0; 1; 2]%nat).
    { apply (chain_child (sk_parents pe_skel) 2 1 [0; 1]%nat eq_refl). apply (chain_child (sk_parents pe_skel) 1 0 [0]%nat eq_refl). apply chain_root. reflexivity. }
    destruct (M 2%nat _ HC) as (m & q & N & (I1 & I2 & I3 & I4) & Q).
    + rewrite EE. cbn [length INR]. simpl. lra.
    + rewrite EE in I2, I3. cbn [length INR] in I2, I3. exists m, q. split; [exact N|]. split; [|exact Q].
      split; [exact I1|]. split; [|split; [|exact I4]].
      * intros r c Hr Hc. eapply Rle_trans; [apply I2; assumption|]. simpl. lra.
      * intros r Hr. eapply Rle_trans; [apply I3; assumption|]. simpl. lra.
Qed.
Example C80_moves :
  match play_all (fun _ => 0%N) pe_skel sound_new [frame80 B754_nan nzero; frame80 nhalf B754_nan] with
  | Some p => matrix_bits (play (fun _ => 0%N) pe_skel p (frame80 nhalf none_)) <> [] /\
              matrix_bits (play (fun _ => 0%N) pe_skel p (frame80 nhalf none_)) <> matrix_bits (Some (Drawn, sound_new))
  | None => False
  end.
Proof. vm_compute. split; discriminate. Qed.
(** C79 on the job of C74_C75_example: layers at 1 and 2 over a rest pose at 0. *)
Example C79_example :
  exists c o,
    blend_run (mk_bjob (Some one_joint) (Some (mk_bctx 0 0 nzero [])) nhalf ex_layers [] (Some [k1 ntwo])) = BOk (c, o) /\
    forall i, (i < 4)%nat -> let d := 7 / 2 ^ 22 * 2 + / 2 ^ 100 in 0 - d <= B2R (vx (tr_t (joint o i))) <= 2 + d.
Proof.
  set (j := mk_bjob _ _ _ _ _ _). assert (K : is_bok (blend_run j) = true) by (vm_compute; reflexivity).
  destruct (blend_run j) as [[c o]|e s|] eqn:E; [|discriminate|discriminate]. exists c, o. clear K. split; [reflexivity|].
  assert (P40 : 2 <= 2 ^ 40) by (replace 2 with (2 ^ 1) at 1 by ring; apply Rle_pow; [lra|lia]).
  assert (UT : usable_threshold (nhalf : f32)) by (split; [apply fin_half|]; rewrite (proj2 fin_half); simpl; lra).
  assert (UR : forall i, (i < 4)%nat -> usable_transform (joint (sk_rest one_joint) i)).
  { intros i Hi. apply (usable_k1 _ _ _ fin_zero); [rewrite Rabs_R0; lra|exact Hi]. }
  intros i Hi. assert (M2 : Rmax (Rabs 0) (Rabs 2) = 2) by (rewrite Rabs_R0, Rabs_pos_eq, Rmax_right; lra).
  pose proof (C79_in_range one_joint _ _ _ _ _ _ eq_refl E UT ltac:(cbn; lia) i Hi (UR i Hi) (ex_usable i Hi) 0%nat 0 2) as H.
  rewrite M2 in H. cbv zeta in *. cbn [linear] in H. cbn [ex_layers length INR] in H.
  replace (7 / 2 ^ 22) with ((1 + 1 + 1 + 4) / 2 ^ 22) by (f_equal; ring).
  assert (J : forall x : f32, vx (tr_t (joint [k1 x] i)) = x).
  { intros x. unfold joint. rewrite Nat.div_small, Nat.mod_small by exact Hi. destruct i as [|[|[|[|i]]]]; [..|lia]; reflexivity. }
  apply H; [exact P40| |].
  - intros l [<-|[<-|[<-|[]]]]; cbn [ly_weight ly_transform].
    + intros _. rewrite J, (proj2 fin_one). lra.
    + intros _. rewrite J, (proj2 fin_two). lra.
    + rewrite (proj2 fin_zero). intros F. exfalso. lra.
  - change (sk_rest one_joint) with [k1 nzero]. rewrite J, (proj2 fin_zero). lra.
Qed.
