(** C93 for a whole player: any number of animations with scales, blended and put in model space. *)
From Coq Require Import Reals Lra Lia List.
From Flocq Require Import Core.Core IEEE754.BinarySingleNaN.
From Verif Require Import Base Num NumR NumF32 Math Keys KeysSpec Skeleton SkeletonSpec Blending BlendingSpec BlendingProofs BlendingProps Sampling SamplingSpec SamplingHist.
From Verif Require Import F32Facts F32Err InterpF32 NormF32 BlendF32 BlendF32Proofs SamplingProps PoseSpec PoseProofs PoseProps Player PlayerSpec PlayerProofs PlayerProps.
From Verif Require Import BlendF32Spec BlendMean BlendF32Props PlaybackSpec PlaybackProps RigidSpec RigidF32 RigidRow SkeletonProofs SkeletonProps RigidProps RigidPlaySpec RigidPlayProps.
From Verif Require Import ScaleSpec ScaleRow ScaleProps.
Import ListNotations.
Local Open Scope R_scope.

(** A linear coordinate of the blended pose, given a bound on what the layers and the rest pose show there. *)
Lemma blended_within sk ctx thr ls out c pose j k b : rest_sized sk ->
  blend_run (mk_bjob (Some sk) (Some ctx) thr ls [] (Some out)) = BOk (c, pose) ->
  usable_threshold thr -> (length ls <= 4096)%nat -> (j < 4 * num_soa_joints sk)%nat ->
  usable_transform (joint (sk_rest sk) j) -> Forall (usable_layer j) ls -> / 2 ^ 50 <= b <= 65536 ->
  (forall l, In l ls -> 0 < B2R (ly_weight l) -> - (b * (1 + / 4194304)) <= B2R (linear (joint (ly_transform l) j) k) <= b * (1 + / 4194304)) ->
  Rabs (B2R (linear (joint (sk_rest sk) j) k)) <= b ->
  Rabs (B2R (linear (joint pose j) k)) <= 1.01 * b.
Proof.
  intros RS B HT HN Hj HR HU Hb HL Hr.
  pose proof (INR_4096 _ HN) as N4. pose proof (pos_INR (length ls)) as P0. pose proof tiny100 as T100.
  assert (L50 : 0 < / 2 ^ 50) by (apply Rinv_0_lt_compat, pow_lt; lra).
  assert (P40 : 65537 <= 2 ^ 40) by (simpl; lra).
  assert (MM : Rmax (Rabs (- (b * (1 + / 4194304)))) (Rabs (b * (1 + / 4194304))) = b * (1 + / 4194304))
    by (rewrite Rabs_Ropp, Rmax_left by lra; apply Rabs_pos_eq; lra).
  pose proof (C79_in_range sk _ _ ls _ c pose RS B HT HN j Hj HR HU k (- (b * (1 + / 4194304))) (b * (1 + / 4194304))) as G.
  rewrite MM in G. cbv zeta in G. replace (2 ^ 22) with 4194304 in G by (simpl; lra).
  assert (D : (INR (length ls) + 4) / 4194304 * (b * (1 + / 4194304)) <= / 1000 * (b * (1 + / 4194304))) by (apply Rmult_le_compat_r; lra).
  assert (G' : - (b * (1 + / 4194304)) - ((INR (length ls) + 4) / 4194304 * (b * (1 + / 4194304)) + / 2 ^ 100) <= B2R (linear (joint pose j) k) <=
               b * (1 + / 4194304) + ((INR (length ls) + 4) / 4194304 * (b * (1 + / 4194304)) + / 2 ^ 100)).
  { apply G; [lra|exact HL|]. apply Rabs_le_inv in Hr. lra. }
  clear G. apply Rabs_le. lra.
Qed.
Lemma at3_linear (t : transform f32) k : at3 (tr_s t) k = B2R (linear t (3 + Nat.min k 2)) /\ at3 (tr_t t) k = B2R (linear t (Nat.min k 2)) /\
  coord (tr_s t) k = linear t (3 + Nat.min k 2) /\ coord (tr_t t) k = linear t (Nat.min k 2).
Proof. destruct k as [|[|[|k]]]; repeat split; reflexivity. Qed.

Lemma drawn_sound sk lib fr poses pose c size len n j :
  skeleton_ok sk -> animations sk lib -> uses lib fr -> valid_frame sk n fr -> (n <= 4096)%nat ->
  sound_rest sk -> sound_frame sk fr -> sized_rest size len sk -> Forall (sized_input size len) (fr_layers fr) ->
  / 2 ^ 50 <= size <= 65536 -> / 2 ^ 50 <= len <= 65536 ->
  Forall2 layer_pose (fr_layers fr) poses ->
  blend_run (blending_job sk fr poses (mk_bctx 0 0 nzero []) (sk_rest sk)) = BOk (c, pose) ->
  (j < 4 * num_soa_joints sk)%nat ->
  sound_joint (/ 2 ^ 19) (1.01 * size) (joint pose j) /\ bone (joint pose j) <= 2 * len.
Proof.
  intros SK LIB HU (VN & _ & HV) Hn HR [HT HS] UR UI Hz HL F2 B Hj.
  assert (HN : Forall (fun i => num_soa (in_anim i) = num_soa_joints sk) (fr_layers fr))
    by (eapply Forall_impl; [|exact HV]; intros i [A _]; exact A).
  destruct (inputs_usable sk lib j LIB Hj _ _ F2 HU HN HS) as [A1 A2].
  unfold blending_job in B. rewrite A1 in B.
  pose proof (C74_blended_unit sk _ _ _ _ c pose (proj1 (proj2 SK)) B HT j Hj (HR j Hj) A2) as (FL & FQ & SQ).
  set (ls := blend_inputs false poses (fr_layers fr)) in *.
  assert (LN : (length ls <= n)%nat) by (rewrite <- VN; apply inputs_length).
  assert (L50 : 0 < / 2 ^ 50) by (apply Rinv_0_lt_compat, pow_lt; lra).
  (* what each layer shows at this joint *)
  assert (LV : forall l, In l ls -> 0 < B2R (ly_weight l) -> forall k,
     - (size * (1 + / 4194304)) <= B2R (coord (tr_s (joint (ly_transform l) j)) k) <= size * (1 + / 4194304) /\
     - (len * (1 + / 4194304)) <= B2R (coord (tr_t (joint (ly_transform l) j)) k) <= len * (1 + / 4194304)).
  { intros l Hl Pl k. destruct (inputs_from _ _ _ Hl F2) as (i & ps & Hi & HP & ->). cbn [ly_weight ly_transform] in *.
    rewrite Forall_forall in HN, HS, UI. unfold uses in HU. rewrite Forall_forall in HU.
    destruct (HS i Hi) as (_ & _ & HX). destruct (HX Pl) as [X _]. destruct (UI i Hi Pl) as [U1 U2].
    destruct (layer_follows sk lib i ps j LIB (HU i Hi) (HN i Hi) X HP Hj) as (Ft & Fs & Lt & Ls). split.
    - assert (K : forall q c, In q (an_skeys (in_anim i)) -> - size <= half_value (coord q c) <= size).
      { intros q c' Hq. apply Rabs_le_inv, U1, Hq. }
      pose proof (follows3_range _ _ _ _ _ _ _ _ (- size) size Ls K Fs k) as G.
      rewrite Rabs_Ropp, Rmax_left, (Rabs_pos_eq size) in G by lra. lra.
    - assert (K : forall q c, In q (an_tkeys (in_anim i)) -> - len <= half_value (coord q c) <= len).
      { intros q c' Hq. apply Rabs_le_inv, U2, Hq. }
      pose proof (follows3_range _ _ _ _ _ _ _ _ (- len) len Lt K Ft k) as G.
      rewrite Rabs_Ropp, Rmax_left, (Rabs_pos_eq len) in G by lra. lra. }
  assert (SC : forall k, Rabs (at3 (tr_s (joint pose j)) k) <= 1.01 * size).
  { intros k. destruct (at3_linear (joint pose j) k) as (-> & _).
    apply (blended_within sk _ _ ls _ c pose j _ size (proj1 (proj2 SK)) B HT ltac:(lia) Hj (HR j Hj) A2 Hz).
    - intros l Hl Pl. destruct (at3_linear (joint (ly_transform l) j) k) as (_ & _ & <- & _). apply (LV l Hl Pl).
    - destruct (at3_linear (joint (sk_rest sk) j) k) as (_ & _ & <- & _). apply (UR j Hj k). }
  assert (TC : forall k, Rabs (at3 (tr_t (joint pose j)) k) <= 1.01 * len).
  { intros k. destruct (at3_linear (joint pose j) k) as (_ & -> & _).
    apply (blended_within sk _ _ ls _ c pose j _ len (proj1 (proj2 SK)) B HT ltac:(lia) Hj (HR j Hj) A2 HL).
    - intros l Hl Pl. destruct (at3_linear (joint (ly_transform l) j) k) as (_ & _ & _ & <-). apply (LV l Hl Pl).
    - destruct (at3_linear (joint (sk_rest sk) j) k) as (_ & _ & _ & <-). apply (UR j Hj k). }
  split; [split; [|split; [exact FQ|split; [|split]]]|].
  - split; [exact (FL 0%nat)|]. split; [exact (FL 1%nat)|exact (FL 2%nat)].
  - split; [exact (FL 3%nat)|]. split; [exact (FL 4%nat)|exact (FL 5%nat)].
  - exact SQ.
  - exact SC.
  - assert (Q : forall x, Rabs x <= 1.01 * len -> x * x <= (1.01 * len) * (1.01 * len)).
    { intros x Hx. rewrite <- (Rabs_pos_eq (x * x)) by apply Rle_0_sqr. rewrite Rabs_mult. apply Rmult_le_compat; auto using Rabs_pos. }
    pose proof (Q _ (TC 0%nat)) as Q0. pose proof (Q _ (TC 1%nat)) as Q1. pose proof (Q _ (TC 2%nat)) as Q2.
    pose proof (Rle_0_sqr len) as LL. unfold Rsqr in LL. replace (1.01 * len * (1.01 * len)) with (1.0201 * (len * len)) in * by lra.
    unfold bone. rewrite <- (sqrt_square (2 * len)) by lra. apply sqrt_le_1_alt. replace (2 * len * (2 * len)) with (4 * (len * len)) by ring. lra.
Qed.

(** Equal bounds all the way down. *)
Lemma even_chain e len g b (f : nat -> transform f32) : forall (c : list nat) S, 1 <= g <= 2 ^ 40 -> 1 <= S -> 0 <= b ->
  (forall j, In j c -> sound_joint e g (f j) /\ bone (f j) <= b) -> S * g ^ length c <= 2 ^ 60 -> S * g ^ length c * b <= len ->
  sound_chain e len S (map (fun j => (f j, g)) c) /\ chain_size S (map (fun j => (f j, g)) c) = S * g ^ length c.
Proof.
  induction c as [|j c IH]; intros S Hg HS Hb HJ HM HB; [cbn [map length pow]; unfold chain_size; cbn [fold_left]; split; [exact I|ring]|].
  destruct (HJ j (or_introl eq_refl)) as (J1 & J2). cbn [length pow] in HM, HB.
  assert (GP : 1 <= g ^ length c) by (apply pow_R1_Rle; lra).
  assert (SG : 1 <= S * g) by (replace 1 with (1 * 1) by ring; apply Rmult_le_compat; lra).
  assert (EQ : S * (g * g ^ length c) = S * g * g ^ length c) by ring. rewrite EQ in HM, HB.
  assert (UP : S * g <= S * g * g ^ length c) by (rewrite <- (Rmult_1_r (S * g)) at 1; apply Rmult_le_compat_l; lra).
  assert (US : S <= S * g) by (rewrite <- (Rmult_1_r S) at 1; apply Rmult_le_compat_l; lra).
  assert (I60 : / 2 ^ 60 <= 1) by (rewrite <- Rinv_1; apply Rinv_le_contravar; [lra|apply pow_R1_Rle; lra]).
  assert (I40 : / 2 ^ 40 <= 1) by (rewrite <- Rinv_1; apply Rinv_le_contravar; [lra|apply pow_R1_Rle; lra]).
  destruct (IH (S * g) Hg SG Hb (fun i Hi => HJ i (or_intror Hi)) HM HB) as (K1 & K2).
  split; [|cbn [length pow map]; unfold chain_size; cbn [fold_left snd]; fold (chain_size (S * g) (map (fun j => (f j, g)) c)); rewrite K2; symmetry; exact EQ].
  cbn [map sound_chain]. split; [exact J1|]. split; [|split; [lra|split; [lra|exact K1]]].
  eapply Rle_trans; [|exact HB]. apply Rle_trans with (S * b); [apply Rmult_le_compat_l; lra|apply Rmult_le_compat_r; lra].
Qed.

(** A player draws, for each joint, the motion its chain of parents makes in the blended pose. *)
Theorem C93_playback :
  forall (outside : nat -> N) (sk : skeleton f32) (lib : list animf) (n : nat) (new : player) (history : list frame) (fr : frame)
         (size len : R) (q0 : motion),
    (forall j, (outside j < 256)%N) -> skeleton_ok sk -> animations sk lib ->
    new_player sk n new -> Forall (uses lib) history -> uses lib fr -> valid_frame sk n fr -> (n <= 4096)%nat ->
    sound_rest sk -> sound_frame sk fr ->
    1 <= size <= 65536 -> / 2 ^ 50 <= len <= 65536 -> sized_rest size len sk -> Forall (sized_input size len) (fr_layers fr) ->
    let e := / 2 ^ 19 in
    is_motion (fr_root fr) q0 e (e * (2 * len)) -> rows_within 1 q0 -> (forall r, (r < 3)%nat -> Rabs (move_of q0 r) <= 2 * len) ->
    exists p p' poses pose, play_all outside sk new history = Some p /\ play outside sk p fr = Some (Drawn, p') /\
      Forall2 layer_pose (fr_layers fr) poses /\ blended_pose sk fr poses pose /\
      forall i c, chain (sk_parents sk) i c ->
        let d := INR (length c) + 1 in
        let big := (1.01 * size) ^ length c in
        d * e <= / 128 -> big * (2 * len) <= 2 ^ 60 -> big <= 2 ^ 60 ->
        exists m, nth_error (pl_models p') i = Some m /\
          is_motion m (fold_left follow (map (fun j => joint_map (joint pose j)) c) q0) (16 * d * e * big) (20 * (d * d) * e * (big * len)).
Proof.
  intros outside sk lib n new history fr size len q0 Ho SK LIB N HH HU HV Hn HR HS Hz HL UR UI e R0 Q0 M0.
  destruct (C73_frames_stand_alone outside sk lib n new history fr Ho SK LIB N HH HU HV)
    as (p & p' & E1 & E2 & poses & pose & F2 & BP & LM & MM). destruct (proj1 (blended_job _ _ _ _) BP) as (c & B).
  exists p, p', poses, pose. split; [exact E1|]. split; [exact E2|]. split; [exact F2|]. split; [exact BP|].
  intros i ch HC d big Hd HB1 HB2.
  assert (L50 : 0 < / 2 ^ 50 <= 1) by (split; [apply Rinv_0_lt_compat, pow_lt; lra|]; rewrite <- Rinv_1; apply Rinv_le_contravar; [lra|apply pow_R1_Rle; lra]).
  assert (BG : 1 <= big) by (apply pow_R1_Rle; lra).
  assert (LP : (num_soa_joints sk <= length pose)%nat).
  { destruct (blend_total sub_zero_f32 sk (mk_bctx 0 0 nzero []) (sk_rest sk) (fr_threshold fr)
       (blend_inputs false poses (fr_layers fr)) (blend_inputs true poses (fr_layers fr)) (proj1 (proj2 SK)) (proj1 (proj2 SK)))
      as [(c3 & o3 & B3 & L3)|(e3 & c3 & o3 & B3 & L3)]; unfold blending_job in B; rewrite B in B3; [|discriminate B3].
    injection B3 as _ E3. rewrite <- E3 in L3. pose proof (proj1 (proj2 SK)). lia. }
  exists (fold_left mat_mul (map (local_matrix pose) ch) (fr_root fr)). split; [apply MM, HC|].
  set (links := map (fun j => (joint pose j, 1.01 * size)) ch).
  assert (P40 : 1.01 * 65536 <= 2 ^ 40) by (simpl; lra).
  assert (LB : 2 * len <= big * (2 * len)) by (rewrite <- (Rmult_1_l (2 * len)) at 1; apply Rmult_le_compat_r; lra).
  destruct (even_chain e (big * (2 * len)) (1.01 * size) (2 * len) (joint pose) ch 1) as (K1 & K2); try lra; try (rewrite Rmult_1_l; fold big; lra).
  { intros j Hj. eapply drawn_sound; try eassumption; try lra.
    pose proof (chain_joints _ _ _ HC j Hj) as Lj. pose proof (soa_index sk j Lj) as S.
    pose proof (Nat.div_mod j 4 ltac:(lia)). pose proof (Nat.mod_upper_bound j 4 ltac:(lia)). lia. }
  rewrite Rmult_1_l in K2. fold links big in K1, K2.
  pose proof (pos_INR (length ch)) as PI.
  assert (Ee : e = / 524288) by (unfold e; simpl; lra).
  destruct p2_60 as (Q3 & Q4).
  assert (I60 : / 2 ^ 60 <= / 2 ^ 50) by (apply Rinv_le_contravar; [apply pow_lt; lra|apply Rle_pow; [lra|lia]]).
  assert (LL : p2 (-60) <= big * (2 * len) <= p2 60) by (rewrite Q3, Q4; lra).
  assert (S1 : p2 (-60) <= 1 <= p2 60) by (rewrite Q3, Q4; lra).
  assert (HD : INR (length ch) + 1 <= 4096) by (fold d; rewrite Ee in Hd; lra).
  pose proof (smat_root e (big * (2 * len)) ltac:(lra) ltac:(lra) LL 1 (fr_root fr) q0 S1) as SR.
  assert (SR' : smat e (big * (2 * len)) 1 1 (fr_root fr) q0).
  { apply SR; [|exact Q0|intros r Hr; specialize (M0 r Hr); lra]. rewrite Rmult_1_r.
    destruct R0 as (I1 & I2 & I3 & I4). split; [exact I1|]. split; [exact I2|]. split; [|exact I4].
    intros r Hr. eapply Rle_trans; [apply I3, Hr|]. apply Rmult_le_compat_l; lra. }
  assert (LI : length links = length ch) by (unfold links; apply map_length).
  pose proof (schain e (big * (2 * len)) ltac:(lra) ltac:(lra) LL links 1 1 (fr_root fr) q0 ltac:(lra)) as SC. rewrite LI in SC.
  specialize (SC ltac:(unfold d in Hd; lra) ltac:(lra) S1 K1 SR'). apply smat_motion in SC; [|lra]. rewrite K2 in SC.
  replace (map (fun p => matrix_of (fst p)) links) with (map (local_matrix pose) ch) in SC.
  - replace (map (fun p => joint_map (fst p)) links) with (map (fun j => joint_map (joint pose j)) ch) in SC by (unfold links; rewrite map_map; reflexivity).
    replace (1 + INR (length ch)) with d in SC by (unfold d; ring).
    replace (20 * (d * d) * e * (big * len)) with (10 * (d * d) * e * (big * (2 * len))) by ring. exact SC.
  - unfold links. rewrite map_map. apply map_ext_in. intros j Hj. cbn [fst].
    pose proof (chain_joints _ _ _ HC j Hj) as Lj. assert (J : (j / 4 < length pose)%nat) by (pose proof (soa_index sk j Lj); lia).
    unfold local_matrix, joint, matrix_of. destruct (nth_error pose (j / 4)) as [t|] eqn:NE.
    + rewrite (nth_error_nth _ _ _ NE). reflexivity.
    + apply nth_error_None in NE. lia.
Qed.
Print Assumptions C93_playback.

(** The player of C77's example, whose animation has scale keys of up to 32: three joints down. *)
Example C93_playback_example :
  exists p p' pose, play_all (fun _ => 0%N) pe_skel sound_new sound_history = Some p /\
    play (fun _ => 0%N) pe_skel p (sound_ex nhalf none_ false) = Some (Drawn, p') /\
    exists m, nth_error (pl_models p') 2 = Some m /\
      is_motion m (follow (follow (follow stay (joint_map (joint pose 0))) (joint_map (joint pose 1))) (joint_map (joint pose 2))) 8 1024.
Proof.
  destruct C77_hypotheses as (H1 & H2 & H3 & H4 & H5 & H6 & H7 & H8).
  assert (UR : sized_rest 32 32 pe_skel).
  { intros j Hj c. change (num_soa_joints pe_skel) with 1%nat in Hj. unfold joint, pe_skel. cbn [sk_rest].
    rewrite Nat.div_small, Nat.mod_small by lia. cbn [nth].
    split; destruct j as [|[|[|[|j]]]]; try lia; destruct c as [|[|c]]; match goal with |- Rabs ?x <= _ =>
      first [change x with (B2R (none_ : f32)); rewrite (proj2 fin_one), Rabs_R1; lra|change x with (B2R (nzero : f32)); rewrite (proj2 fin_zero), Rabs_R0; lra] end. }
  assert (UI : Forall (sized_input 32 32) (fr_layers (sound_ex nhalf none_ false))).
  { unfold sound_ex. cbn [fr_layers]. repeat (apply Forall_cons; [|]); try apply Forall_nil; (intros _; cbn [in_anim]; split; intros k c Hk; apply short_keys, Hk). }
  destruct (C93_playback (fun _ => 0%N) pe_skel [ex_anim71 16] 2 sound_new _ (sound_ex nhalf none_ false) 32 32 stay ltac:(reflexivity)
     H1 H2 H3 H4 H5 H6 ltac:(lia) H7 H8 ltac:(lra) ltac:(simpl; lra) UR UI) as (p & p' & poses & pose & E1 & E2 & _ & _ & M).
  - apply identity_motion; simpl; lra.
  - apply stay_rows.
  - intros r _. cbn [stay move_of]. rewrite Rabs_R0. lra.
  - exists p, p', pose. split; [exact E1|]. split; [exact E2|].
    assert (HC : chain (sk_parents pe_skel) 2 [0; 1; 2]%nat).
    { apply (chain_child (sk_parents pe_skel) 2 1 [0; 1]%nat eq_refl). apply (chain_child (sk_parents pe_skel) 1 0 [0]%nat eq_refl). apply chain_root. reflexivity. }
    destruct (M 2%nat _ HC) as (m & N & (I1 & I2 & I3 & I4)).
    + cbn [length INR]. simpl. lra.
    + cbn [length]. simpl. lra.
    + cbn [length]. simpl. lra.
    + exists m. split; [exact N|]. cbn [map fold_left] in *. split; [exact I1|]. split; [|split; [|exact I4]].
      * intros r c Hr Hc. eapply Rle_trans; [apply I2; assumption|]. cbn [length INR]. simpl. lra.
      * intros r Hr. eapply Rle_trans; [apply I3; assumption|]. cbn [length INR]. simpl. lra.
Qed.
