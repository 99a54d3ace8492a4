(** C77: whatever was played before, a frame with sound inputs draws a sound pose. *)
From Coq Require Import Reals Lra Lia.
From Flocq Require Import Core.Raux IEEE754.BinarySingleNaN.
From Verif Require Import Base Num NumF32 Math Keys KeysSpec Skeleton SkeletonSpec Blending BlendingSpec BlendingProofs Sampling SamplingSpec SamplingHist.
From Verif Require Import F32Facts F32Err InterpF32 NormF32 BlendF32 BlendF32Proofs SamplingProps PoseSpec PoseProofs PoseProps Player PlayerSpec PlayerProofs PlayerProps BlendF32Spec BlendF32Props PlaybackSpec.
Local Open Scope R_scope.

Lemma hull_bound a b x :
  Rmin a b - Rmax (Rabs a) (Rabs b) * / 4194304 <= x <= Rmax a b + Rmax (Rabs a) (Rabs b) * / 4194304 ->
  Rabs a <= 65536 -> Rabs b <= 65536 -> Rabs x <= 2 ^ 40.
Proof.
  intros B H1 H2. pose proof (Rmax_lub _ _ _ H1 H2) as HM. apply Rabs_le_inv in H1. apply Rabs_le_inv in H2.
  assert (HN : -65536 <= Rmin a b) by (apply Rmin_glb; lra).
  assert (HX : Rmax a b <= 65536) by (apply Rmax_lub; lra).
  apply Rabs_le. assert (P : 65537 <= 2 ^ 40) by (simpl; lra). lra.
Qed.
Lemma follows3_usable T tp k keys d r t v : length keys = length (k_prev k) -> Forall key3_ok keys ->
  follows3 T tp k keys d r t v ->
  forall c, is_finite (coord v c) = true /\ Rabs (B2R (coord v c)) <= 2 ^ 40.
Proof.
  intros L K (kl & kr & (C & _) & H) c.
  assert (E : exists c', (c' < 3)%nat /\ coord v c = coord v c').
  { destruct c as [|[|c]]; [exists 0%nat|exists 1%nat|exists 2%nat]; (split; [lia|reflexivity]). }
  destruct E as (c' & Hc & ->). destruct (H c' Hc) as (F & _ & B & _). split; [exact F|].
  destruct (consecutive_In _ _ _ C) as [I1 I2].
  assert (HB : forall i, In i (track_keys T k (length (k_prev k)) t) -> Rabs (half_value (coord (nth i keys d) c')) <= 65536).
  { intros i Hi. apply filter_In in Hi. destruct Hi as [Hi _]. apply in_seq in Hi.
    rewrite Forall_forall in K. destruct (K _ (nth_In keys d (eq_ind_r (fun n => (i < n)%nat) (proj2 Hi) L))) as (K0 & K1 & K2).
    unfold coord. destruct c' as [|[|?]]; [apply half_fin, K0|apply half_fin, K1|apply half_fin, K2]. }
  exact (hull_bound _ _ _ B (HB kl I1) (HB kr I2)).
Qed.

Lemma followsq_usable T tp k keys d r t q : followsq T tp k keys d r t q ->
  (forall c, is_finite (qcomp q c) = true) /\ Rabs (sumsq q - 1) <= / 1024.
Proof.
  intros (kl & kr & _ & H & B). cbv zeta in H, B. split; [|lra]. intros c.
  destruct c as [|[|[|c]]]; [apply (H 0%nat)|apply (H 1%nat)|apply (H 2%nat)|apply (H 3%nat)]; lia.
Qed.
Lemma transform_usable (t s : vec3 f32) (q : quat f32) :
  (forall c, is_finite (coord t c) = true /\ Rabs (B2R (coord t c)) <= 2 ^ 40) ->
  (forall c, is_finite (qcomp q c) = true) /\ Rabs (sumsq q - 1) <= / 1024 ->
  (forall c, is_finite (coord s c) = true /\ Rabs (B2R (coord s c)) <= 2 ^ 40) -> usable_transform (TR t q s).
Proof.
  intros Ht [Hq1 Hq2] Hs. split; [|split; [exact Hq1|exact Hq2]]. intros c.
  destruct c as [|[|[|[|[|c]]]]]; [apply (Ht 0%nat)|apply (Ht 1%nat)|apply (Ht 2%nat)|apply (Hs 0%nat)|apply (Hs 1%nat)|apply (Hs 2%nat)].
Qed.
Lemma layer_usable sk lib i pose j : animations sk lib -> In (in_anim i) lib -> num_soa (in_anim i) = num_soa_joints sk ->
  exported (in_anim i) -> layer_pose i pose -> (j < 4 * num_soa_joints sk)%nat -> usable_transform (joint pose j).
Proof.
  intros [LIB _] HI HN (Cv & Kt & Ks & Kr & Hem) [HL HP] Hj.
  assert (D : (4 * (j / 4) + j mod 4 = j)%nat) by (symmetry; apply Nat.div_mod; lia).
  assert (M : (j mod 4 < 4)%nat) by (apply Nat.mod_upper_bound; lia).
  assert (Q : (j / 4 < num_soa (in_anim i))%nat) by lia.
  specialize (HP (j / 4)%nat (j mod 4)%nat Q M). rewrite D in HP.
  destruct (nth_error pose (j / 4)) as [x|] eqn:E; [|discriminate HP]. cbn [option_map] in HP.
  unfold joint. rewrite (nth_error_nth _ _ _ E). replace (lane_tr x (j mod 4)) with
    (sample_track float3_lane quat_decompress (in_anim i) key0 key0 (set_ratio (in_ratio i)) j) by congruence.
  destruct (C05_set_ratio_clamps (in_ratio i)) as (R0 & R1 & _).
  destruct (wf_parts (in_anim i) (proj1 (proj1 LIB _ HI)) ltac:(lia)) as ((Wt & Lt) & (Wr & Lr) & (Ws & Ls)).
  destruct (covers_parts _ Cv) as (Htp & Ct & Cr & Cs).
  assert (Hj' : (j < 4 * num_soa (in_anim i))%nat) by lia.
  pose proof (sample3_follows _ _ _ _ _ key0 _ _ Wt Htp Ct R0 R1 Hj' Lt Kt) as Ft.
  pose proof (sample3_follows _ _ _ _ _ key0 _ _ Ws Htp Cs R0 R1 Hj' Ls Ks) as Fs.
  pose proof (sampleq_follows _ _ _ _ _ key0 _ _ Wr Htp Cr R0 R1 Hj' Lr Kr Hem) as Fr.
  exact (transform_usable _ _ _ (follows3_usable _ _ _ _ _ _ _ _ Lt Kt Ft) (followsq_usable _ _ _ _ _ _ _ _ Fr)
           (follows3_usable _ _ _ _ _ _ _ _ Ls Ks Fs)).
Qed.

Lemma inputs_usable sk lib j : animations sk lib -> (j < 4 * num_soa_joints sk)%nat -> forall ins poses,
  Forall2 layer_pose ins poses -> Forall (fun i => In (in_anim i) lib) ins ->
  Forall (fun i => num_soa (in_anim i) = num_soa_joints sk) ins -> Forall (sound_input (num_soa_joints sk)) ins ->
  blend_inputs true poses ins = [] /\ Forall (usable_layer j) (blend_inputs false poses ins).
Proof.
  intros LIB Hj ins poses H. induction H as [|i pose ins poses HP H IH]; intros U N S; [split; constructor|].
  inversion U as [|? ? U1 U2]; subst. inversion N as [|? ? N1 N2]; subst. inversion S as [|? ? (S1 & S2 & S3) S4]; subst.
  destruct (IH U2 N2 S4) as [I1 I2]. unfold blend_inputs in *. cbn [combine filter snd]. rewrite S1. cbn [Bool.eqb map fst snd].
  split; [exact I1|]. apply Forall_cons; [|exact I2]. split; [exact S2|]. cbn [ly_weight ly_transform ly_joint_weights].
  intros W. destruct (S3 W) as [X J]. split; [eapply layer_usable; eassumption|]. apply J, Hj.
Qed.

(** C77 *)
Theorem C77_playback_sound :
  forall (outside : nat -> N) (sk : skeleton f32) (lib : list animf) (n : nat) (new : player) (history : list frame) (fr : frame),
    (forall j, (outside j < 256)%N) -> skeleton_ok sk -> animations sk lib ->
    new_player sk n new -> Forall (uses lib) history -> uses lib fr -> valid_frame sk n fr ->
    sound_rest sk -> sound_frame sk fr ->
    exists p p' pose, play_all outside sk new history = Some p /\ play outside sk p fr = Some (Drawn, p') /\
      model_matrices sk fr pose (pl_models p') /\ sound_pose sk pose.
Proof.
  intros outside sk lib n new history fr Ho SK LIB N HH HU HV HR [HT HS].
  destruct (C73_frames_stand_alone outside sk lib n new history fr Ho SK LIB N HH HU HV)
    as (p & p' & E1 & E2 & poses & pose & F2 & BP & MM). destruct (proj1 (blended_job _ _ _ _) BP) as (c & B).
  exists p, p', pose. split; [exact E1|]. split; [exact E2|]. split; [exact MM|].
  intros j Hj. destruct HV as (_ & _ & HV).
  assert (HN : Forall (fun i => num_soa (in_anim i) = num_soa_joints sk) (fr_layers fr))
    by (eapply Forall_impl; [|exact HV]; intros i [A _]; exact A).
  destruct (inputs_usable sk lib j LIB Hj _ _ F2 HU HN HS) as [A1 A2].
  unfold blending_job in B. rewrite A1 in B.
  exact (C74_blended_unit sk _ _ _ _ c pose (proj1 (proj2 SK)) B HT j Hj (HR j Hj) A2).
Qed.
Print Assumptions C77_playback_sound.

(** The skeleton of C73 and the animation of C71 and C72: two layers, the second masked and played at
    a ratio that is no number, after frames with other ratios, weights and an additive layer. *)
Definition sound_ex (r w : f32) (additive : bool) : frame :=
  mk_frame [mk_input (ex_anim71 16) r w [] additive;
            mk_input (ex_anim71 16) B754_nan none_ [splat nhalf] false] nhalf mat_identity.
Definition sound_new : player :=
  mk_player [(ex_ctx 4, ex_out); (ex_ctx 4, ex_out)] (mk_bctx 5 7 B754_nan []) ex_out (repeat mat_identity 3).
Definition sound_history : list frame := [sound_ex B754_nan nzero true; sound_ex nhalf B754_nan true].
Example C77_hypotheses :
  skeleton_ok pe_skel /\ animations pe_skel [ex_anim71 16] /\ new_player pe_skel 2 sound_new /\
  Forall (uses [ex_anim71 16]) sound_history /\ uses [ex_anim71 16] (sound_ex nhalf none_ false) /\
  valid_frame pe_skel 2 (sound_ex nhalf none_ false) /\ sound_rest pe_skel /\ sound_frame pe_skel (sound_ex nhalf none_ false).
Proof.
  destruct C71_C72_hypotheses as (L & _ & Cv & K1 & K2 & K3 & Hm).
  assert (U : forall r w b, uses [ex_anim71 16] (sound_ex r w b)).
  { intros r w b. unfold uses, sound_ex. cbn [fr_layers]. repeat (apply Forall_cons; [left; reflexivity|]). apply Forall_nil. }
  assert (E : exported (ex_anim71 16)) by (split; [exact Cv|]; split; [exact K1|]; split; [exact K2|]; split; [exact K3|exact Hm]).
  assert (UW1 : usable_weight (none_ : f32)) by (apply (usable_of _ _ fin_one); simpl; lra).
  assert (UWh : usable_weight (nhalf : f32)) by (apply (usable_of _ _ fin_half); simpl; lra).
  split; [exact (proj1 C73_hypotheses)|]. split; [|split; [|split; [|split; [|split; [|split]]]]].
  - split; [exact L|]. intros a [<-|[]]; discriminate.
  - split; [reflexivity|]. split; [|split; reflexivity]. cbn [pl_layers sound_new].
    repeat (apply Forall_cons; [split; [repeat split|split; reflexivity]|]). apply Forall_nil.
  - unfold sound_history. repeat (apply Forall_cons; [apply U|]). apply Forall_nil.
  - apply U.
  - split; [reflexivity|]. split; [vm_compute; reflexivity|]. unfold sound_ex. cbn [fr_layers].
    apply Forall_cons; [split; [reflexivity|left; reflexivity]|]. apply Forall_cons; [split; [reflexivity|right; apply le_n]|]. apply Forall_nil.
  - intros j Hj. change (num_soa_joints pe_skel) with 1%nat in Hj.
    apply (usable_k1 nzero 0 j fin_zero); [rewrite Rabs_R0; apply pow_le; lra|lia].
  - split; [split; [exact (proj1 fin_half)|cbn [fr_threshold sound_ex]; rewrite (proj2 fin_half); simpl; lra]|].
    unfold sound_ex. cbn [fr_layers].
    apply Forall_cons; [|apply Forall_cons; [|apply Forall_nil]]; (split; [reflexivity|]; split; [assumption|]; intros _; split; [exact E|]).
    + intros j _ N. contradiction.
    + intros j Hj _. change (num_soa_joints pe_skel) with 1%nat in Hj. cbn [in_joint_weights].
      rewrite Nat.div_small, Nat.mod_small by lia. cbn [nth]. destruct j as [|[|[|[|j]]]]; [..|lia]; exact UWh.
Qed.
(** The joints of that frame really are turned and moved: the matrix of the last joint is not the
    identity. *)
Example C77_example :
  match play_all (fun _ => 0%N) pe_skel sound_new sound_history with
  | Some p => matrix_bits (play (fun _ => 0%N) pe_skel p (sound_ex nhalf none_ false)) <> [] /\
              matrix_bits (play (fun _ => 0%N) pe_skel p (sound_ex nhalf none_ false)) <> matrix_bits (Some (Drawn, sound_new))
  | None => False
  end.
Proof. vm_compute. split; discriminate. Qed.
