(** C100: a crossfade of loaded animations, played from frame to frame, does not jump. *)
From Coq Require Import Reals Lra Lia.
From Flocq Require Import Core.Core IEEE754.BinarySingleNaN.
From Verif Require Import Base Num NumR NumF32 Math Keys KeysSpec Skeleton SkeletonSpec Blending BlendingSpec Sampling SamplingSpec PoseSpec PoseProofs Player PlayerSpec PlayerProofs BlendF32Spec BlendF32Props PlaybackSpec PlaybackProps.
From Verif Require Import F32Facts F32Err BlendingProps SamplingProps AuthorSpec AuthorBuild AuthorProofs AuthorFile AuthorProps SmoothSpec SmoothProps FadeSpec FadeProps PlayFadeSpec.
Local Open Scope R_scope.

(** ** What a drawn frame leaves in the output of the blending job *)
Lemma play_blended outside sk p fr p' ls : sample_layers outside (pl_layers p) (fr_layers fr) = Some (Drawn, ls) -> play outside sk p fr = Some (Drawn, p') ->
  exists c, blend_run (blending_job sk fr (map snd ls) (pl_blend p) (pl_blended p)) = BOk (c, pl_blended p').
Proof.
  intros S E. unfold play in E. rewrite S in E.
  destruct (blend_run _) as [[c o]|e [c o]|]; try discriminate E.
  destruct (ltm_run _ _) as [m|e|]; try discriminate E. injection E as <-. exists c. reflexivity.
Qed.
Lemma play_drawn outside sk lib n p fr : (forall j, (outside j < 256)%N) -> skeleton_ok sk -> animations sk lib -> player_inv sk lib n p ->
  uses lib fr -> valid_frame sk n fr ->
  exists p' poses c, play outside sk p fr = Some (Drawn, p') /\ Forall2 layer_pose (fr_layers fr) poses /\
    blend_run (blending_job sk fr poses (pl_blend p) (pl_blended p)) = BOk (c, pl_blended p').
Proof.
  intros Ho SK LIB I U V. destruct (play_ok outside Ho sk lib SK LIB n p fr I U) as (r & p' & E & _ & D). destruct (D V) as (-> & _).
  destruct I as (I1 & I2 & _). destruct V as (V1 & _ & V3).
  destruct (sample_layers_ok outside Ho sk lib LIB (pl_layers p) (fr_layers fr) I2 U) as (r & ls & S & _ & _ & G).
  destruct G as (-> & G); [congruence|eapply Forall_impl; [|exact V3]; intros i (A & _); exact A|].
  destruct (play_blended _ _ _ _ _ _ S E) as (c & B). exists p', (map snd ls), c. split; [exact E|]. split; [exact G|exact B].
Qed.

(** ** Components of sampled layers *)
Definition kc (k : nat) : nat := match k with 0%nat => 0%nat | 1%nat => 1%nat | 2%nat => 2%nat | 3%nat => 0%nat | 4%nat => 1%nat | _ => 2%nat end.
Lemma kc_lt k : (kc k < 3)%nat.
Proof. unfold kc. repeat (destruct k as [|k]; [lia|]). lia. Qed.
Lemma comp_on au r pose k t : on_curves au r pose -> (t < length (au_t au))%nat ->
  exists v : vec3 f32, linear (joint pose t) k = coord v (kc k) /\ on_curve3 (channel au k t) r v.
Proof.
  intros ON Ht. destruct (ON t Ht) as (x & E & C1 & _ & C3). unfold joint. rewrite (nth_error_nth _ _ _ E). unfold channel.
  destruct k as [|[|[|[|[|k]]]]]; [exists (tr_t (lane_tr x (t mod 4)))..|exists (tr_s (lane_tr x (t mod 4)))|exists (tr_s (lane_tr x (t mod 4)))|exists (tr_s (lane_tr x (t mod 4)))];
    (split; [reflexivity|]); assumption.
Qed.
Lemma channel_forward au k t : authored_ok au -> (t < length (au_t au))%nat -> forward (fun x : f32 * key => B2R (fst x)) (channel au k t).
Proof.
  intros (TO & _ & _ & LS & Tt & _ & Ts & _) Ht. unfold channel. rewrite Forall_forall in Tt, Ts.
  destruct (k <? 3)%nat; apply curve_forward; try exact TO; [apply Tt|apply Ts]; apply nth_In; [exact Ht|rewrite LS; exact Ht].
Qed.
Lemma between a b w M : Rabs a <= M -> Rabs b <= M -> 0 <= w <= 1 -> Rabs (a + (b - a) * w) <= M.
Proof.
  intros Ha Hb Hw. apply Rabs_le_inv in Ha. apply Rabs_le_inv in Hb. replace (a + (b - a) * w) with (a * (1 - w) + b * w) by ring.
  assert (- M * (1 - w) <= a * (1 - w) <= M * (1 - w)) by (split; apply Rmult_le_compat_r; lra).
  assert (- M * w <= b * w <= M * w) by (split; apply Rmult_le_compat_r; lra). apply Rabs_le. lra.
Qed.
Lemma near_bound x l M : 0 <= M -> Rabs (x - l) <= M * / 524288 -> Rabs l <= M -> Rabs x <= 1.001 * M.
Proof. intros M0 A B. apply Rabs_le_inv in A. apply Rabs_le_inv in B. apply Rabs_le. lra. Qed.
Lemma on_curve_bound c r (v : vec3 f32) M i : within3 c M -> on_curve3 c r v -> (i < 3)%nat -> Rabs (B2R (coord v i)) <= 1.001 * M.
Proof.
  intros W (x & y & ((l & l' & N) & Hr & LT) & C) Hi. destruct (C i Hi) as (_ & E & _). cbv zeta in E. unfold within3 in W. rewrite N in W.
  apply Forall_app in W. destruct W as (_ & W). inversion W as [|? ? W1 W']; subst. inversion W' as [|? ? W2 _]; subst. specialize (W1 i Hi). specialize (W2 i Hi).
  pose proof (share_range x y (B2R r) LT Hr) as Hw. change (share x y (B2R r)) with (way r x y) in Hw.
  pose proof (between _ _ _ M W1 W2 Hw) as B. pose proof (Rmax_lub _ _ _ W1 W2) as MX. pose proof (Rle_trans _ _ _ (Rabs_pos _) W1) as M0.
  assert (E' := Rle_trans _ _ (M * / 524288) E ltac:(apply Rmult_le_compat_r; [lra|exact MX])).
  exact (near_bound _ _ _ M0 E' B).
Qed.

(** ** The layers of the blending job *)
Lemma inputs_near lib sk t k L M d : animations sk lib -> 0 <= L -> forall ins ins' poses poses',
  Forall2 layer_pose ins poses -> Forall2 layer_pose ins' poses' -> Forall2 (near_input t k L M d) ins ins' ->
  Forall (fun i => In (in_anim i) lib) ins -> Forall (sound_input (num_soa_joints sk)) ins -> Forall (sound_input (num_soa_joints sk)) ins' ->
  Forall2 (near_layer t k (1.001 * M) (L * d + M / 2 ^ 18)) (blend_inputs false poses ins) (blend_inputs false poses' ins').
Proof.
  intros (LIB & _) L0 ins ins' poses poses' P P' N. revert poses poses' P P'. induction N as [|i i' ins ins' H N IH]; intros poses poses' P P' U S S'.
  - destruct poses, poses'; constructor.
  - inversion P as [|? x ? xs P1 P2]; subst. inversion P' as [|? x' ? xs' P1' P2']; subst. inversion U as [|? ? U1 U2]; subst.
    inversion S as [|? ? (S1 & _ & S3) S4]; subst. inversion S' as [|? ? (S1' & _ & S3') S4']; subst.
    specialize (IH xs xs' P2 P2' U2 S4 S4'). unfold blend_inputs in *. cbn [combine filter snd]. rewrite S1, S1'. cbn [Bool.eqb map fst snd].
    constructor; [|exact IH]. unfold near_layer. cbn [ly_transform ly_weight]. intros W. destruct H as (EA & H). destruct (H W) as (D & au & AU & ST & Ht & SP & WI).
    assert (PL : playable (in_anim i)).
    { assert (X : exported (in_anim i)) by (destruct W as [W|W]; [apply S3, W|rewrite EA; apply S3', W]). split; [|exact X]. apply (proj1 LIB _ U1). }
    assert (PL' : playable (in_anim i')) by (rewrite <- EA; exact PL). assert (ST' : stores (in_anim i') au) by (rewrite <- EA; exact ST).
    destruct (comp_on au _ _ k t (layer_on_curves i x au PL ST P1) Ht) as (v & -> & C).
    destruct (comp_on au _ _ k t (layer_on_curves i' x' au PL' ST' P1') Ht) as (v' & -> & C').
    split; [exact (on_curve_bound _ _ _ _ _ WI C (kc_lt k))|]. split; [exact (on_curve_bound _ _ _ _ _ WI C' (kc_lt k))|].
    eapply Rle_trans; [exact (smooth3 _ _ _ _ _ L M (channel_forward au k t AU Ht) SP WI C C' _ (kc_lt k))|].
    apply Rplus_le_compat_r, Rmult_le_compat_l; assumption.
Qed.
Lemma inputs_length ins poses n : Forall2 layer_pose ins poses -> Forall (sound_input n) ins -> length (blend_inputs false poses ins) = length ins.
Proof.
  intros P S. induction P as [|i x ins xs P1 P2 IH]; [reflexivity|]. inversion S as [|? ? (S1 & _) S2]; subst.
  unfold blend_inputs in *. cbn [combine filter snd]. rewrite S1. cbn [Bool.eqb map length]. f_equal. apply IH, S2.
Qed.
Lemma inputs_change t n ins ins' poses poses' : Forall2 layer_pose ins poses -> Forall2 layer_pose ins' poses' -> Forall (sound_input n) ins -> Forall (sound_input n) ins' ->
  weight_change t (blend_inputs false poses ins) (blend_inputs false poses' ins') =
  weight_change t (map (fun i => mk_layer [] (in_weight i) (in_joint_weights i)) ins) (map (fun i => mk_layer [] (in_weight i) (in_joint_weights i)) ins').
Proof.
  intros P. revert ins' poses'. induction P as [|i x ins xs P1 P2 IH]; intros ins' poses' P' S S'; [reflexivity|].
  inversion S as [|? ? (S1 & _) S2]; subst. inversion P' as [|i' x' ins2 xs' P1' P2']; subst.
  - change (blend_inputs false [] []) with (@nil (layer f32)). unfold weight_change. cbn [map]. rewrite !combine_nil. reflexivity.
  - inversion S' as [|? ? (S1' & _) S2']; subst. specialize (IH ins2 xs' P2' S2 S2'). unfold blend_inputs in *. cbn [combine filter snd]. rewrite S1, S1'. cbn [Bool.eqb map fst snd].
    unfold weight_change, Rsum in *. cbn [combine fold_right fst snd]. rewrite IH. reflexivity.
Qed.

Lemma final_bound E X M w thr N : 0 <= M -> 0 <= N ->
  X <= E + M / 2 ^ 18 + 2 * (1.001 * M) * w / thr + 2 * ((N + 4) / 2 ^ 22 * (1.001 * M) + / 2 ^ 100) ->
  X <= E + 2.002 * M * w / thr + (N + 10) / 2 ^ 18 * M + / 2 ^ 90.
Proof.
  intros M0 IP R. eapply Rle_trans; [exact R|]. clear R. replace 2.002 with (2 * 1.001) by lra. remember 1.001 as h eqn:Hh.
  set (wc := w / thr).
  replace (2 * (h * M) * w / thr) with (2 * h * M * wc) by (unfold wc, Rdiv; ring).
  replace (2 * h * M * w / thr) with (2 * h * M * wc) by (unfold wc, Rdiv; ring).
  assert (T : 2 * / 2 ^ 100 <= / 2 ^ 90).
  { replace (/ 2 ^ 90) with (2 ^ 10 * / 2 ^ 100) by (replace 100%nat with (10 + 90)%nat by reflexivity; rewrite pow_add; field; split; apply pow_nonzero; lra).
    apply Rmult_le_compat_r; [left; apply Rinv_0_lt_compat, pow_lt; lra|simpl; lra]. }
  assert (Q : M / 2 ^ 18 + 2 * ((N + 4) / 2 ^ 22 * (h * M)) <= (N + 10) / 2 ^ 18 * M).
  { replace (2 ^ 22) with (16 * 2 ^ 18) by ring. assert (0 < / 2 ^ 18) by (apply Rinv_0_lt_compat, pow_lt; lra).
    replace (M / 2 ^ 18 + 2 * ((N + 4) / (16 * 2 ^ 18) * (h * M))) with ((1 + 2 * h * (N + 4) / 16) * / 2 ^ 18 * M) by (field; apply pow_nonzero; lra).
    apply Rmult_le_compat_r; [exact M0|]. apply Rmult_le_compat_r; [lra|]. rewrite Hh. lra. }
  lra.
Qed.

Theorem C100_played_crossfade_does_not_jump :
  forall (outside outside' : nat -> N) (sk : skeleton f32) (lib : list animf) (n : nat) (new new' : player) (history history' : list frame) (fr fr' : frame),
    (forall j, (outside j < 256)%N) -> (forall j, (outside' j < 256)%N) -> skeleton_ok sk -> animations sk lib ->
    new_player sk n new -> new_player sk n new' -> Forall (uses lib) history -> Forall (uses lib) history' ->
    uses lib fr -> uses lib fr' -> valid_frame sk n fr -> valid_frame sk n fr' ->
    sound_rest sk -> sound_frame sk fr -> sound_frame sk fr' ->
    fr_threshold fr = fr_threshold fr' -> (n <= 4096)%nat ->
    exists p p1 q q1,
      play_all outside sk new history = Some p /\ play outside sk p fr = Some (Drawn, p1) /\
      play_all outside' sk new' history' = Some q /\ play outside' sk q fr' = Some (Drawn, q1) /\
      forall t k L M d, (t < num_joints sk)%nat -> 0 <= L -> 0 <= M <= 2 ^ 39 -> 0 <= d ->
        Forall2 (near_input t k L M d) (fr_layers fr) (fr_layers fr') -> Rabs (B2R (linear (joint (sk_rest sk) t) k)) <= M ->
        Rabs (B2R (linear (joint (pl_blended p1) t) k) - B2R (linear (joint (pl_blended q1) t) k))
        <= L * d + 2.002 * M * weight_change t (settings fr) (settings fr') / B2R (fr_threshold fr) + (INR n + 10) / 2 ^ 18 * M + / 2 ^ 90.
Proof.
  intros outside outside' sk lib n new new' history history' fr fr' Ho Ho' SK LIB N N' HH HH' U U' V V' HR (HT & HS) (HT' & HS') TH HN.
  destruct (play_all_ok outside sk lib n Ho SK LIB history new (new_inv _ _ _ _ N) HH) as (p & E & I).
  destruct (play_all_ok outside' sk lib n Ho' SK LIB history' new' (new_inv _ _ _ _ N') HH') as (q & E' & I').
  destruct (play_drawn outside sk lib n p fr Ho SK LIB I U V) as (p1 & poses & c & D & P & B).
  destruct (play_drawn outside' sk lib n q fr' Ho' SK LIB I' U' V') as (q1 & poses' & c' & D' & P' & B').
  exists p, p1, q, q1. repeat (split; [assumption|]). intros t k L M d Ht L0 HM Hd NI HRM.
  assert (Hj : (t < 4 * num_soa_joints sk)%nat).
  { unfold num_soa_joints. pose proof (Nat.div_mod (num_joints sk + 3) 4 ltac:(lia)). pose proof (Nat.mod_upper_bound (num_joints sk + 3) 4 ltac:(lia)). lia. }
  assert (VN : forall f, valid_frame sk n f -> Forall (fun i => num_soa (in_anim i) = num_soa_joints sk) (fr_layers f)).
  { intros f (_ & _ & F). eapply Forall_impl; [|exact F]. intros i (A & _). exact A. }
  destruct (inputs_usable sk lib t LIB Hj _ _ P U (VN _ V) HS) as (A1 & A2).
  destruct (inputs_usable sk lib t LIB Hj _ _ P' U' (VN _ V') HS') as (A1' & A2').
  unfold blending_job in B, B'. rewrite A1 in B. rewrite A1', <- TH in B'.
  pose proof (inputs_length _ _ _ P HS) as LN. rewrite (proj1 V) in LN.
  assert (M2 : 0 <= 1.001 * M <= 2 ^ 40) by (replace (2 ^ 40) with (2 * 2 ^ 39) by (rewrite <- tech_pow_Rmult; reflexivity); lra).
  assert (D2 : 0 <= L * d + M / 2 ^ 18).
  { assert (0 <= L * d) by (apply Rmult_le_pos; assumption). assert (0 < / 2 ^ 18) by (apply Rinv_0_lt_compat, pow_lt; lra).
    assert (0 <= M * / 2 ^ 18) by (apply Rmult_le_pos; lra). unfold Rdiv. lra. }
  pose proof (C99_crossfade_does_not_jump sk _ _ _ _ _ _ _ c c' _ _ (proj1 (proj2 SK)) B B' HT ltac:(rewrite LN; exact HN) t Hj (HR t Hj) A2 A2' k (1.001 * M) _ M2 D2
    (inputs_near lib sk t k L M d LIB L0 _ _ _ _ P P' NI U HS HS') ltac:(lra)) as R.
  rewrite LN, (inputs_change t _ _ _ _ _ P P' HS HS') in R. fold (settings fr) (settings fr') in R.
  exact (final_bound _ _ _ _ _ _ (proj1 HM) (pos_INR n) R).
Qed.
Print Assumptions C100_played_crossfade_does_not_jump.

(** ** Non-vacuity: two animations from C95 on five joints.  The first layer fades out from 1/2 to nothing while
    the ratio goes on by 1/8; the second is masked. *)
Definition fade_sk : skeleton f32 := mk_skel [k1 nzero; k1 nzero] [(-1)%Z; 0%Z; 1%Z; 0%Z; 3%Z].
Definition fade_lib : list animf := [ea_anim 16; ea_anim 32].
Definition fade_frame (r : Z) (w : f32) : frame :=
  mk_frame [mk_input (ea_anim 16) (f32_lit r (-3)) w [] false;
            mk_input (ea_anim 32) (f32_lit r (-3)) none_ [splat nhalf; splat nhalf] false] nhalf mat_identity.
Example C100_hypotheses :
  skeleton_ok fade_sk /\ animations fade_sk fade_lib /\ new_player fade_sk 2 ea_new /\
  Forall (uses fade_lib) [fade_frame 8 nzero] /\ uses fade_lib (fade_frame 3 nhalf) /\ uses fade_lib (fade_frame 4 nzero) /\
  valid_frame fade_sk 2 (fade_frame 3 nhalf) /\ valid_frame fade_sk 2 (fade_frame 4 nzero) /\
  sound_rest fade_sk /\ sound_frame fade_sk (fade_frame 3 nhalf) /\ sound_frame fade_sk (fade_frame 4 nzero) /\
  Forall2 (near_input 1 0 1 2 (/ 8)) (fr_layers (fade_frame 3 nhalf)) (fr_layers (fade_frame 4 nzero)) /\
  Rabs (B2R (linear (joint (sk_rest fade_sk) 1) 0)) <= 2.
Proof.
  destruct C95_hypotheses as (_ & _ & _ & _ & NZ & LB & _). destruct C98_hypotheses as (AU & _ & _ & _ & SP & WI & _).
  assert (PL : forall id, playable (ea_anim id)) by (intros id; apply file_playable, ea_ok).
  assert (ST : forall id, stores (ea_anim id) ea) by (intros id; apply (file_playable ea ea_ok id)).
  assert (U : forall r w, uses fade_lib (fade_frame r w)).
  { intros r w. unfold uses, fade_frame. cbn [fr_layers]. apply Forall_cons; [left; reflexivity|]. apply Forall_cons; [right; left; reflexivity|]. apply Forall_nil. }
  assert (V : forall r w, valid_frame fade_sk 2 (fade_frame r w)).
  { intros r w. split; [reflexivity|]. split; [vm_compute; reflexivity|]. unfold fade_frame. cbn [fr_layers].
    apply Forall_cons; [split; [reflexivity|left; reflexivity]|]. apply Forall_cons; [split; [reflexivity|right; apply le_n]|]. apply Forall_nil. }
  assert (UW1 : usable_weight (none_ : f32)) by (apply (usable_of _ _ fin_one); simpl; lra).
  assert (UWh : usable_weight (nhalf : f32)) by (apply (usable_of _ _ fin_half); simpl; lra).
  assert (TH : usable_threshold (nhalf : f32)) by (destruct (fin_half) as (F & E); split; [exact F|rewrite E; simpl; lra]).
  assert (SF : forall r w, usable_weight w -> sound_frame fade_sk (fade_frame r w)).
  { intros r w W. split; [exact TH|]. unfold fade_frame. cbn [fr_layers].
    apply Forall_cons; [split; [reflexivity|]; split; [exact W|]; intros _; split; [exact (proj2 (PL 16%N))|]; intros j _ Q; elim Q; reflexivity|].
    apply Forall_cons; [|apply Forall_nil]. split; [reflexivity|]. split; [exact UW1|]. intros _. split; [exact (proj2 (PL 32%N))|].
    intros j Hj _. change (num_soa_joints fade_sk) with 2%nat in Hj. cbn [in_joint_weights].
    do 8 (destruct j as [|j]; [exact UWh|]). lia. }
  split. { split; [intros i p H; do 5 (destruct i as [|i]; [injection H as <-; lia|]); destruct i; discriminate|]. split; [reflexivity|vm_compute; lia]. }
  split; [split; [exact LB|exact NZ]|].
  split. { split; [reflexivity|]. split; [|split; reflexivity]. cbn [pl_layers ea_new]. repeat (apply Forall_cons; [split; [repeat split|split; reflexivity]|]). apply Forall_nil. }
  split; [apply Forall_cons; [apply U|apply Forall_nil]|]. split; [apply U|]. split; [apply U|]. split; [apply V|]. split; [apply V|].
  split. { intros j Hj. change (num_soa_joints fade_sk) with 2%nat in Hj.
    assert (Q : joint (sk_rest fade_sk) j = joint [k1 nzero] (j mod 4)) by (do 8 (destruct j as [|j]; [reflexivity|]); lia).
    rewrite Q. apply (usable_k1 nzero 0 (j mod 4) fin_zero); [rewrite Rabs_R0; apply pow_le; lra|]. apply Nat.mod_upper_bound. lia. }
  split; [apply SF, UWh|]. split; [apply SF, (usable_of _ _ fin_zero); lra|].
  split.
  - assert (D : Rabs (B2R (set_ratio (f32_lit 3 (-3))) - B2R (set_ratio (f32_lit 4 (-3)))) <= / 8).
    { assert (E3 : set_ratio (f32_lit 3 (-3)) = f32_lit 3 (-3)) by (rewrite <- (of_to_bits (set_ratio _)), <- (of_to_bits (f32_lit _ _)); f_equal; vm_compute; reflexivity).
      assert (E4 : set_ratio (f32_lit 4 (-3)) = f32_lit 4 (-3)) by (rewrite <- (of_to_bits (set_ratio _)), <- (of_to_bits (f32_lit _ _)); f_equal; vm_compute; reflexivity).
      rewrite E3, E4. destruct (f32_lit_exact 3 (-3) ltac:(simpl; lia) ltac:(lia)) as [_ ->]. destruct (f32_lit_exact 4 (-3) ltac:(simpl; lia) ltac:(lia)) as [_ ->].
      simpl. apply Rabs_le. lra. }
    unfold fade_frame. cbn [fr_layers].
    repeat (apply Forall2_cons; [split; [reflexivity|]; intros _; split; [exact D|]; exists ea; split; [exact AU|]; split; [apply ST|]; split; [cbn; lia|]; split; [exact SP|exact WI]|]).
    apply Forall2_nil.
  - change (Rabs 0 <= 2). rewrite Rabs_R0. lra.
Qed.
