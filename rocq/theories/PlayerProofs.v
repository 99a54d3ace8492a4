From Verif Require Import Base Num NumF32 Math Keys KeysProofs Skeleton SkeletonSpec SkeletonProofs SkeletonProps.
From Verif Require Import Blending BlendingSpec BlendingProofs BlendingProps Sampling SamplingSpec SamplingCache SamplingProofs SamplingHist SamplingOrd SamplingProps.
From Verif Require Import Player PlayerSpec.

(** ** Blending never panics on buffers of the skeleton's size *)
Section Blend.
  Context {F : Type} {NF : Num F}.
  Hypothesis sub_zero : forall t : F, nlt nzero t = true -> nlt nzero (t - nzero)%num = true.
  Notation soa := (transform (V4 F)).

  Lemma mapi_to_length {A} n (f : nat -> A -> A) l : length (mapi_to n f l) = length l.
  Proof. apply mapi_length. Qed.

  Lemma blend_layers_total n : forall ls (c : bctx F) out,
    n <= length (bc_weights c) -> n <= length out ->
    (exists s, blend_layers n ls (c, out) = BOk s /\ forallb (layer_ok n) ls = true) \/
    (exists e c' out', blend_layers n ls (c, out) = BErr e (c', out') /\ length out' = length out).
  Proof.
    induction ls as [|l ls IH]; intros c out Hc Ho.
    - left. eexists. split; reflexivity.
    - cbn [blend_layers forallb]. destruct (layer_ok n l) eqn:El; cbn [negb andb].
      + destruct (nle (ly_weight l) nzero); [apply IH; assumption|]. cbn [fst snd].
        rewrite (layer_pass_ok n l _ _ _ El Hc Ho).
        match goal with |- context [blend_layers n ls (?c1, ?o1)] =>
          destruct (IH c1 o1) as [H|(e & c' & o' & H1 & H2)] end.
        * cbn [bc_weights]. rewrite mapi_to_length. exact Hc.
        * rewrite mapi_to_length. exact Ho.
        * left. exact H.
        * right. exists e, c', o'. split; [exact H1|]. rewrite H2. apply mapi_to_length.
      + right. exists InvalidJob, c, out. auto.
  Qed.
  Lemma add_layers_total n : forall ls (c : bctx F) out, n <= length out ->
    (exists c' out', add_layers n n ls (c, out) = BOk (c', out') /\ length out' = length out) \/
    (exists e c' out', add_layers n n ls (c, out) = BErr e (c', out') /\ length out' = length out).
  Proof.
    induction ls as [|l ls IH]; intros c out Ho; cbn [add_layers].
    - left. eauto.
    - destruct (layer_ok n l) eqn:El; cbn [negb].
      + cbn [fst snd]. destruct (nlt nzero (ly_weight l)).
        { rewrite (additive_pass_ok n n l _ _ _ El (le_n n) Ho).
          match goal with |- context [add_layers n n ls (?c1, ?o1)] => destruct (IH c1 o1) as [(c' & o' & H1 & H2)|(e & c' & o' & H1 & H2)] end.
          - rewrite mapi_to_length. exact Ho.
          - left. exists c', o'. split; [exact H1|]. rewrite H2. apply mapi_to_length.
          - right. exists e, c', o'. split; [exact H1|]. rewrite H2. apply mapi_to_length. }
        destruct (nlt (ly_weight l) nzero).
        { rewrite (additive_pass_ok n n l _ _ _ El (le_n n) Ho).
          match goal with |- context [add_layers n n ls (?c1, ?o1)] => destruct (IH c1 o1) as [(c' & o' & H1 & H2)|(e & c' & o' & H1 & H2)] end.
          - rewrite mapi_to_length. exact Ho.
          - left. exists c', o'. split; [exact H1|]. rewrite H2. apply mapi_to_length.
          - right. exists e, c', o'. split; [exact H1|]. rewrite H2. apply mapi_to_length. }
        apply IH, Ho.
      + right. exists InvalidJob, c, out. auto.
  Qed.

  Lemma blend_total (sk : skeleton F) ctx out thr ls adds :
    length (sk_rest sk) = num_soa_joints sk -> length out = num_soa_joints sk ->
    let j := mk_bjob (Some sk) (Some ctx) thr ls adds (Some out) in
    (exists c' out', blend_run j = BOk (c', out') /\ length out' = length out) \/
    (exists e c' out', blend_run j = BErr e (c', out') /\ length out' = length out).
  Proof using sub_zero.
    intros Hr Ho j. unfold blend_run, j. cbn [bj_skeleton bj_context bj_output bj_threshold bj_layers bj_additive].
    set (n := num_soa_joints sk) in *.
    destruct (nlt nzero thr) eqn:Ht; cbn [andb negb].
    2:{ right. exists InvalidJob, ctx, out. auto. }
    rewrite Ho, Nat.leb_refl. cbn [negb].
    set (accs := if length (bc_weights ctx) <? n then resize (bc_weights ctx) n nzero else bc_weights ctx).
    assert (Ha : n <= length accs).
    { unfold accs. destruct (Nat.ltb_spec (length (bc_weights ctx)) n); [|lia].
      unfold resize. rewrite app_length, firstn_length, repeat_length. lia. }
    assert (Hon : n <= length out) by lia.
    destruct (blend_layers_total n ls (mk_bctx 0 0 nzero accs) out Ha Hon) as [(s & H1 & V)|(e & c' & o' & H1 & H2)].
    2:{ rewrite H1. right. exists e, c', o'. split; [reflexivity|congruence]. }
    destruct (blend_layers_ok n ls (mk_bctx 0 0 nzero accs) out V Ha Hon) as (c1 & o1 & E1 & L1 & W1 & P1 & Q1 & S1 & _).
    rewrite E1. cbn [bc_passes bc_partial bc_weight bc_weights] in *.
    destruct (blend_rest_ok (sk_rest sk) thr ls c1 o1) as (c2 & o2 & E2 & R2); try assumption; try lia.
    rewrite E2. destruct R2 as (L2 & _ & W2 & _).
    rewrite (normalize_ok (sk_rest sk) c2 o2) by lia. cbn [fst].
    rewrite Hr. fold n.
    match goal with |- context [add_layers n n adds (c2, ?o)] => destruct (add_layers_total n adds c2 o) as [(c3 & o3 & H3 & L3)|(e & c' & o' & H3 & L3)] end.
    - rewrite mapi_to_length. lia.
    - left. exists c3, o3. split; [exact H3|]. rewrite L3, mapi_to_length. lia.
    - right. exists e, c', o'. split; [exact H3|]. rewrite L3, mapi_to_length. lia.
  Qed.
End Blend.

(** ** The invariant of a player *)
(** The layers of the blending job are those the frame sets. *)
Lemma set_layers_inputs b ins : forall poses, set_layers b ins poses = blend_inputs b poses ins.
Proof.
  unfold set_layers, blend_inputs. induction ins as [|i ins IH]; intros [|x poses]; cbn [combine flat_map filter map]; try reflexivity.
  cbn [fst snd]. rewrite IH. destruct (Bool.eqb (in_additive i) b); reflexivity.
Qed.
Lemma blended_job sk fr poses pose : blended_pose sk fr poses pose <-> exists c, blend_run (blending_job sk fr poses (mk_bctx 0 0 nzero []) (sk_rest sk)) = BOk (c, pose).
Proof. unfold blended_pose, blending_job. rewrite !set_layers_inputs. reflexivity. Qed.

Section Play.
  Variable outside : nat -> N.
  Hypothesis Hout : forall j, (outside j < 256)%N.
  Variable sk : skeleton f32.
  Variable lib : list animf.
  Hypothesis SK : skeleton_ok sk.
  Hypothesis LIB : animations sk lib.
  Notation n := (num_soa_joints sk).

  Definition layer_inv (l : context f32 * list soaf) : Prop :=
    cx_max_soa (fst l) = n /\ reset_inv lib (fst l) /\ length (snd l) = n.
  Definition player_inv (k : nat) (p : player) : Prop :=
    length (pl_layers p) = k /\ Forall layer_inv (pl_layers p) /\
    length (pl_blended p) = n /\ length (pl_models p) = num_joints sk.

  Lemma new_inv k p : new_player sk k p -> player_inv k p.
  Proof using.
    intros (H1 & H2 & H3 & H4). split; [exact H1|]. split; [|auto].
    eapply Forall_impl; [|exact H2]. intros [c o] (A & B & C). split; [exact B|]. split; [|exact C].
    apply fresh_inv, A.
  Qed.

  Notation step := (run_step float3_simd_decompress quat_simd_decompress outside float3_lane quat_decompress
      (fun k0 k1 k2 k3 l H => KeysProofs.float3_lanes k0 k1 k2 k3 l H) quat_lanes Hout key0 key0).

  Lemma sample_layers_ok : forall ls ins, Forall layer_inv ls -> Forall (fun i => In (in_anim i) lib) ins ->
    exists r ls', sample_layers outside ls ins = Some (r, ls') /\ length ls' = length ls /\ Forall layer_inv ls' /\
      (length ins = length ls -> Forall (fun i => num_soa (in_anim i) = n) ins ->
       r = Drawn /\ Forall2 layer_pose ins (map snd ls')).
  Proof using Hout LIB.
    induction ls as [|[c o] ls IH]; intros ins HL HI.
    - exists Drawn, []. split; [destruct ins; reflexivity|]. split; [reflexivity|]. split; [constructor|].
      intros E _. destruct ins; [|discriminate]. split; [reflexivity|constructor].
    - destruct ins as [|i ins].
      { exists Drawn, ((c, o) :: ls). split; [reflexivity|]. split; [reflexivity|]. split; [exact HL|]. discriminate. }
      inversion HL as [|? ? (M & I & L) HL']; subst. inversion HI as [|? ? Hi HI']; subst. cbn [fst snd] in *.
      cbn [sample_layers].
      destruct (C05_set_ratio_clamps (in_ratio i)) as (R0 & R1 & _).
      assert (Lb : library (cx_max_soa c) lib) by (rewrite M; apply LIB).
      destruct (step lib c (Some (in_anim i)) (set_ratio (in_ratio i)) (Some o) Lb I (conj Hi (conj R0 R1)))
        as [(e & E)|(a & o1 & c' & o' & Ea & Eo & Ec & _ & E & S & M' & I')].
      + rewrite E. exists (Failed e), ((c, o) :: ls). split; [reflexivity|]. split; [reflexivity|]. split; [exact HL|].
        intros _ HN. exfalso. inversion HN as [|? ? Hn _]; subst.
        destruct (C55_sampling_run_iff_validate f32 _ key key float3_simd_decompress quat_simd_decompress outside
                    (Some (in_anim i)) (Some c) (set_ratio (in_ratio i)) (Some o)) as [_ V].
        refine (V _ e E). unfold validate.
        rewrite Hn, M, L, Nat.leb_refl. reflexivity.
      + injection Ea as <-. injection Eo as <-. rewrite E.
        destruct (IH ins HL' HI') as (r & ls' & E' & L' & V' & G). rewrite E'.
        exists r, ((c', o') :: ls'). split; [reflexivity|]. split; [cbn [pl_layers pl_blend pl_blended pl_models length]; congruence|].
        destruct S as (S1 & S2 & _).
        split. { constructor; [|exact V']. split; [cbn [fst]; congruence|]. split; [exact I'|cbn [snd]; congruence]. }
        intros EL HN. inversion HN as [|? ? Hn HN']; subst. cbn in EL.
        destruct (G ltac:(lia) HN') as [-> F2]. split; [reflexivity|]. cbn [map snd]. constructor; [|exact F2].
        split; [congruence|exact S2].
  Qed.

  Lemma inputs_ok b ins poses : Forall2 layer_pose ins poses ->
    Forall (fun i => num_soa (in_anim i) = n /\ (in_joint_weights i = [] \/ n <= length (in_joint_weights i))) ins ->
    forallb (layer_ok n) (blend_inputs b poses ins) = true.
  Proof using.
    intros H. induction H as [|i pose ins poses HP H IH]; intros HV; [reflexivity|].
    inversion HV as [|? ? [A1 A2] A3]; subst. specialize (IH A3). unfold blend_inputs in *. cbn [combine filter].
    destruct (Bool.eqb _ _); [|exact IH]. cbn [map forallb]. rewrite IH, andb_true_r.
    unfold layer_ok. cbn [ly_transform ly_joint_weights fst snd]. destruct HP as [HP _]. rewrite HP, A1, Nat.leb_refl. cbn [andb].
    destruct (in_joint_weights i) as [|w ws]; [reflexivity|]. destruct A2 as [A2|A2]; [discriminate A2|]. apply Nat.leb_le, A2.
  Qed.

  Lemma play_ok k p fr : player_inv k p -> uses lib fr ->
    exists r p', play outside sk p fr = Some (r, p') /\ player_inv k p' /\
      (valid_frame sk k fr -> r = Drawn /\ shows sk fr (pl_models p')).
  Proof using Hout LIB SK.
    intros (H1 & H2 & H3 & H4) HU. unfold play.
    destruct (sample_layers_ok (pl_layers p) (fr_layers fr) H2 HU) as (r & ls & E & L & V & G). rewrite E.
    destruct SK as (PF & RS & NJ).
    assert (D : valid_frame sk k fr -> r = Drawn /\ Forall2 layer_pose (fr_layers fr) (map snd ls)).
    { intros (V1 & _ & V3). apply G; [congruence|]. eapply Forall_impl; [|exact V3]. intros i [A _]. exact A. }
    destruct r as [|e].
    2:{ exists (Failed e), (mk_player ls (pl_blend p) (pl_blended p) (pl_models p)). split; [reflexivity|].
        split; [split; [cbn [pl_layers pl_blend pl_blended pl_models length]; congruence|auto]|]. intros HV. destruct (D HV) as [D0 _]. discriminate D0. }
    unfold blending_job.
    destruct (blend_total sub_zero_f32 sk (pl_blend p) (pl_blended p) (fr_threshold fr)
                (blend_inputs false (map snd ls) (fr_layers fr)) (blend_inputs true (map snd ls) (fr_layers fr)) RS H3)
      as [(c1 & o1 & B & LB)|(e & c1 & o1 & B & LB)]; rewrite B.
    2:{ exists (Failed e), (mk_player ls c1 o1 (pl_models p)). split; [reflexivity|].
        split; [split; [cbn [pl_layers pl_blend pl_blended pl_models length]; congruence|]; split; [exact V|]; split; [cbn [pl_layers pl_blend pl_blended pl_models length]; congruence|exact H4]|].
        intros HV. exfalso. destruct (D HV) as [_ F2]. destruct HV as (_ & HT & HV).
        destruct (BlendingProofs.run_ok sub_zero_f32 sk (pl_blend p) (pl_blended p) (fr_threshold fr)
          (blend_inputs false (map snd ls) (fr_layers fr)) (blend_inputs true (map snd ls) (fr_layers fr)) RS)
          as (c2 & o2 & B2 & _); [|right; exact H3|congruence].
        unfold blend_validate. cbn [bj_skeleton bj_context bj_output bj_threshold bj_layers bj_additive].
        rewrite !andb_true_iff. split; [split; [split; [exact HT|rewrite H3; apply Nat.leb_refl]|]|]; apply inputs_ok; assumption. }
    destruct (C21_model_matrix_is_chain_product f32 _ true sk o1 (fr_root fr) SKELETON_NO_PARENT SKELETON_MAX_JOINTS false (pl_models p)
      PF ltac:(lia) ltac:(lia) ltac:(lia) ltac:(unfold SKELETON_NO_PARENT; lia) ltac:(unfold SKELETON_MAX_JOINTS; lia))
      as (m & E2 & L2 & C2 & _).
    unfold ltm_of. rewrite E2.
    exists Drawn, (mk_player ls c1 o1 m). split; [reflexivity|].
    split. { split; [cbn [pl_layers]; congruence|]. split; [exact V|]. split; [cbn [pl_blended]; rewrite LB; exact H3|cbn [pl_models]; rewrite L2; exact H4]. }
    intros HV. split; [reflexivity|]. destruct (D HV) as [_ F2].
    exists (map snd ls), o1. split; [exact F2|]. split.
    - destruct (C29_stale_buffers sk (pl_blend p) (mk_bctx 0 0 nzero []) (fr_threshold fr)
          (blend_inputs false (map snd ls) (fr_layers fr)) (blend_inputs true (map snd ls) (fr_layers fr))
          (pl_blended p) (sk_rest sk) c1 o1 RS ltac:(congruence) B) as (c2 & o2 & B2 & P & S1 & S2).
      apply blended_job. exists c2. unfold blending_job. rewrite B2. f_equal. f_equal.
      destruct (blend_total sub_zero_f32 sk (mk_bctx 0 0 nzero []) (sk_rest sk) (fr_threshold fr)
                (blend_inputs false (map snd ls) (fr_layers fr)) (blend_inputs true (map snd ls) (fr_layers fr)) RS RS)
        as [(c3 & o3 & B3 & L3)|(e & c3 & o3 & B3 & L3)]; rewrite B2 in B3; [|discriminate B3].
      injection B3 as _ E3. rewrite <- E3 in L3.
      rewrite !firstn_all2 in P by lia. symmetry. exact P.
    - split; [cbn [pl_layers pl_blend pl_blended pl_models length]; congruence|]. exact C2.
  Qed.
End Play.

(** C73 *)
Lemma play_all_ok outside sk lib k : (forall j, (outside j < 256)%N) -> skeleton_ok sk -> animations sk lib -> forall frs p,
  player_inv sk lib k p -> Forall (uses lib) frs ->
  exists p', play_all outside sk p frs = Some p' /\ player_inv sk lib k p'.
Proof.
  intros Ho SK LIB frs. induction frs as [|fr frs IH]; intros p I H; [exists p; auto|].
  inversion H as [|? ? H1 H2]; subst. destruct (play_ok outside Ho sk lib SK LIB k p fr I H1) as (r & p' & E & I' & _).
  cbn [play_all]. rewrite E. apply IH; assumption.
Qed.

Lemma shows_unique sk fr m m' : skeleton_ok sk -> Forall (fun i => num_soa (in_anim i) = num_soa_joints sk) (fr_layers fr) ->
  shows sk fr m -> shows sk fr m' -> m = m'.
Proof.
  intros (PF & RS & NJ) HN (poses & pose & F2 & (c & B) & L & C) (poses' & pose' & F2' & (c' & B') & L' & C').
  assert (E : poses = poses').
  { clear - F2 F2'. revert poses' F2'. induction F2 as [|i x ins ps H1 H2 IH]; intros ps' F2'; inversion F2' as [|? y ? ps2 H1' H2']; subst; [reflexivity|].
    f_equal; [|apply IH; assumption]. destruct H1 as [L1 S1]. destruct H1' as [L1' S1'].
    apply (nth_ext _ _ tr_identity tr_identity); [congruence|]. intros k Hk. rewrite L1 in Hk.
    assert (G : forall l, l < 4 -> lane_tr (nth k x tr_identity) l = lane_tr (nth k y tr_identity) l).
    { intros l Hl. specialize (S1 k l Hk Hl). specialize (S1' k l Hk Hl).
      rewrite (nth_error_nth' x tr_identity) in S1 by lia. rewrite (nth_error_nth' y tr_identity) in S1' by lia.
      cbn [option_map] in S1, S1'. rewrite <- S1' in S1. apply (f_equal (fun o => match o with Some z => z | None => lane_tr (nth k x tr_identity) l end)) in S1. exact S1. }
    apply tr_ext, G. }
  subst poses'. rewrite B in B'. injection B' as _ E. subst pose'.
  apply (nth_ext _ _ mat_identity mat_identity); [congruence|]. intros i Hi. rewrite L in Hi.
  destruct (chain_exists (sk_parents sk) i PF) as [ch Hc]; [unfold num_joints in Hi; lia|].
  specialize (C i ch Hc). specialize (C' i ch Hc).
  rewrite (nth_error_nth _ _ _ C), (nth_error_nth _ _ _ C'). reflexivity.
Qed.
