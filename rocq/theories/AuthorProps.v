(** C95: from the files to the screen. *)
From Coq Require Import Reals Sorted Lra.
From Flocq Require Import IEEE754.BinarySingleNaN.
From Verif Require Import Base Num NumF32 F32Facts Math Keys KeysSpec Skeleton SkeletonSpec Blending Sampling SamplingSpec SamplingHist SamplingProps.
From Verif Require Import PoseSpec PoseProofs PoseProps Player PlayerSpec PlayerProofs PlayerProps AuthorSpec AuthorProofs AuthorFile Loaded.
From Verif Require Archive ArchiveSpec ArchiveProofs ArchiveExamples ArchiveProps.

(** The file of an animation that stores the authored tracks, written in either byte order, loads on a
    machine of either byte order; a run on what was loaded, at any ratio of [0, 1] and after any history of
    the context, leaves every joint on its authored curves. *)
Theorem C95_loaded_on_curves :
  forall (machine o : Archive.endian) (kind b : N) (content : Archive.animation) (rest : list N) (id : N) (au : authored),
    ArchiveSpec.endian_byte o b -> ArchiveSpec.animation_ok content ->
    playable (animation_of id content) -> stores (animation_of id content) au ->
    exists loaded,
      Archive.load Archive.animation_from_archive machine kind (b :: ArchiveSpec.w_animation o content ++ rest) = Ok (loaded, rest) /\
      forall (outside : nat -> N) (lib : list anim32) (c0 : context f32) (history : list (@op f32 key key))
             (r : f32) (output : list (transform (V4 f32))),
        let a := animation_of id loaded in
        (forall j, (outside j < 256)%N) -> (forall x, In x lib -> an_id x <> 0%N) ->
        library (cx_max_soa c0) lib -> fresh c0 -> Forall (op_ok lib) history ->
        In a lib -> num_soa a = cx_max_soa c0 -> nle nzero r = true -> nle r none_ = true -> num_soa a <= length output ->
        exists c c' output', exec32 outside c0 history = Ok c /\
          run32 outside (Some a) (Some c) r (Some output) = Ok (c', output') /\ on_curves au r output'.
Proof.
  intros machine o kind b content rest id au E OK P S. exists content.
  split; [apply ArchiveProps.C10_animation_round_trip; assumption|]. cbv zeta.
  intros outside lib c0 history r output H1 H2 H3 H4 H5 H6 H7 H8 H9 H10.
  exact (stored_sampled outside lib c0 history _ r output au H1 H2 H3 H4 H5 H6 H7 H8 H9 H10 P S).
Qed.
Print Assumptions C95_loaded_on_curves.

(** Whatever may be authored has such a file. *)
Theorem C95_every_animation_has_a_file :
  forall au, authored_ok au ->
    exists content, ArchiveSpec.animation_ok content /\
      forall id, playable (animation_of id content) /\ stores (animation_of id content) au.
Proof.
  intros au H. exists (file_animation au). split; [apply file_animation_ok, H|]. intros id. apply file_playable, H.
Qed.
Print Assumptions C95_every_animation_has_a_file.

(** ** Playback of loaded files *)
Lemma layer_on_curves i pose au : playable (in_anim i) -> stores (in_anim i) au -> layer_pose i pose ->
  on_curves au (set_ratio (in_ratio i)) pose.
Proof.
  intros (W & Cv & Kt & Ks & Kr & Hem) (SN & ST) (HL & HP) t Ht.
  assert (Q : t / 4 < num_soa (in_anim i)).
  { unfold num_soa. rewrite SN. pose proof (pads (length (au_t au)) ltac:(lia)). apply Nat.div_lt_upper_bound; lia. }
  assert (M : t mod 4 < 4) by (apply Nat.mod_upper_bound; lia).
  specialize (HP _ _ Q M). rewrite <- Nat.div_mod in HP by lia.
  destruct (nth_error pose (t / 4)) as [x|] eqn:E; [|discriminate HP]. cbn [option_map] in HP.
  exists x. split; [reflexivity|]. cbv zeta. apply some_inj in HP. rewrite HP.
  destruct (C05_set_ratio_clamps (in_ratio i)) as (R0 & R1 & _).
  destruct (wf_parts (in_anim i) W ltac:(lia)) as ((Wt & Lt) & (Wr & Lr) & (Ws & Ls)).
  destruct (covers_parts _ Cv) as (Htp & Ct & Cr & Cs).
  assert (Hj' : t < 4 * num_soa (in_anim i)) by (pose proof (Nat.div_mod t 4 ltac:(lia)); lia).
  destruct (ST t ltac:(lia)) as (T1 & T2 & T3). cbv zeta in T1, T2, T3. rewrite <- T1, <- T2, <- T3.
  split; [|split].
  - apply follows3_curve. exact (sample3_follows _ _ _ _ _ key0 _ _ Wt Htp Ct R0 R1 Hj' Lt Kt).
  - apply followsq_curve. exact (sampleq_follows _ _ _ _ _ key0 _ _ Wr Htp Cr R0 R1 Hj' Lr Kr Hem).
  - apply follows3_curve. exact (sample3_follows _ _ _ _ _ key0 _ _ Ws Htp Cs R0 R1 Hj' Ls Ks).
Qed.

Lemma rest_read l : map transform_of (map rest_words l) = l.
Proof.
  rewrite map_map. rewrite <- (map_id l) at 2. apply map_ext. intros [[a b c] [d e f g] [h i j]].
  destruct a, b, c, d, e, f, g, h, i, j. unfold transform_of, row_of, rest_words. cbn. rewrite !of_to_bits. reflexivity.
Qed.

(** A skeleton file of at most 1025 joints, parents first, and any number of animation files, each in its own
    byte order: all load, and whatever was played before, a valid frame of the loaded animations on the
    loaded skeleton, which has the parents and the rest pose of its file, is drawn: each layer's pose lies on the curves its file stores, these poses are
    blended as a new blending job would, and the matrices are the products along the parents (C21). *)
Theorem C95_from_files :
  forall (machine : Archive.endian) (kind : N) (skel : ArchiveSpec.skel_content) (rest_pose : list (transform (V4 f32)))
         (files : list (N * Archive.animation)),
    ArchiveSpec.sc_poses skel = map rest_words rest_pose ->
    ArchiveSpec.skeleton_ok skel -> NoDup (ArchiveSpec.sc_names skel) ->
    ArchiveSpec.fits 4 (ArchiveSpec.len (flat_map (fun n => n ++ [0%N]) (ArchiveSpec.sc_names skel))) ->
    parents_first (ArchiveSpec.sc_parents skel) -> length (ArchiveSpec.sc_parents skel) <= 1025 ->
    NoDup (map fst files) ->
    Forall (fun f => fst f <> 0%N /\ ArchiveSpec.animation_ok (snd f) /\ playable (animation_of (fst f) (snd f)) /\
              length (ArchiveSpec.sc_parents skel) <= N.to_nat (Archive.an_num_tracks (snd f))) files ->
    let joints := length (ArchiveSpec.sc_parents skel) in
    let lib := map (fun f => animation_of (fst f) (snd f)) files in
    (forall f o b rest, In f files -> ArchiveSpec.endian_byte o b ->
       Archive.load Archive.animation_from_archive machine kind (b :: ArchiveSpec.w_animation o (snd f) ++ rest) = Ok (snd f, rest)) /\
    forall o b rest, ArchiveSpec.endian_byte o b ->
    exists s, Archive.load Archive.skeleton_from_archive machine kind (b :: ArchiveSpec.w_skeleton o skel ++ rest) = Ok (s, rest) /\
      let sk := skeleton_of s in
      num_joints sk = joints /\ sk_parents sk = ArchiveSpec.sc_parents skel /\ sk_rest sk = rest_pose /\
      forall (outside : nat -> N) (n : nat) (new : player) (history : list frame) (fr : frame),
        (forall j, (outside j < 256)%N) -> new_player sk n new ->
        Forall (uses lib) history -> uses lib fr -> valid_frame sk n fr ->
        exists p p' poses pose,
          play_all outside sk new history = Some p /\ play outside sk p fr = Some (Drawn, p') /\
          Forall2 (fun i x => forall au, stores (in_anim i) au -> on_curves au (set_ratio (in_ratio i)) x) (fr_layers fr) poses /\
          blended_pose sk fr poses pose /\ model_matrices sk fr pose (pl_models p').
Proof.
  intros machine kind skel rest_pose files RP SO ND FT PF NJ NF FF joints lib.
  split. { intros f o b rest Hf E. apply ArchiveProps.C10_animation_round_trip; [exact E|]. rewrite Forall_forall in FF. apply FF, Hf. }
  intros o b rest E.
  destruct (ArchiveProps.C11_skeleton_round_trip machine o kind b skel rest E SO ND FT) as (s & L & N1 & P1 & R1 & _).
  exists s. split; [exact L|]. cbv zeta.
  assert (NJ' : num_joints (skeleton_of s) = joints) by (unfold num_joints, skeleton_of; cbn [sk_parents]; rewrite P1; reflexivity).
  split; [exact NJ'|]. split; [exact P1|]. split; [cbn [skeleton_of sk_rest]; rewrite R1, RP; apply rest_read|].
  assert (SK : skeleton_ok (skeleton_of s)).
  { split; [cbn [skeleton_of sk_parents]; rewrite P1; exact PF|]. split; [|rewrite NJ'; exact NJ].
    unfold num_soa_joints. rewrite NJ'. cbn [skeleton_of sk_rest]. rewrite map_length, R1. apply SO. }
  assert (LIB : animations (skeleton_of s) lib).
  { rewrite Forall_forall in FF. split; [split|].
    - intros a Ha. apply in_map_iff in Ha. destruct Ha as (f & <- & Hf). destruct (FF f Hf) as (_ & _ & (W & _) & Q). split; [exact W|].
      unfold num_soa_joints. rewrite NJ'. unfold num_soa, div_ceil. cbn [animation_of an_num_tracks]. apply Nat.div_le_mono; lia.
    - intros a b' Ha Hb. apply in_map_iff in Ha, Hb. destruct Ha as (f & <- & Hf), Hb as (g & <- & Hg). cbn [animation_of an_id]. intros Q.
      assert (f = g) as ->; [|reflexivity]. clear -NF Hf Hg Q. induction files as [|x l IH]; [destruct Hf|]. cbn in NF. inversion NF as [|? ? N1 N2]; subst.
      destruct Hf as [->|Hf], Hg as [->|Hg]; [reflexivity| | |apply IH; assumption].
      + elim N1. rewrite Q. apply in_map, Hg.
      + elim N1. rewrite <- Q. apply in_map, Hf.
    - intros a Ha. apply in_map_iff in Ha. destruct Ha as (f & <- & Hf). apply (FF f Hf). }
  intros outside n new history fr Ho NP HH HU HV.
  destruct (C73_frames_stand_alone outside (skeleton_of s) lib n new history fr Ho SK LIB NP HH HU HV)
    as (p & p' & E1 & E2 & poses & pose & F2 & B & MM).
  exists p, p', poses, pose. split; [exact E1|]. split; [exact E2|]. split; [|split; [exact B|exact MM]].
  unfold uses in HU. clear -FF F2 HU. induction F2 as [|i x ins xs H F2 IH]; [constructor|]. inversion HU as [|? ? U1 U2]; subst.
  constructor; [|apply IH, U2]. intros au S. apply layer_on_curves; [|exact S|exact H].
  apply in_map_iff in U1. destruct U1 as (f & <- & Hf). rewrite Forall_forall in FF. apply (FF f Hf).
Qed.
Print Assumptions C95_from_files.

(** ** The hypotheses can be met *)
(** Five joints with two to five knots each. *)
Definition ea_k (h : N) : key := V3 h 0%N h.
Definition kn (i : nat) (h : N) : nat * key := (i, ea_k h).
Definition tn (i : nat) (n : N) : nat * key := (i, turn n).
Definition ea_t : list (list (nat * key)) :=
  [[kn 0 0; kn 1 15360; kn 2 16896; kn 4 0]; [kn 0 15360; kn 4 16384]; [kn 0 0; kn 1 1; kn 2 2; kn 3 3; kn 4 4];
   [kn 0 15360; kn 3 0; kn 4 15360]; [kn 0 0; kn 4 15360]].
Definition ea_s : list (list (nat * key)) := repeat [kn 0 15360; kn 2 16384; kn 4 15360] 5.
Definition ea_r : list (list (nat * key)) :=
  [[tn 0 16384; tn 3 32767; tn 4 20000]; [tn 0 24000; tn 4 16384]; [tn 0 16384; tn 4 32767];
   [tn 0 16384; tn 1 18000; tn 4 16384]; [tn 0 20000; tn 4 20000]].
Definition ea : authored := mk_authored ex_tp ea_t ea_r ea_s.

Lemma forall_dec {A} (f : A -> bool) (P : A -> Prop) l : (forall x, f x = true -> P x) -> forallb f l = true -> Forall P l.
Proof. intros H E. apply Forall_forall. intros x Hx. apply H. rewrite forallb_forall in E. apply E, Hx. Qed.
Lemma track_ok_dec times track : (2 <=? length track) && (fst (nth 0 track (0, key0)) =? 0) &&
    (fst (nth (length track - 1) track (0, key0)) =? length times - 1) &&
    forallb (fun i => forallb (fun j => (j <=? i) || (nth i (map fst track) 0 <? nth j (map fst track) 0)) (seq 0 (length track))) (seq 0 (length track)) = true ->
  track_ok times track.
Proof.
  intros H. apply andb_prop in H. destruct H as (H & HS). apply andb_prop in H. destruct H as (H & H3). apply andb_prop in H. destruct H as (H1 & H2).
  split; [apply Nat.leb_le, H1|]. split; [apply Nat.eqb_eq, H2|]. split; [apply Nat.eqb_eq, H3|].
  assert (G : forall i j, i < j -> j < length (map fst track) -> nth i (map fst track) 0 < nth j (map fst track) 0).
  { intros i j Hij Hj. rewrite map_length in Hj. rewrite forallb_forall in HS. specialize (HS i ltac:(apply in_seq; lia)).
    rewrite forallb_forall in HS. specialize (HS j ltac:(apply in_seq; lia)). apply orb_prop in HS. destruct HS as [Q|Q];
      [apply Nat.leb_le in Q; lia|apply Nat.ltb_lt, Q]. }
  clear -G. induction (map fst track) as [|x l IH]; [constructor|]. constructor.
  - apply IH. intros i j Hij Hj. apply (G (S i) (S j)); cbn; lia.
  - apply Forall_forall. intros y Hy. destruct (In_nth _ _ 0 Hy) as (j & Hj & <-). apply (G 0 (S j)); cbn; lia.
Qed.
Definition turn_key (k : key) : Prop := exists n, (16384 <= n < 32768)%N /\ k = turn n.
Lemma turns_gentle track : Forall (fun x => turn_key (snd x)) track -> gentle track.
Proof.
  intros H x y l l' ->. apply Forall_app in H. destruct H as (_ & H). inversion H as [|? ? (n & Hn & E1) H']; subst.
  inversion H' as [|? ? (m & Hm & E2) _]; subst. rewrite E1, E2. apply turn_dot; assumption.
Qed.
Lemma ea_turns : Forall (Forall (fun x => turn_key (snd x))) ea_r.
Proof.
  unfold ea_r. repeat (first [apply Forall_nil|apply Forall_cons]);
    cbn [snd tn]; match goal with |- turn_key (turn ?n) => exists n end; split; try reflexivity; lia.
Qed.
Definition half_okb (n : N) : bool := (n <? 65536)%N && negb (half_exp n =? 31)%N && negb (n =? 31743)%N && negb (n =? 64511)%N.
Lemma half_dec n : half_okb n = true -> half_ok n.
Proof. unfold half_okb, half_ok. intros H. lia. Qed.
Lemma ea_ok : authored_ok ea.
Proof.
  assert (TR' : Forall (Forall (fun x => keyq_ok (snd x))) ea_r).
  { eapply Forall_impl; [|exact ea_turns]. intros tr H. eapply Forall_impl; [|exact H]. intros x (n & Hn & ->). apply turn_bounds, Hn. }
  assert (K3 : forall l, forallb (forallb (fun x : nat * key => half_okb (vx (snd x)) && half_okb (vy (snd x)) && half_okb (vz (snd x)))) l = true ->
                Forall (Forall (fun x => key3_ok (snd x))) l).
  { intros l H. eapply forall_dec; [|exact H]. intros tr. apply forall_dec. intros x E.
    apply andb_prop in E. destruct E as (E & E3). apply andb_prop in E. destruct E as (E1 & E2).
    split; [|split]; apply half_dec; assumption. }
  split; [|split; [cbn; lia|split; [reflexivity|split; [reflexivity|]]]].
  - split; [reflexivity|]. split; [reflexivity|]. split; [reflexivity|]. cbn [ea au_times]. intros i j Hij Hj.
    change (length ex_tp) with 5 in Hj.
    do 5 (destruct j as [|j]; [do 5 (destruct i as [|i]; [try lia; vm_compute; reflexivity|]); lia|]). lia.
  - do 3 (split; [eapply forall_dec; [intros x; apply track_ok_dec|vm_compute; reflexivity]|]).
    do 3 (split; [vm_compute; reflexivity|]). split; [apply K3; vm_compute; reflexivity|]. split; [apply K3; vm_compute; reflexivity|].
    split; [exact TR'|]. eapply Forall_impl; [|exact ea_turns]. intros tr. apply turns_gentle.
Qed.

(** The file, an output and contexts for five joints, the skeleton of C11 and a frame of two layers. *)
Definition ea_file : Archive.animation := file_animation ea.
Definition ea_anim (id : N) : anim32 := animation_of id ea_file.
Definition ea_out : list (transform (V4 f32)) := ex_out ++ ex_out.
Definition ea_run (r : f32) : @op f32 key key := ORun (Some (ea_anim 16)) r (Some ea_out).
Example C95_hypotheses :
  authored_ok ea /\ ArchiveSpec.animation_ok ea_file /\ playable (ea_anim 16) /\ stores (ea_anim 16) ea /\
  (forall x, In x [ea_anim 16; ea_anim 32] -> an_id x <> 0%N) /\ library (cx_max_soa (ex_ctx 5)) [ea_anim 16; ea_anim 32] /\
  fresh (ex_ctx 5) /\ Forall (op_ok [ea_anim 16; ea_anim 32]) [ea_run none_; OClear; ea_run nhalf] /\
  num_soa (ea_anim 16) = cx_max_soa (ex_ctx 5) /\ num_soa (ea_anim 16) <= length ea_out.
Proof.
  split; [apply ea_ok|]. split; [apply file_animation_ok, ea_ok|].
  assert (P : forall id, playable (ea_anim id)) by (intros id; apply file_playable, ea_ok).
  split; [apply P|]. split; [apply (file_playable ea ea_ok 16%N)|].
  split; [intros x [<-|[<-|[]]]; discriminate|].
  assert (L : library (cx_max_soa (ex_ctx 5)) [ea_anim 16; ea_anim 32]).
  { split.
    - intros a [<-|[<-|[]]]; (split; [|vm_compute; apply le_n]); [exact (proj1 (P 16%N))|exact (proj1 (P 32%N))].
    - intros a b [<-|[<-|[]]] [<-|[<-|[]]] E; try reflexivity; discriminate E. }
  split; [exact L|]. split; [repeat split|]. split; [|split; [vm_compute; reflexivity|vm_compute; apply le_n]].
  apply Forall_cons; [split; [left; reflexivity|split; vm_compute; reflexivity]|]. apply Forall_cons; [exact I|].
  apply Forall_cons; [split; [left; reflexivity|split; vm_compute; reflexivity]|]. apply Forall_nil.
Qed.

Definition ea_sk : ArchiveSpec.skel_content := ArchiveExamples.ex_skeleton.
Definition ea_row (n : N) : V4 f32 := splat (f32_of_bits n).
Definition ea_tr (n : N) : transform (V4 f32) :=
  TR (V3 (ea_row n) (ea_row n) (ea_row n)) (Q4 (ea_row n) (ea_row n) (ea_row n) (ea_row n)) (V3 (ea_row n) (ea_row n) (ea_row n)).
Definition ea_files : list (N * Archive.animation) := [(16%N, ea_file); (32%N, ea_file)].
Definition ea_frame (r : Z) : frame :=
  mk_frame [mk_input (ea_anim 16) (f32_lit r (-3)) (f32_lit 1 0) [] false;
            mk_input (ea_anim 32) (f32_lit 1 (-3)) (f32_lit 1 0) [splat nhalf; splat nhalf] false] (f32_lit 1 (-2)) mat_identity.
Definition ea_new : player :=
  mk_player [(ex_ctx 5, ea_out); (ex_ctx 5, ea_out)] (mk_bctx 5 7 nhalf []) ea_out (repeat mat_identity 5).
Example C95_from_files_hypotheses :
  ArchiveSpec.sc_poses ea_sk = map rest_words [ea_tr 1065353216; ea_tr 3] /\
  ArchiveSpec.skeleton_ok ea_sk /\ NoDup (ArchiveSpec.sc_names ea_sk) /\
  ArchiveSpec.fits 4 (ArchiveSpec.len (flat_map (fun n => n ++ [0%N]) (ArchiveSpec.sc_names ea_sk))) /\
  parents_first (ArchiveSpec.sc_parents ea_sk) /\ length (ArchiveSpec.sc_parents ea_sk) <= 1025 /\
  NoDup (map fst ea_files) /\
  Forall (fun f => fst f <> 0%N /\ ArchiveSpec.animation_ok (snd f) /\ playable (animation_of (fst f) (snd f)) /\
            length (ArchiveSpec.sc_parents ea_sk) <= N.to_nat (Archive.an_num_tracks (snd f))) ea_files /\
  forall s rest, Archive.load Archive.skeleton_from_archive Archive.Big 0 (1%N :: ArchiveSpec.w_skeleton Archive.Little ea_sk ++ rest) = Ok (s, rest) ->
    let lib := map (fun f => animation_of (fst f) (snd f)) ea_files in
    new_player (skeleton_of s) 2 ea_new /\ Forall (uses lib) [ea_frame 8; ea_frame 1] /\ uses lib (ea_frame 3) /\
    valid_frame (skeleton_of s) 2 (ea_frame 3).
Proof.
  split; [vm_compute; reflexivity|]. split; [apply ArchiveExamples.ex_skeleton_ok|]. split; [apply ArchiveExamples.ex_skeleton_nodup|]. split; [reflexivity|].
  split. { intros i p H. do 5 (destruct i as [|i]; [injection H as <-; lia|]). destruct i; discriminate. }
  split; [cbn; lia|]. split; [repeat constructor; cbn; intuition discriminate|].
  split. { repeat (apply Forall_cons; [split; [discriminate|split; [apply file_animation_ok, ea_ok|split; [apply file_playable, ea_ok|vm_compute; apply le_n]]]|]). apply Forall_nil. }
  intros s rest H. cbv zeta.
  destruct (ArchiveProps.C11_skeleton_round_trip Archive.Big Archive.Little 0 1 ea_sk rest ltac:(discriminate) ArchiveExamples.ex_skeleton_ok
              ArchiveExamples.ex_skeleton_nodup eq_refl) as (s' & L & _ & P1 & R1 & _).
  rewrite H in L. injection L as <-.
  assert (NJ : num_joints (skeleton_of s) = 5) by (unfold num_joints, skeleton_of; cbn [sk_parents]; rewrite P1; reflexivity).
  assert (NS : num_soa_joints (skeleton_of s) = 2) by (unfold num_soa_joints; rewrite NJ; reflexivity).
  assert (U : forall r, uses (map (fun f => animation_of (fst f) (snd f)) ea_files) (ea_frame r)).
  { intros r. unfold uses, ea_frame. cbn [fr_layers]. apply Forall_cons; [left; reflexivity|]. apply Forall_cons; [right; left; reflexivity|]. apply Forall_nil. }
  split; [|split; [|split; [apply U|]]].
  - split; [reflexivity|]. split; [|split; [rewrite NS; reflexivity|rewrite NJ; reflexivity]]. cbn [pl_layers ea_new]. rewrite NS.
    repeat (apply Forall_cons; [split; [repeat split|split; reflexivity]|]). apply Forall_nil.
  - repeat (apply Forall_cons; [apply U|]). apply Forall_nil.
  - split; [reflexivity|]. split; [vm_compute; reflexivity|]. unfold ea_frame. cbn [fr_layers]. rewrite NS.
    apply Forall_cons; [split; [reflexivity|left; reflexivity]|]. apply Forall_cons; [split; [reflexivity|right; apply le_n]|]. apply Forall_nil.
Qed.

(** The file written little endian and read on a big endian machine; at ratio 3/8 joint 0 is half way
    between its knots 1 and 3, at 2. *)
Example C95_example :
  match Archive.load Archive.animation_from_archive Archive.Big 0 (1%N :: ArchiveSpec.w_animation Archive.Little ea_file) with
  | Ok (a, []) =>
      match run32 (fun _ => 0%N) (Some (animation_of 16 a)) (Some (ex_ctx 5)) (f32_lit 3 (-3)) (Some ea_out) with
      | Ok (_, [x; y]) => f32_to_bits (l0 (vx (tr_t x))) = f32_to_bits (f32_lit 2 0) /\ f32_to_bits (l0 (vy (tr_t x))) = 0%N /\
                          f32_to_bits (l0 (vz (tr_s y))) = f32_to_bits (f32_lit 7 (-2))
      | _ => False
      end
  | _ => False
  end.
Proof. vm_compute. auto. Qed.
