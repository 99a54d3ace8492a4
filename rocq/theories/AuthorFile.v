(** C95: every authored animation has a file. *)
From Coq Require Import Reals Sorted Lra.
From Flocq Require Import IEEE754.BinarySingleNaN.
From Verif Require Import Base Num NumF32 F32Facts Math Keys KeysSpec Sampling SamplingSpec SamplingProps.
From Verif Require Import PoseSpec PoseProofs PoseProps AuthorSpec AuthorBuild AuthorProofs Loaded.
From Verif Require Archive ArchiveSpec.

(** Padding tracks fill the last group of four. *)
Definition pad_track (times : list f32) (k : key) : list (nat * key) := [(0, k); (length times - 1, k)].
Definition padded (times : list f32) (k : key) (tracks : list (list (nat * key))) : list (list (nat * key)) :=
  tracks ++ repeat (pad_track times k) (4 * div_ceil (length tracks) 4 - length tracks).
Definition file_animation (au : authored) : Archive.animation :=
  {| Archive.an_duration := f32_to_bits none_; Archive.an_num_tracks := N.of_nat (length (au_t au)); Archive.an_name := [];
     Archive.an_timepoints := map f32_to_bits (au_times au);
     Archive.an_t := file_channel (padded (au_times au) key0 (au_t au));
     Archive.an_r := file_channel (padded (au_times au) id_key (au_r au));
     Archive.an_s := file_channel (padded (au_times au) key0 (au_s au)) |}.

Lemma pads n : 0 < n -> n <= 4 * div_ceil n 4 < n + 4.
Proof.
  intros H. unfold div_ceil. pose proof (Nat.div_mod (n + 4 - 1) 4 ltac:(lia)). pose proof (Nat.mod_upper_bound (n + 4 - 1) 4 ltac:(lia)). lia.
Qed.
Lemma padded_length times k tracks : 0 < length tracks -> length (padded times k tracks) = 4 * div_ceil (length tracks) 4.
Proof. intros H. unfold padded. rewrite app_length, repeat_length. pose proof (pads _ H). lia. Qed.
Lemma padded_nth times k tracks t : t < length tracks -> nth t (padded times k tracks) [] = nth t tracks [].
Proof. intros H. unfold padded. apply app_nth1, H. Qed.
Lemma padded_pad times k tracks t : length tracks <= t -> t < length (padded times k tracks) -> length (nth t (padded times k tracks) []) = 2.
Proof.
  intros H H'. unfold padded in *. rewrite app_length, repeat_length in H'. rewrite app_nth2 by exact H.
  pose proof (nth_In (repeat (pad_track times k) (4 * div_ceil (length tracks) 4 - length tracks)) [] (n := t - length tracks)
    ltac:(rewrite repeat_length; lia)) as I. apply repeat_spec in I. rewrite I. reflexivity.
Qed.
Lemma padded_all (Q : list (nat * key) -> Prop) times k tracks : Forall Q tracks -> Q (pad_track times k) -> Forall Q (padded times k tracks).
Proof. intros H1 H2. unfold padded. apply Forall_app. split; [exact H1|]. apply Forall_forall. intros x Hx. apply repeat_spec in Hx. subst. exact H2. Qed.
Lemma padded_count times k tracks : 0 < length tracks -> channel_fits tracks ->
  (N.of_nat (length (concat (padded times k tracks))) < 65536)%N.
Proof.
  intros H F. unfold channel_fits in F. unfold padded. rewrite concat_app, app_length. pose proof (pads _ H) as P.
  assert (G : forall m, length (concat (repeat (pad_track times k) m)) = 2 * m).
  { induction m; [reflexivity|]. cbn [repeat concat]. rewrite app_length, IHm. cbn [pad_track length]. lia. }
  rewrite G. lia.
Qed.
Lemma pad_ok times k : 2 <= length times -> track_ok times (pad_track times k).
Proof.
  intros H. unfold track_ok, pad_track. cbn [length nth fst Nat.sub map]. repeat split; try lia.
  constructor; [constructor; [constructor|constructor]|]. constructor; [lia|constructor].
Qed.
Lemma two_times times tracks : 0 < length tracks -> Forall (track_ok times) tracks -> 2 <= length times.
Proof.
  intros H F. destruct tracks as [|tr tracks]; [cbn in H; lia|]. inversion F as [|? ? (A & B & C & D) _]; subst.
  pose proof (sorted_nth _ _ (fst (0, key0)) D 0 (length tr - 1) ltac:(lia) ltac:(rewrite map_length; lia)) as L.
  rewrite !(map_nth fst) in L. rewrite B, C in L. lia.
Qed.
Lemma key0_ok : key3_ok key0.
Proof. repeat split; cbn; try discriminate. Qed.
Lemma id_ok : keyq_ok id_key.
Proof. apply (turn_bounds 16384). lia. Qed.
Lemma key3_u16 k : key3_ok k -> u16_3 k.
Proof. intros ((A & _) & (B & _) & (C & _)). split; [exact A|split; [exact B|exact C]]. Qed.
Lemma keyq_u16 k : keyq_ok k -> u16_3 k.
Proof.
  intros (g & s & v & G & S & A & B & C & -> & _). unfold pack, u16_3. cbn [vx vy vz].
  split; [apply N.mod_lt; discriminate|]. split; [apply N.mod_lt; discriminate|]. apply N.div_lt_upper_bound; [discriminate|]. lia.
Qed.
Lemma id_gentle times : gentle (pad_track times id_key).
Proof.
  intros x y l l' E. unfold pad_track in E. destruct l as [|? [|? l]]; cbn in E.
  - injection E as <- <- _. cbn [snd]. unfold sum4. nra.
  - injection E as _ _ E. discriminate E.
  - injection E as _ _ E. destruct l; discriminate E.
Qed.
Lemma all_keys (Q Q' : key -> Prop) (tracks : list (list (nat * key))) : (forall k, Q k -> Q' k) ->
  Forall (Forall (fun x => Q (snd x))) tracks -> Forall (Forall (fun x => Q' (snd x))) tracks.
Proof. intros H F. eapply Forall_impl; [|exact F]. intros l G. eapply Forall_impl; [|exact G]. intros x. apply H. Qed.

Lemma pad_all (Q : key -> Prop) times k : Q k -> Forall (fun x => Q (snd x)) (pad_track times k).
Proof. intros H. constructor; [exact H|]. constructor; [exact H|constructor]. Qed.
Lemma to_bits_lt (x : f32) : (f32_to_bits x < 4294967296)%N.
Proof.
  destruct x as [s|s| |s m e b]; cbn [f32_to_bits]; try (destruct s; reflexivity); try reflexivity.
  destruct (finite_shape m e b) as [Hs He]. change (2 ^ 23)%Z with 8388608%Z in Hs. change (2 ^ 24)%Z with 16777216%Z in Hs.
  destruct (N.ltb_spec (N.pos m) 8388608); destruct s; lia.
Qed.

Section File.
  Variable au : authored.
  Hypothesis OK : authored_ok au.
  Notation times := (au_times au).
  Notation PT := (padded times key0 (au_t au)).
  Notation PR := (padded times id_key (au_r au)).
  Notation PS := (padded times key0 (au_s au)).

  Lemma file_animation_ok : ArchiveSpec.animation_ok (file_animation au).
  Proof.
    destruct OK as (TO & N0 & NR & NS & Tt & Tr & Ts & Ft & Fr & Fs & Kt & Ks & Kr & Gr).
    pose proof (two_times _ _ N0 Tt) as T2. pose proof TO as (_ & _ & TL & _).
    assert (CH : forall k tracks, length tracks = length (au_t au) -> Forall (track_ok times) tracks -> channel_fits tracks ->
      Forall (Forall (fun x => u16_3 (snd x))) tracks -> u16_3 k ->
      ArchiveSpec.channel_ok (ArchiveSpec.len (map f32_to_bits times) <=? 255)%N (file_channel (padded times k tracks))).
    { intros k tracks L F C U Uk. apply (file_ok times TO _ (length tracks)).
      - rewrite padded_length by lia. pose proof (pads (length tracks) ltac:(lia)). lia.
      - apply padded_all; [exact F|apply pad_ok, T2].
      - intros t. apply padded_pad.
      - apply padded_count; [lia|exact C].
      - apply padded_all; [exact U|]. repeat constructor; apply Uk. }
    assert (K0 : u16_3 key0) by (repeat split; reflexivity).
    assert (KI : u16_3 id_key) by (apply keyq_u16, id_ok).
    assert (LE : length (au_t au) <= length (concat (au_t au))).
    { clear -Tt. induction Tt as [|l ls H _ IH]; [cbn; lia|]. cbn [concat length]. rewrite app_length. destruct H as (A & _). lia. }
    unfold ArchiveSpec.animation_ok. cbv zeta.
    cbn [file_animation Archive.an_duration Archive.an_num_tracks Archive.an_name Archive.an_timepoints Archive.an_t Archive.an_r Archive.an_s].
    split; [vm_compute; reflexivity|].
    split; [unfold ArchiveSpec.fits, channel_fits in *; change (2 ^ (8 * N.of_nat 4))%N with 4294967296%N; lia|].
    split; [exists []; split; [constructor|reflexivity]|]. split; [vm_compute; reflexivity|].
    split.
    { apply Forall_forall. intros x Hx. apply in_map_iff in Hx. destruct Hx as (y & <- & _). exact (to_bits_lt y). }
    split. { unfold ArchiveSpec.len, ArchiveSpec.fits. rewrite map_length. change (2 ^ (8 * N.of_nat 4))%N with 4294967296%N. lia. }
    split; [|split]; apply CH; try assumption; try reflexivity.
    - apply (all_keys _ _ _ key3_u16), Kt.
    - apply (all_keys _ _ _ keyq_u16), Kr.
    - apply (all_keys _ _ _ key3_u16), Ks.
  Qed.

  Variable id : N.
  Notation A := (animation_of id (file_animation au)).
  Lemma file_times : map f32_of_bits (map f32_to_bits times) = times.
  Proof. rewrite map_map. rewrite <- (map_id times) at 2. apply map_ext, of_to_bits. Qed.
  Lemma file_shape : A = mk_anim id (length (au_t au)) times (the_ctrl PT) (the_keys PT) (the_ctrl PR) (the_keys PR) (the_ctrl PS) (the_keys PS).
  Proof.
    unfold animation_of. cbn [file_animation Archive.an_num_tracks Archive.an_timepoints Archive.an_t Archive.an_r Archive.an_s].
    rewrite file_times, !file_ctrl, !file_keys, Nat2N.id. reflexivity.
  Qed.
  Lemma file_playable : playable A /\ stores A au.
  Proof.
    destruct OK as (TO & N0 & NR & NS & Tt & Tr & Ts & Ft & Fr & Fs & Kt & Ks & Kr & Gr).
    pose proof (two_times _ _ N0 Tt) as T2. pose proof TO as (TZ & T1 & TL & TI). rewrite file_shape.
    unfold playable, stores, wf_animation, covers, num_soa.
    cbn [an_num_tracks an_timepoints an_t an_tkeys an_r an_rkeys an_s an_skeys].
    assert (CH : forall k tracks, length tracks = length (au_t au) -> Forall (track_ok times) tracks -> channel_fits tracks ->
      let p := padded times k tracks in
      length p = 4 * div_ceil (length (au_t au)) 4 /\ length p <> 0 /\ Forall (track_ok times) p /\
      (forall t, length (au_t au) <= t -> t < length p -> length (nth t p []) = 2) /\ (N.of_nat (length (concat p)) < 65536)%N).
    { intros k tracks L F C. cbv zeta. rewrite padded_length by lia. rewrite L. pose proof (pads (length (au_t au)) N0).
      split; [reflexivity|]. split; [lia|]. split; [apply padded_all; [exact F|apply pad_ok, T2]|].
      split; [rewrite <- L; intros t H1 H2; apply padded_pad; [exact H1|rewrite padded_length by lia; exact H2]|].
      apply padded_count; [lia|exact C]. }
    destruct (CH key0 (au_t au) eq_refl Tt Ft) as (Lt & Zt & Ft' & Pt & Ct).
    destruct (CH id_key (au_r au) NR Tr Fr) as (Lr & Zr & Fr' & Pr & Cr).
    destruct (CH key0 (au_s au) NS Ts Fs) as (Ls & Zs & Fs' & Ps & Cs). clear CH.
    pose proof (ctrl_wf times TO PT (length (au_t au)) Zt Ft' Pt Ct) as Wt.
    pose proof (ctrl_wf times TO PR (length (au_t au)) Zr Fr' Pr Cr) as Wr.
    pose proof (ctrl_wf times TO PS (length (au_t au)) Zs Fs' Ps Cs) as Ws.
    pose proof (ctrl_covers times TO PT (length (au_t au)) Zt Ft' Pt Ct) as Vt.
    pose proof (ctrl_covers times TO PR (length (au_t au)) Zr Fr' Pr Cr) as Vr.
    pose proof (ctrl_covers times TO PS (length (au_t au)) Zs Fs' Ps Cs) as Vs.
    rewrite Lt in Wt, Vt. rewrite Lr in Wr, Vr. rewrite Ls in Ws, Vs.
    assert (NUM : forall x, In x times -> isnum x = true /\ (nle nzero x && nle x none_)%bool = true).
    { intros x Hx. destruct (In_nth _ _ nzero Hx) as (i & Hi & <-). split.
      - exact (time_num times TO PT (length (au_t au)) Zt Ft' Pt Ct i Hi).
      - pose proof (times_rise times TO PT (length (au_t au)) Zt Ft' Pt Ct 0 i ltac:(lia) Hi) as R1.
        pose proof (times_rise times TO PT (length (au_t au)) Zt Ft' Pt Ct i (length times - 1) ltac:(lia) ltac:(lia)) as R2.
        rewrite TZ in R1. rewrite T1 in R2. apply andb_true_intro. split; assumption. }
    split.
    - split. { rewrite Wt, Wr, Ws, !andb_true_r. apply forallb_forall. intros x Hx. apply NUM, Hx. }
      split. { rewrite Vt, Vr, Vs, !andb_true_r. apply forallb_forall. intros x Hx. apply NUM, Hx. }
      split; [apply (keys_all times TO PT (length (au_t au)) Zt Ft' Pt Ct); apply padded_all; [exact Kt|apply pad_all, key0_ok]|].
      split; [apply (keys_all times TO PS (length (au_t au)) Zs Fs' Ps Cs); apply padded_all; [exact Ks|apply pad_all, key0_ok]|].
      split; [apply (keys_all times TO PR (length (au_t au)) Zr Fr' Pr Cr); apply padded_all; [exact Kr|apply pad_all, id_ok]|].
      rewrite <- Lr. apply (ctrl_hemisphere times TO PR (length (au_t au)) Zr Fr' Pr Cr). apply padded_all; [exact Gr|apply id_gentle].
    - split; [reflexivity|]. intros t Ht. cbv zeta. split; [|split].
      + rewrite <- Lt. rewrite (ctrl_stores times TO PT (length (au_t au)) Zt Ft' Pt Ct) by (rewrite Lt; pose proof (pads _ N0); lia).
        rewrite padded_nth by exact Ht. reflexivity.
      + rewrite <- Lr. rewrite (ctrl_stores times TO PR (length (au_t au)) Zr Fr' Pr Cr) by (rewrite Lr; pose proof (pads _ N0); lia).
        rewrite padded_nth by (rewrite NR; exact Ht). reflexivity.
      + rewrite <- Ls. rewrite (ctrl_stores times TO PS (length (au_t au)) Zs Fs' Ps Cs) by (rewrite Ls; pose proof (pads _ N0); lia).
        rewrite padded_nth by (rewrite NS; exact Ht). reflexivity.
  Qed.
End File.
