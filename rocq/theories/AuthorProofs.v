(** Proofs for C95. *)
From Coq Require Import Reals Sorted Permutation Lra.
From Flocq Require Import IEEE754.BinarySingleNaN.
From Verif Require Import Base Num NumF32 F32Facts Math Gv4Spec Keys KeysSpec Sampling SamplingSpec SamplingHist SamplingProofs SamplingOrd SamplingProps.
From Verif Require Import PoseSpec PoseProofs PoseProps AuthorSpec AuthorBuild Loaded.
From Verif Require Archive ArchiveSpec.

(** ** From the keys of the animation to the authored curves *)
Lemma consecutive_split l r ks : consecutive l r ks -> exists p s, ks = p ++ l :: r :: s.
Proof.
  induction ks as [|a ks IH]; [intros []|]. destruct ks as [|b ks]; [intros []|].
  intros H. change ((l = a /\ r = b) \/ consecutive l r (b :: ks)) in H. destruct H as [[-> ->]|H]; [exists [], ks; reflexivity|].
  destruct (IH H) as (p & s & E). exists (a :: p), s. rewrite E. reflexivity.
Qed.
Section Curves.
  Variables (T : nat) (tp : list f32) (k : ctrl f32) (ks : list key) (r : f32) (t : nat).
  Lemma around_neighbours kl kr : around T tp k r t kl kr ->
    neighbours (stored_curve T tp k ks t) r (time tp k kl, nth kl ks key0) (time tp k kr, nth kr ks key0).
  Proof.
    intros (C & B). split; [|exact B]. destruct (consecutive_split _ _ _ C) as (p & s & E).
    unfold stored_curve. rewrite E, map_app. cbn [map]. eexists. eexists. reflexivity.
  Qed.
  Lemma follows3_curve v : follows3 T tp k ks key0 r t v -> on_curve3 (stored_curve T tp k ks t) r v.
  Proof.
    intros (kl & kr & A & H). exists (time tp k kl, nth kl ks key0), (time tp k kr, nth kr ks key0).
    split; [apply around_neighbours, A|]. intros i Hi. destruct (H i Hi) as (H1 & H2 & _ & H3). cbn [fst snd]. cbv zeta.
    split; [exact H1|]. split; [exact H2|exact H3].
  Qed.
  Lemma followsq_curve q : followsq T tp k ks key0 r t q -> on_curveq (stored_curve T tp k ks t) r q.
  Proof.
    intros (kl & kr & A & H). exists (time tp k kl, nth kl ks key0), (time tp k kr, nth kr ks key0).
    split; [apply around_neighbours, A|]. exact H.
  Qed.
End Curves.

(** ** Sampling an animation that stores the tracks *)
Lemma stored_sampled (outside : nat -> N) (lib : list anim32) (c0 : context f32) (history : list (@op f32 key key))
    (a : anim32) (r : f32) (output : list (transform (V4 f32))) (au : authored) :
  (forall j, (outside j < 256)%N) -> (forall b, In b lib -> an_id b <> 0%N) ->
  library (cx_max_soa c0) lib -> fresh c0 -> Forall (op_ok lib) history ->
  In a lib -> num_soa a = cx_max_soa c0 -> nle nzero r = true -> nle r none_ = true ->
  num_soa a <= length output -> playable a -> stores a au ->
  exists c c' output', exec32 outside c0 history = Ok c /\
    run32 outside (Some a) (Some c) r (Some output) = Ok (c', output') /\ on_curves au r output'.
Proof.
  intros Ho Hz HL HF HH Ha Hn H0 H1 Hl (W & Hc & Kt & Ks & Kr & Hem) (SN & ST).
  destruct (C71_follows_keys outside lib c0 history a r output Ho Hz HL HF HH Ha Hn H0 H1 Hl Hc Kt Ks) as (c & c' & o & E1 & E2 & F).
  destruct (C72_rotations_follow_keys outside lib c0 history a r output Ho Hz HL HF HH Ha Hn H0 H1 Hl Hc Kr Hem) as (d & d' & o' & D1 & D2 & G).
  rewrite E1 in D1. injection D1 as <-. rewrite E2 in D2. injection D2 as <- <-.
  exists c, c', o. split; [exact E1|]. split; [exact E2|]. intros t Ht.
  assert (A1 : t / 4 < num_soa a).
  { unfold num_soa, div_ceil. rewrite SN.
    assert (Hm := Nat.div_mod (length (au_t au) + 4 - 1) 4 ltac:(lia)). assert (Hb := Nat.mod_upper_bound (length (au_t au) + 4 - 1) 4 ltac:(lia)).
    apply Nat.div_lt_upper_bound; lia. }
  assert (A2 : t mod 4 < 4) by (apply Nat.mod_upper_bound; lia).
  destruct (F _ _ A1 A2) as (x & X1 & F1 & F2). destruct (G _ _ A1 A2) as (y & Y1 & G1). rewrite X1 in Y1. injection Y1 as <-.
  exists x. split; [exact X1|]. cbv zeta. rewrite <- Nat.div_mod in F1, F2, G1 by lia.
  destruct (ST t ltac:(lia)) as (T1 & T2 & T3). cbv zeta in T1, T2, T3. rewrite <- T1, <- T2, <- T3.
  split; [apply follows3_curve, F1|]. split; [apply followsq_curve, G1|apply follows3_curve, F2].
Qed.

(** ** The layout of AuthorBuild.v *)
Lemma owner_from_ext {F} (k k' : ctrl F) T : k_prev k = k_prev k' -> forall fuel i, owner_from fuel T k i = owner_from fuel T k' i.
Proof.
  intros E. induction fuel as [|fuel IH]; intros i; cbn [owner_from]; [reflexivity|]. unfold previous. rewrite E.
  destruct (i <? T); [reflexivity|]. apply IH.
Qed.
Lemma snapshot_ext {F} (k k' : ctrl F) T n : k_prev k = k_prev k' -> snapshot T k n = snapshot T k' n.
Proof.
  intros E. unfold snapshot. apply map_ext. intros t. f_equal. unfold track_keys. apply filter_ext. intros i. unfold owner.
  rewrite (owner_from_ext k k' T E). reflexivity.
Qed.
Lemma map_nth_seq {A} (l : list A) d : map (fun i => nth i l d) (seq 0 (length l)) = l.
Proof.
  induction l as [|x l IH]; [reflexivity|]. cbn [length seq map nth]. f_equal. rewrite <- seq_shift, map_map. exact IH.
Qed.
Lemma le_bytes_lt w : forall v, Forall (fun b => (b < 256)%N) (Gv4Spec.le_bytes w v).
Proof. induction w; intros v; cbn; constructor; [apply N.mod_lt; discriminate|apply IHw]. Qed.
Lemma min_width_range v : 1 <= min_width v <= 4.
Proof. unfold min_width. destruct (v <? 256)%N; [lia|]. destruct (v <? 65536)%N; [lia|]. destruct (v <? 16777216)%N; lia. Qed.
Lemma gv4_bytes : forall l, (forall x, In x l -> 1 <= fst x <= 4) -> Forall (fun b => (b < 256)%N) (gv4 l).
Proof.
  fix IH 1. intros [|[w0 v0] [|[w1 v1] [|[w2 v2] [|[w3 v3] l]]]] H; try (constructor; fail).
  cbn [gv4]. constructor.
  - pose proof (H (w0, v0) ltac:(cbn; auto)). pose proof (H (w1, v1) ltac:(cbn; auto)). pose proof (H (w2, v2) ltac:(cbn; auto)).
    pose proof (H (w3, v3) ltac:(cbn; auto)). cbn [fst] in *. lia.
  - rewrite !Forall_app. repeat (split; [apply le_bytes_lt|]). apply IH. intros x Hx. apply H. do 4 right. exact Hx.
Qed.
Lemma gv4_min_bytes l : Forall (fun b => (b < 256)%N) (gv4_min l).
Proof.
  unfold gv4_min. apply gv4_bytes. intros x Hx. apply in_map_iff in Hx. destruct Hx as (v & <- & _). apply min_width_range.
Qed.

(** Length of the layout. *)
Lemma order_count {K} (d : K) tracks : (forall t, t < length tracks -> 2 <= length (nth t tracks [])) ->
  length (order d tracks) = length (concat tracks).
Proof.
  intros H. unfold order. rewrite !app_length, !map_length, !seq_length.
  rewrite (Permutation_length (isort_perm d tracks (others tracks))). unfold others.
  assert (G : length (flat_map (fun t => map (fun j => (t, j)) (seq 2 (length (nth t tracks []) - 2))) (seq 0 (length tracks)))
              = list_sum (map (fun l : list (nat * K) => length l - 2) tracks)).
  { assert (M : map (fun t => length (nth t tracks []) - 2) (seq 0 (length tracks)) = map (fun l : list (nat * K) => length l - 2) tracks).
    { rewrite <- (map_map (fun t => nth t tracks []) (fun l => length l - 2)), map_nth_seq. reflexivity. }
    rewrite <- M. clear M. rewrite flat_map_concat_map. induction (seq 0 (length tracks)) as [|t s IH]; [reflexivity|].
    cbn [map concat list_sum fold_right]. rewrite app_length, map_length, seq_length, IH. reflexivity. }
  rewrite G. assert (H' : forall l, In l tracks -> 2 <= length l).
  { intros l Hl. destruct (In_nth _ _ [] Hl) as (t & Ht & <-). apply H, Ht. }
  clear -H'. induction tracks as [|l tracks IH]; [reflexivity|]. cbn [map concat list_sum fold_right length]. rewrite app_length.
  pose proof (H' l (or_introl eq_refl)). specialize (IH (fun x Hx => H' x (or_intror Hx))). unfold list_sum in IH. lia.
Qed.
Lemma ends_last tm l a b : ends_at_one tm (l ++ [a; b]) = nlt (tm a) (tm b) && nle none_ (tm b).
Proof.
  induction l as [|x l IH]; [reflexivity|]. cbn [app]. destruct l as [|y l]; [exact IH|].
  change (ends_at_one tm (x :: (y :: l) ++ [a; b])) with
    (match (y :: l) ++ [a; b] with [b] => nlt (tm x) (tm b) && nle none_ (tm b) | _ => ends_at_one tm ((y :: l) ++ [a; b]) end).
  destruct l; exact IH.
Qed.

Lemma nlt_nle (x y : f32) : nlt x y = true -> nle x y = true.
Proof.
  cbn. unfold Bltb, Bleb, SpecFloat.SFltb, SpecFloat.SFleb. destruct (SpecFloat.SFcompare _ _) as [[]|]; auto; discriminate.
Qed.

Section Channel.
  Variable times : list f32.
  Hypothesis TOK : times_ok times.
  Variable tracks : list (list (nat * key)).
  Variable num_tracks : nat.
  Notation T := (length tracks).
  Hypothesis T0 : T <> 0.
  Hypothesis TR : Forall (track_ok times) tracks.
  Hypothesis PAD : forall t, num_tracks <= t -> t < T -> length (nth t tracks []) = 2.
  Hypothesis COUNT : (N.of_nat (length (concat tracks)) < 65536)%N.

  Lemma track_at t : t < T -> track_ok times (nth t tracks []).
  Proof using TOK T0 TR PAD COUNT num_tracks. intros H. rewrite Forall_forall in TR. apply TR, nth_In, H. Qed.
  Lemma two : forall t, t < T -> 2 <= length (nth t tracks []).
  Proof using TOK T0 TR PAD COUNT num_tracks. intros t H. apply (track_at t H). Qed.
  Lemma rising : forall t i j, t < T -> i < j -> j < length (nth t tracks []) ->
    fst (knot key0 tracks (t, i)) < fst (knot key0 tracks (t, j)).
  Proof using TOK T0 TR PAD COUNT num_tracks.
    intros t i j Ht Hi Hj. destruct (track_at t Ht) as (_ & _ & _ & S). unfold knot. cbn [fst snd].
    rewrite <- !(map_nth fst). apply sorted_nth; [exact S|exact Hi|rewrite map_length; exact Hj].
  Qed.
  Lemma first_zero : forall t, t < T -> fst (knot key0 tracks (t, 0)) = 0.
  Proof using TOK T0 TR PAD COUNT num_tracks. intros t Ht. apply (track_at t Ht). Qed.
  Lemma in_times : forall e, slot tracks e -> fst (knot key0 tracks e) < length times.
  Proof using TOK T0 TR PAD COUNT num_tracks.
    intros [t j] [H1 H2]. cbn [fst snd] in *. pose proof (track_at t H1) as (A & B & C & D).
    destruct (Nat.eq_dec j (length (nth t tracks []) - 1)) as [->|N].
    - unfold knot. cbn [fst snd]. rewrite C.
      pose proof (rising t 0 (length (nth t tracks []) - 1) H1 ltac:(lia) ltac:(lia)) as R. unfold knot in R. cbn [fst snd] in R. rewrite C in R. lia.
    - pose proof (rising t j (length (nth t tracks []) - 1) H1 ltac:(lia) ltac:(lia)) as R. unfold knot in R at 2. cbn [fst snd] in R. rewrite C in R. lia.
  Qed.
  Lemma times_two : 2 <= length times.
  Proof using TOK T0 TR PAD COUNT num_tracks.
    assert (H : 0 < T) by lia. pose proof (track_at 0 H) as (A & B & C & D).
    pose proof (rising 0 0 (length (nth 0 tracks []) - 1) H ltac:(lia) ltac:(lia)) as R. unfold knot in R. cbn [fst snd] in R. rewrite B, C in R. lia.
  Qed.
  Lemma time_num i : i < length times -> nle (nth i times nzero) (nth i times nzero) = true.
  Proof using TOK T0 TR PAD COUNT num_tracks.
    intros H. pose proof times_two. destruct TOK as (A & B & C & D). destruct (Nat.eq_dec i 0) as [->|N].
    - apply (@ord_num f32 f32num f32_ord _ _ (nlt_nle _ _ (D 0 1 ltac:(lia) ltac:(lia)))).
    - apply (@ord_num f32 f32num f32_ord _ _ (nlt_nle _ _ (D 0 i ltac:(lia) ltac:(lia)))).
  Qed.
  Lemma times_rise : forall i j, i <= j -> j < length times -> nle (nth i times nzero) (nth j times nzero) = true.
  Proof using TOK T0 TR PAD COUNT num_tracks.
    intros i j H1 H2. destruct (Nat.eq_dec i j) as [->|N]; [apply time_num, H2|]. apply nlt_nle. destruct TOK as (_ & _ & _ & D). apply D; lia.
  Qed.

  Notation n := (length (order key0 tracks)).
  Lemma count : (N.of_nat n < 65536)%N.
  Proof using TOK T0 TR PAD COUNT num_tracks. rewrite (order_count key0 tracks two). exact COUNT. Qed.
  Definition iframe : list N := gv4_min (map N.of_nat (snapshot T (built key0 tracks [] [] (none_ : f32)) n)).
  Definition idesc : list N := [0%N; N.of_nat (n - 1)].
  Definition the_ctrl : ctrl f32 := built key0 tracks iframe idesc none_.
  Definition the_keys : list key := keys key0 tracks.

  Lemma interval_one : (nto_i32 (nhalf + none_ / (none_ : f32))%num <=? 1)%Z = true.
  Proof. vm_compute. reflexivity. Qed.
  Lemma ctrl_wf : wf_channel num_tracks T (length the_keys) times the_ctrl = true.
  Proof using All.
    apply built_wf.
    - exact two.
    - exact rising.
    - exact T0.
    - exact first_zero.
    - exact in_times.
    - exact PAD.
    - exact times_rise.
    - pose proof (proj1 TOK) as Z. assert (Z' : nle (nth 0 times (@nzero f32 f32arith)) (@nzero f32 f32arith) = true) by (rewrite Z; reflexivity). exact Z'.
    - exact count.
    - unfold iframe. do 2 f_equal. apply snapshot_ext. reflexivity.
    - apply forallb_forall. intros x Hx. apply N.ltb_lt. pose proof (gv4_min_bytes (map N.of_nat (snapshot T (built key0 tracks [] [] (none_ : f32)) n))) as G.
      rewrite Forall_forall in G. apply G, Hx.
    - reflexivity.
    - vm_compute. reflexivity.
    - exact interval_one.
  Qed.
  Lemma ctrl_keys t : t < T -> track_keys T the_ctrl (length (k_prev the_ctrl)) t =
    map (fun j => pos (order key0 tracks) (t, j)) (seq 0 (length (nth t tracks []))).
  Proof using TOK T0 TR PAD COUNT num_tracks. intros H. unfold the_ctrl. rewrite (prevs_length key0 tracks two rising). apply (track_keys_at key0 tracks two rising). exact H. Qed.
  Lemma slot_of t j : t < T -> j < length (nth t tracks []) -> slot tracks (t, j).
  Proof. intros; split; assumption. Qed.
  Lemma ctrl_time t j : t < T -> j < length (nth t tracks []) ->
    time times the_ctrl (pos (order key0 tracks) (t, j)) = nth (fst (nth j (nth t tracks []) (0, key0))) times nzero.
  Proof using TOK T0 TR PAD COUNT num_tracks.
    intros H1 H2. destruct (at_P key0 tracks two rising (t, j) (slot_of t j H1 H2)) as [A B].
    unfold the_ctrl. rewrite (time_at key0 tracks two rising) by exact B. rewrite A. reflexivity.
  Qed.
  Lemma ctrl_key t j : t < T -> j < length (nth t tracks []) ->
    nth (pos (order key0 tracks) (t, j)) the_keys key0 = snd (nth j (nth t tracks []) (0, key0)).
  Proof using TOK T0 TR PAD COUNT num_tracks.
    intros H1 H2. destruct (at_P key0 tracks two rising (t, j) (slot_of t j H1 H2)) as [A B].
    unfold the_keys. rewrite (keys_at key0 tracks two rising) by exact B. rewrite A. reflexivity.
  Qed.
  Lemma ctrl_stores t : t < T -> stored_curve T times the_ctrl the_keys t = curve times (nth t tracks []).
  Proof using TOK T0 TR PAD COUNT num_tracks.
    intros H. unfold stored_curve, curve. rewrite ctrl_keys by exact H. rewrite map_map.
    rewrite <- (map_nth_seq (nth t tracks []) (0, key0)) at 2. rewrite map_map. apply map_ext_in. intros j Hj. apply in_seq in Hj.
    rewrite ctrl_time, ctrl_key by lia. reflexivity.
  Qed.
  Lemma ctrl_covers : channel_covers T times the_ctrl = true.
  Proof using TOK T0 TR PAD COUNT num_tracks.
    apply forallb_forall. intros t Ht. apply in_seq in Ht. rewrite ctrl_keys by lia.
    pose proof (track_at t ltac:(lia)) as (A & B & C & D). set (m := length (nth t tracks [])) in *.
    replace m with (m - 2 + 2) by lia. rewrite seq_app, map_app. cbn [Nat.add seq map]. rewrite ends_last.
    rewrite !ctrl_time by (fold m; lia).
    destruct TOK as (A' & B' & C' & D'). pose proof times_two.
    pose proof (rising t (m - 2) (S (m - 2)) ltac:(lia) ltac:(lia) ltac:(fold m; lia)) as R. unfold knot in R. cbn [fst snd] in R.
    replace (S (m - 2)) with (m - 1) in * by lia. rewrite C in *.
    rewrite D' by lia. rewrite B'. vm_compute. reflexivity.
  Qed.
  Lemma keys_all (Q : key -> Prop) : Forall (Forall (fun x => Q (snd x))) tracks -> Forall Q the_keys.
  Proof using TOK T0 TR PAD COUNT num_tracks.
    intros H. apply Forall_forall. intros x Hx. unfold the_keys, keys in Hx. apply in_map_iff in Hx. destruct Hx as ([t j] & <- & He).
    apply (order_in key0 tracks two rising) in He. destruct He as [H1 H2]. cbn [fst snd] in *. rewrite Forall_forall in H.
    specialize (H _ (nth_In tracks [] H1)). rewrite Forall_forall in H. apply H. unfold knot. cbn [fst snd]. apply nth_In, H2.
  Qed.
  Lemma ctrl_hemisphere : Forall gentle tracks -> hemisphere T the_ctrl the_keys key0.
  Proof using TOK T0 TR PAD COUNT num_tracks.
    intros H t kl kr Ht C. rewrite ctrl_keys in C by exact Ht. destruct (consecutive_split _ _ _ C) as (p & s & E).
    set (m := length (nth t tracks [])) in *. set (f := fun j => pos (order key0 tracks) (t, j)) in *.
    assert (LE : length (map f (seq 0 m)) = length (p ++ kl :: kr :: s)) by (rewrite E; reflexivity).
    rewrite map_length, seq_length, app_length in LE. cbn [length] in LE.
    assert (E1 : nth (length p) (map f (seq 0 m)) (f 0) = kl) by (rewrite E, app_nth2, Nat.sub_diag by lia; reflexivity).
    assert (E2 : nth (length p + 1) (map f (seq 0 m)) (f 0) = kr).
    { rewrite E, app_nth2 by lia. replace (length p + 1 - length p) with 1 by lia. reflexivity. }
    rewrite map_nth, seq_nth in E1, E2 by lia. cbn [Nat.add] in E1, E2. subst kl kr. unfold f.
    rewrite !ctrl_key by (fold m; lia). rewrite Forall_forall in H. specialize (H _ (nth_In tracks [] Ht)).
    destruct (nth_split (nth t tracks []) (0, key0) (n := length p) ltac:(fold m; lia)) as (l1 & l2 & S1 & S2).
    assert (E3 : nth (length p + 1) (nth t tracks []) (0, key0) = nth 0 l2 (0, key0)).
    { rewrite S1 at 1. rewrite app_nth2 by lia. rewrite S2. replace (length p + 1 - length p) with 1 by lia. reflexivity. }
    destruct l2 as [|y l2].
    { exfalso. apply (f_equal (@length _)) in S1. rewrite app_length in S1. cbn [length] in S1. fold m in S1. lia. }
    cbn [nth] in E3. rewrite E3. apply (H _ _ l1 l2). exact S1.
  Qed.

  (** In the file. *)
  Definition file_channel : Archive.channel :=
    {| Archive.ch_ratios := map N.of_nat (ratios key0 tracks);
       Archive.ch_previouses := map N.of_nat (prevs key0 tracks);
       Archive.ch_entries := iframe; Archive.ch_desc := idesc; Archive.ch_interval := f32_to_bits none_;
       Archive.ch_keys := map (fun k => [vx k; vy k; vz k]) the_keys |}.
  Lemma to_of_nat l : map N.to_nat (map N.of_nat l) = l.
  Proof. rewrite map_map. rewrite <- (map_id l) at 2. apply map_ext. apply Nat2N.id. Qed.
  Lemma file_ctrl : ctrl_of file_channel = the_ctrl.
  Proof. unfold ctrl_of, the_ctrl, built. cbn [Archive.ch_ratios Archive.ch_previouses Archive.ch_entries Archive.ch_desc Archive.ch_interval file_channel].
    rewrite !to_of_nat, of_to_bits. reflexivity. Qed.
  Lemma file_keys : map key_of (Archive.ch_keys file_channel) = the_keys.
  Proof. cbn [file_channel Archive.ch_keys]. rewrite map_map. rewrite <- (map_id the_keys) at 2. apply map_ext. intros []. reflexivity. Qed.

  Hypothesis U16 : Forall (Forall (fun x => u16_3 (snd x))) tracks.
  Lemma snapshot_length : length iframe <= 20 * T + 20.
  Proof using TOK T0 TR PAD COUNT num_tracks U16.
    unfold iframe, gv4_min. set (l := map (fun v => (min_width v, v)) (map N.of_nat (snapshot T (built key0 tracks [] [] (none_ : f32)) n))).
    assert (L : length l = T) by (unfold l, snapshot; rewrite !map_length, seq_length; reflexivity).
    assert (W : forall x, In x l -> fst x <= 4).
    { intros x Hx. unfold l in Hx. apply in_map_iff in Hx. destruct Hx as (v & <- & _). apply min_width_range. }
    assert (B : forall w v, length (Gv4Spec.le_bytes w v) = w) by (induction w; intros v; cbn; [reflexivity|rewrite IHw; reflexivity]).
    enough (G : length (gv4 l) <= 20 * length l) by lia. clearbody l. clear L. revert l W. fix IH 1.
    intros [|[w0 v0] [|[w1 v1] [|[w2 v2] [|[w3 v3] l]]]] W; cbn [gv4 length]; try lia.
    rewrite !app_length, !B. pose proof (W (w0, v0) ltac:(cbn; auto)). pose proof (W (w1, v1) ltac:(cbn; auto)).
    pose proof (W (w2, v2) ltac:(cbn; auto)). pose proof (W (w3, v3) ltac:(cbn; auto 6)). cbn [fst] in *.
    assert (length (gv4 l) <= 20 * length l) by (apply IH; intros x Hx; apply W; do 4 right; exact Hx). lia.
  Qed.
  Lemma file_ok : ArchiveSpec.channel_ok (ArchiveSpec.len (map f32_to_bits times) <=? 255)%N file_channel.
  Proof using All.
    pose proof count as CN. destruct TOK as (_ & _ & TL & _).
    assert (LK : @length key the_keys = n) by (unfold the_keys, keys; apply map_length).
    pose proof (order_length key0 tracks two rising) as OL. pose proof snapshot_length as SL.
    unfold ArchiveSpec.channel_ok. cbn [file_channel Archive.ch_ratios Archive.ch_previouses Archive.ch_entries Archive.ch_desc Archive.ch_interval Archive.ch_keys].
    unfold ArchiveSpec.len. rewrite !map_length.
    split; [unfold ratios, the_keys, keys; rewrite !map_length; reflexivity|].
    split; [unfold prevs, the_keys, keys; rewrite !map_length, seq_length; reflexivity|].
    split.
    { apply Forall_forall. intros x Hx. apply in_map_iff in Hx. destruct Hx as (i & <- & Hi). unfold ratios in Hi. apply in_map_iff in Hi.
      destruct Hi as (e & <- & He). apply (order_in key0 tracks two rising) in He. pose proof (in_times e He) as L.
      unfold ArchiveSpec.fits. destruct (N.of_nat (length times) <=? 255)%N eqn:E.
      - apply N.leb_le in E. change (2 ^ (8 * N.of_nat 1))%N with 256%N. lia.
      - change (2 ^ (8 * N.of_nat 2))%N with 65536%N. lia. }
    split.
    { apply Forall_forall. intros x Hx. apply in_map_iff in Hx. destruct Hx as (i & <- & Hi). unfold prevs in Hi. apply in_map_iff in Hi.
      destruct Hi as (j & <- & Hj). apply in_seq in Hj. unfold ArchiveSpec.fits. change (2 ^ (8 * N.of_nat 2))%N with 65536%N. cbv zeta.
      destruct (snd _ =? 0); lia. }
    split.
    { eapply Forall_impl; [|apply gv4_min_bytes]. intros x Hx. exact Hx. }
    split.
    { unfold idesc, ArchiveSpec.fits. change (2 ^ (8 * N.of_nat 4))%N with 4294967296%N. repeat constructor; lia. }
    split; [vm_compute; reflexivity|].
    split.
    { apply Forall_forall. intros x Hx. apply in_map_iff in Hx. destruct Hx as (k & <- & Hk). split; [reflexivity|].
      pose proof (keys_all u16_3 U16) as G. rewrite Forall_forall in G. destruct (G k Hk) as (A & B & C).
      unfold ArchiveSpec.fits. change (2 ^ (8 * N.of_nat 2))%N with 65536%N. repeat constructor; assumption. }
    unfold ArchiveSpec.fits. change (2 ^ (8 * N.of_nat 4))%N with 4294967296%N. pose proof (LK : @length (vec3 N) the_keys = n) as LK2.
    split; [lia|]. split; [lia|]. unfold idesc. cbn [length]. lia.
  Qed.
End Channel.
