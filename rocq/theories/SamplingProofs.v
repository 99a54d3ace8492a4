(** Sampling is a function of the animation and the ratio, whatever the context went through. *)
From Verif Require Import Base Num Math Gv4 Gv4Spec Gv4Proofs Sampling SamplingSpec SamplingCache.
From Coq Require Import Sorted.

Lemma is_prefix_spec a b : is_prefix a b = true -> exists t, b = a ++ t.
Proof.
  revert b; induction a as [|x a IH]; intros [|y b] H; cbn in H; try discriminate.
  - exists []. reflexivity.
  - exists (y :: b). reflexivity.
  - apply andb_prop in H. destruct H as [H1 H2]. apply N.eqb_eq in H1. subst.
    destruct (IH b H2) as (t & ->). exists t. reflexivity.
Qed.
Lemma nodupb_spec l : nodupb l = true -> NoDup l.
Proof.
  induction l as [|x l IH]; cbn; intros H; constructor; apply andb_prop in H; destruct H as [H1 H2].
  - intros Hin. apply negb_true_iff in H1.
    assert (E : existsb (Nat.eqb x) l = true).
    { apply existsb_exists. exists x. split; [assumption|apply Nat.eqb_refl]. }
    congruence.
  - auto.
Qed.
Lemma forallb_seq (f : nat -> bool) s len i :
  forallb f (seq s len) = true -> s <= i < s + len -> f i = true.
Proof. intros H Hi. rewrite forallb_forall in H. apply H, in_seq, Hi. Qed.
Lemma forallb_nth {A} (f : A -> bool) l i d : forallb f l = true -> i < length l -> f (nth i l d) = true.
Proof. intros H Hi. rewrite forallb_forall in H. apply H, nth_In, Hi. Qed.

Lemma last_In {A} (l : list A) d : l <> [] -> In (last l d) l.
Proof.
  induction l as [|x l IH]; intros H; [congruence|].
  destruct l as [|y l]; [left; reflexivity|]. right. apply IH. discriminate.
Qed.
Lemma sorted_last l d x : StronglySorted lt l -> In x l -> x <= last l d.
Proof.
  induction l as [|y l IH]; intros S Hx; [destruct Hx|].
  apply StronglySorted_inv in S. destruct S as [S Fl]. rewrite Forall_forall in Fl.
  destruct l as [|z l].
  - destruct Hx as [->|[]]. cbn. lia.
  - destruct Hx as [->|Hx].
    + assert (x < last (z :: l) d) by (apply Fl, last_In; discriminate). cbn [last] in *. lia.
    + apply (IH S Hx).
Qed.

Section Chan.
  Context {F : Type} {NF : Num F} {ON : OrdNum F}.
  Variables (nt ns nk : nat) (tp : list F) (k : ctrl F).
  Hypothesis Hns : ns = div_ceil nt 4.
  Hypothesis Hpos : 0 < ns.
  Hypothesis Htp : forallb isnum tp = true.
  Hypothesis WF : wf_channel nt (4 * ns) nk tp k = true.
  Notation n := (length (k_prev k)).

  Definition good_iframe (j : nat) : Prop := wf_iframe (4 * ns) k j = true.

  Lemma nt_bound : 0 < nt <= 4 * ns.
  Proof.
    unfold div_ceil in Hns. change (4 - 1) with 3 in Hns.
    pose proof (Nat.div_mod (nt + 3) 4 ltac:(lia)).
    pose proof (Nat.mod_upper_bound (nt + 3) 4 ltac:(lia)). lia.
  Qed.

  Lemma wf_facts :
    wf_chan nt ns tp k /\ nk = n /\ bytes (k_ientries k) /\
    (k_idesc k = [] \/
     exists q, length (k_idesc k) = 2 * q /\ nlt nzero (k_interval k) = true /\
       (nto_i32 (nhalf + none_ / k_interval k)%num <= Z.of_nat q)%Z /\
       (forall d, In d (k_idesc k) -> (d < 4294967295)%N) /\
       forall j, j < q -> good_iframe j).
  Proof.
    pose proof WF as H. unfold wf_channel in H.
    apply andb_prop in H; destruct H as [H Hif].
    apply andb_prop in H; destruct H as [H Hby].
    apply andb_prop in H; destruct H as [H Hfirst].
    apply andb_prop in H; destruct H as [H Hmono].
    apply andb_prop in H; destruct H as [H Hnd].
    apply andb_prop in H; destruct H as [H Hlink].
    apply andb_prop in H; destruct H as [H Hrow].
    apply andb_prop in H; destruct H as [H Hidx].
    apply andb_prop in H; destruct H as [H Hu].
    apply andb_prop in H; destruct H as [H Hl2].
    apply andb_prop in H; destruct H as [Hrat Hnk].
    apply Nat.eqb_eq in Hrat, Hnk. apply Nat.leb_le in Hl2. apply N.ltb_lt in Hu.
    pose proof nt_bound as Hnt.
    clear WF. revert Hif Hby.
    apply nodupb_spec in Hnd.
    rewrite forallb_forall in Hidx, Hlink, Hrow, Hmono, Hfirst.
    assert (Hmem : forall i, In i (k_ratios k) -> i < length tp).
    { intros i Hi. apply Nat.ltb_lt, Hidx, Hi. }
    assert (Htm : forall i, i < n -> nle (time tp k i) (time tp k i) = true).
    { intros i Hi. unfold time. apply (forallb_nth isnum tp _ nzero Htp).
      apply Hmem, nth_In. lia. }
    intros Hif Hby.
    split; [|split; [|split]].
    - clear Hif Hby. constructor; auto; try lia.
      + intros i Hi. apply Nat.eqb_eq, Hrow, in_seq. lia.
      + intros i Hi. specialize (Hlink i). rewrite in_seq in Hlink. specialize (Hlink ltac:(lia)).
        apply andb_prop in Hlink. destruct Hlink as [Ha Hb]. apply andb_prop in Ha.
        destruct Ha as [Ha Hc]. apply Nat.leb_le in Ha, Hc. apply Nat.ltb_lt in Hb. auto.
      + intros i j Hi Hj E. clear Hidx Hlink Hrow Hmono Hfirst.
        rewrite NoDup_nth_error in Hnd.
        assert (i - 4 * ns = j - 4 * ns); [|lia].
        apply Hnd.
        * rewrite map_length, seq_length. lia.
        * rewrite !nth_error_map, !(nth_error_nth' _ 0) by (rewrite seq_length; lia).
          rewrite !seq_nth by lia. cbn [option_map]. f_equal.
          replace (4 * ns + (i - 4 * ns)) with i by lia.
          replace (4 * ns + (j - 4 * ns)) with j by lia. assumption.
      + assert (step : forall i, 4 * ns <= i -> i + 1 < n ->
          nle (time tp k (previous k i)) (time tp k (previous k (i + 1))) = true).
        { intros i Hi1 Hi2. apply Hmono, in_seq. lia. }
        intros i j Hi Hij. induction Hij as [|j Hij IH]; intros Hj.
        * apply Htm. unfold previous. lia.
        * eapply ord_trans; [apply IH; lia|].
          replace (S j) with (j + 1) by lia. apply step; lia.
      + intros i Hi. apply Hfirst, in_seq. lia.
    - assumption.
    - rewrite forallb_forall in Hby. apply Forall_forall. intros b Hb. apply N.ltb_lt, Hby, Hb.
    - apply orb_prop in Hif. destruct Hif as [Hif|Hif].
      + left. apply Nat.eqb_eq in Hif. destruct (k_idesc k); [reflexivity|discriminate].
      + right. apply andb_prop in Hif; destruct Hif as [Hif Hg].
        apply andb_prop in Hif; destruct Hif as [Hif Hd].
        apply andb_prop in Hif; destruct Hif as [Hif Hq].
        apply andb_prop in Hif; destruct Hif as [Hif Hiv].
        apply Nat.eqb_eq in Hif. apply Z.leb_le in Hq.
        rewrite forallb_forall in Hg, Hd.
        exists (Nat.div (length (k_idesc k)) 2).
        split; [pose proof (Nat.div_mod (length (k_idesc k)) 2 ltac:(discriminate)); lia|].
        split; [assumption|]. split; [assumption|]. split.
        * intros d Hd'. apply N.ltb_lt, Hd, Hd'.
        * intros j Hj. apply Hg, in_seq. lia.
  Qed.

  Lemma W : wf_chan nt ns tp k. Proof. apply wf_facts. Qed.

  Lemma snapshot_canon m : 2 * (4 * ns) <= m <= n -> canon ns k (snapshot (4 * ns) k m) m.
  Proof.
    intros Hm. split; [unfold snapshot; rewrite map_length, seq_length; reflexivity|].
    intros t Ht. unfold snapshot. rewrite nth_error_map, (nth_error_nth' _ 0) by (rewrite seq_length; lia).
    rewrite seq_nth by lia. cbn [Nat.add option_map]. eexists; split; [reflexivity|].
    assert (S : StronglySorted lt (track_keys (4 * ns) k m t)) by (apply sorted_filter, sorted_seq).
    assert (Hin : In (last (track_keys (4 * ns) k m t) 0) (track_keys (4 * ns) k m t)).
    { apply last_In. intros E. assert (In t []) as []. rewrite <- E.
      apply track_keys_In. rewrite (own_first ns k); lia. }
    apply track_keys_In in Hin. destruct Hin as [H1 H2]. repeat split; auto.
    intros i Hi Ho. assert (Hi' : In i (track_keys (4 * ns) k m t)) by (apply track_keys_In; lia).
    pose proof (sorted_last _ 0 _ S Hi'). lia.
  Qed.

  Lemma snapshot_bound m v : m <= n -> 2 * (4 * ns) <= m -> In v (snapshot (4 * ns) k m) -> v < m.
  Proof.
    intros H1 H2 Hv. apply In_nth_error in Hv. destruct Hv as (t & Ht).
    pose proof (snapshot_canon m ltac:(lia)) as [L C].
    assert (t < 4 * ns).
    { rewrite <- L. apply nth_error_Some. congruence. }
    destruct (C t H) as (c & E & Hc & _). assert (c = v) by congruence. lia.
  Qed.

  Variable outside : nat -> N.
  Hypothesis Hout : forall j, (outside j < 256)%N.

  Lemma initialize_0 (e : list nat) :
    length e = 4 * ns ->
    exists e' m', initialize_cache outside k 0 e = Ok (e', m') /\ canon ns k e' m' /\ 2 * (4 * ns) <= m' <= n.
  Proof.
    intros L. cbn [initialize_cache]. rewrite L. eexists _, _. split; [reflexivity|].
    pose proof (w_len _ _ _ _ W). split; [|lia].
    replace (4 * ns * 2) with (2 * (4 * ns)) by lia. apply (canon_start nt ns tp k), W.
  Qed.

  Lemma initialize_S (e : list nat) j q :
    length e = 4 * ns -> length (k_idesc k) = 2 * q -> j < q -> good_iframe j ->
    (forall d, In d (k_idesc k) -> (d < 4294967295)%N) ->
    exists e' m', initialize_cache outside k (S j) e = Ok (e', m') /\ canon ns k e' m' /\ 2 * (4 * ns) <= m' <= n.
  Proof.
    intros L Lq Hj G Hd. cbn [initialize_cache]. unfold good_iframe, wf_iframe in G.
    rewrite (get_nth _ (j * 2) 0%N) by lia. cbn [bind].
    rewrite (get_nth _ (j * 2 + 1) 0%N) by lia.
    rewrite !(Nat.mul_comm 2 j) in G.
    set (off := N.to_nat (nth (j * 2) (k_idesc k) 0%N)) in *.
    set (d := nth (j * 2 + 1) (k_idesc k) 0%N) in *.
    assert (Hdl : (d < 4294967295)%N) by (apply Hd, nth_In; lia).
    set (m := N.to_nat d + 1) in *.
    repeat match goal with H : _ && _ = true |- _ => apply andb_prop in H; destruct H end.
    assert (Hm : 2 * (4 * ns) <= m <= n) by lia.
    unfold slice_from. rewrite (proj2 (Nat.ltb_ge _ _)) by lia. cbn [bind].
    match goal with H : is_prefix _ _ = true |- _ => apply is_prefix_spec in H; destruct H as (t & Et) end.
    assert (Bt : bytes t).
    { destruct wf_facts as (_ & _ & B & _). unfold bytes in *.
      rewrite <- (firstn_skipn off (k_ientries k)), Et in B.
      apply Forall_app in B. destruct B as [_ B]. apply Forall_app in B. apply B. }
    assert (Ls : length (map N.of_nat (snapshot (4 * ns) k m)) = length e).
    { rewrite map_length. pose proof (snapshot_canon m Hm) as [Lc _]. lia. }
    destruct (decode_stream_min outside (map N.of_nat (snapshot (4 * ns) k m)) t) as (x & E); auto.
    - rewrite Ls, L. rewrite Nat.mul_comm. apply Nat.mod_mul. lia.
    - apply Forall_forall. intros v Hv. apply in_map_iff in Hv. destruct Hv as (v' & <- & Hv).
      apply snapshot_bound in Hv; [|lia|lia]. pose proof (w_u32 _ _ _ _ W). lia.
    - rewrite Et, <- Ls, E. cbn [bind]. rewrite (proj2 (N.ltb_lt _ _) Hdl). cbn [assert_ bind].
      eexists _, _. split; [reflexivity|]. split; [|assumption].
      rewrite map_map. erewrite map_ext, map_id; [apply snapshot_canon; assumption|].
      intros v. apply Nnat.Nat2N.id.
  Qed.

  (** The state of one channel of a context that last sampled this animation (or none). *)
  Definition chan_ok {V} (c : chan F V) : Prop :=
    chan_sized ns c /\
    (ch_next c = 0 \/ canon ns k (ch_entries c) (ch_next c) /\ full ns (ch_outdated c) /\
                      2 * (4 * ns) <= ch_next c <= n).

  Lemma pick_ok next r pr z q :
    nle nzero r = true -> nle r none_ = true ->
    (k_idesc k = [] \/ nlt nzero (k_interval k) = true /\ 0 < length (k_idesc k) /\
       (nto_i32 (nhalf + none_ / k_interval k)%num <= Z.of_nat q)%Z) ->
    pick_iframe k next r pr = Some z ->
    z = 0%Z \/ (0 < z <= Z.of_nat q)%Z /\ k_idesc k <> [].
  Proof.
    intros H0 H1 Hk. unfold pick_iframe. destruct (_ || _); [|discriminate].
    destruct Hk as [E|(Hi & Hl & Hq)].
    - rewrite E. cbn [length Nat.eqb negb]. destruct (_ || _); cbn; intros Hz; inversion Hz; auto.
    - destruct (Nat.eqb_spec (length (k_idesc k)) 0); [lia|]. cbn [negb].
      pose proof (ord_iframe _ _ Hi H0 H1).
      destruct (Z.leb_spec 0 (nto_i32 (nhalf + r / k_interval k)%num)); intros Hz; inversion Hz; subst.
      destruct (Z.eq_dec (nto_i32 (nhalf + r / k_interval k)%num) 0) as [->|]; [left; reflexivity|].
      right. split; [lia|]. intros E. rewrite E in Hl. cbn in Hl. lia.
  Qed.

  Variable r : F.
  Hypothesis Hr0 : nle nzero r = true.
  Hypothesis Hr1 : nle r none_ = true.

  (** Updating the cache from any such state ends in the state determined by the ratio. *)
  Lemma update_cache_ok {V} (c : chan F V) pr :
    chan_ok c ->
    exists c', update_cache outside c nt ns k tp r pr = Ok c' /\
      chan_sized ns c' /\ settled ns tp k r (ch_entries c') (ch_next c') /\
      full ns (ch_outdated c') /\ ch_values c' = ch_values c.
  Proof.
    intros [(Le & Lo & Lv) Hst]. pose proof nt_bound as Hnt. pose proof (w_len _ _ _ _ W) as Hlen.
    unfold update_cache. rewrite (proj2 (Nat.leb_le _ _)) by lia. cbn [assert_ bind].
    assert (A : (ch_next c =? 0) || (nt * 2 <=? ch_next c) && (ch_next c <=? n) = true).
    { destruct Hst as [->|(_ & _ & Hb)]; [reflexivity|].
      rewrite !(proj2 (Nat.leb_le _ _)) by lia. apply orb_true_r. }
    rewrite A. cbn [assert_ bind]. clear A.
    assert (S : exists e o m,
      match pick_iframe k (ch_next c) r pr with
      | Some iframe =>
          let* (entries, next) := initialize_cache outside k (Z.to_nat iframe) (ch_entries c) in
          let* _ := assert_ ((nt * 2 <=? next) && (next <=? n)) in
          let* outdated := outdate_cache (ch_outdated c) ns in
          Ok (entries, outdated, next)
      | None => Ok (ch_entries c, ch_outdated c, ch_next c)
      end = Ok (e, o, m) /\ canon ns k e m /\ full ns o /\ 2 * (4 * ns) <= m <= n).
    { destruct (pick_iframe k (ch_next c) r pr) as [z|] eqn:Ep.
      - assert (I : exists e' m', initialize_cache outside k (Z.to_nat z) (ch_entries c) = Ok (e', m') /\
                      canon ns k e' m' /\ 2 * (4 * ns) <= m' <= n).
        { destruct wf_facts as (_ & _ & _ & [E|(q & Lq & Hi & Hq & Hd & G)]).
          - destruct (pick_ok _ _ _ _ 0 Hr0 Hr1 (or_introl E) Ep) as [->|[_ HH]]; [|congruence].
            apply initialize_0. assumption.
          - destruct (Nat.eq_dec (length (k_idesc k)) 0) as [Ed|Ed].
            + assert (Hk : k_idesc k = []) by (apply length_zero_iff_nil; assumption).
              destruct (pick_ok _ _ _ _ 0 Hr0 Hr1 (or_introl Hk) Ep) as [->|[_ HH]]; [|congruence].
              apply initialize_0. assumption.
            + assert (Ed' : 0 < length (k_idesc k)) by lia.
              destruct (pick_ok _ _ _ _ q Hr0 Hr1 (or_intror (conj Hi (conj Ed' Hq))) Ep)
                as [->|[Hz _]]; [apply initialize_0; assumption|].
              replace (Z.to_nat z) with (S (Z.to_nat z - 1)) by lia.
              eapply initialize_S; eauto; [|apply G]; lia. }
        destruct I as (e' & m' & -> & C & Hm). cbn [bind].
        rewrite !(proj2 (Nat.leb_le _ _)) by lia. cbn [andb assert_ bind].
        destruct (outdate_ok nt ns tp k W (ch_outdated c) Lo) as (o' & -> & Fo). cbn [bind].
        eexists _, _, _. split; [reflexivity|]. auto.
      - destruct Hst as [Hz|(C & Fo & Hm)].
        + exfalso. unfold pick_iframe in Ep. rewrite Hz in Ep. cbn [Nat.eqb orb] in Ep.
          destruct wf_facts as (_ & _ & _ & [E|(q & Lq & Hi & Hq & Hd & G)]).
          * rewrite E in Ep. cbn in Ep. discriminate.
          * pose proof (ord_iframe _ _ Hi Hr0 Hr1).
            destruct (negb _); [|discriminate].
            rewrite (proj2 (Z.leb_le _ _)) in Ep by lia. discriminate.
        + eexists _, _, _. split; [reflexivity|]. auto. }
    destruct S as (e & o & m & -> & C & Fo & Hm). cbn [bind].
    destruct (loops_ok nt ns tp k W r Hr0 e o m C Fo Hm)
      as (e1 & o1 & m1 & t1 & e' & o' & m' & E1 & E2 & St & F').
    rewrite E1. cbn [bind]. rewrite E2. cbn [bind].
    pose proof St as (C' & Hm' & _). 
    rewrite !(proj2 (Nat.leb_le _ _)) by lia. cbn [andb assert_ bind].
    eexists. split; [reflexivity|]. cbn [ch_entries ch_outdated ch_next ch_values].
    split; [|auto]. unfold chan_sized. cbn. split; [apply C'|split; [apply F'|assumption]].
  Qed.

  (** ** Decompression *)
  Section Decompress.
    Context {K V : Type} (dec : K -> K -> K -> K -> V) (keys : list K) (d : K).
    Hypothesis Lk : length keys = n.

    (** The interpolation data of SoA element [i] at ratio [r]. *)
    Definition expected (i : nat) : interp F V :=
      let pr j := sample_pair (4 * ns) tp k r (4 * i + j) in
      let kl j := nth (fst (pr j)) keys d in
      let kr j := nth (snd (pr j)) keys d in
      mk_interp (build4 (fun j => time tp k (fst (pr j)))) (build4 (fun j => time tp k (snd (pr j))))
                (dec (kl 0) (kl 1) (kl 2) (kl 3)) (dec (kr 0) (kr 1) (kr 2) (kr 3)).

    Lemma entry_ok e m t :
      settled ns tp k r e m -> t < 4 * ns ->
      exists c, get e t = Ok c /\ sample_pair (4 * ns) tp k r t = (previous k c, c) /\
        left_of k c = Ok (previous k c) /\ previous k c < n /\ c < n.
    Proof.
      intros St Ht. pose proof St as ((L & C) & _). destruct (C t Ht) as (c & E & _).
      exists c. split; [apply get_Ok; assumption|].
      destruct (settled_pair nt ns tp k W r Hr0 e m t c St Ht E) as [Hp Hc].
      split; [assumption|].
      pose proof (P_prev nt ns tp k W c Hc). pose proof (P_lt nt ns tp k W c Hc).
      split; [|lia]. unfold left_of. rewrite (get_nth _ _ 0) by lia. cbn [bind]. unfold sub_.
      rewrite (proj2 (Nat.leb_le _ _)) by lia. reflexivity.
    Qed.

    Lemma decompress_one_ok e m i :
      settled ns tp k r e m -> i < ns -> decompress_one dec k tp keys e i = Ok (expected i).
    Proof.
      intros St Hi. unfold decompress_one, expected, get4. cbn [l0 l1 l2 l3].
      rewrite !(Nat.mul_comm i 4).
      replace (4 * i) with (4 * i + 0) at 1 by lia.
      destruct (entry_ok e m (4 * i + 0) St ltac:(lia)) as (c0 & G0 & P0 & L0 & B0 & D0).
      destruct (entry_ok e m (4 * i + 1) St ltac:(lia)) as (c1 & G1 & P1 & L1 & B1 & D1).
      destruct (entry_ok e m (4 * i + 2) St ltac:(lia)) as (c2 & G2 & P2 & L2 & B2 & D2).
      destruct (entry_ok e m (4 * i + 3) St ltac:(lia)) as (c3 & G3 & P3 & L3 & B3 & D3).
      rewrite G0, G1, G2, G3. cbn [bind l0 l1 l2 l3].
      rewrite L0, L1, L2, L3. cbn [bind l0 l1 l2 l3].
      rewrite !(get_nth keys _ d) by lia. cbn [bind].
      unfold key_ratio_simd. cbn [l0 l1 l2 l3].
      rewrite !(key_ratio_ok nt ns tp k W) by assumption. cbn [bind l0 l1 l2 l3].
      unfold build4. rewrite P0, P1, P2, P3. reflexivity.
    Qed.

    Lemma decompress_loop_ok e m o : settled ns tp k r e m -> full ns o ->
      forall is vs, length vs = ns -> (forall i, In i is -> i < 8 * length o) ->
      exists vs', decompress_loop dec k tp keys e o is vs = Ok vs' /\ length vs' = ns /\
        forall i, i < ns -> nth_error vs' i = if existsb (Nat.eqb i) is then Some (expected i) else nth_error vs i.
    Proof.
      intros St [Lo Fo]. induction is as [|i is IH]; intros vs Lv His; cbn [decompress_loop].
      - exists vs. auto.
      - assert (Hi : i < 8 * length o) by (apply His; left; reflexivity).
        assert (His' : forall j, In j is -> j < 8 * length o) by (intros; apply His; right; assumption).
        rewrite (get_nth _ _ 0%N) by (apply Nat.div_lt_upper_bound; lia). cbn [bind].
        rewrite Fo by assumption. destruct (Nat.ltb_spec i ns) as [Hlt|Hge].
        + rewrite (decompress_one_ok e m) by assumption. cbn [bind].
          rewrite set_lt by lia. cbn [bind].
          destruct (IH (upd vs i (expected i))) as (vs' & E & L' & H'); [rewrite upd_length; assumption|assumption|].
          exists vs'. split; [assumption|]. split; [assumption|]. intros j Hj. rewrite H' by assumption.
          cbn [existsb]. destruct (existsb (Nat.eqb j) is); [rewrite orb_true_r; reflexivity|].
          rewrite orb_false_r. rewrite nth_error_upd.
          destruct (Nat.eqb_spec i j) as [->|Hne]; cbn [andb].
          * rewrite Nat.eqb_refl, (proj2 (Nat.ltb_lt _ _)) by lia. reflexivity.
          * rewrite (proj2 (Nat.eqb_neq j i)) by lia. reflexivity.
        + cbn [bind]. destruct (IH vs Lv His') as (vs' & E & L' & H').
          exists vs'. split; [assumption|]. split; [assumption|]. intros j Hj. rewrite H' by assumption.
          cbn [existsb]. rewrite (proj2 (Nat.eqb_neq j i)) by lia. reflexivity.
    Qed.

    Lemma decompress_ok (c : chan F V) :
      chan_sized ns c -> settled ns tp k r (ch_entries c) (ch_next c) -> full ns (ch_outdated c) ->
      exists c', decompress dec k tp keys c = Ok c' /\ chan_ok c' /\
        forall i, i < ns -> nth_error (ch_values c') i = Some (expected i).
    Proof.
      intros (Le & Lo & Lv) St Fo. unfold decompress.
      destruct (decompress_loop_ok (ch_entries c) (ch_next c) (ch_outdated c) St Fo
                  (seq 0 (8 * length (ch_outdated c))) (ch_values c) Lv) as (vs & E & L & H).
      { intros i Hi. apply in_seq in Hi. lia. }
      rewrite E. cbn [bind]. eexists. split; [reflexivity|]. split.
      - split; [repeat split; cbn; auto|]. right. cbn. destruct St as (C & Hm & _). auto.
      - intros i Hi. cbn. rewrite H by assumption.
        replace (existsb (Nat.eqb i) _) with true; [reflexivity|]. symmetry.
        apply existsb_exists. exists i. split; [|apply Nat.eqb_refl].
        apply in_seq. pose proof (div_ceil_8 ns). lia.
    Qed.
  End Decompress.
End Chan.

(** * The job *)
Section Job.
  Context {F : Type} {NF : Num F} {ON : OrdNum F} {K3 KQ : Type}.
  Variables (dec3 : K3 -> K3 -> K3 -> K3 -> vec3 (V4 F)) (decq : KQ -> KQ -> KQ -> KQ -> quat (V4 F)).
  Variables (dec3_lane : K3 -> vec3 F) (decq_lane : KQ -> quat F).
  Hypothesis dec3_lanes : forall k0 k1 k2 k3 l, l < 4 ->
    lane_v3 (dec3 k0 k1 k2 k3) l = dec3_lane (lane (mk4 k0 k1 k2 k3) l).
  Hypothesis decq_lanes : forall k0 k1 k2 k3 l, l < 4 ->
    lane_q (decq k0 k1 k2 k3) l = decq_lane (lane (mk4 k0 k1 k2 k3) l).
  Variable outside : nat -> N.
  Hypothesis Hout : forall j, (outside j < 256)%N.
  Variables (d3 : K3) (dq : KQ).
  Notation anim := (animation F K3 KQ).

  (** The context is ready for [a] : sized for it, and its cache, if any, is of [a]. *)
  Definition ctx_ok (a : anim) (c : context F) : Prop :=
    cx_max_soa c = num_soa a /\
    chan_ok (num_soa a) (an_t a) (cx_t c) /\
    chan_ok (num_soa a) (an_r a) (cx_r c) /\
    chan_ok (num_soa a) (an_s a) (cx_s c).
  Definition ctx_sized (c : context F) : Prop :=
    chan_sized (cx_max_soa c) (cx_t c) /\ chan_sized (cx_max_soa c) (cx_r c) /\
    chan_sized (cx_max_soa c) (cx_s c).

  Lemma lane_lerp (a b : vec3 (V4 F)) (x : V4 F) l :
    lane_v3 (v3_lerp a b x) l = mix3 (lane_v3 a l) (lane_v3 b l) (lane x l).
  Proof. destruct l as [|[|[|l]]]; reflexivity. Qed.
  Lemma lane_nlerp (a b : quat (V4 F)) (x : V4 F) l :
    lane_q (q_nlerp a b x) l = mixq (lane_q a l) (lane_q b l) (lane x l).
  Proof. destruct l as [|[|[|l]]]; reflexivity. Qed.

  Lemma interpolates_ok (g : nat -> transform (V4 F)) c r : forall n idx o,
    n <= length o ->
    (forall i, idx <= i < idx + n -> interpolate_one c r i = Ok (g i)) ->
    exists o', interpolates c r n idx o = Ok o' /\ length o' = length o /\
      (forall i, i < n -> nth_error o' i = Some (g (idx + i))) /\
      (forall i, n <= i -> nth_error o' i = nth_error o i).
  Proof.
    induction n as [|n IH]; intros idx o Hl Hg; cbn [interpolates].
    - exists o. repeat split; auto. intros; lia.
    - destruct o as [|x o]; [cbn in Hl; lia|]. cbn [length] in Hl.
      rewrite Hg by lia. cbn [bind].
      destruct (IH (idx + 1) o) as (o' & E & L & H1 & H2); [lia|intros; apply Hg; lia|].
      rewrite E. cbn [bind]. exists (g idx :: o'). split; [reflexivity|].
      split; [cbn; lia|]. split.
      + intros [|i] Hi; cbn [nth_error]; [f_equal; f_equal; lia|]. rewrite H1 by lia. do 2 f_equal. lia.
      + intros [|i] Hi; [lia|]. cbn [nth_error]. apply H2. lia.
  Qed.

  Lemma alpha_lane {K V} (dec : K -> K -> K -> K -> V) tp (k : ctrl F) keys d ns r i l :
    l < 4 ->
    lane (interp_ratio r (expected ns tp k r dec keys d i)) l
    = alpha tp k r (sample_pair (4 * ns) tp k r (4 * i + l)).
  Proof. intros Hl. destruct l as [|[|[|[|l]]]]; try lia; reflexivity. Qed.

  Lemma expected_v3_lanes ns tp k keys r i l :
    l < 4 ->
    lane_v3 (v3_lerp (iv0 (expected ns tp k r dec3 keys d3 i)) (iv1 (expected ns tp k r dec3 keys d3 i))
               (interp_ratio r (expected ns tp k r dec3 keys d3 i))) l
    = sample3 dec3_lane (4 * ns) tp k keys d3 r (4 * i + l).
  Proof.
    intros Hl. rewrite lane_lerp, alpha_lane by assumption. unfold sample3, expected. cbn [iv0 iv1].
    rewrite !dec3_lanes by assumption.
    destruct l as [|[|[|[|l]]]]; try lia; reflexivity.
  Qed.
  Lemma expected_q_lanes ns tp k keys r i l :
    l < 4 ->
    lane_q (q_nlerp (iv0 (expected ns tp k r decq keys dq i)) (iv1 (expected ns tp k r decq keys dq i))
               (interp_ratio r (expected ns tp k r decq keys dq i))) l
    = sampleq decq_lane (4 * ns) tp k keys dq r (4 * i + l).
  Proof.
    intros Hl. rewrite lane_nlerp, alpha_lane by assumption. unfold sampleq, expected. cbn [iv0 iv1].
    rewrite !decq_lanes by assumption.
    destruct l as [|[|[|[|l]]]]; try lia; reflexivity.
  Qed.

  Lemma reset_ok {V} ns k (c : chan F V) : chan_sized ns c -> chan_ok ns k (reset_next c).
  Proof. intros H. split; [exact H|left; reflexivity]. Qed.

  Lemma run_ok (a : anim) c r o :
    wf_animation a = true -> nle nzero r = true -> nle r none_ = true ->
    cx_max_soa c = num_soa a -> ctx_sized c -> (cx_id c = an_id a -> ctx_ok a c) ->
    num_soa a <= length o ->
    exists c' o', run dec3 decq outside (Some a) (Some c) r (Some o) = Ok (c', o') /\
      sampled dec3_lane decq_lane a d3 dq r o o' /\
      ctx_sized c' /\ cx_max_soa c' = num_soa a /\
      (0 < num_soa a -> cx_id c' = an_id a /\ ctx_ok a c') /\ (num_soa a = 0 -> c' = c).
  Proof.
    intros WA H0 H1 Hmax Hsz Hctx Ho. unfold run. cbn [ok_or bind].
    rewrite Hmax, Nat.leb_refl, (proj2 (Nat.leb_le _ _) Ho). cbn [andb negb].
    destruct (Nat.eqb_spec (num_soa a) 0) as [Hz|Hnz].
    { exists c, o. split; [reflexivity|]. split; [|repeat split; auto; try apply Hsz; lia].
      split; [reflexivity|]. split; [intros; lia|reflexivity]. }
    assert (Hpos : 0 < num_soa a) by lia.
    assert (Hst : exists c1 pr, step_context c a r = (c1, pr) /\ ctx_ok a c1 /\ cx_id c1 = an_id a).
    { unfold step_context. destruct (N.eqb_spec (cx_id c) (an_id a)) as [E|E]; cbn [negb].
      - eexists _, _. split; [reflexivity|]. split; [|exact E]. exact (Hctx E).
      - eexists _, _. split; [reflexivity|]. split; [|reflexivity].
        unfold ctx_sized in Hsz. rewrite Hmax in Hsz. destruct Hsz as (? & ? & ?).
        split; [exact Hmax|]. split; [apply reset_ok; assumption|].
        split; apply reset_ok; assumption. }
    destruct Hst as (c1 & pr & -> & Hok & Hid).
    destruct Hok as (Hm1 & Ct & Cr & Cs).
    unfold wf_animation in WA.
    repeat match goal with H : _ && _ = true |- _ => apply andb_prop in H; destruct H end.
    match goal with H : forallb isnum _ = true |- _ => rename H into Htp end.
    match goal with H : wf_channel _ _ _ _ (an_t a) = true |- _ => rename H into Wt end.
    match goal with H : wf_channel _ _ _ _ (an_r a) = true |- _ => rename H into Wr end.
    match goal with H : wf_channel _ _ _ _ (an_s a) = true |- _ => rename H into Ws end.
    destruct (update_cache_ok _ _ _ _ _ eq_refl Hpos Htp Wt outside Hout r H0 H1 (cx_t c1) pr Ct)
      as (t1 & Et & St1 & St2 & St3 & _).
    destruct (decompress_ok _ _ _ _ _ eq_refl Hpos Htp Wt outside Hout r H0 H1 dec3 (an_tkeys a) d3
                ltac:(apply (wf_facts _ _ _ _ _ eq_refl Hpos Htp Wt)) t1 St1 St2 St3) as (t2 & Et2 & Okt & Vt).
    destruct (update_cache_ok _ _ _ _ _ eq_refl Hpos Htp Wr outside Hout r H0 H1 (cx_r c1) pr Cr)
      as (r1 & Er & Sr1 & Sr2 & Sr3 & _).
    destruct (decompress_ok _ _ _ _ _ eq_refl Hpos Htp Wr outside Hout r H0 H1 decq (an_rkeys a) dq
                ltac:(apply (wf_facts _ _ _ _ _ eq_refl Hpos Htp Wr)) r1 Sr1 Sr2 Sr3) as (r2 & Er2 & Okr & Vr).
    destruct (update_cache_ok _ _ _ _ _ eq_refl Hpos Htp Ws outside Hout r H0 H1 (cx_s c1) pr Cs)
      as (s1 & Es & Ss1 & Ss2 & Ss3 & _).
    destruct (decompress_ok _ _ _ _ _ eq_refl Hpos Htp Ws outside Hout r H0 H1 dec3 (an_skeys a) d3
                ltac:(apply (wf_facts _ _ _ _ _ eq_refl Hpos Htp Ws)) s1 Ss1 Ss2 Ss3) as (s2 & Es2 & Oks & Vs).
    unfold num_soa in *.
    rewrite Et. cbn [bind]. rewrite Et2. cbn [bind]. rewrite Er. cbn [bind]. rewrite Er2. cbn [bind].
    rewrite Es. cbn [bind]. rewrite Es2. cbn [bind].
    set (c2 := mk_ctx _ _ _ t2 r2 s2).
    set (ns := div_ceil (an_num_tracks a) 4) in *. set (tp := an_timepoints a) in *.
    set (xt := fun i => expected ns tp (an_t a) r dec3 (an_tkeys a) d3 i).
    set (xr := fun i => expected ns tp (an_r a) r decq (an_rkeys a) dq i).
    set (xs := fun i => expected ns tp (an_s a) r dec3 (an_skeys a) d3 i).
    destruct (interpolates_ok (fun i => TR (v3_lerp (iv0 (xt i)) (iv1 (xt i)) (interp_ratio r (xt i)))
                                           (q_nlerp (iv0 (xr i)) (iv1 (xr i)) (interp_ratio r (xr i)))
                                           (v3_lerp (iv0 (xs i)) (iv1 (xs i)) (interp_ratio r (xs i))))
                c2 r ns 0 o Ho) as (o' & E & L & G1 & G2).
    { intros i Hi. unfold interpolate_one, get. cbn [cx_t cx_r cx_s c2].
      assert (Hi' : i < ns) by apply Hi.
      rewrite (Vt i Hi'), (Vr i Hi'), (Vs i Hi'). reflexivity. }
    rewrite E. cbn [bind]. exists c2, o'. split; [reflexivity|].
    split.
    - split; [assumption|]. split; [|exact G2].
      intros i l Hi Hl. rewrite G1 by exact Hi. cbn [option_map Nat.add]. f_equal.
      exact (f_equal3 (@TR F) (expected_v3_lanes ns tp (an_t a) (an_tkeys a) r i l Hl)
               (expected_q_lanes ns tp (an_r a) (an_rkeys a) r i l Hl)
               (expected_v3_lanes ns tp (an_s a) (an_skeys a) r i l Hl)).
    - split; [|split; [exact Hm1|split; [|intros; lia]]].
      + unfold ctx_sized. cbn [cx_max_soa cx_t cx_r cx_s c2]. rewrite Hm1.
        split; [apply Okt|split; [apply Okr|apply Oks]].
      + intros _. split; [exact Hid|]. split; [exact Hm1|]. auto.
  Qed.
End Job.
