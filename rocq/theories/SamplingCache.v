(** The keyframe cache of a channel always ends in the state determined by the ratio alone. *)
From Verif Require Import Base Num Math Gv4 Gv4Spec Gv4Proofs Sampling SamplingSpec.
From Coq Require Import Sorted.

Section Channel.
  Context {F : Type} {NF : Num F} {ON : OrdNum F}.
  Variables (nt ns : nat) (tp : list F) (k : ctrl F).
  Let T := 4 * ns.
  Let n := length (k_prev k).
  Notation P := (previous k).
  Notation own := (owner T k).
  Notation tm := (time tp k).

  Record wf_chan : Prop := {
    w_ns : 0 < ns;
    w_nt : 0 < nt <= T;
    w_rat : length (k_ratios k) = n;
    w_len : 2 * T <= n;
    w_u32 : (N.of_nat n < 4294967295)%N;
    w_tp : forall i, In i (k_ratios k) -> i < length tp;
    w_row : forall i, T <= i < 2 * T -> nth i (k_prev k) 0 = T;
    w_link : forall i, 2 * T <= i < n -> 1 <= nth i (k_prev k) 0 /\ nth i (k_prev k) 0 + T <= i /\ own i < nt;
    w_inj : forall i j, T <= i < n -> T <= j < n -> P i = P j -> i = j;
    w_mono : forall i j, T <= i -> i <= j -> j < n -> nle (tm (P i)) (tm (P j)) = true;
    w_first : forall i, i < T -> nle (tm i) nzero = true;
    w_num : forall i, i < n -> nle (tm i) (tm i) = true
  }.
  Hypothesis W : wf_chan.

  (** ** Links *)
  Lemma T_pos : 0 < T. Proof. destruct W. unfold T. lia. Qed.

  Lemma P_lt i : T <= i < n -> P i < i.
  Proof.
    intros H. unfold previous. pose proof T_pos.
    destruct (Nat.lt_ge_cases i (2 * T)) as [Hi|Hi].
    - rewrite (w_row W) by lia. lia.
    - destruct (w_link W i) as (? & ? & _); lia.
  Qed.
  Lemma P_prev i : T <= i < n -> P i + nth i (k_prev k) 0 = i.
  Proof.
    intros H. unfold previous.
    destruct (Nat.lt_ge_cases i (2 * T)) as [Hi|Hi].
    - rewrite (w_row W) by lia. lia.
    - destruct (w_link W i) as (? & ? & _); lia.
  Qed.
  Lemma P_row i : T <= i < 2 * T -> P i = i - T.
  Proof. intros H. unfold previous. rewrite (w_row W) by lia. reflexivity. Qed.
  Lemma P_ge i : 2 * T <= i < n -> T <= P i.
  Proof. intros H. unfold previous. destruct (w_link W i H) as (? & ? & _). lia. Qed.

  Lemma owner_fuel f i : i <= f -> i < n -> owner_from f T k i = own i.
  Proof.
    unfold owner. revert f. induction i as [i IH] using lt_wf_ind. intros f Hf Hi.
    destruct f as [|f].
    - assert (i = 0) by lia. subst. reflexivity.
    - destruct i as [|i].
      { cbn [owner_from]. pose proof T_pos. destruct (Nat.ltb_spec 0 T); [reflexivity|lia]. }
      cbn [owner_from]. destruct (Nat.ltb_spec (S i) T) as [|HT]; [reflexivity|].
      assert (P (S i) < S i) by (apply P_lt; lia).
      rewrite (IH (P (S i))) by lia. symmetry. apply IH; lia.
  Qed.
  Lemma own_first i : i < T -> own i = i.
  Proof.
    intros H. unfold owner. destruct i; cbn [owner_from]; destruct (Nat.ltb_spec 0 T);
      try reflexivity; try lia; destruct (Nat.ltb_spec (S i) T); try reflexivity; lia.
  Qed.
  Lemma own_P i : T <= i < n -> own (P i) = own i.
  Proof.
    intros H. pose proof (P_lt i H) as HP. pose proof T_pos.
    destruct i as [|i]; [lia|]. unfold owner at 2. cbn [owner_from].
    destruct (Nat.ltb_spec (S i) T); [lia|]. symmetry. apply owner_fuel; lia.
  Qed.
  Lemma own_lt i : i < n -> own i < T.
  Proof.
    induction i as [i IH] using lt_wf_ind. intros Hi.
    destruct (Nat.lt_ge_cases i T) as [H|H]; [rewrite own_first; assumption|].
    rewrite <- own_P by lia. pose proof (P_lt i ltac:(lia)). apply IH; lia.
  Qed.
  Lemma own_row i : T <= i < 2 * T -> own i = i - T.
  Proof.
    intros H. pose proof (w_len W). rewrite <- own_P by lia. rewrite P_row by lia.
    apply own_first. lia.
  Qed.

  (** The previous key is the greatest smaller key of the track. *)
  Lemma prev_max : forall i j, i < n -> j < i -> own i = own j -> T <= i /\ j <= P i.
  Proof.
    intros i. induction i as [i IHi] using lt_wf_ind.
    intros j. induction j as [j IHj] using lt_wf_ind. intros Hi Hj E.
    assert (HT : T <= i).
    { destruct (Nat.lt_ge_cases i T); [|assumption].
      rewrite !own_first in E by lia. lia. }
    split; [assumption|].
    destruct (Nat.le_gt_cases j (P i)) as [|Hgt]; [assumption|exfalso].
    pose proof (P_lt i ltac:(lia)) as HPi.
    pose proof (own_P i ltac:(lia)) as OPi.
    destruct (Nat.lt_ge_cases j T) as [HjT|HjT].
    - rewrite (own_first j) in E by lia. rewrite (own_first (P i)) in OPi by lia. lia.
    - pose proof (P_lt j ltac:(lia)) as HPj. pose proof (own_P j ltac:(lia)) as OPj.
      assert (P j <> P i) by (intros HE; apply (w_inj W) in HE; lia).
      destruct (Nat.lt_ge_cases (P i) (P j)) as [H1|H1].
      + destruct (IHj (P j)) as [_ H2]; lia.
      + destruct (IHi j ltac:(lia) (P i)) as [_ H2]; lia.
  Qed.

  (** ** Cache states *)
  Definition canon (e : list nat) (m : nat) : Prop :=
    length e = T /\
    forall t, t < T -> exists c, nth_error e t = Some c /\ c < m /\ own c = t /\
                                 forall i, c < i < m -> own i <> t.

  Lemma canon_own e m t c : canon e m -> t < T -> nth_error e t = Some c -> own c = t.
  Proof. intros [_ H] Ht E. destruct (H t Ht) as (c' & E' & _ & O & _). congruence. Qed.

  Lemma canon_ge e m t c :
    canon e m -> 2 * T <= m <= n -> t < T -> nth_error e t = Some c -> T <= c < m.
  Proof.
    intros [_ H] Hm Ht E. destruct (H t Ht) as (c' & E' & Hc & O & Hmax).
    assert (c' = c) by congruence. subst c'. split; [|assumption].
    destruct (Nat.lt_ge_cases c T) as [HcT|]; [exfalso|assumption].
    apply (Hmax (T + t)); [lia|]. rewrite own_row; lia.
  Qed.

  Lemma canon_start : canon (map (fun i => i + T) (seq 0 T)) (2 * T).
  Proof.
    split; [rewrite map_length, seq_length; reflexivity|].
    intros t Ht. exists (t + T).
    rewrite nth_error_map, (nth_error_nth' _ 0) by (rewrite seq_length; lia).
    rewrite seq_nth by lia. cbn [option_map Nat.add].
    repeat split; [lia| |].
    - rewrite own_row; lia.
    - intros i Hi. rewrite own_row by lia. lia.
  Qed.

  (** The entry of the track that key [m] belongs to is its previous key. *)
  Lemma canon_lookup e m :
    canon e m -> 2 * T <= m < n -> nth_error e (own m) = Some (P m).
  Proof.
    intros [L H] Hm. destruct (H (own m)) as (c & E & Hc & O & Hmax); [apply own_lt; lia|].
    rewrite E. f_equal.
    destruct (prev_max m c ltac:(lia) Hc (eq_sym O)) as [HT Hle].
    pose proof (P_lt m ltac:(lia)). pose proof (own_P m ltac:(lia)).
    destruct (Nat.eq_dec c (P m)) as [|Hne]; [assumption|].
    exfalso. apply (Hmax (P m)); lia.
  Qed.

  Lemma canon_unique e m t1 t2 c :
    canon e m -> t1 < T -> t2 < T -> nth_error e t1 = Some c -> nth_error e t2 = Some c -> t1 = t2.
  Proof.
    intros H H1 H2 E1 E2. rewrite <- (canon_own e m t1 c), <- (canon_own e m t2 c); auto.
  Qed.

  Lemma canon_forward e m : canon e m -> 2 * T <= m < n -> canon (upd e (own m) m) (m + 1).
  Proof.
    intros C Hm. pose proof C as [L H]. split; [rewrite upd_length; assumption|].
    intros t Ht. destruct (Nat.eq_dec t (own m)) as [->|Hne].
    - exists m. rewrite nth_error_upd_same by lia. repeat split; [lia|intros; lia].
    - destruct (H t Ht) as (c & E & Hc & O & Hmax). exists c.
      rewrite nth_error_upd_other by lia. repeat split; auto; [lia|].
      intros i Hi. destruct (Nat.eq_dec i m) as [->|]; [lia|]. apply Hmax; lia.
  Qed.

  Lemma canon_last e m : canon e (m + 1) -> 2 * T <= m < n -> nth_error e (own m) = Some m.
  Proof.
    intros [L H] Hm. destruct (H (own m)) as (c & E & Hc & O & Hmax); [apply own_lt; lia|].
    rewrite E. f_equal. destruct (Nat.eq_dec c m) as [|Hne]; [assumption|].
    exfalso. apply (Hmax m); lia.
  Qed.

  Lemma canon_backward e m :
    canon e (m + 1) -> 2 * T <= m < n -> canon (upd e (own m) (P m)) m.
  Proof.
    intros C Hm. pose proof C as [L H]. split; [rewrite upd_length; assumption|].
    intros t Ht. destruct (Nat.eq_dec t (own m)) as [->|Hne].
    - exists (P m). rewrite nth_error_upd_same by lia.
      pose proof (P_lt m ltac:(lia)). repeat split; [assumption|apply own_P; lia|].
      intros i Hi Ho. destruct (prev_max m i); lia.
    - destruct (H t Ht) as (c & E & Hc & O & Hmax). exists c.
      rewrite nth_error_upd_other by lia. repeat split; auto; [|intros; apply Hmax; lia].
      destruct (Nat.eq_dec c m) as [->|]; lia.
  Qed.

  (** ** Searching the cache *)
  Lemma scan_found cache target ok a t b :
    (forall e, In e a -> ok e = true /\ exists c, nth_error cache e = Some c /\ c <> target) ->
    nth_error cache t = Some target ->
    scan cache target ok (a ++ t :: b) = Ok (Some t).
  Proof.
    intros Ha Ht. induction a as [|e a IH]; cbn [app scan].
    - unfold get. rewrite Ht. cbn [bind]. rewrite Nat.eqb_refl. reflexivity.
    - destruct (Ha e (or_introl eq_refl)) as (Ho & c & Hc & Hne).
      unfold get. rewrite Hc. cbn [bind].
      destruct (Nat.eqb_spec c target); [lia|]. rewrite Ho. cbn [assert_ bind].
      apply IH. intros; apply Ha; right; assumption.
  Qed.
  Lemma scan_none cache target ok a :
    (forall e, In e a -> ok e = true /\ exists c, nth_error cache e = Some c /\ c <> target) ->
    scan cache target ok a = Ok None.
  Proof.
    intros Ha. induction a as [|e a IH]; cbn [scan]; [reflexivity|].
    destruct (Ha e (or_introl eq_refl)) as (Ho & c & Hc & Hne).
    unfold get. rewrite Hc. cbn [bind].
    destruct (Nat.eqb_spec c target); [lia|]. rewrite Ho. cbn [assert_ bind].
    apply IH. intros; apply Ha; right; assumption.
  Qed.

  Lemma seq_split s len t : s <= t < s + len -> seq s len = seq s (t - s) ++ t :: seq (S t) (s + len - S t).
  Proof.
    intros H. replace len with ((t - s) + S (s + len - S t)) at 1 by lia.
    rewrite seq_app. replace (s + (t - s)) with t by lia. reflexivity.
  Qed.

  Section Found.
    Variables (cache : list nat) (target t : nat).
    Hypothesis Ht : t < nt.
    Hypothesis Hlen : nt <= length cache.
    Hypothesis Hfound : nth_error cache t = Some target.
    Hypothesis Huniq : forall e, e < nt -> e <> t -> nth_error cache e <> Some target.

    Lemma miss e : e < nt -> e <> t -> exists c, nth_error cache e = Some c /\ c <> target.
    Proof.
      intros He Hne. destruct (nth_error cache e) as [c|] eqn:E.
      - exists c. split; [reflexivity|]. intros ->. apply (Huniq e He Hne). assumption.
      - apply nth_error_None in E. lia.
    Qed.

    Lemma track_forward_ok key last :
      key < n -> nth key (k_prev k) 0 <= key -> P key = target -> last < nt ->
      track_forward cache (k_prev k) key last nt = Ok t.
    Proof.
      intros Hk Hp HP Hl. unfold track_forward.
      unfold n in Hk. rewrite (proj2 (Nat.ltb_lt _ _) Hk), (proj2 (Nat.ltb_lt _ _) Hl).
      cbn [assert_ bind]. rewrite (get_nth _ _ 0) by assumption. cbn [bind].
      unfold sub_. rewrite (proj2 (Nat.leb_le _ _) Hp). cbn [bind].
      change (key - nth key (k_prev k) 0) with (P key). rewrite HP.
      destruct (Nat.le_gt_cases last t) as [H|H].
      - rewrite (seq_split last (nt - last) t) by lia.
        rewrite scan_found; [reflexivity| |assumption].
        intros e He. apply in_seq in He. split; [reflexivity|]. apply miss; lia.
      - rewrite scan_none.
        2:{ intros e He. apply in_seq in He. split; [reflexivity|]. apply miss; lia. }
        cbn [bind]. rewrite (seq_split 0 nt t) by lia.
        rewrite scan_found; [reflexivity| |assumption].
        intros e He. apply in_seq in He. split; [apply Nat.ltb_lt; lia|]. apply miss; lia.
    Qed.

    Lemma track_backward_ok last :
      last < nt -> track_backward cache target last nt = Ok t.
    Proof.
      intros Hl. unfold track_backward. rewrite (proj2 (Nat.ltb_lt _ _) Hl). cbn [assert_ bind].
      destruct (Nat.le_gt_cases t last) as [H|H].
      - rewrite (seq_split 0 (last + 1) t) by lia.
        rewrite rev_app_distr. cbn [rev]. rewrite <- !app_assoc. cbn [app].
        rewrite scan_found; [reflexivity| |assumption].
        intros e He. apply in_rev, in_seq in He. split; [reflexivity|]. apply miss; lia.
      - rewrite scan_none.
        2:{ intros e He. apply in_rev, in_seq in He. split; [reflexivity|]. apply miss; lia. }
        cbn [bind]. rewrite (seq_split 0 nt t) by lia.
        rewrite rev_app_distr. cbn [rev]. rewrite <- !app_assoc. cbn [app].
        rewrite scan_found; [reflexivity| |assumption].
        intros e He. apply in_rev, in_seq in He. split; [apply Nat.ltb_lt; lia|]. apply miss; lia.
    Qed.
  End Found.

  (** ** Outdated flags *)
  Definition full (o : list N) : Prop :=
    length o = div_ceil ns 8 /\
    forall i, i < 8 * length o ->
      N.testbit (nth (Nat.div i 8) o 0%N) (N.of_nat (Nat.modulo i 8)) = (i <? ns).

  Lemma div_ceil_8 : ns <= 8 * div_ceil ns 8 < ns + 8.
  Proof using.
    clear. unfold div_ceil. pose proof (Nat.div_mod (ns + (8 - 1)) 8 ltac:(lia)).
    pose proof (Nat.mod_upper_bound (ns + (8 - 1)) 8 ltac:(lia)). lia.
  Qed.

  Lemma mark_ok o t : full o -> t < T -> exists o', mark o t = Ok o' /\ full o'.
  Proof.
    intros [L H] Ht. unfold T in Ht. pose proof div_ceil_8.
    set (q := Nat.div t 4). assert (Hq : q < ns) by (unfold q; apply Nat.div_lt_upper_bound; lia).
    assert (E1 : Nat.div t 32 = Nat.div q 8).
    { unfold q. rewrite Nat.div_div by lia. reflexivity. }
    assert (E2 : Nat.div (Nat.modulo t 32) 4 = Nat.modulo q 8).
    { unfold q. replace 32 with (4 * 8) by lia. rewrite Nat.mod_mul_r by lia.
      rewrite (Nat.mul_comm 4), Nat.div_add by lia.
      rewrite Nat.div_small by (apply Nat.mod_upper_bound; lia). lia. }
    unfold mark. rewrite E1, E2.
    assert (Hi : Nat.div q 8 < length o) by (apply Nat.div_lt_upper_bound; lia).
    rewrite (get_nth _ _ 0%N) by assumption. cbn [bind]. rewrite set_lt by assumption.
    eexists; split; [reflexivity|].
    split; [rewrite upd_length; assumption|]. rewrite upd_length. intros i Hi'.
    rewrite nth_upd.
    destruct ((Nat.div q 8 =? Nat.div i 8) && (Nat.div i 8 <? length o))%nat eqn:B;
      [|apply H; assumption].
    apply andb_prop in B. destruct B as [B _]. apply Nat.eqb_eq in B. rewrite B.
    rewrite N.lor_spec. rewrite H by assumption.
    destruct (Nat.eq_dec (Nat.modulo q 8) (Nat.modulo i 8)) as [Em|Em].
    - assert (q = i) by (rewrite (Nat.div_mod q 8), (Nat.div_mod i 8) by lia; lia). subst i.
      rewrite (proj2 (Nat.ltb_lt _ _) Hq). reflexivity.
    - replace (N.testbit (N.shiftl 1 (N.of_nat (Nat.modulo q 8))) (N.of_nat (Nat.modulo i 8)))
        with false; [apply orb_false_r|].
      rewrite N.shiftl_1_l. symmetry. apply N.pow2_bits_false. lia.
  Qed.

  Lemma set_all_nth l is x l' :
    set_all l is x = Ok l' ->
    length l' = length l /\
    forall j, nth j l' 0%N = if existsb (Nat.eqb j) is then x else nth j l 0%N.
  Proof.
    revert l; induction is as [|i is IH]; intros l E; cbn [set_all] in E.
    - inversion E; subst. auto.
    - apply bind_Ok in E. destruct E as (l1 & E1 & E). apply set_Ok in E1. destruct E1 as [Hi ->].
      apply IH in E. rewrite upd_length in E. destruct E as [L H]. split; [assumption|].
      intros j. rewrite H. cbn [existsb]. rewrite nth_upd.
      destruct (existsb (Nat.eqb j) is); [rewrite orb_true_r; reflexivity|].
      rewrite orb_false_r. rewrite (Nat.eqb_sym j i).
      destruct (Nat.eqb_spec i j) as [->|]; cbn [andb]; [|reflexivity].
      rewrite (proj2 (Nat.ltb_lt _ _) Hi). reflexivity.
  Qed.
  Lemma set_all_ok l is x : (forall i, In i is -> i < length l) -> exists l', set_all l is x = Ok l'.
  Proof.
    revert l; induction is as [|i is IH]; intros l H; cbn [set_all]; [eauto|].
    rewrite set_lt by (apply H; left; reflexivity). cbn [bind].
    apply IH. intros j Hj. rewrite upd_length. apply H. right. assumption.
  Qed.

  Lemma testbit_255 b : N.testbit 255 b = (b <? 8)%N.
  Proof.
    change 255%N with (N.ones 8). destruct (N.ltb_spec b 8).
    - apply N.ones_spec_low; assumption.
    - apply N.ones_spec_high; assumption.
  Qed.

  Lemma outdate_ok o :
    length o = div_ceil ns 8 -> exists o', outdate_cache o ns = Ok o' /\ full o'.
  Proof.
    intros L. pose proof (w_ns W) as Hns. pose proof div_ceil_8 as D. unfold outdate_cache.
    set (q := div_ceil ns 8) in *. assert (Hq : 1 <= q) by lia.
    unfold sub_. rewrite (proj2 (Nat.leb_le _ _) Hq). cbn [bind].
    destruct (set_all_ok o (seq 0 (q - 1)) 255%N) as (o1 & E1).
    { intros i Hi. apply in_seq in Hi. lia. }
    rewrite E1. cbn [bind]. apply set_all_nth in E1. destruct E1 as [L1 H1].
    rewrite set_lt by lia. eexists; split; [reflexivity|].
    split; [rewrite upd_length; lia|]. rewrite upd_length, L1, L. intros i Hi.
    rewrite nth_upd. rewrite L1, L.
    assert (Hdi : Nat.div i 8 < q) by (apply Nat.div_lt_upper_bound; lia).
    rewrite (proj2 (Nat.ltb_lt _ _) Hdi), andb_true_r.
    pose proof (Nat.div_mod i 8 ltac:(lia)) as DM.
    pose proof (Nat.mod_upper_bound i 8 ltac:(lia)) as MB.
    destruct (Nat.eqb_spec (q - 1) (Nat.div i 8)) as [Ei|Ei].
    - rewrite N.shiftr_spec by lia. rewrite testbit_255.
      destruct (N.ltb_spec (N.of_nat (Nat.modulo i 8) + N.of_nat (q * 8 - ns)) 8);
      destruct (Nat.ltb_spec i ns); try reflexivity; exfalso; lia.
    - rewrite H1. replace (existsb (Nat.eqb (Nat.div i 8)) (seq 0 (q - 1))) with true.
      + rewrite testbit_255. rewrite (proj2 (N.ltb_lt _ _)) by lia.
        symmetry. apply Nat.ltb_lt. lia.
      + symmetry. apply existsb_exists. exists (Nat.div i 8). split; [apply in_seq; lia|apply Nat.eqb_refl].
  Qed.

  (** ** Key times *)
  Lemma key_ratio_ok i : i < n -> key_ratio k tp i = Ok (tm i).
  Proof.
    intros H. unfold key_ratio. rewrite (get_nth _ _ 0) by (rewrite (w_rat W); assumption).
    cbn [bind]. unfold time. apply get_nth. apply (w_tp W). apply nth_In.
    rewrite (w_rat W). assumption.
  Qed.

  Variable r : F.
  Hypothesis Hr0 : nle nzero r = true.

  Lemma r_num : nle r r = true.
  Proof. apply (ord_num _ _ Hr0). Qed.

  Lemma first_le i : i < T -> nle (tm i) r = true.
  Proof. intros H. eapply ord_trans; [apply (w_first W); assumption|exact Hr0]. Qed.

  Lemma lt_r i : i < n -> nlt r (tm i) = negb (nle (tm i) r).
  Proof. intros H. apply ord_total; [apply (w_num W); assumption|apply r_num]. Qed.

  Lemma P_bound i : T <= i < n -> P i < n.
  Proof. intros H. pose proof (P_lt i H). lia. Qed.

  (** Forward loop. *)
  Lemma forward_ok : forall fuel e o m track,
    canon e m -> full o -> 2 * T <= m <= n -> track < nt -> n - m < fuel ->
    exists e' o' m' track',
      forward fuel k tp nt r e o m track = Ok (e', o', m', track') /\
      canon e' m' /\ full o' /\ m <= m' <= n /\ track' < nt /\
      (m' = n \/ m' < n /\ nlt r (tm (P m')) = true).
  Proof.
    induction fuel as [|fuel IH]; intros e o m track C Fo Hm Ht Hf; [lia|].
    cbn [forward]. fold n. destruct (Nat.ltb_spec m n) as [Hlt|Hge].
    2:{ exists e, o, m, track. repeat (split; auto; try lia). }
    pose proof (w_nt W) as Hnt. pose proof T_pos as HT.
    pose proof (P_lt m ltac:(lia)) as HPlt.
    rewrite (get_nth _ _ 0) by (unfold n in Hlt; assumption). cbn [bind].
    pose proof (P_prev m ltac:(lia)) as HPp.
    unfold sub_ at 1. rewrite (proj2 (Nat.leb_le (nth m (k_prev k) 0) m)) by lia. cbn [bind].
    change (m - nth m (k_prev k) 0) with (P m).
    rewrite key_ratio_ok by (apply P_bound; lia). cbn [bind].
    destruct (nle (tm (P m)) r) eqn:Hle.
    2:{ exists e, o, m, track. repeat (split; auto; try lia). right. split; [assumption|].
        rewrite lt_r by (apply P_bound; lia). rewrite Hle. reflexivity. }
    pose proof (canon_lookup e m C ltac:(lia)) as Hlook.
    assert (Hown : own m < nt) by (apply (w_link W); lia).
    assert (Hlen : length e = T) by apply C.
    rewrite (track_forward_ok e (P m) (own m)); auto; try lia.
    2:{ intros t' Ht' Hne E. apply Hne. eapply canon_unique; eauto; lia. }
    cbn [bind]. unfold get at 1. rewrite Hlook. cbn [bind]. rewrite Nat.eqb_refl. cbn [assert_ bind].
    destruct (mark_ok o (own m) Fo ltac:(lia)) as (o1 & -> & Fo1). cbn [bind].
    rewrite set_lt by lia. cbn [bind].
    destruct (IH (upd e (own m) m) o1 (m + 1) (own m)) as (e' & o' & m' & tr' & E & C' & Fo' & Hm' & Htr & Hend).
    - apply canon_forward; auto; lia.
    - assumption.
    - lia.
    - assumption.
    - lia.
    - exists e', o', m', tr'. repeat (split; auto; try lia).
  Qed.

  (** Rewind loop. *)
  Lemma rewind_ok : forall fuel e o m track,
    canon e m -> full o -> 2 * T <= m <= n -> track < nt -> m - 2 * T < fuel ->
    exists e' o' m',
      rewind fuel k tp nt r e o m track = Ok (e', o', m') /\
      canon e' m' /\ full o' /\ 2 * T <= m' <= m /\
      nle (tm (P (m' - 1))) r = true /\
      (m' = m \/ nlt r (tm (P m')) = true).
  Proof.
    induction fuel as [|fuel IH]; intros e o m track C Fo Hm Ht Hf; [lia|].
    pose proof (w_nt W) as Hnt. pose proof T_pos as HT.
    cbn [rewind]. unfold sub_ at 1. rewrite (proj2 (Nat.leb_le 1 m)) by lia. cbn [bind].
    rewrite (get_nth _ _ 0) by (fold n; lia). cbn [bind].
    pose proof (P_lt (m - 1) ltac:(lia)) as HPlt.
    pose proof (P_prev (m - 1) ltac:(lia)) as HPp.
    unfold sub_ at 1. rewrite (proj2 (Nat.leb_le (nth (m - 1) (k_prev k) 0) (m - 1))) by lia.
    cbn [bind]. change (m - 1 - nth (m - 1) (k_prev k) 0) with (P (m - 1)).
    rewrite key_ratio_ok by (apply P_bound; lia). cbn [bind].
    destruct (nlt r (tm (P (m - 1)))) eqn:Hlt.
    2:{ exists e, o, m. repeat (split; auto; try lia).
        rewrite lt_r in Hlt by (apply P_bound; lia). apply negb_false_iff in Hlt. assumption. }
    assert (Hm2 : 2 * T < m).
    { destruct (Nat.lt_ge_cases (2 * T) m) as [|Hle]; [assumption|exfalso].
      assert (m = 2 * T) by lia. subst m.
      assert (HPf : P (2 * T - 1) < T) by (rewrite P_row; lia).
      rewrite lt_r in Hlt by lia. rewrite first_le in Hlt by assumption. discriminate. }
    rewrite (proj2 (Nat.ltb_lt (nt * 2) m)) by lia. cbn [assert_ bind].
    set (q := m - 1) in *. assert (Hq : m = q + 1) by lia. clearbody q. subst m.
    pose proof (canon_last e q C ltac:(lia)) as Hlook.
    assert (Hown : own q < nt) by (apply (w_link W); lia).
    assert (Hlen : length e = T) by apply C.
    rewrite (track_backward_ok e q (own q)); auto; try lia.
    2:{ intros t' Ht' Hne E. apply Hne. eapply canon_unique; eauto; lia. }
    cbn [bind].
    destruct (mark_ok o (own q) Fo ltac:(lia)) as (o1 & -> & Fo1). cbn [bind].
    unfold get at 1. rewrite Hlook. cbn [bind]. rewrite Nat.eqb_refl. cbn [assert_ bind].
    rewrite (get_nth _ _ 0) by (fold n; lia). cbn [bind].
    destruct (w_link W q ltac:(lia)) as (Hl1 & Hl2 & _).
    rewrite (proj2 (Nat.leb_le (nth q (k_prev k) 0 + nt) q)) by lia. cbn [assert_ bind].
    change (q - nth q (k_prev k) 0) with (P q).
    rewrite set_lt by lia. cbn [bind].
    destruct (IH (upd e (own q) (P q)) o1 q (own q)) as (e' & o' & m' & E & C' & Fo' & Hm' & Hle & Hend).
    - apply canon_backward; auto; lia.
    - assumption.
    - lia.
    - assumption.
    - lia.
    - exists e', o', m'. repeat (split; auto; try lia).
      right. destruct Hend as [->|]; assumption.
  Qed.

  (** The state the ratio alone determines. *)
  Definition settled (e : list nat) (m : nat) : Prop :=
    canon e m /\ 2 * T <= m <= n /\ nle (tm (P (m - 1))) r = true /\
    (m = n \/ m < n /\ nlt r (tm (P m)) = true).

  Lemma loops_ok e o m :
    canon e m -> full o -> 2 * T <= m <= n ->
    exists e1 o1 m1 t1 e' o' m',
      forward (S n) k tp nt r e o m 0 = Ok (e1, o1, m1, t1) /\
      rewind (S m1) k tp nt r e1 o1 m1 t1 = Ok (e', o', m') /\
      settled e' m' /\ full o'.
  Proof.
    intros C Fo Hm. pose proof (w_nt W) as Hnt.
    destruct (forward_ok (S n) e o m 0 C Fo Hm ltac:(lia) ltac:(lia))
      as (e1 & o1 & m1 & t1 & E1 & C1 & F1 & M1 & T1 & End1).
    destruct (rewind_ok (S m1) e1 o1 m1 t1 C1 F1 ltac:(lia) T1 ltac:(lia))
      as (e' & o' & m' & E' & C' & F' & M' & Hle & End').
    exists e1, o1, m1, t1, e', o', m'. split; [assumption|]. split; [assumption|].
    split; [|assumption]. split; [assumption|]. split; [lia|]. split; [assumption|].
    destruct End' as [->|H]; [assumption|].
    destruct (Nat.eq_dec m' n) as [|Hne]; [left; assumption|right; split; [lia|assumption]].
  Qed.

  (** ** From the cache to the bracketing pair *)
  Lemma track_keys_In m t i : In i (track_keys T k m t) <-> i < m /\ own i = t.
  Proof using.
    unfold track_keys. rewrite filter_In, in_seq, Nat.eqb_eq. clear. intuition lia.
  Qed.
  Lemma sorted_seq s len : StronglySorted lt (seq s len).
  Proof using.
    clear. revert s; induction len as [|len IH]; intros s; cbn [seq]; constructor; auto.
    apply Forall_forall. intros x Hx. apply in_seq in Hx. lia.
  Qed.
  Lemma sorted_filter (f : nat -> bool) l : StronglySorted lt l -> StronglySorted lt (filter f l).
  Proof using.
    induction 1 as [|x l Hs IH Hf]; cbn [filter]; [constructor|].
    destruct (f x); [constructor; auto|assumption].
    rewrite Forall_forall in *. intros y Hy. apply filter_In in Hy. apply Hf. tauto.
  Qed.

  (** [rest] are the successors of [l] along the previous links. *)
  Fixpoint linked (l : nat) (rest : list nat) : Prop :=
    match rest with [] => True | x :: t => P x = l /\ linked x t end.

  Lemma sorted_linked l rest :
    StronglySorted lt (l :: rest) ->
    (forall x, In x rest -> In (P x) (l :: rest) /\ P x < x) ->
    (forall x y, In x (l :: rest) -> In y rest -> x < y -> x <= P y) ->
    linked l rest.
  Proof.
    revert l; induction rest as [|x rest IH]; intros l S HP HM; [exact I|].
    cbn [linked]. inversion S as [|? ? S1 F1]; subst.
    inversion S1 as [|? ? S2 F2]; subst. rewrite Forall_forall in F1, F2.
    assert (E : P x = l).
    { destruct (HP x (or_introl eq_refl)) as [[<-|Hin] Hlt]; [reflexivity|].
      exfalso. destruct Hin as [Hin|Hin]; [lia|]. apply F2 in Hin. lia. }
    split; [exact E|]. apply IH; [assumption| |].
    - intros y Hy. destruct (HP y (or_intror Hy)) as [[Hl|Hin] Hlt].
      + exfalso. pose proof (F2 y Hy). pose proof (F1 x (or_introl eq_refl)).
        pose proof (HM x y (or_intror (or_introl eq_refl)) (or_intror Hy) ltac:(lia)). lia.
      + split; assumption.
    - intros y z Hy Hz. apply HM; right; assumption.
  Qed.

  Lemma le_lt_contra i j :
    T <= i -> i <= j -> j < n -> nlt r (tm (P i)) = true -> nle (tm (P j)) r = true -> False.
  Proof.
    intros Hi Hij Hj Hlt Hle.
    rewrite lt_r in Hlt by (apply P_bound; lia).
    pose proof (w_mono W i j Hi Hij Hj) as Hm.
    rewrite (ord_trans _ _ _ Hm Hle) in Hlt. discriminate.
  Qed.

  Lemma bracket_ok c : forall rest l,
    linked l rest -> StronglySorted lt (l :: rest) ->
    (forall x, In x rest -> T <= x < n) ->
    In c rest -> nle (tm (P c)) r = true ->
    (forall x, In x rest -> c < x -> nlt r (tm (P x)) = true) ->
    bracket tm r l rest = (P c, c).
  Proof.
    induction rest as [|x rest IH]; intros l Hlink Hs Hb Hc Hle Hgt; [destruct Hc|].
    destruct Hlink as [HPx Hlink]. cbn [bracket]. apply StronglySorted_inv in Hs.
    destruct Hs as [S1 F1].
    destruct rest as [|y rest'].
    - destruct Hc as [->|[]]. rewrite HPx. reflexivity.
    - pose proof Hlink as [HPy Hlink'].
      pose proof (StronglySorted_inv S1) as [S2 F2]. rewrite Forall_forall in F2.
      destruct (nlt r (tm x)) eqn:Hlt.
      + destruct Hc as [->|Hc]; [rewrite HPx; reflexivity|exfalso].
        assert (y <= c).
        { destruct Hc as [->|Hc]; [lia|]. apply StronglySorted_inv in S2. destruct S2 as [_ F3].
          rewrite Forall_forall in F3. pose proof (F3 c Hc). lia. }
        pose proof (Hb y ltac:(right; left; reflexivity)). pose proof (Hb c ltac:(right; assumption)).
        rewrite <- HPy in Hlt. eapply (le_lt_contra y c); eauto; lia.
      + destruct Hc as [->|Hc].
        * exfalso. rewrite <- HPy, Hgt in Hlt; [discriminate|right; left; reflexivity|].
          apply F2. left. reflexivity.
        * apply IH; auto.
          -- intros z Hz. apply Hb. right. assumption.
          -- intros z Hz. apply Hgt. right. assumption.
  Qed.

  Lemma settled_pair e m t c :
    settled e m -> t < T -> nth_error e t = Some c ->
    sample_pair T tp k r t = (P c, c) /\ T <= c < n.
  Proof.
    intros (C & Hm & Hle & Hend) Ht E.
    pose proof (canon_ge e m t c C Hm Ht E) as Hc. split; [|lia].
    pose proof C as [L HC]. destruct (HC t Ht) as (c' & E' & _ & O & Hmax).
    assert (c' = c) by congruence. subst c'. clear E'.
    unfold sample_pair. fold n.
    assert (S : StronglySorted lt (track_keys T k n t)) by (apply sorted_filter, sorted_seq).
    assert (HIn := track_keys_In n t).
    destruct (track_keys T k n t) as [|l rest] eqn:EK.
    { exfalso. assert (In c []) by (apply HIn; lia). contradiction. }
    inversion S as [|? ? S1 F1]; subst. rewrite Forall_forall in F1.
    assert (Hl : l < n /\ own l = own c) by (apply HIn; left; reflexivity).
    assert (l < T).
    { destruct (Nat.lt_ge_cases l T) as [|Hge]; [assumption|exfalso].
      assert (Hin : In (P l) (l :: rest)).
      { apply HIn. rewrite own_P by lia. split; [apply P_bound|]; lia. }
      pose proof (P_lt l ltac:(lia)).
      destruct Hin as [|Hin]; [lia|]. apply F1 in Hin. lia. }
    assert (Hrest : forall x, In x rest -> T <= x < n).
    { intros x Hx. assert (x < n /\ own x = own c) as [Hx1 Hx2] by (apply HIn; right; assumption).
      pose proof (F1 x Hx). split; [|assumption].
      destruct (prev_max x l); lia. }
    apply bracket_ok.
    - apply sorted_linked; [assumption| |].
      + intros x Hx. pose proof (Hrest x Hx).
        assert (x < n /\ own x = own c) as [Hx1 Hx2] by (apply HIn; right; assumption).
        split; [|apply P_lt; lia]. apply HIn. rewrite own_P by lia.
        pose proof (P_lt x ltac:(lia)). lia.
      + intros x y Hx Hy Hlt.
        assert (x < n /\ own x = own c) as [Hx1 Hx2] by (apply HIn; assumption).
        assert (y < n /\ own y = own c) as [Hy1 Hy2] by (apply HIn; right; assumption).
        destruct (prev_max y x); lia.
    - assumption.
    - assumption.
    - assert (Hin : In c (l :: rest)) by (apply HIn; lia).
      destruct Hin as [->|]; [lia|assumption].
    - eapply ord_trans; [|exact Hle]. apply (w_mono W); lia.
    - intros x Hx Hcx.
      assert (x < n /\ own x = own c) as [Hx1 Hx2] by (apply HIn; right; assumption).
      destruct (Nat.lt_ge_cases x m) as [Hxm|Hxm].
      + exfalso. apply (Hmax x); lia.
      + destruct Hend as [->|[Hmn Hlt]]; [lia|].
        rewrite lt_r in * by (apply P_bound; lia).
        apply negb_true_iff in Hlt. apply negb_true_iff.
        destruct (nle (tm (P x)) r) eqn:Hx3; [|reflexivity].
        pose proof (w_mono W m x ltac:(lia) Hxm Hx1) as Hmono.
        rewrite (ord_trans _ _ _ Hmono Hx3) in Hlt. discriminate.
  Qed.
End Channel.
