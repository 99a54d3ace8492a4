(** A layout of authored tracks in the arrays of an animation file: C95.  (The ozz importers that write
    such files are not part of the crate; this shows that what C95 asks of a file can be met.) *)
From Coq Require Import Sorted Permutation.
From Verif Require Import Base Num Math Gv4Spec Sampling SamplingSpec.

(** ** Lists *)
Definition same_slot (x y : nat * nat) : bool := (fst x =? fst y) && (snd x =? snd y).
Fixpoint pos (l : list (nat * nat)) (e : nat * nat) : nat :=
  match l with [] => 0 | x :: t => if same_slot x e then 0 else S (pos t e) end.

Lemma same_slot_true x y : same_slot x y = true <-> x = y.
Proof.
  unfold same_slot. rewrite andb_true_iff, !Nat.eqb_eq. destruct x, y; cbn. split; [intros [-> ->]; reflexivity|].
  intros [= -> ->]. auto.
Qed.
Lemma pos_nth l i d0 : NoDup l -> i < length l -> pos l (nth i l d0) = i.
Proof.
  revert i. induction l as [|x l IH]; intros i H Hi; [inversion Hi|]. inversion H as [|? ? Hx Hl]; subst.
  destruct i; cbn [nth pos]. { rewrite (proj2 (same_slot_true x x) eq_refl). reflexivity. }
  destruct (same_slot x (nth i l d0)) eqn:E.
  - apply same_slot_true in E. cbn in Hi. elim Hx. rewrite E. apply nth_In. lia.
  - f_equal. apply IH; [assumption|]. cbn in Hi. lia.
Qed.
Lemma nth_pos l e d0 : In e l -> nth (pos l e) l d0 = e /\ pos l e < length l.
Proof.
  induction l as [|x l IH]; intros H; [destruct H|]. cbn [pos length].
  destruct (same_slot x e) eqn:E. { apply same_slot_true in E. split; [exact E|lia]. }
  destruct H as [->|H]; [rewrite (proj2 (same_slot_true e e) eq_refl) in E; discriminate|].
  destruct (IH H) as [A B]. cbn [nth]. split; [exact A|lia].
Qed.
Lemma sorted_unique l1 : forall l2, StronglySorted lt l1 -> StronglySorted lt l2 ->
  (forall x, In x l1 <-> In x l2) -> l1 = l2.
Proof.
  induction l1 as [|a l1 IH]; intros [|b l2] S1 S2 H.
  - reflexivity.
  - exfalso. apply (proj2 (H b)). left; reflexivity.
  - exfalso. apply (proj1 (H a)). left; reflexivity.
  - inversion S1 as [|? ? S1' F1]; inversion S2 as [|? ? S2' F2]; subst.
    rewrite Forall_forall in F1, F2.
    assert (E : a = b).
    { destruct (proj1 (H a) (or_introl eq_refl)) as [?|A]; [congruence|].
      destruct (proj2 (H b) (or_introl eq_refl)) as [?|B]; [congruence|].
      specialize (F1 _ B). specialize (F2 _ A). lia. }
    subst b. f_equal. apply IH; try assumption. intros x.
    assert (N1 : ~ In a l1) by (intros A; specialize (F1 _ A); lia).
    assert (N2 : ~ In a l2) by (intros A; specialize (F2 _ A); lia).
    split; intros A.
    + destruct (proj1 (H x) (or_intror A)) as [->|B]; [contradiction|exact B].
    + destruct (proj2 (H x) (or_intror A)) as [->|B]; [contradiction|exact B].
Qed.
Lemma seq_sorted n : forall s, StronglySorted lt (seq s n).
Proof.
  induction n; intros s; cbn; constructor; [apply IHn|]. apply Forall_forall. intros x Hx. apply in_seq in Hx. lia.
Qed.
Lemma filter_sorted f l : StronglySorted lt l -> StronglySorted lt (filter f l).
Proof.
  induction 1 as [|a l S IH F]; cbn; [constructor|]. destruct (f a); [|exact IH]. constructor; [exact IH|].
  apply Forall_forall. intros x Hx. apply filter_In in Hx. rewrite Forall_forall in F. apply F, Hx.
Qed.
Lemma map_seq_sorted (f : nat -> nat) n : forall s, (forall i, s <= i -> S i < s + n -> f i < f (S i)) ->
  StronglySorted lt (map f (seq s n)).
Proof.
  induction n; intros s H; cbn; constructor; [apply IHn; intros; apply H; lia|].
  apply Forall_forall. intros x Hx. apply in_map_iff in Hx. destruct Hx as (j & <- & Hj). apply in_seq in Hj.
  assert (G : forall m, S m <= n -> f s < f (s + S m)).
  { induction m; intros Hm. { replace (s + 1) with (S s) by lia. apply H; lia. }
    apply Nat.lt_trans with (f (s + S m)); [apply IHm; lia|]. replace (s + S (S m)) with (S (s + S m)) by lia. apply H; lia. }
  replace j with (s + S (j - s - 1)) by lia. apply G. lia.
Qed.
Lemma sorted_nth {A} (R : A -> A -> Prop) l d0 : StronglySorted R l -> forall i j, i < j -> j < length l -> R (nth i l d0) (nth j l d0).
Proof.
  induction 1 as [|a l S IH F]; intros i j Hij Hj; [inversion Hj|]. cbn in Hj.
  destruct j; [lia|]. destruct i; cbn [nth].
  - rewrite Forall_forall in F. apply F, nth_In. lia.
  - apply IH; lia.
Qed.
Lemma nodupb_true l : NoDup l -> nodupb l = true.
Proof.
  induction 1 as [|x l Hx _ IH]; [reflexivity|]. cbn. rewrite IH, andb_true_r. apply negb_true_iff.
  destruct (existsb (Nat.eqb x) l) eqn:E; [|reflexivity]. apply existsb_exists in E. destruct E as (y & Hy & E).
  apply Nat.eqb_eq in E. subst y. contradiction.
Qed.
Lemma NoDup_map_inj {A B} (f : A -> B) l : (forall x y, In x l -> In y l -> f x = f y -> x = y) -> NoDup l -> NoDup (map f l).
Proof.
  intros H N. induction N as [|x l Hx N IH]; cbn; constructor.
  - intros G. apply in_map_iff in G. destruct G as (y & E & Hy). apply H in E; [subst; contradiction|right; assumption|left; reflexivity].
  - apply IH. intros; apply H; try (right; assumption); assumption.
Qed.
Lemma is_prefix_refl l : is_prefix l l = true.
Proof. induction l; cbn; [reflexivity|]. rewrite N.eqb_refl. exact IHl. Qed.

Section Build.
  Context {K : Type}.
  Variable d : K.
  (** The tracks, padding included: knots as an index of a time and a key. *)
  Variable tracks : list (list (nat * K)).
  Notation T := (length tracks).
  Notation knots t := (nth t tracks []).

  (** Slot [(t, j)] is for knot [j] of track [t]. *)
  Definition knot (e : nat * nat) : nat * K := nth (snd e) (knots (fst e)) (0, d).
  Definition pred_slot (e : nat * nat) : nat * nat := (fst e, snd e - 1).
  Definition ptime (e : nat * nat) : nat := fst (knot (pred_slot e)).
  Fixpoint insert (e : nat * nat) (l : list (nat * nat)) : list (nat * nat) :=
    match l with [] => [e] | x :: t => if ptime e <=? ptime x then e :: l else x :: insert e t end.
  Fixpoint isort (l : list (nat * nat)) : list (nat * nat) :=
    match l with [] => [] | x :: t => insert x (isort t) end.
  (** First knots, second knots, then the others by the time of the knot before them. *)
  Definition others : list (nat * nat) :=
    flat_map (fun t => map (fun j => (t, j)) (seq 2 (length (knots t) - 2))) (seq 0 T).
  Definition order : list (nat * nat) :=
    map (fun t => (t, 0)) (seq 0 T) ++ map (fun t => (t, 1)) (seq 0 T) ++ isort others.
  Definition ratios : list nat := map (fun e => fst (knot e)) order.
  Definition prevs : list nat :=
    map (fun i => let e := nth i order (0, 0) in if snd e =? 0 then 0 else i - pos order (pred_slot e)) (seq 0 (length order)).
  Definition keys : list K := map (fun e => snd (knot e)) order.

  Hypothesis two : forall t, t < T -> 2 <= length (knots t).
  Hypothesis rising : forall t i j, t < T -> i < j -> j < length (knots t) -> fst (knot (t, i)) < fst (knot (t, j)).

  Lemma insert_perm e l : Permutation (insert e l) (e :: l).
  Proof using.
    induction l as [|x l IH]; [reflexivity|]. cbn. destruct (ptime e <=? ptime x); [reflexivity|].
    rewrite IH. apply perm_swap.
  Qed.
  Lemma isort_perm l : Permutation (isort l) l.
  Proof using. induction l as [|x l IH]; [reflexivity|]. cbn. rewrite insert_perm, IH. reflexivity. Qed.
  Definition before (x y : nat * nat) : Prop := ptime x <= ptime y.
  Lemma insert_sorted e l : StronglySorted before l -> StronglySorted before (insert e l).
  Proof using two rising.
    induction 1 as [|x l S IH F]; cbn; [repeat constructor|]. destruct (ptime e <=? ptime x) eqn:E.
    - apply Nat.leb_le in E. constructor; [constructor; assumption|]. constructor; [exact E|].
      eapply Forall_impl; [|exact F]. unfold before. intros y. lia.
    - apply Nat.leb_gt in E. constructor; [exact IH|]. apply Forall_forall. intros y Hy.
      apply (Permutation_in _ (insert_perm e l)) in Hy. destruct Hy as [<-|Hy]; [unfold before; lia|].
      rewrite Forall_forall in F. apply F, Hy.
  Qed.
  Lemma isort_sorted l : StronglySorted before (isort l).
  Proof using two rising. induction l; cbn; [constructor|apply insert_sorted; assumption]. Qed.

  Definition slot (e : nat * nat) : Prop := fst e < T /\ snd e < length (knots (fst e)).
  Lemma others_in e : In e (isort others) <-> slot e /\ 2 <= snd e.
  Proof using two rising.
    split; intros H.
    - apply (Permutation_in _ (isort_perm others)) in H. unfold others in H. apply in_flat_map in H.
      destruct H as (t & Ht & H). apply in_map_iff in H. destruct H as (j & <- & Hj). apply in_seq in Ht, Hj. unfold slot. cbn. lia.
    - apply (Permutation_in _ (Permutation_sym (isort_perm others))). destruct H as ((H1 & H2) & H3). unfold others. apply in_flat_map.
      exists (fst e). split; [apply in_seq; lia|]. apply in_map_iff. exists (snd e). split; [destruct e; reflexivity|]. apply in_seq. lia.
  Qed.
  Lemma order_in e : In e order <-> slot e.
  Proof using two rising.
    unfold order. rewrite !in_app_iff, others_in, !in_map_iff. split.
    - intros [(t & <- & H)|[(t & <- & H)|[H _]]]; [| |exact H]; apply in_seq in H; pose proof (two t); unfold slot; cbn; lia.
    - intros H. destruct e as [t j]. pose proof H as [H1 H2]. cbn in *. destruct j as [|[|j]].
      + left. exists t. split; [reflexivity|apply in_seq; lia].
      + right; left. exists t. split; [reflexivity|apply in_seq; lia].
      + right; right. split; [exact H|lia].
  Qed.
  Lemma flat_NoDup (f : nat -> list (nat * nat)) l : NoDup l -> (forall t, NoDup (f t)) ->
    (forall t x, In x (f t) -> fst x = t) -> NoDup (flat_map f l).
  Proof using two rising.
    intros N F G. induction N as [|a l Ha N IH]; cbn; [constructor|]. 
    assert (D : forall x, In x (f a) -> ~ In x (flat_map f l)).
    { intros x Hx Hy. apply in_flat_map in Hy. destruct Hy as (b & Hb & Hy). apply G in Hx, Hy. subst. congruence. }
    specialize (F a). induction (f a) as [|x m IHm]; cbn; [exact IH|]. inversion F; subst. constructor.
    - rewrite in_app_iff. intros [H|H]; [contradiction|]. apply (D x); [left; reflexivity|exact H].
    - apply IHm; [assumption|]. intros y Hy. apply D. right; exact Hy.
  Qed.
  Lemma app_NoDup {A} (l m : list A) : NoDup l -> NoDup m -> (forall x, In x l -> ~ In x m) -> NoDup (l ++ m).
  Proof using two rising.
    induction 1 as [|x l Hx N IH]; intros M D; cbn; [exact M|]. constructor.
    - rewrite in_app_iff. intros [H|H]; [contradiction|]. apply (D x); [left; reflexivity|exact H].
    - apply IH; [exact M|]. intros y Hy. apply D. right; exact Hy.
  Qed.
  Lemma order_NoDup : NoDup order.
  Proof using two rising.
    unfold order. apply app_NoDup; [|apply app_NoDup|].
    - apply NoDup_map_inj; [|apply seq_NoDup]. intros x y _ _ [= ->]. reflexivity.
    - apply NoDup_map_inj; [|apply seq_NoDup]. intros x y _ _ [= ->]. reflexivity.
    - apply (Permutation_NoDup (Permutation_sym (isort_perm others))). apply flat_NoDup; [apply seq_NoDup| |].
      + intros t. apply NoDup_map_inj; [|apply seq_NoDup]. intros x y _ _ [= ->]. reflexivity.
      + intros t x H. apply in_map_iff in H. destruct H as (j & <- & _). reflexivity.
    - intros x H G. apply in_map_iff in H. destruct H as (t & <- & _). apply others_in in G. cbn in G. lia.
    - intros x H G. apply in_map_iff in H. destruct H as (t & <- & _). apply in_app_iff in G. destruct G as [G|G].
      + apply in_map_iff in G. destruct G as (u & [= _] & _).
      + apply others_in in G. cbn in G. lia.
  Qed.

  Notation n := (length order).
  Notation P := (pos order).
  Notation at_ i := (nth i order (0, 0)).
  Lemma order_length : 2 * T <= n.
  Proof using two rising. unfold order. rewrite !app_length, !map_length, !seq_length. lia. Qed.
  Lemma at_slot i : i < n -> slot (at_ i).
  Proof using two rising. intros H. apply order_in, nth_In, H. Qed.
  Lemma P_at i : i < n -> P (at_ i) = i.
  Proof using two rising. intros H. apply pos_nth; [apply order_NoDup|exact H]. Qed.
  Lemma at_P e : slot e -> at_ (P e) = e /\ P e < n.
  Proof using two rising. intros H. apply nth_pos, order_in, H. Qed.
  Lemma at_first i : i < T -> at_ i = (i, 0).
  Proof using two rising.
    intros H. unfold order. rewrite app_nth1 by (rewrite map_length, seq_length; exact H).
    change ((0, 0)) with ((fun t => (t, 0)) 0). rewrite map_nth, seq_nth by exact H. reflexivity.
  Qed.
  Lemma at_second i : i < T -> at_ (T + i) = (i, 1).
  Proof using two rising.
    intros H. unfold order. rewrite app_nth2 by (rewrite map_length, seq_length; lia). rewrite map_length, seq_length.
    replace (T + i - T) with i by lia. rewrite app_nth1 by (rewrite map_length, seq_length; exact H).
    rewrite (nth_indep _ _ (0, 1)) by (rewrite map_length, seq_length; exact H).
    change ((0, 1)) with ((fun t => (t, 1)) 0). rewrite map_nth, seq_nth by exact H. reflexivity.
  Qed.
  Lemma at_rest i : 2 * T <= i -> at_ i = nth (i - 2 * T) (isort others) (0, 0).
  Proof using two rising.
    intros H. unfold order. rewrite app_nth2 by (rewrite map_length, seq_length; lia). rewrite map_length, seq_length.
    rewrite app_nth2 by (rewrite map_length, seq_length; lia). rewrite map_length, seq_length. f_equal. lia.
  Qed.
  Lemma rest_length : length (isort others) = n - 2 * T.
  Proof using two rising. unfold order. rewrite !app_length, !map_length, !seq_length. lia. Qed.
  Lemma at_class i : i < n ->
    (i < T /\ snd (at_ i) = 0) \/ (T <= i < 2 * T /\ snd (at_ i) = 1) \/ (2 * T <= i /\ 2 <= snd (at_ i)).
  Proof using two rising.
    intros H. destruct (Nat.lt_ge_cases i T) as [A|A]; [left; rewrite at_first by exact A; auto|].
    destruct (Nat.lt_ge_cases i (2 * T)) as [B|B].
    - right; left. replace i with (T + (i - T)) by lia. rewrite at_second by lia. cbn. lia.
    - right; right. split; [exact B|]. rewrite at_rest by exact B. apply others_in, nth_In. rewrite rest_length. lia.
  Qed.
  Lemma P_class e : slot e ->
    (snd e = 0 /\ P e < T) \/ (snd e = 1 /\ P e = T + fst e /\ P e < 2 * T) \/ (2 <= snd e /\ 2 * T <= P e).
  Proof using two rising.
    intros H. destruct (at_P e H) as [A B]. destruct (at_class _ B) as [[C D]|[[C D]|[C D]]]; rewrite A in D; [left; auto| |right; right; auto].
    right; left. split; [exact D|]. split; [|lia]. destruct H as [H1 H2]. destruct e as [t j]. cbn in *. subst j.
    rewrite <- at_second by exact H1. apply P_at. pose proof order_length. lia.
  Qed.
  Lemma pred_ok e : slot e -> slot (pred_slot e).
  Proof using two rising. intros [A B]. unfold slot, pred_slot. cbn. lia. Qed.
  Lemma P_pred e : slot e -> 1 <= snd e -> P (pred_slot e) < P e.
  Proof using two rising.
    intros H Hj. pose proof (pred_ok e H) as H'. pose proof H as [H1 H2].
    destruct (P_class e H) as [[C D]|[(C & D & D')|[C D]]]; [lia| |].
    - destruct (P_class _ H') as [[E G]|[(E & _)|[E _]]]; [lia|unfold pred_slot in E; cbn in E; lia|unfold pred_slot in E; cbn in E; lia].
    - destruct (P_class _ H') as [[E G]|[(E & _ & G)|[E G]]]; [lia|lia|].
      destruct (Nat.lt_ge_cases (P (pred_slot e)) (P e)) as [L|L]; [exact L|exfalso].
      destruct (at_P e H) as [A1 A2]. destruct (at_P _ H') as [B1 B2].
      assert (NE : P e <> P (pred_slot e)).
      { intros Q. rewrite <- Q, A1 in B1. destruct e as [t j]. unfold pred_slot in B1. cbn in *. injection B1. lia. }
      rewrite at_rest in A1, B1 by assumption.
      pose proof (sorted_nth _ _ (0, 0) (isort_sorted others) (P e - 2 * T) (P (pred_slot e) - 2 * T) ltac:(lia)
                    ltac:(rewrite rest_length; lia)) as S.
      rewrite A1, B1 in S. unfold before, ptime, pred_slot in S. unfold pred_slot in E. cbn in S, E.
      pose proof (rising (fst e) (snd e - 1 - 1) (snd e - 1) H1 ltac:(lia) ltac:(lia)). lia.
  Qed.

  Context {F : Type} {NF : Num F}.
  Variables (entries desc : list N) (interval : F).
  Definition built : ctrl F := mk_ctrl ratios prevs entries desc interval.

  Lemma prevs_length : length (k_prev built) = n.
  Proof using two rising. cbn. unfold prevs. rewrite map_length, seq_length. reflexivity. Qed.
  Lemma ratios_length : length (k_ratios built) = n.
  Proof using two rising. cbn. unfold ratios. rewrite map_length. reflexivity. Qed.
  Lemma prevs_at i : i < n -> nth i (k_prev built) 0 = if snd (at_ i) =? 0 then 0 else i - P (pred_slot (at_ i)).
  Proof using two rising.
    intros H. cbn [built k_prev]. unfold prevs.
    set (f := fun i => let e := nth i order (0, 0) in if snd e =? 0 then 0 else i - P (pred_slot e)).
    rewrite (nth_indep _ 0 (f 0)) by (rewrite map_length, seq_length; exact H). rewrite map_nth, seq_nth by exact H. reflexivity.
  Qed.
  Lemma ratios_at i : i < n -> nth i (k_ratios built) 0 = fst (knot (at_ i)).
  Proof using two rising.
    intros H. cbn [built k_ratios]. unfold ratios. rewrite (nth_indep _ 0 (fst (knot (0, 0)))) by (rewrite map_length; exact H).
    rewrite (map_nth (fun e => fst (knot e))). reflexivity.
  Qed.
  Lemma keys_at i d0 : i < n -> nth i keys d0 = snd (knot (at_ i)).
  Proof using two rising.
    intros H. unfold keys. rewrite (nth_indep _ d0 (snd (knot (0, 0)))) by (rewrite map_length; exact H).
    rewrite (map_nth (fun e => snd (knot e))). reflexivity.
  Qed.
  Lemma previous_at i : i < n -> T <= i -> previous built i = P (pred_slot (at_ i)).
  Proof using two rising.
    intros H HT. unfold previous. rewrite prevs_at by exact H.
    destruct (at_class i H) as [[C D]|[[C D]|[C D]]]; [lia| |];
      (destruct (snd (at_ i) =? 0) eqn:E; [apply Nat.eqb_eq in E; lia|]);
      pose proof (P_pred (at_ i) (at_slot i H) ltac:(lia)) as L; rewrite P_at in L by exact H; lia.
  Qed.
  Lemma owner_at i : i < n -> owner T built i = fst (at_ i).
  Proof using two rising.
    unfold owner. intros H. enough (G : forall fuel i, i <= fuel -> i < n -> owner_from fuel T built i = fst (at_ i)) by (apply G; [lia|exact H]).
    clear i H. induction fuel as [|fuel IH]; intros i Hf H; cbn [owner_from].
    - destruct (i <? T) eqn:E; [apply Nat.ltb_lt in E; rewrite at_first by exact E; reflexivity|].
      apply Nat.ltb_ge in E. pose proof order_length. assert (i = 0) by lia. subst i. assert (T = 0) by lia.
      pose proof (at_slot 0 H) as [A _]. lia.
    - destruct (i <? T) eqn:E; [apply Nat.ltb_lt in E; rewrite at_first by exact E; reflexivity|].
      apply Nat.ltb_ge in E. rewrite (previous_at i H E). 
      assert (Hj : 1 <= snd (at_ i)) by (destruct (at_class i H) as [[C D]|[[C D]|[C D]]]; lia).
      pose proof (P_pred _ (at_slot i H) Hj) as L. rewrite P_at in L by exact H.
      destruct (at_P _ (pred_ok _ (at_slot i H))) as [A B]. rewrite IH by lia. rewrite A. reflexivity.
  Qed.
  Lemma track_keys_at t : t < T -> track_keys T built n t = map (fun j => P (t, j)) (seq 0 (length (knots t))).
  Proof using two rising.
    intros Ht. apply sorted_unique.
    - apply filter_sorted, seq_sorted.
    - apply map_seq_sorted. intros i _ Hi. assert (S : slot (t, Datatypes.S i)) by (split; cbn; lia).
      pose proof (P_pred _ S) as L. unfold pred_slot in L. cbn in L. rewrite Nat.sub_0_r in L. apply L. lia.
    - intros x. unfold track_keys. rewrite filter_In, in_seq, Nat.eqb_eq, in_map_iff. split.
      + intros [[_ Hx] E]. rewrite owner_at in E by lia. exists (snd (at_ x)). pose proof (at_slot x ltac:(lia)) as [A B]. subst t.
        split; [|apply in_seq; lia]. rewrite <- (P_at x) at 3 by lia. f_equal. symmetry. apply surjective_pairing.
      + intros (j & <- & Hj). apply in_seq in Hj. assert (S : slot (t, j)) by (split; cbn; lia). destruct (at_P _ S) as [A B].
        split; [lia|]. rewrite owner_at by exact B. rewrite A. reflexivity.
  Qed.

  (** ** The channel is well formed *)
  Variable tp : list F.
  Variable num_tracks : nat.
  Hypothesis some : T <> 0.
  Hypothesis first_zero : forall t, t < T -> fst (knot (t, 0)) = 0.
  Hypothesis in_times : forall e, slot e -> fst (knot e) < length tp.
  Hypothesis padding : forall t, num_tracks <= t -> t < T -> length (knots t) = 2.
  Hypothesis times_rise : forall i j, i <= j -> j < length tp -> nle (nth i tp nzero) (nth j tp nzero) = true.
  Hypothesis time_zero : nle (nth 0 tp nzero) nzero = true.
  Hypothesis small : (N.of_nat n < 65536)%N.
  Hypothesis the_entries : entries = gv4_min (map N.of_nat (snapshot T built n)).
  Hypothesis bytes_ok : forallb (fun b => (b <? 256)%N) entries = true.
  Hypothesis the_desc : desc = [0%N; N.of_nat (n - 1)].
  Hypothesis interval_ok : nlt nzero interval = true.
  Hypothesis interval_one : (nto_i32 (nhalf + none_ / interval)%num <=? 1)%Z = true.

  Lemma time_at i : i < n -> time tp built i = nth (fst (knot (at_ i))) tp nzero.
  Proof using two rising. intros H. unfold time. rewrite ratios_at by exact H. reflexivity. Qed.
  Lemma built_wf : wf_channel num_tracks T (length keys) tp built = true.
  Proof using All.
    unfold wf_channel. rewrite prevs_length, ratios_length. unfold keys at 1. rewrite map_length, !Nat.eqb_refl. cbn [andb].
    pose proof order_length as OL.
    assert (B1 : (N.of_nat n <? 4294967295)%N = true) by (apply N.ltb_lt; clear -small; lia).
    assert (B2 : (N.of_nat (n - 1) <? 4294967295)%N = true) by (apply N.ltb_lt; clear -small; lia).
    rewrite (proj2 (Nat.leb_le _ _) OL), B1. cbn [andb].
    assert (H1 : forallb (fun i => i <? length tp) (k_ratios built) = true).
    { clear B1 B2 small bytes_ok interval_one interval_ok the_desc the_entries. cbn [built k_ratios]. unfold ratios. apply forallb_forall. intros x Hx. apply in_map_iff in Hx. destruct Hx as (e & <- & He).
      apply Nat.ltb_lt, in_times, order_in, He. }
    assert (H2 : forallb (fun i => nth i (k_prev built) 0 =? T) (seq T T) = true).
    { clear B1 B2 small bytes_ok interval_one interval_ok the_desc the_entries. apply forallb_forall. intros i Hi. apply in_seq in Hi. apply Nat.eqb_eq. rewrite prevs_at by lia.
      assert (A : at_ i = (i - T, 1)) by (replace i with (T + (i - T)) at 1 by lia; apply at_second; lia).
      rewrite A. unfold pred_slot. cbn [snd fst Nat.eqb]. change (1 - 1) with 0.
      rewrite <- (at_first (i - T)) by lia. rewrite P_at by lia. lia. }
    assert (H3 : forallb (fun i => (1 <=? nth i (k_prev built) 0) && (nth i (k_prev built) 0 + T <=? i) &&
                      (owner T built i <? num_tracks)) (seq (2 * T) (n - 2 * T)) = true).
    { clear B1 B2 small bytes_ok interval_one interval_ok the_desc the_entries. apply forallb_forall. intros i Hi. apply in_seq in Hi. assert (Hn : i < n) by lia.
      destruct (at_class i Hn) as [[C D]|[[C D]|[C D]]]; [lia|lia|].
      pose proof (at_slot i Hn) as Sl. pose proof (P_pred _ Sl ltac:(lia)) as L. rewrite P_at in L by exact Hn.
      rewrite owner_at by exact Hn. rewrite prevs_at by exact Hn.
      destruct (snd (at_ i) =? 0) eqn:E; [apply Nat.eqb_eq in E; lia|].
      assert (G : T <= P (pred_slot (at_ i))).
      { destruct (P_class _ (pred_ok _ Sl)) as [[A _]|[(A & B & _)|[A B]]]; [unfold pred_slot in A; cbn in A; lia|lia|lia]. }
      rewrite !andb_true_iff. split; [split|].
      - apply Nat.leb_le. lia.
      - apply Nat.leb_le. lia.
      - apply Nat.ltb_lt. destruct (Nat.lt_ge_cases (fst (at_ i)) num_tracks) as [Q|Q]; [exact Q|exfalso].
        destruct Sl as [S1 S2]. pose proof (padding _ Q S1). lia. }
    assert (H4 : nodupb (map (previous built) (seq T (n - T))) = true).
    { clear B1 B2 small bytes_ok interval_one interval_ok the_desc the_entries. apply nodupb_true, NoDup_map_inj; [|apply seq_NoDup]. intros x y Hx Hy E. apply in_seq in Hx, Hy.
      rewrite !previous_at in E by lia.
      assert (Sx : slot (at_ x)) by (apply at_slot; lia). assert (Sy : slot (at_ y)) by (apply at_slot; lia).
      destruct (at_P _ (pred_ok _ Sx)) as [A _]. destruct (at_P _ (pred_ok _ Sy)) as [B _].
      rewrite E in A. rewrite A in B. rewrite <- (P_at x), <- (P_at y) by lia. f_equal.
      assert (J : forall z, T <= z -> z < n -> 1 <= snd (at_ z)).
      { intros z Z1 Z2. destruct (at_class z Z2) as [[C D]|[[C D]|[C D]]]; lia. }
      pose proof (J x ltac:(lia) ltac:(lia)). pose proof (J y ltac:(lia) ltac:(lia)).
      destruct (at_ x) as [t j], (at_ y) as [t' j']. unfold pred_slot in B. cbn in *. injection B as -> B. f_equal. lia. }
    assert (PT : forall i, T <= i -> i < n -> time tp built (previous built i) = nth (ptime (at_ i)) tp nzero).
    { clear B1 B2 small bytes_ok interval_one interval_ok the_desc the_entries. intros i Hi Hn. rewrite previous_at by lia. destruct (at_P _ (pred_ok _ (at_slot i Hn))) as [A B].
      rewrite time_at by exact B. rewrite A. reflexivity. }
    assert (H5 : forallb (fun i => nle (time tp built (previous built i)) (time tp built (previous built (i + 1)))) (seq T (n - T - 1)) = true).
    { clear B1 B2 small bytes_ok interval_one interval_ok the_desc the_entries. apply forallb_forall. intros i Hi. apply in_seq in Hi. rewrite !PT by lia. apply times_rise.
      - destruct (at_class i ltac:(lia)) as [[C D]|[[C D]|[C D]]]; [lia| |].
        + replace i with (T + (i - T)) by lia. rewrite at_second by lia. unfold ptime, pred_slot. cbn [fst snd]. change (1 - 1) with 0.
          rewrite first_zero by lia. lia.
        + rewrite !at_rest by lia.
          apply (sorted_nth _ _ (0, 0) (isort_sorted others) (i - 2 * T) (i + 1 - 2 * T)); [lia|rewrite rest_length; lia].
      - unfold ptime. apply in_times, pred_ok, at_slot. lia. }
    assert (H6 : forallb (fun i => nle (time tp built i) nzero) (seq 0 T) = true).
    { clear B1 B2 small bytes_ok interval_one interval_ok the_desc the_entries. apply forallb_forall. intros i Hi. apply in_seq in Hi. rewrite time_at by lia. rewrite at_first by lia.
      rewrite first_zero by lia. exact time_zero. }
    rewrite H1, H2, H3, H4, H5, H6. cbn [andb built k_ientries k_idesc k_interval].
    rewrite bytes_ok. cbn [andb].
    assert (L2 : length desc = 2) by (rewrite the_desc; reflexivity). rewrite L2.
    change (2 =? 0) with false. change (Nat.modulo 2 2 =? 0) with true. change (Nat.div 2 2) with 1. change (Z.of_nat 1) with 1%Z.
    rewrite interval_ok, interval_one. cbn [orb andb].
    assert (D2 : forallb (fun d0 => (d0 <? 4294967295)%N) desc = true).
    { rewrite the_desc. cbn [forallb]. rewrite B2. reflexivity. }
    rewrite D2. cbn [seq forallb andb]. rewrite andb_true_r.
    unfold wf_iframe. rewrite prevs_length. cbn [built k_idesc k_ientries].
    assert (E0 : nth (2 * 0) desc 0%N = 0%N) by (rewrite the_desc; reflexivity).
    assert (E1 : nth (2 * 0 + 1) desc 0%N = N.of_nat (n - 1)) by (rewrite the_desc; reflexivity).
    rewrite E0, E1, Nat2N.id. change (N.to_nat 0) with 0.
    assert (T1 : 1 <= T) by (clear -some; destruct T; [congruence|lia]).
    replace (n - 1 + 1) with n by (clear -OL T1; lia).
    rewrite (proj2 (Nat.leb_le _ _) OL), Nat.leb_refl. cbn [skipn Nat.leb andb].
    rewrite the_entries at 1. apply is_prefix_refl.
  Qed.
End Build.
