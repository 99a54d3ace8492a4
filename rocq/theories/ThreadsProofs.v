(** Proofs about threads: guards and locks agree; no data races; no use of torn outputs; progress. *)
From Verif Require Import Base Num Math Buffers BuffersSpec BuffersProofs BuffersAlias BuffersMore Threads ThreadsSpec.

Section Gen.
  Context {F : Type} {NF : Num F}.
  Notation world := (world F).

  (** ** Programs whose acquisitions satisfy [Q] and whose early drops satisfy [D] *)
  Fixpoint traced {A} (Q : guards -> addr -> mode -> Prop) (D : addr * mode -> Prop) (g : guards) (p : prog F A)
      (post : guards -> A -> Prop) : Prop :=
    match p with
    | Ret a => post g a
    | Throw _ | Pan => True
    | Acq a m q k => Q g a m /\ traced Q D g q post /\ traced Q D ((a, m) :: g) k post
    | Drop k => match g with h :: g => D h /\ traced Q D g k post | [] => False end
    | Load t b k => forall x, traced Q D g (k x) post
    | Store t b x k => traced Q D g k post
    end.
  Lemma traced_mono {A} Q D (p : prog F A) : forall g (P P' : guards -> A -> Prop),
    (forall g a, P g a -> P' g a) -> traced Q D g p P -> traced Q D g p P'.
  Proof.
    induction p as [a|e| |a m q IHq k IHk|k IHk|t b k IHk|t b x k IHk]; intros g P P' H G; cbn in *; auto.
    - destruct G as (G0 & G1 & G2). split; [exact G0|]. split; [eapply IHq|eapply IHk]; eassumption.
    - destruct g as [|h g]; [destruct G|]. destruct G as [G0 G]. split; [exact G0|]. eapply IHk; eassumption.
    - intros y. eapply IHk; [eassumption|apply G].
    - eapply IHk; eassumption.
  Qed.
  Lemma traced_bind {A B} Q D (p : prog F A) (f : A -> prog F B) : forall g (P : guards -> B -> Prop),
    traced Q D g p (fun g' a => traced Q D g' (f a) P) -> traced Q D g (pbind p f) P.
  Proof.
    induction p as [a|e| |a m q IHq k IHk|k IHk|t b k IHk|t b x k IHk]; intros g P G; cbn in *; auto.
    - destruct G as (G0 & G1 & G2). auto.
    - destruct g as [|h g]; [destruct G|]. destruct G as [G0 G]. auto.
  Qed.
  Lemma traced_then {A B} Q D (p : prog F A) (f : A -> prog F B) g P :
    traced Q D g p (keep g) -> (forall a, traced Q D g (f a) P) -> traced Q D g (pbind p f) P.
  Proof. intros H1 H2. apply traced_bind. eapply traced_mono; [|exact H1]. intros g' a ->. apply H2. Qed.
  (** Programs that neither borrow nor release *)
  Fixpoint quiet {A} (p : prog F A) : Prop :=
    match p with
    | Ret _ | Throw _ | Pan => True
    | Acq _ _ _ _ | Drop _ => False
    | Load t b k => forall x, quiet (k x)
    | Store _ _ _ k => quiet k
    end.
  Lemma quiet_traced {A} Q D (p : prog F A) g : quiet p -> traced Q D g p (keep g).
  Proof. induction p; cbn; intros Z; try tauto; auto. reflexivity. Qed.
  Lemma calm_quiet {A} outs (p : prog F A) : calm outs p -> quiet p.
  Proof. induction p; cbn; intros; try tauto; auto. Qed.
  Lemma quiet_bind {A B} (p : prog F A) (f : A -> prog F B) : quiet p -> (forall a, quiet (f a)) -> quiet (pbind p f).
  Proof. intros Hp Hf. induction p; cbn in *; try tauto; auto. Qed.
  Lemma quiet_for {S} (body : nat -> S -> prog F S) n : forall k s, (forall i s, quiet (body i s)) -> quiet (pfor n k body s).
  Proof. induction n as [|n IH]; intros k s H; cbn [pfor]; [exact I|]. apply quiet_bind; [apply H|]. intros s'. apply IH, H. Qed.
  Lemma quiet_lift {A} (r : res A) : quiet (lift r : prog F A).
  Proof. destruct r; exact I. Qed.

  (** ** Counting guards *)
  Definition hdec (x y : addr * mode) : {x = y} + {x <> y}.
  Proof. decide equality; [decide equality|apply addr_eq]. Defined.
  Definition cnt (g : guards) (a : addr) (m : mode) : nat := count_occ hdec g (a, m).
  Lemma cnt_in g a m : In (a, m) g <-> (0 < cnt g a m)%nat.
  Proof. apply count_occ_In. Qed.

  (** The state of a lock and the numbers of its guards *)
  Definition lok (k : kind) (l : lock) (ns nx : nat) : Prop :=
    lk_kind l = k /\
    (k <> KFree -> lk_readers l = N.of_nat ns /\ lk_writer l = (0 <? nx)%nat /\ (nx <= 1)%nat /\ (nx = 1 -> ns = 0)%nat) /\
    (k = KLock -> lk_poison l = true -> ns = 0%nat /\ nx = 0%nat).
  Definition one (m m' : mode) : nat := match m, m' with Sh, Sh | Ex, Ex => 1 | _, _ => 0 end.

  Lemma acquire_lok k l ns nx m l' : lok k l ns nx -> acquire l m = Got l' -> lok k l' (ns + one m Sh) (nx + one m Ex).
  Proof.
    intros (K & C & P) H. pose proof (acquire_kind _ _ _ H) as K'. split; [congruence|].
    unfold acquire in H. rewrite K in H. destruct k.
    - split; [congruence|discriminate].
    - split; [|discriminate]. intros _. destruct (C ltac:(discriminate)) as (C1 & C2 & C3 & C4).
      destruct m; cbn [one] in *.
      + destruct (lk_writer l || _) eqn:B; [discriminate|]. apply orb_false_iff in B. destruct B as [B1 B2].
        inversion H; subst l'; cbn [lk_readers lk_writer]. assert (nx = 0)%nat by (destruct nx; [reflexivity|rewrite C2 in B1; discriminate]).
        rewrite C1. split; [lia|]. split; [rewrite C2; f_equal; lia|]. lia.
      + destruct (lk_writer l || negb _) eqn:B in H; [discriminate|]. apply orb_false_iff in B. destruct B as [B1 B2].
        apply negb_false_iff, N.eqb_eq in B2. cbn [orb] in H. inversion H; subst l'; cbn [lk_readers lk_writer].
        assert (nx = 0)%nat by (destruct nx; [reflexivity|rewrite C2 in B1; discriminate]). subst nx.
        split; [lia|]. split; [reflexivity|]. lia.
    - destruct (C ltac:(discriminate)) as (C1 & C2 & C3 & C4).
      destruct m; cbn [one] in *.
      + destruct (lk_writer l) eqn:B1; [discriminate|]. destruct (_ <=? _)%N; [discriminate|].
        destruct (lk_poison l) eqn:PO; [discriminate|].
        inversion H; subst l'; cbn [lk_readers lk_writer lk_poison lk_kind]. assert (nx = 0)%nat by (destruct nx; [reflexivity|discriminate]).
        split; [|intros _ X; discriminate]. intros _. rewrite C1. split; [lia|]. subst nx. split; [reflexivity|]. lia.
      + destruct (lk_writer l || negb _) eqn:B in H; [discriminate|]. apply orb_false_iff in B. destruct B as [B1 B2].
        destruct (lk_poison l) eqn:PO; [discriminate|].
        apply negb_false_iff, N.eqb_eq in B2. inversion H; subst l'; cbn [lk_readers lk_writer lk_poison lk_kind].
        assert (nx = 0)%nat by (destruct nx; [reflexivity|rewrite C2 in B1; discriminate]). subst nx.
        split; [|intros _ X; discriminate]. intros _. split; [lia|]. split; [reflexivity|]. lia.
  Qed.
  Lemma release_kind b l m : lk_kind (release b l m) = lk_kind l.
  Proof. unfold release. destruct (lk_kind l) eqn:K; [exact K| |]; destruct m; reflexivity. Qed.
  Lemma release_lok k b l ns nx m : lok k l (ns + one m Sh) (nx + one m Ex) -> lok k (release b l m) ns nx.
  Proof.
    intros (K & C & P). split; [rewrite release_kind; exact K|]. unfold release. rewrite K. destruct k.
    - split; [congruence|discriminate].
    - split; [|discriminate]. intros _. destruct (C ltac:(discriminate)) as (C1 & C2 & C3 & C4).
      destruct m; cbn [one lk_readers lk_writer] in *.
      + rewrite C1, C2, Nat.add_0_r. split; [lia|]. split; [reflexivity|]. lia.
      + assert (nx = 0)%nat by lia. subst nx. split; [lia|]. split; [reflexivity|]. lia.
    - destruct (C ltac:(discriminate)) as (C1 & C2 & C3 & C4).
      destruct m; cbn [one lk_readers lk_writer lk_poison] in *.
      + split.
        * intros _. rewrite C1, C2, Nat.add_0_r. split; [lia|]. split; [reflexivity|]. lia.
        * intros _ X. specialize (P eq_refl X). lia.
      + assert (nx = 0)%nat by lia. subst nx. specialize (C4 eq_refl). split; [|intros; split; lia]. intros _. split; [lia|]. split; [reflexivity|]. split; lia.
  Qed.
End Gen.

Section Sys.
  Context {F : Type} {NF : Num F} {R : Type}.
  Notation world := (world F). Notation sys := (sys F R). Notation thread := (thread F R).
  Variable Q : nat -> guards -> addr -> mode -> Prop.
  Variable D : addr * mode -> Prop.
  Variable kd : addr -> kind.

  Definition th_guards (th : thread) : guards := match th_act th with Idle => [] | Run _ g | Leave _ g => g end.
  Definition total (ths : list thread) (a : addr) (m : mode) : nat := list_sum (map (fun th => cnt (th_guards th) a m) ths).
  Lemma total_cons th ths a m : total (th :: ths) a m = (cnt (th_guards th) a m + total ths a m)%nat.
  Proof. reflexivity. Qed.
  Lemma total_upd ths i th th' a m : nth_error ths i = Some th ->
    (total (upd ths i th') a m + cnt (th_guards th) a m = total ths a m + cnt (th_guards th') a m)%nat.
  Proof.
    revert i. induction ths as [|x ths IH]; intros [|i] H; cbn [nth_error upd] in *; try discriminate; rewrite !total_cons.
    - inversion H; subst. lia.
    - specialize (IH i H). lia.
  Qed.
  Lemma total_one ths i th a m : nth_error ths i = Some th -> (cnt (th_guards th) a m <= total ths a m)%nat.
  Proof.
    revert i. induction ths as [|x ths IH]; intros [|i] H; cbn [nth_error] in *; try discriminate; rewrite !total_cons.
    - inversion H; subst. lia.
    - specialize (IH i H). lia.
  Qed.
  Lemma total_two ths i j th th' a m : i <> j -> nth_error ths i = Some th -> nth_error ths j = Some th' ->
    (cnt (th_guards th) a m + cnt (th_guards th') a m <= total ths a m)%nat.
  Proof.
    revert i j. induction ths as [|x ths IH]; intros [|i] [|j] N Hi Hj; cbn [nth_error] in *; try discriminate; try congruence;
      rewrite !total_cons.
    - inversion Hi; subst. pose proof (total_one ths j th' a m Hj). lia.
    - inversion Hj; subst. pose proof (total_one ths i th a m Hi). lia.
    - specialize (IH i j ltac:(congruence) Hi Hj). lia.
  Qed.
  Lemma total_some ths a m : (0 < total ths a m)%nat -> exists th, In th ths /\ (0 < cnt (th_guards th) a m)%nat.
  Proof.
    induction ths as [|x ths IH]; [unfold total; cbn; lia|]. rewrite total_cons. intros H.
    destruct (Nat.eq_dec (cnt (th_guards x) a m) 0) as [E|E].
    - destruct IH as (th & I & C); [lia|]. exists th. split; [right; exact I|exact C].
    - exists x. split; [left; reflexivity|lia].
  Qed.

  (** Guards that were acquired as [Q] allows. *)
  Fixpoint chain (i : nat) (g : guards) : Prop :=
    match g with [] => True | (a, m) :: g => Q i g a m /\ chain i g end.
  Definition pgood (i : nat) (g : guards) (p : prog F R) : Prop :=
    guarded g p (fun _ _ => True) /\ traced (Q i) D g p (fun _ _ => True).
  Definition tgood (i : nat) (th : thread) : Prop :=
    (forall f log, In f (th_todo th) -> pgood i [] (f log)) /\
    chain i (th_guards th) /\ match th_act th with Run p g => pgood i g p | _ => True end.
  Definition locks_ok (w : world) (ths : list thread) : Prop :=
    forall a, lok (kd a) (w_lock w a) (total ths a Sh) (total ths a Ex).
  Definition good (s : sys) : Prop :=
    locks_ok (s_world s) (s_threads s) /\ forall i th, nth_error (s_threads s) i = Some th -> tgood i th.

  Lemma tstep_good (w : world) i th w' th' : tgood i th -> tstep w th = Some (w', th') -> tgood i th'.
  Proof.
    intros (T & C & P) E. destruct th as [a todo log]. unfold tstep in E. cbn [th_act th_todo th_log th_guards] in *.
    assert (PP : pgood i [] Pan) by (split; exact I).
    destruct a as [|p g|o [|h g]].
    - destruct todo as [|f todo]; [discriminate|]. inversion E; subst. split; [|split]; cbn.
      + intros f' l H. apply T. right. exact H.
      + exact I.
      + apply T. left. reflexivity.
    - destruct P as [P1 P2]. unfold th_guards in C; cbn [th_act] in C.
      destruct p as [a|e| |a m q k|k|t b k|t b x k]; cbn in P1, P2;
        try (inversion E; subst; split; [exact T|]; split; [exact C|]; exact I).
      + destruct P1 as [P1 P1'], P2 as (P2 & P2' & P2'').
        destruct (acquire (w_lock w a) m); inversion E; subst; (split; [exact T|]); (split; [|split; auto]); cbn; auto.
      + destruct g as [|h g]; [destruct P2|]. destruct P2 as [P2 P2'].
        inversion E; subst. split; [exact T|]. destruct h as [a []]; [|destruct P1]. split; [cbn in *; tauto|]. split; auto.
      + inversion E; subst. split; [exact T|]. split; [exact C|]. destruct P1 as [_ P1]. split; auto.
      + inversion E; subst. split; [exact T|]. split; [exact C|]. destruct P1 as [_ P1]. split; auto.
    - inversion E; subst. split; [exact T|]. split; exact I.
    - inversion E; subst. split; [exact T|]. split; [|exact I]. unfold th_guards in *; cbn in *. destruct h as [a m]. tauto.
  Qed.

  (** What one step does to the locks: nothing, one more guard, or one guard less. *)
  Definition moved (w w' : world) (g g' : guards) : Prop :=
    (w_lock w' = w_lock w /\ g' = g) \/
    (exists a m l, acquire (w_lock w a) m = Got l /\ w_lock w' = put_lock (w_lock w) a l /\ g' = (a, m) :: g) \/
    (exists a m b, g = (a, m) :: g' /\ w_lock w' = put_lock (w_lock w) a (release b (w_lock w a) m)).
  Lemma tstep_moved (w : world) i th w' th' : tgood i th -> tstep w th = Some (w', th') ->
    moved w w' (th_guards th) (th_guards th').
  Proof.
    intros (T & C & P) E. destruct th as [a todo log]. unfold tstep in E. cbn [th_act th_todo th_log th_guards] in *.
    destruct a as [|p g|o [|h g]]; unfold th_guards in *; cbn [th_act] in *.
    - destruct todo as [|f todo]; [discriminate|]. inversion E; subst. left; auto.
    - destruct P as [P1 P2]. destruct p as [a|e| |a m q k|k|t b k|t b x k]; cbn in P1, P2;
        try (inversion E; subst; left; split; reflexivity).
      + destruct (acquire (w_lock w a) m) eqn:A; inversion E; subst; try (left; split; reflexivity).
        right; left. exists a, m, l. auto.
      + destruct g as [|h g]; [destruct P2|]. inversion E; subst. right; right. exists (fst h), (snd h), false.
        destruct h; split; reflexivity.
    - inversion E; subst. left; auto.
    - inversion E; subst. right; right. exists (fst h), (snd h), (panics o). destruct h; split; reflexivity.
  Qed.
  Lemma cnt_cons a m g a' m' : cnt ((a, m) :: g) a' m' = (cnt g a' m' + if addr_eq a a' then one m m' else 0)%nat.
  Proof.
    unfold cnt. cbn [count_occ]. destruct (hdec (a, m) (a', m')) as [E|E].
    - inversion E; subst. destruct (addr_eq a' a'); [|congruence]. destruct m'; cbn; lia.
    - destruct (addr_eq a a'); [|lia]. subst. destruct m, m'; cbn; try lia; congruence.
  Qed.
  Lemma moved_locks w w' ths i th th' : locks_ok w ths -> nth_error ths i = Some th ->
    moved w w' (th_guards th) (th_guards th') -> locks_ok w' (upd ths i th').
  Proof.
    intros L N M a'. pose proof (L a') as La.
    pose proof (total_upd ths i th th' a' Sh N) as TS. pose proof (total_upd ths i th th' a' Ex N) as TX.
    destruct M as [[M1 M2]|[(a & m & l & A & M1 & M2)|(a & m & b & M2 & M1)]].
    - rewrite M2 in *. rewrite M1. replace (total (upd ths i th') a' Sh) with (total ths a' Sh) by lia.
      replace (total (upd ths i th') a' Ex) with (total ths a' Ex) by lia. exact La.
    - rewrite M2, cnt_cons in TS, TX. rewrite M1. unfold put_lock. destruct (addr_eq a a') as [<-|N'].
      + replace (total (upd ths i th') a Sh) with (total ths a Sh + one m Sh)%nat by lia.
        replace (total (upd ths i th') a Ex) with (total ths a Ex + one m Ex)%nat by lia. eapply acquire_lok; eassumption.
      + replace (total (upd ths i th') a' Sh) with (total ths a' Sh) by lia.
        replace (total (upd ths i th') a' Ex) with (total ths a' Ex) by lia. exact La.
    - rewrite M2, cnt_cons in TS, TX. rewrite M1. unfold put_lock. destruct (addr_eq a a') as [<-|N'].
      + apply release_lok. replace (total (upd ths i th') a Sh + one m Sh)%nat with (total ths a Sh) by lia.
        replace (total (upd ths i th') a Ex + one m Ex)%nat with (total ths a Ex) by lia. exact La.
      + replace (total (upd ths i th') a' Sh) with (total ths a' Sh) by lia.
        replace (total (upd ths i th') a' Ex) with (total ths a' Ex) by lia. exact La.
  Qed.

  Lemma sstep_cases i (s : sys) (P : sys -> Prop) : P s ->
    (forall th w th', nth_error (s_threads s) i = Some th -> tstep (s_world s) th = Some (w, th') ->
       P (mk_sys w (upd (s_threads s) i th'))) -> P (sstep i s).
  Proof.
    intros H0 H. unfold sstep. destruct (nth_error _ i) as [th|] eqn:N; [|exact H0].
    destruct (tstep _ th) as [[w th']|] eqn:E; [|exact H0]. eapply H; eauto.
  Qed.
  Lemma nth_upd {A} (l : list A) i j x y : nth_error (upd l i x) j = Some y ->
    (j = i /\ y = x /\ exists z, nth_error l i = Some z) \/ (j <> i /\ nth_error l j = Some y).
  Proof.
    rewrite nth_error_upd. destruct (Nat.eqb_spec i j) as [<-|E]; cbn [andb].
    - destruct (Nat.ltb_spec i (length l)); intros H'.
      + left. destruct (nth_error l i) eqn:X; inversion H'; subst; eauto.
        apply nth_error_None in X. lia.
      + assert (nth_error l i <> None) as Z by congruence. apply nth_error_Some in Z. lia.
    - intros H. right. auto.
  Qed.
  Lemma sstep_good i s : good s -> good (sstep i s).
  Proof.
    intros G. apply sstep_cases; [exact G|]. intros th w th' N E. destruct G as [L T]. split; cbn.
    - eapply moved_locks; [exact L|exact N|]. eapply tstep_moved; [apply T; exact N|exact E].
    - intros j x X. apply nth_upd in X. destruct X as [(-> & -> & _)|[_ X]]; [|apply T; exact X].
      eapply tstep_good; [apply T; exact N|exact E].
  Qed.
  Lemma sched_inv (P : sys -> Prop) : (forall i s, P s -> P (sstep i s)) -> forall sched s, P s -> P (run_sched sched s).
  Proof. intros H sched. induction sched as [|i l IH]; intros s X; cbn; [exact X|]. apply IH, H, X. Qed.
  Lemma sched_good sched s : good s -> good (run_sched sched s).
  Proof. apply sched_inv. exact sstep_good. Qed.

  (** ** No data races *)
  Hypothesis typed : forall i j g g' a m m', i <> j -> Q i g a m -> Q j g' a m' ->
    kd a = KLock \/ (kd a = KFree /\ m = Sh /\ m' = Sh).
  Lemma chain_in i g a m : chain i g -> In (a, m) g -> exists g', Q i g' a m.
  Proof.
    induction g as [|[a' m'] g IH]; cbn; intros C H; [destruct H|]. destruct C as [C1 C2].
    destruct H as [E|H]; [inversion E; subst; eauto|auto].
  Qed.
  (** While a thread holds an exclusive guard, no other one holds a guard. *)
  Lemma excl s i j th th' a m : good s -> i <> j -> nth_error (s_threads s) i = Some th -> nth_error (s_threads s) j = Some th' ->
    In (a, Ex) (th_guards th) -> In (a, m) (th_guards th') -> False.
  Proof.
    intros [L T] N Hi Hj Gi Gj. destruct (T i th Hi) as (_ & Ci & _). destruct (T j th' Hj) as (_ & Cj & _).
    destruct (chain_in _ _ _ _ Ci Gi) as [gi Qi]. destruct (chain_in _ _ _ _ Cj Gj) as [gj Qj].
    destruct (typed i j gi gj a Ex m N Qi Qj) as [K|(_ & X & _)]; [|discriminate].
    destruct (L a) as (_ & H & _). destruct H as (_ & _ & H1 & H2); [congruence|].
    apply cnt_in in Gi, Gj. pose proof (total_one _ _ _ a Ex Hi). destruct m.
    - pose proof (total_one _ _ _ a Sh Hj). lia.
    - pose proof (total_two _ _ _ _ _ a Ex N Hi Hj). lia.
  Qed.
  Lemma access_held s i th a m : good s -> nth_error (s_threads s) i = Some th -> next_access th = Some (a, m) ->
    exists m', In (a, m') (th_guards th) /\ (m = Ex -> m' = Ex).
  Proof.
    intros [_ T] Hi N. destruct (T i th Hi) as (_ & _ & P). unfold next_access, th_guards in *.
    destruct (th_act th) as [|p g|]; try discriminate. destruct P as [P _].
    destruct p; try discriminate; inversion N; subst; cbn in P; destruct P as [P _].
    - destruct P as [m' P]. exists m'. split; [exact P|discriminate].
    - exists Ex. auto.
  Qed.
  Lemma good_no_race s : good s -> ~ race s.
  Proof.
    intros G (i & j & th & th' & a & m & m' & N & Hi & Hj & Ai & Aj & M).
    destruct (access_held s i th a m G Hi Ai) as (mi & Gi & Ei). destruct (access_held s j th' a m' G Hj Aj) as (mj & Gj & Ej).
    destruct M as [ -> | -> ].
    - rewrite (Ei eq_refl) in Gi. eapply (excl s i j); eassumption.
    - rewrite (Ej eq_refl) in Gj. eapply (excl s j i); try eassumption. congruence.
  Qed.

  (** ** Torn outputs are never used *)
  Definition doomed (a : addr) (s : sys) : Prop :=
    kd a = KLock /\ (lk_poison (w_lock (s_world s) a) = true \/
      exists i th g, nth_error (s_threads s) i = Some th /\ th_act th = Leave Panics g /\ In (a, Ex) g).
  Lemma doomed_step a i s : good s -> doomed a s -> doomed a (sstep i s).
  Proof.
    intros G [K H]. pose proof G as G'. destruct G as [L T]. apply sstep_cases; [split; assumption|].
    intros th w th' N E. split; [exact K|]. cbn.
    assert (PM : lk_poison (w_lock (s_world s) a) = true -> lk_poison (w_lock w a) = true).
    { intros P. destruct (tstep_moved _ _ _ _ _ (T i th N) E) as [[-> _]|[(a' & m & l & A & -> & _)|(a' & m & b & _ & ->)]]; [exact P| |].
      - unfold put_lock. destruct (addr_eq a' a) as [->|]; [|exact P]. unfold acquire in A. destruct (L a) as (KL & _).
        rewrite KL, K, P in A. repeat match type of A with (if ?b then _ else _) = _ => destruct b end; discriminate.
      - unfold put_lock. destruct (addr_eq a' a) as [->|]; [|exact P]. unfold release. destruct (L a) as (KL & _).
        rewrite KL, K. destruct m; cbn; rewrite P; reflexivity. }
    destruct H as [P|(j & thj & g & Nj & Aj & Ij)]; [left; auto|].
    destruct (Nat.eq_dec j i) as [->|J].
    - rewrite N in Nj. inversion Nj; subst thj. unfold tstep in E. rewrite Aj in E.
      destruct g as [|h g]; [destruct Ij|]. inversion E; subst. destruct (L a) as (KL & _).
      destruct Ij as [->|Ij].
      + left. cbn. rewrite put_lock_eq. unfold release. rewrite KL, K. cbn. apply orb_true_r.
      + right. exists i. eexists. exists g. rewrite nth_error_upd_same by (apply nth_error_Some; congruence).
        split; [reflexivity|]. split; [reflexivity|exact Ij].
    - right. exists j, thj, g. rewrite nth_error_upd_other by congruence. auto.
  Qed.
  Lemma doomed_unused a s : good s -> doomed a s ->
    forall i th m, nth_error (s_threads s) i = Some th -> next_access th <> Some (a, m).
  Proof.
    intros G [K H] i th m N A. destruct (access_held s i th a m G N A) as (m' & I & _).
    destruct H as [P|(j & thj & g & Nj & Aj & Ij)].
    - destruct G as [L _]. destruct (L a) as (_ & _ & Z). destruct (Z K P) as [Z1 Z2]. apply cnt_in in I.
      pose proof (total_one _ _ _ a m' N). destruct m'; lia.
    - destruct (Nat.eq_dec j i) as [->|J].
      + rewrite N in Nj. inversion Nj; subst thj. unfold next_access in A. rewrite Aj in A. discriminate.
      + eapply (excl s j i thj th a m'); eauto. unfold th_guards. rewrite Aj. exact Ij.
  Qed.

  (** ** Progress *)
  Variable rank : addr -> nat.
  Hypothesis ranked : forall i g a m b m', Q i g a m -> In (b, m') g -> kd b = KLock -> kd a = KLock -> (rank b < rank a)%nat.

  (** The lock a thread asks for *)
  Definition asks (th : thread) : option addr :=
    match th_act th with Run (Acq a _ _ _) _ => match kd a with KLock => Some a | _ => None end | _ => None end.
  Definition is_finished (th : thread) : bool :=
    match th_act th, th_todo th with Idle, [] => true | _, _ => false end.
  Definition free (th : thread) : bool := negb (is_finished th) && match asks th with None => true | Some _ => false end.
  Definition urge (th : thread) : nat := match asks th with Some a => S (rank a) | None => 0 end.

  Lemma no_wait k l m : lk_kind l = k -> k <> KLock -> acquire l m <> Wait.
  Proof. intros K N. unfold acquire. rewrite K. destruct k; try congruence. destruct (_ || _); discriminate. Qed.
  Lemma argmax {A} (f : A -> nat) l : l <> [] -> exists i x, nth_error l i = Some x /\ forall y, In y l -> (f y <= f x)%nat.
  Proof.
    induction l as [|a l IH]; [congruence|]. intros _. destruct l as [|b l].
    - exists 0%nat, a. split; [reflexivity|]. intros y [->|[]]. lia.
    - destruct IH as (i & x & N & M); [discriminate|]. destruct (Nat.le_gt_cases (f a) (f x)).
      + exists (S i), x. split; [exact N|]. intros y [->|I]; [assumption|auto].
      + exists 0%nat, a. split; [reflexivity|]. intros y [->|I]; [lia|]. specialize (M y I). lia.
  Qed.
  Lemma waits_lock s th a m : good s -> In th (s_threads s) -> waits (s_world s) th a m -> asks th = Some a.
  Proof.
    intros [L _] I W. unfold waits in W. unfold asks. destruct (th_act th) as [|[]|]; try destruct W.
    subst. destruct H0 as [-> W]. destruct (L a) as (K & _).
    destruct (kd a) eqn:E; [|destruct (no_wait _ _ m K ltac:(congruence) W)|reflexivity].
    destruct (no_wait _ _ m K ltac:(congruence) W).
  Qed.
  Lemma free_ready s i th : good s -> nth_error (s_threads s) i = Some th -> free th = true -> ready s i.
  Proof.
    intros G N FR. exists th. split; [exact N|]. unfold free in FR. apply andb_true_iff in FR. destruct FR as [F1 F2].
    assert (L : forall a, lk_kind (w_lock (s_world s) a) = kd a) by (intros a; apply (proj1 G a)).
    split.
    - unfold tstep. unfold is_finished in F1. unfold asks in F2. destruct (th_act th) as [|[]|o [|]]; try discriminate.
      + destruct (th_todo th); discriminate.
      + destruct (kd a) eqn:K; [| |discriminate].
        * pose proof (no_wait _ _ m (L a) ltac:(congruence)). destruct (acquire _ _); congruence.
        * pose proof (no_wait _ _ m (L a) ltac:(congruence)). destruct (acquire _ _); congruence.
      + destruct g; discriminate.
    - intros a q k g E th' I W. unfold asks in F2. rewrite E in F2.
      pose proof (waits_lock s th' a Ex G I W) as A. unfold asks in A. destruct (th_act th') as [|[]|]; try discriminate.
      destruct (kd a0) eqn:K; try discriminate. inversion A; subst. rewrite K in F2. discriminate.
  Qed.
  Lemma progress s : good s -> all_finished s \/ exists i, ready s i.
  Proof.
    intros G. destruct (existsb free (s_threads s)) eqn:FR.
    - right. apply existsb_exists in FR. destruct FR as (th & I & FR). apply In_nth_error in I. destruct I as [i N].
      exists i. eapply free_ready; eassumption.
    - destruct (existsb (fun th => negb (is_finished th)) (s_threads s)) eqn:UN.
      + right. apply existsb_exists in UN. destruct UN as (th0 & I0 & U0).
        assert (NF' : forall th, In th (s_threads s) -> free th = false).
        { intros th I. destruct (free th) eqn:E; [|reflexivity]. exfalso. rewrite <- not_true_iff_false in FR. apply FR.
          apply existsb_exists. exists th. auto. }
        destruct (argmax urge (s_threads s)) as (i & th & N & M); [intros E; rewrite E in I0; destruct I0|].
        exists i, th. split; [exact N|].
        assert (A : exists a, asks th = Some a).
        { specialize (NF' th0 I0). unfold free in NF'. rewrite U0 in NF'. cbn in NF'. specialize (M th0 I0). unfold urge in M.
          destruct (asks th0); [|discriminate]. destruct (asks th); [eauto|lia]. }
        destruct A as [a A].
        assert (Z : total (s_threads s) a Sh = 0%nat /\ total (s_threads s) a Ex = 0%nat).
        { assert (Z : forall m, ~ (0 < total (s_threads s) a m)%nat).
          { intros m T. apply total_some in T. destruct T as (th' & I' & T). apply cnt_in in T.
            apply In_nth_error in I'. destruct I' as [j N']. pose proof (NF' th' (nth_error_In _ _ N')) as NX.
            destruct (proj2 G j th' N') as (_ & _ & P). unfold free in NX. apply andb_false_iff in NX.
            pose proof (M th' (nth_error_In _ _ N')) as MX. unfold urge, asks in MX. fold (asks th) in MX. rewrite A in MX.
            unfold th_guards in T. unfold is_finished, asks in NX.
            destruct (th_act th') as [|p g|]; [destruct T| |destruct NX; discriminate].
            destruct p as [ | | |b mb q k| | | ]; try (destruct NX; discriminate).
            destruct (kd b) eqn:KB; try (destruct NX; discriminate). destruct P as [_ P]. cbn in P. destruct P as [P _].
            assert (KA : kd a = KLock).
            { unfold asks in A. destruct (th_act th) as [|[]|]; try discriminate. destruct (kd a0) eqn:K; try discriminate. congruence. }
            pose proof (ranked j g b mb a m P T KA KB). lia. }
          pose proof (Z Sh). pose proof (Z Ex). lia. }
        assert (NW : forall m, acquire (w_lock (s_world s) a) m <> Wait).
        { intros m W. destruct (proj1 G a) as (K & C & _). unfold acquire in W. rewrite K in W. destruct (kd a) eqn:KA; try discriminate.
          - destruct (_ || _) in W; discriminate.
          - destruct (C ltac:(discriminate)) as (C1 & C2 & _). destruct Z as [Z1 Z2]. rewrite Z2 in C2. rewrite Z1 in C1. rewrite C1, C2 in W.
            destruct m; cbn in W; destruct (lk_poison _) in W; discriminate. }
        split.
        * unfold asks in A. unfold tstep. destruct (th_act th) as [|[]|]; try discriminate.
          destruct (kd a0); try discriminate. inversion A; subst a0. specialize (NW m). destruct (acquire _ _); congruence.
        * intros a' q k g E th' I W. unfold asks in A. rewrite E in A. destruct (kd a') eqn:K'; try discriminate.
          inversion A; subst a'. unfold waits in W. destruct (th_act th') as [|[]|]; try contradiction. destruct W as (_ & _ & W).
          exact (NW Ex W).
      + left. intros th I. destruct (is_finished th) eqn:E.
        * unfold is_finished in E. destruct (th_act th) eqn:A; try discriminate. destruct (th_todo th) eqn:T; try discriminate. split; assumption.
        * exfalso. rewrite <- not_true_iff_false in UN. apply UN. apply existsb_exists. exists th. rewrite E. auto.
  Qed.
End Sys.

Section Ends.
  Context {F : Type} {NF : Num F} {R : Type}.
  Notation world := (world F). Notation sys := (sys F R). Notation thread := (thread F R).

  (** ** Every execution is finite *)
  Definition tnext (th' th : thread) : Prop := exists w w', tstep w th = Some (w', th').
  Lemma acc_leave todo : (forall log, Acc tnext (mk_thread Idle todo log)) -> forall g o log, Acc tnext (mk_thread (Leave o g) todo log).
  Proof.
    intros H g. induction g as [|h g IH]; intros o log; constructor; intros th' (w & w' & E); cbn in E; inversion E; subst; auto.
  Qed.
  Lemma acc_run todo : (forall log, Acc tnext (mk_thread Idle todo log)) -> forall p g log, Acc tnext (mk_thread (Run p g) todo log).
  Proof.
    intros H p. pose proof (acc_leave todo H) as LV.
    assert (PN : forall g log, Acc tnext (mk_thread (Run Pan g) todo log)).
    { intros g log. constructor. intros th' (w & w' & E); cbn in E; inversion E; subst; auto. }
    induction p as [a|e| |a m q IHq k IHk|k IHk|t b k IHk|t b x k IHk]; intros g log; constructor; intros th' (w & w' & E); cbn in E.
    1,2,3: inversion E; subst; auto.
    - destruct (acquire (w_lock w a) m); inversion E; subst; auto.
    - destruct g; inversion E; subst; auto.
    - inversion E; subst; auto.
    - inversion E; subst; auto.
  Qed.
  Lemma acc_idle todo : forall log, Acc tnext (mk_thread Idle todo log).
  Proof.
    induction todo as [|f todo IH]; intros log; constructor; intros th' (w & w' & E); cbn in E; inversion E; subst.
    apply acc_run, IH.
  Qed.
  Lemma acc_thread th : Acc tnext th.
  Proof.
    destruct th as [[|p g|o g] todo log]; [apply acc_idle|apply acc_run, acc_idle|apply acc_leave, acc_idle].
  Qed.
  Definition lnext (l' l : list thread) : Prop := exists i th th', nth_error l i = Some th /\ tnext th' th /\ l' = upd l i th'.
  Lemma acc_list l : Acc lnext l.
  Proof.
    induction l as [|th l IH].
    - constructor. intros l' (i & th & th' & N & _). destruct i; discriminate.
    - revert l IH. induction (acc_thread th) as [th _ IHt]. intros l IH. induction IH as [l AL IHl].
      constructor. intros l' ([|i] & x & x' & N & T & ->); cbn in *.
      + inversion N; subst. apply IHt; [exact T|]. constructor. exact AL.
      + apply IHl. exists i, x, x'. auto.
  Qed.
  Definition snext (s' s : sys) : Prop := exists i, s' = sstep i s /\ s' <> s.
  Lemma snext_lnext s' s : snext s' s -> lnext (s_threads s') (s_threads s).
  Proof.
    intros (i & E & N). unfold sstep in E. destruct (nth_error _ i) as [th|] eqn:I; [|congruence].
    destruct (tstep _ th) as [[w th']|] eqn:T; [|congruence]. subst s'. exists i, th, th'. cbn. split; [exact I|].
    split; [|reflexivity]. exists (s_world s), w. exact T.
  Qed.
  Lemma acc_sys s : Acc snext s.
  Proof.
    remember (s_threads s) as l eqn:E. revert s E. induction (acc_list l) as [l _ IH]. intros s ->.
    constructor. intros s' N. eapply IH; [apply snext_lnext; exact N|reflexivity].
  Qed.
  Lemma not_endless (s : sys) : ~ endless s.
  Proof.
    intros (f & E & H). revert f E H. induction (acc_sys s) as [s _ IH]. intros f E H.
    apply (IH (f 1%nat)) with (f := fun n => f (S n)).
    - destruct (H 0%nat) as (i & H1 & H2). rewrite E in *. exists i. auto.
    - reflexivity.
    - intros n. apply H.
  Qed.
  (** If there is always a thread that is ready, all threads can finish. *)
  Lemma completes (P : sys -> Prop) : (forall i s, P s -> P (sstep i s)) -> (forall s, P s -> all_finished s \/ exists i, ready s i) ->
    forall s, P s -> exists sched, all_finished (run_sched sched s).
  Proof.
    intros HS HP s. remember (s_threads s) as l eqn:E. revert s E. induction (acc_list l) as [l _ IH]. intros s -> Ps.
    destruct (HP s Ps) as [AF|(i & th & N & T & _)]; [exists []; exact AF|].
    destruct (tstep (s_world s) th) as [[w th']|] eqn:E; [|congruence].
    assert (EQ : sstep i s = mk_sys w (upd (s_threads s) i th')) by (unfold sstep; rewrite N, E; reflexivity).
    destruct (IH (s_threads (sstep i s))) with (s := sstep i s) as [sched S].
    - rewrite EQ. cbn. exists i, th, th'. split; [exact N|]. split; [exists (s_world s), w; exact E|reflexivity].
    - reflexivity.
    - apply HS, Ps.
    - exists (i :: sched). exact S.
  Qed.
  (** Every thread has as many outcomes as jobs, in the end. *)
  Definition jobs_of (th : thread) : nat :=
    (length (th_log th) + length (th_todo th) + match th_act th with Idle => 0 | _ => 1 end)%nat.
  Lemma tstep_jobs (w : world) th w' th' : tstep w th = Some (w', th') -> jobs_of th' = jobs_of th.
  Proof.
    destruct th as [a todo log]. unfold tstep, jobs_of. cbn [th_act th_todo th_log].
    destruct a as [|p g|o [|h g]].
    - destruct todo as [|f todo]; intros E; inversion E; subst; cbn. lia.
    - destruct p; intros E; try (inversion E; subst; reflexivity).
      + destruct (acquire _ _); inversion E; subst; reflexivity.
      + destruct g; inversion E; subst; reflexivity.
    - intros E; inversion E; subst; cbn. rewrite app_length. cbn. lia.
    - intros E; inversion E; subst; reflexivity.
  Qed.
  Lemma map_upd_same {A B} (f : A -> B) l i x y : nth_error l i = Some y -> f x = f y -> map f (upd l i x) = map f l.
  Proof.
    revert i. induction l as [|a l IH]; intros [|i] N E; cbn in *; try discriminate; [inversion N; subst; congruence|].
    f_equal. apply IH; assumption.
  Qed.
  Lemma sched_jobs sched (s : sys) : map jobs_of (s_threads (run_sched sched s)) = map jobs_of (s_threads s).
  Proof.
    revert s. induction sched as [|i sched IH]; intros s; cbn; [reflexivity|]. unfold run_sched in IH. rewrite IH.
    unfold sstep. destruct (nth_error _ i) as [th|] eqn:N; [|reflexivity].
    destruct (tstep _ th) as [[w th']|] eqn:T; [|reflexivity]. cbn. eapply map_upd_same; [exact N|]. eapply tstep_jobs; exact T.
  Qed.
End Ends.
