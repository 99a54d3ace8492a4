(** Proofs: jobs that keep their guards until they leave behave as if they ran one after the other. *)
From Verif Require Import Base Num Math Buffers BuffersSpec BuffersProofs BuffersAlias BuffersMore Threads ThreadsSpec ThreadsProofs.

(** A lock with guards added to it *)
Definition loaded (l : lock) (ns nx : nat) : lock :=
  match lk_kind l with
  | KFree => l
  | k => mk_lock k (lk_readers l + N.of_nat ns) (lk_writer l || (0 <? nx)%nat) (lk_poison l)
  end.
Definition unheld (k : kind) (l : lock) : Prop := lk_kind l = k /\ lk_readers l = 0%N /\ lk_writer l = false.
Lemma loaded_0 l : loaded l 0 0 = l.
Proof. unfold loaded. destruct l as [[] r wr po]; cbn [lk_kind lk_readers lk_writer lk_poison]; try reflexivity; rewrite N.add_0_r, orb_false_r; reflexivity. Qed.
Lemma loaded_poison l ns nx : lk_poison (loaded l ns nx) = lk_poison l.
Proof. unfold loaded. destruct (lk_kind l); reflexivity. Qed.

Lemma got_replay k lc ns nx m l1 l cs cx : lok k lc ns nx -> acquire lc m = Got l1 -> unheld k l -> (k = KLock -> lk_poison l = false) ->
  (cs <= ns)%nat -> (cx <= nx)%nat -> acquire (loaded l cs cx) m = Got (loaded l (cs + one m Sh) (cx + one m Ex)).
Proof.
  intros (K & C & _) A (UK & UR & UW) UP HS HX. unfold acquire in A. unfold acquire, loaded. rewrite K in A. rewrite UK, UR, UW.
  destruct k; [rewrite UK; reflexivity| |]; destruct (C ltac:(discriminate)) as (C1 & C2 & C3 & C4); cbn [lk_kind lk_readers lk_writer lk_poison];
    rewrite C1, C2 in A.
  - destruct m; cbn [one] in *.
    + destruct nx; [|discriminate]. cbn [Nat.ltb Nat.leb orb] in A. assert (cx = 0)%nat by lia. subst cx. cbn [orb Nat.ltb Nat.leb].
      destruct (N.leb_spec (max_readers KCell) (N.of_nat ns)); [discriminate|].
      destruct (N.leb_spec (max_readers KCell) (0 + N.of_nat cs)); [lia|]. cbn [Nat.add Nat.ltb Nat.leb]. do 2 f_equal; lia.
    + destruct nx; [|discriminate]. cbn [Nat.ltb Nat.leb orb] in A. assert (cx = 0)%nat by lia. subst cx. cbn [orb Nat.ltb Nat.leb].
      destruct (N.eqb_spec (N.of_nat ns) 0); [|discriminate]. assert (cs = 0)%nat by lia. subst cs. reflexivity.
  - destruct m; cbn [one] in *.
    + destruct nx; [|discriminate]. cbn [Nat.ltb Nat.leb] in A. assert (cx = 0)%nat by lia. subst cx. cbn [orb Nat.ltb Nat.leb].
      destruct (N.leb_spec (max_readers KLock) (N.of_nat ns)); [discriminate|].
      destruct (N.leb_spec (max_readers KLock) (0 + N.of_nat cs)); [lia|]. rewrite (UP eq_refl). cbn [Nat.add Nat.ltb Nat.leb]. do 2 f_equal; lia.
    + destruct nx; [|discriminate]. cbn [Nat.ltb Nat.leb orb] in A. assert (cx = 0)%nat by lia. subst cx. cbn [orb Nat.ltb Nat.leb].
      destruct (N.eqb_spec (N.of_nat ns) 0); [|discriminate]. assert (cs = 0)%nat by lia. subst cs. rewrite (UP eq_refl). reflexivity.
Qed.
Lemma poisoned_replay k lc ns nx m l cs cx : lok k lc ns nx -> acquire lc m = Poisoned -> unheld k l -> lk_poison l = true ->
  (cs <= ns)%nat -> (cx <= nx)%nat -> acquire (loaded l cs cx) m = Poisoned /\ k = KLock /\ lk_poison lc = true.
Proof.
  intros (K & C & _) A (UK & UR & UW) UP HS HX. unfold acquire in A. unfold acquire, loaded. rewrite K in A. rewrite UK, UR, UW.
  destruct k; [discriminate|destruct (_ || _) in A; discriminate|]. destruct (C ltac:(discriminate)) as (C1 & C2 & C3 & C4); cbn [lk_kind lk_readers lk_writer lk_poison].
  rewrite C1, C2 in A. rewrite UP. destruct m; cbn [one] in *.
  - destruct nx; [|discriminate]. cbn [Nat.ltb Nat.leb] in A. assert (cx = 0)%nat by lia. subst cx. cbn [orb Nat.ltb Nat.leb].
    destruct (N.leb_spec (max_readers KLock) (N.of_nat ns)); [discriminate|].
    destruct (N.leb_spec (max_readers KLock) (0 + N.of_nat cs)); [lia|]. destruct (lk_poison lc); [auto|discriminate].
  - destruct nx; [|discriminate]. cbn [Nat.ltb Nat.leb orb] in A. assert (cx = 0)%nat by lia. subst cx. cbn [orb Nat.ltb Nat.leb].
    destruct (N.eqb_spec (N.of_nat ns) 0); [|discriminate]. assert (cs = 0)%nat by lia. subst cs. cbn. destruct (lk_poison lc); [auto|discriminate].
Qed.
Lemma refused_kind k lc m ns nx : lok k lc ns nx -> acquire lc m = Refused -> k = KCell \/ (k = KLock /\ (max_readers KLock <= N.of_nat ns)%N).
Proof.
  intros (K & C & _) A. unfold acquire in A. rewrite K in A. destruct k; [discriminate|auto|]. right. split; [reflexivity|].
  destruct (C ltac:(discriminate)) as (C1 & _). destruct m.
  - destruct (lk_writer lc); [discriminate|]. rewrite C1 in A. destruct (N.leb_spec (max_readers KLock) (N.of_nat ns)); [assumption|].
    destruct (lk_poison lc); discriminate.
  - destruct (_ || _) in A; [discriminate|]. destruct (lk_poison lc); discriminate.
Qed.
Lemma refused_replay lc ns nx m l : lok KCell lc ns nx -> acquire lc m = Refused -> unheld KCell l -> acquire (loaded l ns nx) m = Refused.
Proof.
  intros (K & C & _) A (UK & UR & UW). unfold acquire in A. unfold acquire, loaded. rewrite K in A. rewrite UK, UR, UW.
  destruct (C ltac:(discriminate)) as (C1 & C2 & _). cbn [lk_kind lk_readers lk_writer lk_poison orb]. rewrite C1, C2 in A.
  rewrite N.add_0_l. destruct m; [destruct (_ || _) in *|destruct (_ || _ || _) in *]; (reflexivity || discriminate).
Qed.
Lemma release_replay l cs cx : release false (loaded l (S cs) cx) Sh = loaded l cs cx.
Proof.
  unfold release, loaded. destruct (lk_kind l) eqn:K; [rewrite K; reflexivity| |]; cbn [lk_kind lk_readers lk_writer lk_poison]; f_equal; lia.
Qed.

Section Serial.
  Context {F : Type} {NF : Num F} {R : Type}.
  Notation world := (world F). Notation sys := (sys F R). Notation thread := (thread F R).
  Variable Q : nat -> guards -> addr -> mode -> Prop.
  Variable D : addr * mode -> Prop.
  Variable kd : addr -> kind.
  Variable frozen : addr -> Prop.
  Hypothesis typed : forall i j g g' a m m', i <> j -> Q i g a m -> Q j g' a m' ->
    kd a = KLock \/ (kd a = KFree /\ m = Sh /\ m' = Sh).
  Hypothesis few : forall i g a m, Q i g a m -> (length g < 10)%nat.
  Hypothesis lets_frozen : forall h, D h -> frozen (fst h).
  Hypothesis frozen_read : forall i g a m, frozen a -> Q i g a m -> m = Sh.
  Notation good := (good Q D kd).

  Lemma drop_all_data b g : forall w : world, w_data (drop_all b w g) = w_data w.
  Proof. induction g as [|h g IH]; intros w; cbn; [reflexivity|]. exact (IH (drop_one b w h)). Qed.
  Lemma drop_poison b g a : forall w : world, lk_poison (w_lock (drop_all b w g) a) = true <->
    lk_poison (w_lock w a) = true \/ (b = true /\ lk_kind (w_lock w a) = KLock /\ In (a, Ex) g).
  Proof.
    induction g as [|[a' m] g IH]; intros w; cbn [drop_all fold_left]; [cbn; tauto|].
    change (fold_left (drop_one b) g (drop_one b w (a', m))) with (drop_all b (drop_one b w (a', m)) g). rewrite IH.
    unfold drop_one. cbn [w_lock fst snd In]. unfold put_lock. destruct (addr_eq a' a) as [->|N].
    - rewrite release_kind. unfold release. destruct (lk_kind (w_lock w a)) eqn:K; [| |]; destruct m; cbn [lk_poison]; rewrite ?orb_true_iff;
        intuition (try congruence; try discriminate).
    - intuition congruence.
  Qed.

  Definition compat (wa : world) (ps : list addr) (g : guards) (w' : world) : Prop :=
    (forall a, unheld (kd a) (w_lock w' a)) /\
    (forall a, In a ps -> lk_poison (w_lock w' a) = true) /\
    (forall a m, In (a, m) g -> kd a = KLock -> lk_poison (w_lock w' a) = false) /\
    (forall t b, (exists m, In ((t, b), m) g) \/ frozen (t, b) -> w_data w' t b = w_data wa t b) /\
    (forall a, frozen a -> lk_poison (w_lock w' a) = lk_poison (w_lock wa a)).
  Definition shape (w w' w'' : world) (g : guards) : Prop :=
    (forall t b, In ((t, b), Ex) g -> w_data w'' t b = w_data w t b) /\
    (forall t b, ~ In ((t, b), Ex) g -> w_data w'' t b = w_data w' t b) /\
    (forall a, w_lock w'' a = loaded (w_lock w' a) (cnt g a Sh) (cnt g a Ex)).
  (** The job [p0], started in the serial world, gets to [p]. *)
  Definition replay (w wa : world) (p0 p : prog F R) (g : guards) : Prop :=
    exists ps,
      (forall a, In a ps -> lk_poison (w_lock wa a) = true) /\
      (forall a m, In (a, m) g -> kd a = KLock -> lk_poison (w_lock wa a) = false) /\
      forall w', compat wa ps g w' -> exists w'', eval p0 w' [] = eval p w'' g /\ shape w w' w'' g.
  Definition trel (w wa : world) (th tha : thread) : Prop :=
    match th_act th with
    | Idle => tha = th
    | Run p g => exists f, tha = mk_thread Idle (f :: th_todo th) (th_log th) /\ replay w wa (f (th_log th)) p g
    | Leave o g => tha = mk_thread Idle (th_todo th) (th_log th ++ [o])
    end.
  Definition run_guards (th : thread) : guards := match th_act th with Run _ g => g | _ => [] end.
  Definition panic_guards (th : thread) : guards := match th_act th with Leave Panics g => g | _ => [] end.
  Definition someone (f : thread -> guards) (ths : list thread) (h : addr * mode) : Prop :=
    exists i th, nth_error ths i = Some th /\ In h (f th).
  Definition writes_now (ths : list thread) (a : addr) : Prop := someone run_guards ths (a, Ex).
  Definition pending (ths : list thread) (a : addr) : Prop := kd a = KLock /\ someone panic_guards ths (a, Ex).
  Record rel (s sa : sys) : Prop := mk_rel {
    r_unheld : forall a, unheld (kd a) (w_lock (s_world sa) a);
    r_free : forall a, kd a = KFree -> unheld KFree (w_lock (s_world s) a);
    r_data : forall t b, ~ writes_now (s_threads s) (t, b) -> w_data (s_world s) t b = w_data (s_world sa) t b;
    r_poison : forall a, lk_poison (w_lock (s_world sa) a) = true <->
                 lk_poison (w_lock (s_world s) a) = true \/ pending (s_threads s) a;
    r_len : length (s_threads sa) = length (s_threads s);
    r_threads : forall i th tha, nth_error (s_threads s) i = Some th -> nth_error (s_threads sa) i = Some tha ->
                  trel (s_world s) (s_world sa) th tha
  }.

  Lemma replay_concrete w1 w2 wa p0 p g : (forall t b, In ((t, b), Ex) g -> w_data w2 t b = w_data w1 t b) ->
    replay w1 wa p0 p g -> replay w2 wa p0 p g.
  Proof.
    intros E (ps & H1 & H2 & H). exists ps. split; [exact H1|]. split; [exact H2|]. intros w' C.
    destruct (H w' C) as (w'' & EV & S1 & S2 & S3). exists w''. split; [exact EV|]. split; [|split; assumption].
    intros t b I. rewrite E by exact I. apply S1, I.
  Qed.
  Lemma replay_serial w wa wb p0 p g :
    (forall a, lk_poison (w_lock wa a) = true -> lk_poison (w_lock wb a) = true) ->
    (forall a m, In (a, m) g \/ frozen a -> lk_poison (w_lock wb a) = lk_poison (w_lock wa a)) ->
    (forall t b, (exists m, In ((t, b), m) g) \/ frozen (t, b) -> w_data wb t b = w_data wa t b) ->
    replay w wa p0 p g -> replay w wb p0 p g.
  Proof.
    intros E1 E2 E3 (ps & H1 & H2 & H). exists ps. split; [auto|].
    split; [intros a m I K; rewrite (E2 a m) by auto; eauto|]. intros w' (C1 & C2 & C3 & C4 & C5).
    apply H. split; [exact C1|]. split; [exact C2|]. split; [exact C3|]. split.
    - intros t b X. rewrite <- E3 by exact X. apply C4, X.
    - intros a X. rewrite <- (E2 a Sh) by auto. apply C5, X.
  Qed.
  Definition someone_else (i : nat) (f : thread -> guards) (ths : list thread) (h : addr * mode) : Prop :=
    exists j th, j <> i /\ nth_error ths j = Some th /\ In h (f th).
  Lemma someone_split f ths i th h : nth_error ths i = Some th ->
    (someone f ths h <-> In h (f th) \/ someone_else i f ths h).
  Proof.
    intros N. split.
    - intros (j & x & Nj & I). destruct (Nat.eq_dec j i) as [->|J]; [left; congruence|]. right. exists j, x. auto.
    - intros [I|(j & x & J & Nj & I)]; [exists i, th|exists j, x]; auto.
  Qed.
  Lemma someone_upd f ths i th th' h : nth_error ths i = Some th ->
    (someone f (upd ths i th') h <-> In h (f th') \/ someone_else i f ths h).
  Proof.
    intros N. assert (B : (i < length ths)%nat) by (apply nth_error_Some; congruence). split.
    - intros (j & x & Nj & I). apply (nth_upd Q) in Nj. destruct Nj as [(-> & -> & _)|[J Nj]]; [auto|]. right. exists j, x. auto.
    - intros [I|(j & x & J & Nj & I)].
      + exists i, th'. split; [apply nth_error_upd_same; exact B|exact I].
      + exists j, x. rewrite nth_error_upd_other by congruence. auto.
  Qed.
  Lemma run_held th h : In h (run_guards th) -> In h (th_guards th).
  Proof. unfold run_guards, th_guards. destruct (th_act th); cbn; tauto. Qed.
  Lemma moved_free (w w' : world) g g' a : moved w w' g g' -> lk_kind (w_lock w a) = KFree -> w_lock w' a = w_lock w a.
  Proof.
    intros M K. destruct M as [[-> _]|[(a' & m & l & A & -> & _)|(a' & m & b & _ & ->)]]; [reflexivity| |].
    - unfold put_lock. destruct (addr_eq a' a) as [->|]; [|reflexivity]. unfold acquire in A. rewrite K in A. congruence.
    - unfold put_lock. destruct (addr_eq a' a) as [->|]; [|reflexivity]. unfold release. rewrite K. reflexivity.
  Qed.

  (** A step that does not end a job *)
  Lemma rel_quiet s sa i th tha w' th' :
    good s -> rel s sa -> nth_error (s_threads s) i = Some th -> nth_error (s_threads sa) i = Some tha ->
    moved (s_world s) w' (th_guards th) (th_guards th') ->
    (forall a, In (a, Ex) (run_guards th) -> In (a, Ex) (run_guards th')) ->
    (forall t b, ~ In ((t, b), Ex) (run_guards th) -> w_data w' t b = w_data (s_world s) t b) ->
    (forall a, (lk_poison (w_lock w' a) = true \/ (kd a = KLock /\ In (a, Ex) (panic_guards th'))) <->
               (lk_poison (w_lock (s_world s) a) = true \/ (kd a = KLock /\ In (a, Ex) (panic_guards th)))) ->
    trel w' (s_world sa) th' tha ->
    rel (mk_sys w' (upd (s_threads s) i th')) sa.
  Proof.
    intros G RL N Na M RG DT PO TR. destruct RL as [R1 R2 R3 R4 R5 R6]. split; cbn [s_world s_threads].
    - exact R1.
    - intros a K. rewrite (moved_free _ _ _ _ a M); [apply R2, K|]. apply (R2 a K).
    - intros t b W. unfold writes_now in W. rewrite (someone_upd _ _ _ _ _ _ N) in W.
      assert (W1 : ~ In ((t, b), Ex) (run_guards th)) by (intros X; apply W; left; apply RG, X).
      rewrite DT by exact W1. apply R3. unfold writes_now. rewrite (someone_split _ _ _ _ _ N). tauto.
    - intros a. rewrite R4. unfold pending. rewrite (someone_upd _ _ _ _ _ _ N), (someone_split _ _ _ _ _ N).
      specialize (PO a). tauto.
    - rewrite upd_length. exact R5.
    - intros j x xa Nj Naj. apply (nth_upd Q) in Nj. destruct Nj as [(-> & -> & _)|[J Nj]]; [congruence|].
      specialize (R6 j x xa Nj Naj). unfold trel in *. destruct (th_act x) as [|p g|o g] eqn:X; try exact R6.
      destruct R6 as (f & E & RP). exists f. split; [exact E|]. eapply replay_concrete; [|exact RP].
      intros t b I. apply DT. intros W. apply run_held in W.
      apply (excl Q D kd typed s i j th x (t, b) Ex G); try assumption; [congruence|]. unfold th_guards. rewrite X. exact I.
  Qed.

  Definition ends (p : prog F R) : option (outcome R) :=
    match p with Ret a => Some (Val a) | Throw e => Some (Fail e) | Pan => Some Panics | _ => None end.
  Lemma ends_leave p o w g : ends p = Some o -> leave (eval p w g) = (o, drop_all (panics o) w g) /\ o <> Blocks.
  Proof. destruct p; cbn; intros H; inversion H; subst; split; try reflexivity; discriminate. Qed.
  (** The step that ends a job *)
  Lemma rel_commit s sa i th tha p g o :
    good s -> rel s sa -> nth_error (s_threads s) i = Some th -> nth_error (s_threads sa) i = Some tha ->
    th_act th = Run p g -> ends p = Some o ->
    rel (mk_sys (s_world s) (upd (s_threads s) i (mk_thread (Leave o g) (th_todo th) (th_log th)))) (whole_job i sa).
  Proof.
    intros G RL N Na A E. pose proof RL as RL0. destruct RL as [R1 R2 R3 R4 R5 R6].
    pose proof (R6 i th tha N Na) as TR. unfold trel in TR. rewrite A in TR. destruct TR as (f & -> & RP).
    pose proof RP as (ps & P1 & P2 & P3).
    destruct (P3 (s_world sa)) as (w'' & EV & S1 & S2 & S3).
    { split; [exact R1|]. split; [exact P1|]. split; [exact P2|]. split; reflexivity. }
    destruct (ends_leave p o w'' g E) as [LV NB].
    assert (EX : exec (f (th_log th)) (s_world sa) = (o, drop_all (panics o) w'' g)) by (unfold exec; rewrite EV; exact LV).
    assert (WJ : whole_job i sa = mk_sys (drop_all (panics o) w'' g)
              (upd (s_threads sa) i (mk_thread Idle (th_todo th) (th_log th ++ [o])))).
    { unfold whole_job. rewrite Na, EX. reflexivity. }
    rewrite WJ. set (wb := drop_all (panics o) w'' g).
    pose proof (exec_released _ _ _ _ EX NB) as SB. fold wb in SB.
    assert (U : forall a, unheld (kd a) (w_lock wb a)).
    { intros a. destruct (SB a) as (B1 & B2 & B3). destruct (R1 a) as (U1 & U2 & U3). repeat split; congruence. }
    assert (PB : forall a, lk_poison (w_lock wb a) = true <->
       lk_poison (w_lock (s_world sa) a) = true \/ (kd a = KLock /\ panics o = true /\ In (a, Ex) g)).
    { intros a. unfold wb. rewrite drop_poison, S3, loaded_poison. destruct (R1 a) as (U1 & _).
      assert (KK : lk_kind (loaded (w_lock (s_world sa) a) (cnt g a Sh) (cnt g a Ex)) = kd a).
      { unfold loaded. destruct (lk_kind (w_lock (s_world sa) a)) eqn:K; cbn; congruence. }
      rewrite KK. tauto. }
    assert (DB : forall t b, w_data wb t b = w_data w'' t b) by (intros t b; unfold wb; rewrite drop_all_data; reflexivity).
    assert (HG : forall h, In h g -> In h (th_guards th)) by (intros h X; unfold th_guards; rewrite A; exact X).
    assert (FZ : forall a, frozen a -> ~ In (a, Ex) g).
    { intros a FR X. destruct (proj2 G i th N) as (_ & CH & _). apply HG in X.
      destruct (chain_in _ _ _ _ _ CH X) as [g' Qg]. specialize (frozen_read _ _ _ _ FR Qg). discriminate. }
    split; cbn [s_world s_threads].
    - exact U.
    - exact R2.
    - intros t b W. unfold writes_now in W. rewrite (someone_upd _ _ _ _ _ _ N) in W. rewrite DB.
      destruct (in_dec hdec ((t, b), Ex) g) as [I|I]; [symmetry; apply S1, I|]. rewrite S2 by exact I. apply R3.
      unfold writes_now. rewrite (someone_split _ _ _ _ _ N). intros [X|X]; [|tauto]. unfold run_guards in X. rewrite A in X. tauto.
    - intros a. rewrite PB, R4. unfold pending. rewrite (someone_upd _ _ _ _ _ _ N), (someone_split _ _ _ _ _ N).
      unfold panic_guards. rewrite A. cbn [th_act]. destruct o; cbn [panics In] in *; intuition congruence.
    - rewrite !upd_length. exact R5.
    - intros j x xa Nj Naj. apply (nth_upd Q) in Nj. apply (nth_upd Q) in Naj.
      destruct Nj as [(-> & -> & _)|[J Nj]].
      + destruct Naj as [(_ & -> & _)|[? _]]; [|congruence]. reflexivity.
      + destruct Naj as [(? & _)|[_ Naj]]; [congruence|].
        specialize (R6 j x xa Nj Naj). unfold trel in *. destruct (th_act x) as [|p' g'|o' g'] eqn:X; try exact R6.
        destruct R6 as (f' & E' & RP'). exists f'. split; [exact E'|].
        assert (DJ : forall a m, In (a, m) g' \/ frozen a -> ~ In (a, Ex) g).
        { intros a m [I|FR] Y; [|exact (FZ a FR Y)].
          apply (excl Q D kd typed s i j th x a m G); try assumption; [congruence|apply HG, Y|]. unfold th_guards. rewrite X. exact I. }
        eapply replay_serial; [| | |exact RP'].
        * intros a Y. apply PB. auto.
        * intros a m Y. specialize (DJ a m Y). pose proof (PB a) as PBa.
          destruct (lk_poison (w_lock wb a)), (lk_poison (w_lock (s_world sa) a)); try reflexivity.
          -- destruct PBa as [PBa _]. destruct (PBa eq_refl) as [?|(_ & _ & ?)]; [discriminate|tauto].
          -- destruct PBa as [_ PBa]. apply PBa. auto.
        * intros t b Y. rewrite DB. apply S2. destruct Y as [[m Y]|Y]; [apply (DJ (t, b) m); auto|apply (DJ (t, b) Sh); auto].
  Qed.

  Lemma got_poison l m l' : acquire l m = Got l' -> lk_poison l' = lk_poison l /\ (lk_kind l = KLock -> lk_poison l = false).
  Proof.
    unfold acquire. destruct (lk_kind l).
    - intros E. inversion E; subst. split; [reflexivity|discriminate].
    - destruct m; [destruct (_ || _)|destruct (_ || _ || _)]; intros E; inversion E; cbn; split; (reflexivity || discriminate).
    - destruct m; [destruct (lk_writer l); [discriminate|]; destruct (_ <=? _)%N; [discriminate|]|destruct (_ || _); [discriminate|]];
        destruct (lk_poison l) eqn:P; intros E; inversion E; cbn; auto.
  Qed.
  Lemma got_free k l ns nx m l' : lok k l ns nx -> acquire l m = Got l' -> k = KLock -> nx = 0%nat.
  Proof.
    intros (K & C & _) A ->. destruct (C ltac:(discriminate)) as (C1 & C2 & _). unfold acquire in A. rewrite K in A.
    destruct nx; [reflexivity|]. rewrite C2 in A. cbn in A. destruct m; discriminate.
  Qed.
  Lemma release_poison b l m : lk_poison (release b l m) = true <->
    lk_poison l = true \/ (b = true /\ lk_kind l = KLock /\ m = Ex).
  Proof.
    unfold release. destruct (lk_kind l) eqn:K; destruct m; cbn [lk_poison]; rewrite ?orb_true_iff; intuition (try congruence; try discriminate).
  Qed.
  Lemma cell_total (s : sys) i th g a m m' : good s -> nth_error (s_threads s) i = Some th -> kd a = KCell -> Q i g a m ->
    total (s_threads s) a m' = cnt (th_guards th) a m'.
  Proof.
    intros G N K Qi. pose proof (total_one Q kd _ _ _ a m' N) as T1.
    destruct (Nat.eq_dec (total (s_threads s) a m') (cnt (th_guards th) a m')) as [E|E]; [exact E|exfalso].
    pose proof (total_upd Q kd _ _ _ (mk_thread Idle [] []) a m' N) as T2.
    assert (T3 : (0 < total (upd (s_threads s) i (mk_thread Idle [] [])) a m')%nat).
    { change (cnt (th_guards (mk_thread Idle [] [])) a m') with 0%nat in T2. lia. }
    apply (total_some kd) in T3. destruct T3 as (x & I & C). apply In_nth_error in I. destruct I as [j Nj].
    apply (nth_upd Q) in Nj. destruct Nj as [(_ & -> & _)|[J Nj]]; [cbn in C; lia|].
    apply (cnt_in) in C. destruct (proj2 G j x Nj) as (_ & CH & _). destruct (chain_in _ _ _ _ _ CH C) as [g' Qj].
    destruct (typed j i g' g a m' m J Qj Qi) as [Z|[Z _]]; congruence.
  Qed.
  Lemma chain_few i g : chain Q i g -> (length g <= 10)%nat.
  Proof. destruct g as [|[a m] g]; cbn [length chain]; [lia|]. intros [H _]. apply few in H. lia. Qed.
  Lemma total_bound (s : sys) a m : good s -> (total (s_threads s) a m <= 10 * length (s_threads s))%nat.
  Proof.
    intros [_ T]. assert (forall (ths : list thread) k, (forall i th, nth_error ths i = Some th -> chain Q (k + i) (th_guards th)) ->
      (total ths a m <= 10 * length ths)%nat) as X.
    { induction ths as [|th ths IH]; intros k H; [cbn; lia|]. rewrite (total_cons). cbn [length].
      specialize (IH (S k)). pose proof (H 0%nat th eq_refl) as H0. apply chain_few in H0.
      assert (cnt (th_guards th) a m <= length (th_guards th))%nat by apply count_occ_bound.
      assert (total ths a m <= 10 * length ths)%nat; [|lia]. apply IH. intros i x N.
      replace (S k + i)%nat with (k + S i)%nat by lia. apply H. exact N. }
    apply (X _ 0%nat). intros i th N. apply (T i th N).
  Qed.
  Lemma quiet_data s sa i th p g t b m : good s -> rel s sa -> nth_error (s_threads s) i = Some th -> th_act th = Run p g ->
    In ((t, b), m) g -> ~ In ((t, b), Ex) g -> w_data (s_world s) t b = w_data (s_world sa) t b.
  Proof.
    intros G RL N A I X. apply (r_data _ _ RL). unfold writes_now. rewrite (someone_split _ _ _ _ _ N).
    unfold run_guards at 1. rewrite A. intros [Y|(j & x & J & Nj & Y)]; [tauto|]. apply run_held in Y.
    apply (excl Q D kd typed s j i x th (t, b) m G); try assumption. unfold th_guards. rewrite A. exact I.
  Qed.

  Lemma rel_step i s sa : (N.of_nat (10 * length (s_threads s)) < max_readers KLock)%N -> good s -> rel s sa ->
    rel (sstep i s) sa \/ rel (sstep i s) (whole_job i sa).
  Proof.
    intros B G RL. apply sstep_cases; [left; exact RL|]. intros th w1 th' N E.
    assert (G' : good (mk_sys w1 (upd (s_threads s) i th'))).
    { pose proof (sstep_good Q D kd i s G) as X. unfold sstep in X. rewrite N, E in X. exact X. }
    destruct (nth_error (s_threads sa) i) as [tha|] eqn:Na.
    2:{ exfalso. apply nth_error_None in Na. rewrite (r_len _ _ RL) in Na. apply nth_error_None in Na. congruence. }
    pose proof (tstep_moved Q D _ _ _ _ _ (proj2 G i th N) E) as M.
    pose proof (r_threads _ _ RL i th tha N Na) as TR.
    pose proof (proj2 G i th N) as (_ & CH & PG).
    pose proof (fun H1 H2 H3 H4 => rel_quiet s sa i th tha w1 th' G RL N Na M H1 H2 H3 H4) as QT.
    destruct th as [ac todo log]. unfold tstep in E. unfold trel, th_guards, run_guards, panic_guards in *. cbn [th_act th_todo th_log] in *.
    destruct ac as [|p g|o [|h g]].
    - destruct todo as [|f todo]; [discriminate|]. inversion E; subst w1 th' tha. cbn [th_act th_todo th_log] in *. left. apply QT; try tauto.
      exists f. split; [reflexivity|]. exists []. split; [intros a []|]. split; [intros a m []|]. intros w' C. exists w'. split; [reflexivity|].
      split; [intros t b []|]. split; [reflexivity|]. intros a. cbn. rewrite loaded_0. reflexivity.
    - destruct PG as [P1 P2].
      assert (CM : forall o, ends p = Some o -> w1 = s_world s -> th' = mk_thread (Leave o g) todo log ->
                 rel (mk_sys w1 (upd (s_threads s) i th')) (whole_job i sa)).
      { intros o EN -> ->. exact (rel_commit s sa i _ tha p g o G RL N Na eq_refl EN). }
      destruct p as [x|e| |a m q k|k|t b k|t b x k]; cbn [guarded traced] in P1, P2;
        try (inversion E; subst w1 th'; right; eapply CM; reflexivity); clear CM; left;
        destruct TR as (f & -> & ps & H1 & H2 & H).
      + (* acquire *)
        destruct P1 as [P1 P1'], P2 as (P2 & P2' & P2'').
        pose proof (proj1 G a) as La. pose proof (total_one Q kd _ _ _ a Sh N) as TS. pose proof (total_one Q kd _ _ _ a Ex N) as TX.
        unfold th_guards in TS, TX; cbn [th_act] in TS, TX.
        destruct (acquire (w_lock (s_world s) a) m) as [l| | |] eqn:A; [| | |discriminate]; inversion E; subst w1 th'; cbn [th_act th_todo th_log w_lock w_data] in *.
        * destruct (got_poison _ _ _ A) as [GP1 GP2].
          assert (PA : kd a = KLock -> lk_poison (w_lock (s_world sa) a) = false).
          { intros K. destruct (lk_poison (w_lock (s_world sa) a)) eqn:P; [|reflexivity]. exfalso. apply (r_poison _ _ RL) in P.
            destruct P as [P|(_ & j & x & Nj & I)]; [rewrite GP2 in P; [discriminate|]; destruct La; congruence|].
            pose proof (got_free _ _ _ _ _ _ La A K) as Z. pose proof (total_one Q kd _ _ _ a Ex Nj) as TJ.
            assert (In (a, Ex) (th_guards x)) as I2.
            { unfold panic_guards in I. unfold th_guards. destruct (th_act x) as [|? ?|[] ?]; cbn in I |- *; tauto. }
            apply cnt_in in I2. lia. }
          apply QT; [intros a' I; right; exact I|reflexivity| |].
          { intros a'. unfold put_lock. destruct (addr_eq a a') as [<-|]; [rewrite GP1|]; tauto. }
          exists f. split; [reflexivity|]. exists ps. split; [exact H1|].
          split; [intros a' m' [X|X]; [inversion X; subst; exact PA|exact (H2 a' m' X)]|].
          intros w0 (C1 & C2 & C3 & C4 & C5). destruct (H w0) as (w2 & EV & S1 & S2 & S3).
          { split; [exact C1|]. split; [exact C2|]. split; [intros a' m' X; apply (C3 a' m'); right; exact X|]. split; [|exact C5].
            intros t b [[m' X]|X]; apply C4; [left; exists m'; right; exact X|right; exact X]. }
          exists (mk_world (put_lock (w_lock w2) a (loaded (w_lock w0 a) (cnt g a Sh + one m Sh) (cnt g a Ex + one m Ex))) (w_data w2)).
          split; [|split; [|split]]; cbn [w_lock w_data].
          -- rewrite EV. cbn [eval]. rewrite S3. rewrite (got_replay _ _ _ _ _ _ (w_lock w0 a) _ _ La A (C1 a)); try assumption; [reflexivity|].
             intros K. apply (C3 a m); [left; reflexivity|exact K].
          -- intros t b I. destruct (in_dec hdec ((t, b), Ex) g) as [Y|Y]; [apply S1, Y|]. rewrite S2 by exact Y.
             destruct I as [I|I]; [|tauto]. inversion I; subst a m. rewrite C4 by (left; exists Ex; left; reflexivity). symmetry.
             apply (r_data _ _ RL). unfold writes_now. rewrite (someone_split _ _ _ _ _ N). intros [Z|(j & x & J & Nj & Z)]; [exact (Y Z)|].
             apply run_held in Z. refine (excl Q D kd typed _ j i x _ (t, b) Ex G' J _ _ Z _); cbn [s_threads].
             ++ rewrite nth_error_upd_other by congruence. exact Nj.
             ++ apply nth_error_upd_same. apply nth_error_Some. congruence.
             ++ left. reflexivity.
          -- intros t b I. apply S2. intros Y. apply I. right. exact Y.
          -- intros a'. rewrite !(cnt_cons Q kd). unfold put_lock. destruct (addr_eq a a') as [<-|]; [reflexivity|]. rewrite S3, !Nat.add_0_r. reflexivity.
        * (* poisoned *)
          assert (PW : kd a = KLock /\ lk_poison (w_lock (s_world s) a) = true).
          { destruct La as (K & _). unfold acquire in A. rewrite K in A. destruct (kd a); [discriminate|destruct (_ || _) in A; discriminate|].
            split; [reflexivity|]. destruct m; [destruct (lk_writer _) in A; [discriminate|]; destruct (_ <=? _)%N in A; [discriminate|]|destruct (_ || _) in A; [discriminate|]];
                destruct (lk_poison _) in A |- *; congruence. }
          destruct PW as [PK PW].
          apply QT; [tauto|reflexivity|tauto|]. exists f. split; [reflexivity|]. exists (a :: ps).
          split; [intros a' [<-|I]; [apply (r_poison _ _ RL); auto|auto]|]. split; [exact H2|].
          intros w0 (C1 & C2 & C3 & C4 & C5). destruct (H w0) as (w2 & EV & SH).
          { split; [exact C1|]. split; [intros a' I; apply C2; right; exact I|]. split; [exact C3|]. split; assumption. }
          exists w2. split; [|exact SH]. rewrite EV. cbn [eval]. destruct SH as (_ & _ & S3). rewrite S3.
          destruct (poisoned_replay _ _ _ _ _ (w_lock w0 a) (cnt g a Sh) (cnt g a Ex) La A (C1 a)) as [-> _]; try assumption; [|reflexivity].
          apply C2. left. reflexivity.
        * (* refused *)
          destruct (refused_kind _ _ _ _ _ La A) as [K|[K X]].
          2:{ pose proof (total_bound s a Sh G). lia. }
          apply QT; [tauto|reflexivity|tauto|]. exists f. split; [reflexivity|]. exists ps. split; [exact H1|]. split; [exact H2|].
          intros w0 C. destruct (H w0 C) as (w2 & EV & SH). exists w2. split; [|exact SH]. rewrite EV. cbn [eval].
          destruct SH as (_ & _ & S3). rewrite S3. destruct C as (C1 & _).
          pose proof (cell_total s i _ g a m Sh G N K P2) as E1. pose proof (cell_total s i _ g a m Ex G N K P2) as E2.
          unfold th_guards in E1, E2; cbn [th_act] in E1, E2. rewrite K in La. rewrite E1, E2 in La.
          rewrite (refused_replay _ _ _ _ (w_lock w0 a) La A); [reflexivity|]. rewrite <- K. apply C1.
      + (* drop *)
        destruct g as [|[a m] g]; [destruct P2|]. destruct m; [|destruct P1]. destruct P2 as [P2 P2']. apply lets_frozen in P2. cbn [fst] in P2.
        inversion E; subst w1 th'; cbn [th_act th_todo th_log w_lock w_data drop_one fst snd] in *.
        apply QT; [intros a' [X|X]; [discriminate|exact X]|reflexivity| |].
        { intros a'. unfold put_lock. destruct (addr_eq a a') as [<-|]; [rewrite release_poison|]; intuition discriminate. }
        exists f. split; [reflexivity|]. exists ps. split; [exact H1|]. split; [intros a' m' X; apply (H2 a' m'); right; exact X|].
        intros w0 (C1 & C2 & C3 & C4 & C5). destruct (H w0) as (w2 & EV & S1 & S2 & S3).
        { split; [exact C1|]. split; [exact C2|]. split; [|split; [|exact C5]].
          - intros a' m' [X|X] K; [|exact (C3 a' m' X K)]. inversion X; subst a' m'. rewrite C5 by exact P2. apply (H2 a Sh); [left; reflexivity|exact K].
          - intros t b [[m' [X|X]]|X]; apply C4; [right|left; exists m'; exact X|right; exact X]. inversion X; subst. exact P2. }
        exists (drop_one false w2 (a, Sh)). split; [rewrite EV; reflexivity|]. split; [|split]; cbn [w_lock w_data drop_one fst snd].
        * intros t b I. apply S1. right. exact I.
        * intros t b I. apply S2. intros [X|X]; [discriminate|tauto].
        * intros a'. unfold put_lock. pose proof (S3 a') as S3'. rewrite !(cnt_cons Q kd) in S3'. destruct (addr_eq a a') as [<-|].
          -- cbn [one] in S3'. rewrite Nat.add_0_r, Nat.add_1_r in S3'. rewrite S3'. apply release_replay.
          -- rewrite !Nat.add_0_r in S3'. exact S3'.
      + (* load *)
        destruct P1 as [[m P1] P1']. inversion E; subst w1 th'; cbn [th_act th_todo th_log] in *.
        apply QT; [tauto|reflexivity|tauto|]. exists f. split; [reflexivity|]. exists ps. split; [exact H1|]. split; [exact H2|].
        intros w0 C. destruct (H w0 C) as (w2 & EV & SH). exists w2. split; [|exact SH]. rewrite EV. cbn [eval]. f_equal. f_equal.
        destruct SH as (S1 & S2 & _). destruct (in_dec hdec ((t, b), Ex) g) as [I|I]; [apply S1, I|]. rewrite S2 by exact I.
        destruct C as (_ & _ & _ & C4 & _). rewrite C4 by (left; exists m; exact P1). symmetry.
        apply (quiet_data s sa i _ _ g t b m G RL N eq_refl P1 I).
      + (* store *)
        destruct P1 as [P1 P1']. inversion E; subst w1 th'; cbn [th_act th_todo th_log w_lock w_data] in *.
        apply QT; [tauto| |tauto|].
        { intros t' b' I. apply put_data_ne. congruence. }
        exists f. split; [reflexivity|]. exists ps. split; [exact H1|]. split; [exact H2|].
        intros w0 C. destruct (H w0 C) as (w2 & EV & S1 & S2 & S3). exists (mk_world (w_lock w2) (put_data (w_data w2) t b x)).
        split; [rewrite EV; reflexivity|]. split; [|split]; cbn [w_lock w_data]; [| |exact S3].
        * intros t' b' I. destruct (addr_eq (t', b') (t, b)) as [Z|Z]; [inversion Z; subst; rewrite !put_data_eq; reflexivity|].
          rewrite !put_data_ne by congruence. apply S1, I.
        * intros t' b' I. rewrite put_data_ne by congruence. apply S2, I.
    - inversion E; subst w1 th'. cbn [th_act th_todo th_log] in *. left. apply QT; try tauto. intros a. destruct o; cbn; tauto.
    - inversion E; subst w1 th'. cbn [th_act th_todo th_log] in *. left. apply QT; try tauto.
      destruct h as [a m]. intros a'. cbn [w_lock drop_one fst snd]. unfold put_lock. pose proof (proj1 G a') as (K & _).
      destruct (addr_eq a a') as [<-|Z].
      + rewrite release_poison, K. destruct o; cbn [panics In]; intuition congruence.
      + destruct o; cbn [panics In]; intuition congruence.
  Qed.
  Lemma rel_sched sched : forall s sa, (N.of_nat (10 * length (s_threads s)) < max_readers KLock)%N -> good s -> rel s sa ->
    exists order, rel (run_sched sched s) (run_serially order sa).
  Proof.
    induction sched as [|i l IH]; intros s sa B G RL; cbn [run_sched fold_left].
    - exists []. exact RL.
    - assert (B' : (N.of_nat (10 * length (s_threads (sstep i s))) < max_readers KLock)%N).
      { apply sstep_cases; [exact B|]. intros th w th' _ _. cbn [s_threads]. rewrite upd_length. exact B. }
      pose proof (sstep_good Q D kd i s G) as G'. destruct (rel_step i s sa B G RL) as [X|X].
      + apply (IH _ _ B' G' X).
      + destruct (IH _ _ B' G' X) as [o H]. exists (i :: o). exact H.
  Qed.
  (** At the start and at the end *)
  Lemma rel_start (s : sys) : good s -> (forall th, In th (s_threads s) -> th_act th = Idle) ->
    (forall a, lk_readers (w_lock (s_world s) a) = 0%N /\ lk_writer (w_lock (s_world s) a) = false) -> rel s s.
  Proof.
    intros [L T] I U.
    assert (UN : forall a, unheld (kd a) (w_lock (s_world s) a)) by (intros a; split; [apply L|apply U]).
    split; auto.
    - intros a K. rewrite <- K. apply UN.
    - intros a. split; [auto|]. intros [P|(_ & i & th & N & X)]; [exact P|]. unfold panic_guards in X.
      rewrite (I th) in X by (eapply nth_error_In; exact N). destruct X.
    - intros i th tha N Na. unfold trel. rewrite (I th) by (eapply nth_error_In; exact N). congruence.
  Qed.
  Lemma rel_end s sa : good s -> rel s sa -> all_finished s -> all_finished sa /\ same_result s sa.
  Proof.
    intros G RL FI. assert (Z : forall f h, (forall th, th_act th = Idle -> f th = []) -> ~ someone f (s_threads s) h).
    { intros f h E (i & th & N & X). rewrite E in X; [destruct X|]. apply FI. eapply nth_error_In; exact N. }
    assert (ZR : forall th, th_act th = Idle -> run_guards th = []) by (intros th E; unfold run_guards; rewrite E; reflexivity).
    assert (ZP : forall th, th_act th = Idle -> panic_guards th = []) by (intros th E; unfold panic_guards; rewrite E; reflexivity).
    assert (T0 : forall a m, total (s_threads s) a m = 0%nat).
    { intros a m. destruct (Nat.eq_dec (total (s_threads s) a m) 0) as [E|E]; [exact E|exfalso].
      destruct (total_some kd (s_threads s) a m) as (th & I & C); [lia|]. destruct (FI th I) as [A _]. unfold th_guards in C. rewrite A in C. cbn in C. lia. }
    assert (TE : s_threads sa = s_threads s).
    { apply nth_error_ext. intros i.
      destruct (nth_error (s_threads s) i) as [th|] eqn:N.
      + destruct (nth_error (s_threads sa) i) as [tha|] eqn:Na.
        * pose proof (r_threads _ _ RL i th tha N Na) as TR. unfold trel in TR.
          destruct (FI th) as [A _]; [eapply nth_error_In; exact N|]. rewrite A in TR. congruence.
        * exfalso. apply nth_error_None in Na. rewrite (r_len _ _ RL) in Na. apply nth_error_None in Na. congruence.
      + apply nth_error_None in N. rewrite <- (r_len _ _ RL) in N. apply nth_error_None in N. exact N. }
    split; [unfold all_finished; rewrite TE; exact FI|]. split; [|split].
    - rewrite TE. reflexivity.
    - intros a. destruct (proj1 G a) as (K & C & _). rewrite !T0 in C. destruct (r_unheld _ _ RL a) as (UK & UR & UW).
      assert (PO : lk_poison (w_lock (s_world s) a) = lk_poison (w_lock (s_world sa) a)).
      { pose proof (r_poison _ _ RL a) as P. assert (~ pending (s_threads s) a) by (intros [_ X]; exact (Z _ _ ZP X)).
        destruct (lk_poison (w_lock (s_world s) a)), (lk_poison (w_lock (s_world sa) a)); try reflexivity.
        - symmetry. apply P. auto.
        - destruct P as [P _]. destruct (P eq_refl); [discriminate|tauto]. }
      assert (CC : lk_readers (w_lock (s_world s) a) = 0%N /\ lk_writer (w_lock (s_world s) a) = false).
      { destruct (kd a) eqn:KD; [destruct (r_free _ _ RL a KD) as (_ & X & Y); auto| |];
          destruct (C ltac:(discriminate)) as (C1 & C2 & _); auto. }
      destruct CC as [C1 C2]. destruct (w_lock (s_world s) a), (w_lock (s_world sa) a). cbn in *. congruence.
    - intros t b. apply (r_data _ _ RL). apply Z, ZR.
  Qed.
End Serial.
