(** Proofs: every access is made under a guard; the other jobs; validation; poisoned locks. *)
From Verif Require Import Base Num Math Skeleton Sampling Blending BlendingProofs Skinning SkinningProofs Buffers BuffersSpec BuffersProofs BuffersAlias BuffersSkin.
Local Open Scope num_scope.

Section More.
  Context {F : Type} {NF : Num F}.
  Notation world := (world F). Notation prog := (prog F). Notation ev := (ev F).
  Notation soa := (transform (V4 F)).

  (** ** Accesses are made under guards *)
  Lemma guarded_mono {A} (p : prog A) : forall g (Q Q' : guards -> A -> Prop),
    (forall g a, Q g a -> Q' g a) -> guarded g p Q -> guarded g p Q'.
  Proof.
    induction p as [a|e| |a m q IHq k IHk|k IHk|t b k IHk|t b x k IHk]; intros g Q Q' H G; cbn in *; auto.
    - destruct G as [G1 G2]. split; [eapply IHq|eapply IHk]; eassumption.
    - destruct g as [|[a []] g]; [destruct G| |destruct G]. eapply IHk; eassumption.
    - destruct G as [G1 G2]. split; [exact G1|]. intros y. eapply IHk; [eassumption|apply G2].
    - destruct G as [G1 G2]. split; [exact G1|]. eapply IHk; eassumption.
  Qed.
  Lemma guarded_bind {A B} (p : prog A) (f : A -> prog B) : forall g (Q : guards -> B -> Prop),
    guarded g p (fun g' a => guarded g' (f a) Q) -> guarded g (pbind p f) Q.
  Proof.
    induction p as [a|e| |a m q IHq k IHk|k IHk|t b k IHk|t b x k IHk]; intros g Q G; cbn in *; auto.
    - destruct G as [G1 G2]. auto.
    - destruct g as [|[a []] g]; auto.
    - destruct G as [G1 G2]. split; [exact G1|]. intros y. apply IHk, G2.
    - destruct G as [G1 G2]. auto.
  Qed.
  Lemma guarded_lift {A} (r : res A) g (Q : guards -> A -> Prop) : (forall a, r = Ok a -> Q g a) -> guarded g (lift r : prog A) Q.
  Proof. destruct r; cbn; auto. Qed.
  Definition keep {A} (g : guards) : guards -> A -> Prop := fun g' _ => g' = g.
  Lemma guarded_rd t b i g m : In ((t, b), m) g -> guarded g (rd t b i : prog _) (keep g).
  Proof. intros H. cbn. split; [eexists; exact H|]. intros l. apply guarded_lift. reflexivity. Qed.
  Lemma guarded_wr t b i (v : den F t) g : In ((t, b), Ex) g -> guarded g (wr t b i v : prog unit) (keep g).
  Proof. intros H. cbn. split; [eexists; exact H|]. intros l. destruct (set l i v); cbn; auto. split; [exact H|reflexivity]. Qed.
  Lemma guarded_then {A B} (p : prog A) (f : A -> prog B) g Q :
    guarded g p (keep g) -> (forall a, guarded g (f a) Q) -> guarded g (pbind p f) Q.
  Proof. intros H1 H2. apply guarded_bind. eapply guarded_mono; [|exact H1]. intros g' a ->. apply H2. Qed.
  Lemma guarded_for {S} (body : nat -> S -> prog S) n g : forall k s,
    (forall i s, guarded g (body i s) (keep g)) -> guarded g (pfor n k body s) (keep g).
  Proof.
    induction n as [|n IH]; intros k s H; cbn [pfor]; [reflexivity|]. apply guarded_then; [apply H|]. intros s'. apply IH, H.
  Qed.

  Ltac gt :=
    repeat first
      [ reflexivity | apply guarded_for; intros | apply guarded_lift; intros; reflexivity
      | eapply guarded_rd; solve [cbn; eauto] | apply guarded_wr; solve [cbn; eauto]
      | apply guarded_then; [|intros] ].
  Lemma guarded_layer_pass o n (l : hlayer F) first accs g : In ((TSoa, o), Ex) g -> In ((TSoa, hl_transform l), Sh) g ->
    guarded g (p_layer_pass o n l first accs) (keep g).
  Proof. intros HO HL. unfold p_layer_pass. gt. Qed.
  Lemma guarded_additive_pass o n (l : hlayer F) v sub g : In ((TSoa, o), Ex) g -> In ((TSoa, hl_transform l), Sh) g ->
    guarded g (p_additive_pass o n l v sub) (keep g).
  Proof. intros HO HL. unfold p_additive_pass. gt. Qed.
  Lemma guarded_load t b m g : In ((t, b), m) g -> guarded g (load t b : prog _) (keep g).
  Proof. intros H. cbn. split; [eexists; exact H|]. reflexivity. Qed.
  Lemma guarded_rest_pose o rest thr (c : bctx F) g : In ((TSoa, o), Ex) g -> guarded g (p_rest_pose o rest thr c) (keep g).
  Proof.
    intros HO. unfold p_rest_pose. destruct (bc_partial c =? 0)%nat; [|gt].
    destruct (nlt nzero (thr - bc_weight c)); [|reflexivity]. destruct (bc_passes c =? 0)%nat; [|gt].
    apply guarded_then; [eapply guarded_load; exact HO|]. intros out.
    apply guarded_then; [destruct (_ =? _)%nat; reflexivity|]. intros _. gt.
  Qed.
  Lemma guarded_normalize o rest (c : bctx F) g : In ((TSoa, o), Ex) g -> guarded g (p_normalize o rest c) (keep g).
  Proof.
    intros HO. unfold p_normalize. apply guarded_then; [eapply guarded_load; exact HO|]. intros out. gt.
  Qed.
  Lemma guarded_enter {B} n (l : hlayer F) g (f : unit -> prog B) Q :
    guarded (((TSoa, hl_transform l), Sh) :: g) (f tt) Q -> guarded g (pbind (p_enter n l) f) Q.
  Proof.
    intros H. unfold p_enter. cbn. split; [exact I|]. split; [eexists; left; reflexivity|]. intros x.
    destruct (layer_ok _ _); [exact H|exact I].
  Qed.
  Lemma guarded_blend_layers n o (ls : list (hlayer F)) g : In ((TSoa, o), Ex) g -> forall c,
    guarded g (p_blend_layers o n ls c) (keep g).
  Proof.
    intros HO. induction ls as [|l ls IH]; intros c; cbn [p_blend_layers]; [reflexivity|].
    apply guarded_enter. apply guarded_then.
    - destruct (nle (hl_weight l) nzero); [reflexivity|]. apply guarded_then; [apply guarded_layer_pass; cbn; auto|]. intros accs. reflexivity.
    - intros c'. cbn. apply IH.
  Qed.
  Lemma guarded_add_layers n o rl (ls : list (hlayer F)) g : In ((TSoa, o), Ex) g -> guarded g (p_add_layers o n rl ls) (keep g).
  Proof.
    intros HO. induction ls as [|l ls IH]; cbn [p_add_layers]; [reflexivity|].
    apply guarded_enter. apply guarded_then.
    - destruct (nlt nzero (hl_weight l)); [apply guarded_additive_pass; cbn; auto|].
      destruct (nlt (hl_weight l) nzero); [apply guarded_additive_pass; cbn; auto|reflexivity].
    - intros c'. cbn. apply IH.
  Qed.
  Lemma guarded_blend (j : hbjob F) : guarded [] (p_blend j) (fun _ _ => True).
  Proof.
    unfold p_blend. destruct (hb_skeleton j) as [sk|]; [|exact I]. destruct (hb_context j) as [ctx|]; [|exact I].
    destruct (hb_output j) as [o|]; [|exact I]. cbn [need pbind]. cbn [borrow pbind guarded]. split; [exact I|].
    cbn [load pbind guarded]. split; [eexists; left; reflexivity|]. intros out.
    assert (HO : In ((TSoa, o), Ex) [((TSoa, o), Ex)]) by (left; reflexivity).
    apply guarded_then; [destruct (_ && _); cbn; reflexivity|]. intros _.
    apply guarded_then; [apply guarded_blend_layers, HO|]. intros c.
    apply guarded_then; [apply guarded_rest_pose, HO|]. intros c'.
    apply guarded_then; [apply guarded_normalize, HO|]. intros _.
    apply guarded_then; [apply guarded_add_layers, HO|]. intros _. exact I.
  Qed.
  Lemma guarded_ltm checks (j : hljob F) : guarded [] (p_ltm checks j) (fun _ _ => True).
  Proof.
    unfold p_ltm. destruct (hj_skeleton j) as [sk|]; [|exact I]. destruct (hj_input j) as [i|]; [|exact I].
    cbn [need pbind]. cbn [borrow pbind guarded]. split; [exact I|]. destruct (hj_output j) as [o|]; [|exact I].
    cbn [need pbind borrow guarded load]. split; [exact I|]. split; [eexists; right; left; reflexivity|]. intros x.
    split; [eexists; left; reflexivity|]. intros y.
    destruct (ltm_run _ _); cbn; auto.
  Qed.
  Lemma guarded_sampling {C} an cx (job : list soa -> res (C * list soa)) o : guarded [] (p_sampling an cx job o) (fun _ _ => True).
  Proof.
    unfold p_sampling. destruct an; [|exact I]. destruct cx; [|exact I]. destruct o as [o|]; [|exact I].
    cbn. split; [exact I|]. split; [eexists; left; reflexivity|]. intros x. destruct (job x); cbn; auto.
  Qed.
  Lemma guarded_unpack {B} t b m size g (f : nat -> prog B) Q :
    (forall b', b = Some b' -> guarded (((t, b'), m) :: g) (f b') Q) -> guarded g (pbind (p_unpack t b m size) f) Q.
  Proof.
    intros H. unfold p_unpack. destruct b as [b|]; [|exact I]. cbn. split; [exact I|]. split; [eexists; left; reflexivity|].
    intros x. destruct (_ <=? _)%N; [|exact I]. cbn. apply H. reflexivity.
  Qed.
  Lemma guarded_take {B} t b g (f : nat -> prog B) Q :
    (forall b', b = Some b' -> guarded (((t, b'), Sh) :: g) (f b') Q) -> guarded g (pbind (p_take t b) f) Q.
  Proof. intros H. unfold p_take. destruct b as [b|]; [|exact I]. cbn. split; [exact I|]. apply H. reflexivity. Qed.
  Lemma guarded_unwrap {B} b g (f : nat -> prog B) Q :
    (forall b', b = Some b' -> guarded (((TMat, b'), Sh) :: g) (f b') Q) ->
    guarded g (pbind (match b with Some b => pbind (borrow TMat b Sh) (fun _ => Ret b) | None => Pan end) f) Q.
  Proof. intros H. destruct b as [b|]; [|exact I]. cbn. split; [exact I|]. apply H. reflexivity. Qed.
  Lemma guarded_assoc {A B C} (p : prog A) (f : A -> prog B) (h : B -> prog C) g Q :
    guarded g (pbind p (fun a => pbind (f a) h)) Q -> guarded g (pbind (pbind p f) h) Q.
  Proof.
    revert g. induction p as [a|e| |a m q IHq k IHk|k IHk|t b k IHk|t b x k IHk]; intros g G; cbn in *; auto.
    - destruct G as [G1 G2]. auto.
    - destruct g as [|[a []] g]; auto.
    - destruct G as [G1 G2]. split; [exact G1|]. intros y. apply IHk, G2.
    - destruct G as [G1 G2]. auto.
  Qed.
  Definition in3 (k : pnt) (m : mode) (x : nat * nat * nat) (g : guards) : Prop :=
    let '(p, n, t) := x in
    In ((TV3, p), m) g /\ (k <> P -> In ((TV3, n), m) g) /\ (k = PNT -> In ((TV3, t), m) g).
  Lemma guarded_unpack3 {B} k m vc p n t g (f : nat * nat * nat -> prog B) Q :
    (forall x g', in3 k m x g' -> (forall h, In h g -> In h g') -> guarded g' (f x) Q) ->
    guarded g (pbind (p_unpack3 k m vc p n t) f) Q.
  Proof.
    intros H. unfold p_unpack3. apply guarded_assoc, guarded_unpack. intros p' _. destruct k.
    - cbn [pbind]. apply H; [|intros h I; right; exact I]. split; [left; reflexivity|]. split; [congruence|discriminate].
    - apply guarded_assoc, guarded_unpack. intros n' _. cbn [pbind].
      apply H; [|intros h I; do 2 right; exact I]. split; [right; left; reflexivity|]. split; [left; reflexivity|discriminate].
    - apply guarded_assoc, guarded_unpack. intros n' _. apply guarded_assoc, guarded_unpack. intros t' _. cbn [pbind].
      apply H; [|intros h I; do 3 right; exact I]. split; [right; right; left; reflexivity|]. split; [right; left; reflexivity|left; reflexivity].
  Qed.
  Lemma guarded_vertices n vertex k ins outs g : (forall i, guarded g (vertex i) (keep g)) -> in3 k Sh ins g -> in3 k Ex outs g ->
    guarded g (p_vertices n vertex k ins outs) (fun _ _ => True).
  Proof.
    intros HV HI HO. destruct ins as [[pi ni] ti], outs as [[po no] to].
    destruct HI as (I1 & I2 & I3), HO as (O1 & O2 & O3). unfold p_vertices.
    eapply guarded_mono; [intros; exact I|]. apply guarded_for. intros i _.
    assert (W : forall a b f, In ((TV3, a), Sh) g -> In ((TV3, b), Ex) g -> guarded g (p_write a b i f : prog unit) (keep g)).
    { intros a b f Ia Ib. unfold p_write. apply guarded_then; [eapply guarded_rd; exact Ia|]. intros x. apply guarded_wr, Ib. }
    apply guarded_then; [apply HV|]. intros mm. apply guarded_then; [apply W; assumption|]. intros _.
    apply guarded_then; [destruct k; [reflexivity|apply W..]; try apply I2; try apply O2; discriminate|]. intros _.
    destruct k; [reflexivity|reflexivity|]. apply W; [apply I3|apply O3]; reflexivity.
  Qed.
  Lemma guarded_its {B} it b g (f : option nat -> prog B) Q :
    (forall x g', (forall b', x = Some b' -> In ((TMat, b'), Sh) g') -> (forall h, In h g -> In h g') -> guarded g' (f x) Q) ->
    guarded g (pbind (p_its it b) f) Q.
  Proof.
    intros H. unfold p_its. destruct it.
    - apply guarded_assoc, guarded_take. intros b' _. cbn [pbind]. apply H; [|intros h I; right; exact I].
      intros b0 E. inversion E; subst. left. reflexivity.
    - cbn [pbind]. apply H; [discriminate|auto].
  Qed.
  Lemma guarded_load_its b g : (forall b', b = Some b' -> In ((TMat, b'), Sh) g) -> guarded g (load_its b : prog _) (keep g).
  Proof.
    intros H. destruct b as [b|]; [|reflexivity]. unfold load_its. apply guarded_then; [eapply guarded_load; apply H; reflexivity|]. reflexivity.
  Qed.
  Lemma guarded_skin checks (j : hsjob) : guarded [] (p_skin checks j : prog unit) (fun _ _ => True).
  Proof.
    rewrite h_dispatch. destruct (_ =? 0)%N; [exact I|]. destruct (_ =? 1)%N.
    - unfold p_skinning_1. apply guarded_take. intros ms _. apply guarded_its. intros its g1 H1 S1.
      apply guarded_unpack. intros ix _. apply guarded_unpack3. intros ins g2 H2 S2. apply guarded_unpack3. intros outs g3 H3 S3.
      assert (M : In ((TMat, ms), Sh) g3) by (apply S3, S2; right; apply S1; left; reflexivity).
      assert (X : In ((TU16, ix), Sh) g3) by (apply S3, S2; left; reflexivity).
      assert (T : forall b', its = Some b' -> In ((TMat, b'), Sh) g3) by (intros b' E; apply S3, S2; right; apply H1, E).
      assert (H2' : in3 (hvariant j) Sh ins g3).
      { destruct ins as [[a b] c]. destruct H2 as (A1 & A2 & A3). split; [auto|]. split; auto. }
      apply guarded_vertices; auto. intros i.
      apply guarded_then; [eapply guarded_load; exact M|]. intros lm. apply guarded_then; [apply guarded_load_its, T|]. intros li.
      apply guarded_then; [eapply guarded_load; exact X|]. intros lx. apply guarded_lift. reflexivity.
    - unfold p_skinning_impl.
      apply guarded_unwrap. intros ms _. apply guarded_its. intros its g1 H1 S1.
      apply guarded_bind, guarded_lift. intros si _.
      apply guarded_unpack. intros ix _. apply guarded_bind, guarded_lift. intros sw _. apply guarded_unpack. intros ws _.
      apply guarded_unpack3. intros ins g2 H2 S2. apply guarded_unpack3. intros outs g3 H3 S3.
      assert (M : In ((TMat, ms), Sh) g3) by (apply S3, S2; right; right; apply S1; left; reflexivity).
      assert (X : In ((TU16, ix), Sh) g3) by (apply S3, S2; right; left; reflexivity).
      assert (Y : In ((TF32, ws), Sh) g3) by (apply S3, S2; left; reflexivity).
      assert (T : forall b', its = Some b' -> In ((TMat, b'), Sh) g3) by (intros b' E; apply S3, S2; right; right; apply H1, E).
      assert (H2' : in3 (hvariant j) Sh ins g3).
      { destruct ins as [[a b] c]. destruct H2 as (A1 & A2 & A3). split; [auto|]. split; auto. }
      apply guarded_vertices; auto. intros i.
      apply guarded_then; [eapply guarded_load; exact M|]. intros lm. apply guarded_then; [apply guarded_load_its, T|]. intros li.
      apply guarded_then; [eapply guarded_load; exact X|]. intros lx. apply guarded_then; [eapply guarded_load; exact Y|]. intros lw.
      apply guarded_lift. reflexivity.
  Qed.

  (** ** Programs that only read *)
  Fixpoint shares {A} (reads : list addr) (d : nat) (p : prog A) : Prop :=
    match p with
    | Ret _ | Throw _ | Pan => True
    | Acq a m _ k => m = Sh /\ In a reads /\ (d < 10)%nat /\ shares reads (S d) k
    | Drop k => (0 < d)%nat /\ shares reads (pred d) k
    | Load t b k => forall x, shares reads d (k x)
    | Store _ _ _ _ => False
    end.
  Fixpoint val {A} (p : prog A) (d : data F) : res A :=
    match p with
    | Ret a => Ok a
    | Throw e => Err e
    | Pan => Panic
    | Acq _ _ _ k | Drop k | Store _ _ _ k => val k d
    | Load t b k => val (k (d t b)) d
    end.
  Definition reading (w0 w : world) (g : guards) : Prop :=
    w_data w = w_data w0 /\ (forall h, In h g -> snd h = Sh) /\
    forall a, lk_kind (w_lock w a) = lk_kind (w_lock w0 a) /\ lk_writer (w_lock w a) = lk_writer (w_lock w0 a) /\
      lk_poison (w_lock w a) = lk_poison (w_lock w0 a) /\
      lk_readers (w_lock w a) = (lk_readers (w_lock w0 a) + match lk_kind (w_lock w0 a) with KFree => 0 | _ => nsh g a end)%N.
  Lemma nsh_le g a : (nsh g a <= N.of_nat (length g))%N.
  Proof. induction g as [|[a' []] g IH]; cbn [nsh length]; [lia| |lia]. destruct (addr_eq a' a); lia. Qed.
  Lemma read_eval {A} (p : prog A) w0 reads : (forall a, In a reads -> readable (w_lock w0 a)) ->
    forall w g, reading w0 w g -> shares reads (length g) p ->
    exists w' g', eval p w g = match val p (w_data w0) with Ok a => EVal a w' g' | Err e => EFail e w' g' | Panic => EPan w' g' end /\
      w_data w' = w_data w0 /\ (forall h, In h g' -> snd h = Sh).
  Proof.
    intros RD. induction p as [a|e| |a m q IHq k IHk|k IHk|t b k IHk|t b x k IHk]; intros w g (D & G & L) SH; cbn [eval val shares] in *.
    - exists w, g. auto.
    - exists w, g. auto.
    - exists w, g. auto.
    - destruct SH as (-> & I & LT & SH). destruct (RD a I) as (R1 & R2 & R3). destruct (L a) as (L1 & L2 & L3 & L4).
      assert (AQ : exists l', acquire (w_lock w a) Sh = Got l' /\ lk_kind l' = lk_kind (w_lock w0 a) /\ lk_writer l' = lk_writer (w_lock w0 a) /\
        lk_poison l' = lk_poison (w_lock w0 a) /\ lk_readers l' = (lk_readers (w_lock w0 a) + match lk_kind (w_lock w0 a) with KFree => 0 | _ => 1 + nsh g a end)%N).
      { unfold acquire. rewrite L1, L2, L3, L4, R1, R2. pose proof (nsh_le g a) as NL.
        destruct (lk_kind (w_lock w0 a)) eqn:K.
        - eexists. split; [reflexivity|]. rewrite L1, L2, L3, L4. auto.
        - assert (Q : (max_readers KCell <=? lk_readers (w_lock w0 a) + nsh g a)%N = false) by (apply N.leb_gt; lia).
          rewrite Q. cbn [orb]. eexists. split; [reflexivity|]. cbn [lk_kind lk_readers lk_writer lk_poison]. split; [reflexivity|]. split; [congruence|]. split; [congruence|]. lia.
        - assert (Q : (max_readers KLock <=? lk_readers (w_lock w0 a) + nsh g a)%N = false) by (apply N.leb_gt; lia).
          rewrite Q. cbn [orb]. eexists. split; [reflexivity|]. cbn [lk_kind lk_readers lk_writer lk_poison]. split; [reflexivity|]. split; [congruence|]. split; [congruence|]. lia. }
      destruct AQ as (l' & -> & K' & W' & P' & N'). apply IHk; [|exact SH].
      split; [exact D|]. split; [intros h [<-|Ih]; [reflexivity|auto]|].
      intros a'. cbn [w_lock nsh]. destruct (addr_eq a a') as [<-|n].
      + rewrite put_lock_eq. auto.
      + rewrite put_lock_ne by exact n. cbn [N.add]. apply L.
    - destruct g as [|[a m] g]; cbn in SH; [destruct SH; lia|]. destruct SH as [_ SH].
      pose proof (G (a, m) (or_introl eq_refl)) as M. cbn in M. subst m.
      apply IHk; [|exact SH]. split; [exact D|]. split; [intros h Ih; apply G; right; exact Ih|].
      intros a'. unfold drop_one. cbn [w_lock fst snd]. destruct (L a') as (L1 & L2 & L3 & L4). destruct (addr_eq a a') as [<-|n].
      + rewrite put_lock_eq. cbn [nsh] in L4. destruct (addr_eq a a); [|congruence]. unfold release. rewrite L1.
        destruct (lk_kind (w_lock w0 a)) eqn:K; cbn; [rewrite L1; auto|..]; (split; [reflexivity|]; split; [exact L2|]; split; [exact L3|]; rewrite L4; lia).
      + rewrite put_lock_ne by exact n. cbn [nsh] in L4. destruct (addr_eq a a'); [congruence|]. auto.
    - rewrite D. apply IHk; [|apply SH]. split; [exact D|]. split; assumption.
    - destruct SH.
  Qed.
  Lemma read_exec {A} (p : prog A) (w : world) reads r w' : (forall a, In a reads -> readable (w_lock w a)) -> shares reads 0 p ->
    exec p w = (r, w') ->
    r = match val p (w_data w) with Ok a => Val a | Err e => Fail e | Panic => Panics end /\ w_data w' = w_data w.
  Proof.
    intros RD SH. unfold exec. destruct (read_eval p w reads RD w []) as (w1 & g1 & -> & D & _).
    - split; [reflexivity|]. split; [intros h []|]. intros a. repeat split. cbn. destruct (lk_kind _); lia.
    - exact SH.
    - destruct (val p (w_data w)); cbn; intros Q; inversion Q; subst; rewrite ?drop_all_data; auto.
  Qed.

  (** ** Validation *)
  Lemma val_check_layers n (w : world) (ls : list (hlayer F)) : forall ok (k : bool -> prog bool),
    val (p_check_layers n ls ok k) (w_data w) = val (k (ok && forallb (layer_ok n) (map (layer_in w) ls))) (w_data w).
  Proof.
    induction ls as [|l ls IH]; intros ok k; cbn [p_check_layers map forallb]; [rewrite andb_true_r; reflexivity|].
    unfold peek. cbn [val]. rewrite IH. f_equal. f_equal. rewrite andb_assoc. reflexivity.
  Qed.
  Lemma shares_check_layers n reads (ls : list (hlayer F)) : forall d ok (k : bool -> prog bool),
    (forall l, In l ls -> In (TSoa, hl_transform l) reads) -> (d < 10)%nat -> (forall b, shares reads d (k b)) ->
    shares reads d (p_check_layers n ls ok k).
  Proof.
    induction ls as [|l ls IH]; intros d ok k I L K; cbn [p_check_layers]; [apply K|].
    unfold peek. cbn [shares]. split; [reflexivity|]. split; [apply I; left; reflexivity|]. split; [exact L|]. intros x.
    split; [lia|]. cbn [pred]. apply IH; auto. intros l' Il. apply I. right. exact Il.
  Qed.
  Lemma blend_validate_exec (w : world) (j : hbjob F) r w' :
    (forall b, In b (opt (hb_output j) ++ map hl_transform (hb_layers j ++ hb_additive j)) -> readable (w_lock w (TSoa, b))) ->
    exec (p_blend_validate j) w = (r, w') -> r = Val (blend_validate (blend_in w j)) /\ w_data w' = w_data w.
  Proof.
    intros RD E.
    destruct (read_exec (p_blend_validate j) w (map (pair TSoa) (opt (hb_output j) ++ map hl_transform (hb_layers j ++ hb_additive j))) r w') as [-> D]; [| |exact E|].
    - intros a I. apply in_map_iff in I. destruct I as (b & <- & I). apply RD, I.
    - assert (IL : forall l, In l (hb_layers j ++ hb_additive j) -> In (TSoa, hl_transform l) (map (pair TSoa) (opt (hb_output j) ++ map hl_transform (hb_layers j ++ hb_additive j)))).
      { intros l I. apply (in_map (pair TSoa)), in_or_app. right. apply in_map, I. }
      unfold p_blend_validate. destruct (hb_skeleton j); [|exact I]. destruct (hb_context j); [|exact I]. destruct (hb_output j) as [o|]; [|exact I].
      unfold peek. cbn [shares]. split; [reflexivity|]. split; [left; reflexivity|]. split; [lia|]. intros x.
      apply shares_check_layers; [intros l I; apply IL, in_or_app; auto|lia|]. intros b1.
      apply shares_check_layers; [intros l I; apply IL, in_or_app; auto|lia|]. intros b2. exact I.
    - split; [|exact D]. unfold p_blend_validate, blend_validate, blend_in. cbn [bj_skeleton bj_context bj_output bj_threshold bj_layers bj_additive].
      destruct (hb_skeleton j); [|reflexivity]. destruct (hb_context j); [|reflexivity]. destruct (hb_output j) as [o|]; [|reflexivity].
      unfold peek. cbn [val option_map]. rewrite val_check_layers, val_check_layers. reflexivity.
  Qed.
  Lemma ltm_validate_exec (w : world) (j : hljob F) r w' :
    (forall b, In b (opt (hj_input j)) -> readable (w_lock w (TSoa, b))) -> (forall b, In b (opt (hj_output j)) -> readable (w_lock w (TMat, b))) ->
    exec (p_ltm_validate j) w = (r, w') -> r = Val (ltm_validate (ltm_in w j)) /\ w_data w' = w_data w.
  Proof.
    intros RI RO E.
    destruct (read_exec (p_ltm_validate j) w (map (pair TSoa) (opt (hj_input j)) ++ map (pair TMat) (opt (hj_output j))) r w') as [-> D]; [| |exact E|].
    - intros a I. apply in_app_or in I. destruct I as [I|I]; apply in_map_iff in I; destruct I as (b & <- & I); auto.
    - unfold p_ltm_validate. destruct (hj_skeleton j); [|exact I]. destruct (hj_input j) as [i|]; [|exact I].
      cbn. split; [reflexivity|]. split; [left; reflexivity|]. split; [lia|]. intros x.
      destruct (hj_output j) as [o|]; [|exact I]. cbn. split; [reflexivity|]. split; [right; left; reflexivity|]. split; [lia|]. intros y. exact I.
    - split; [|exact D]. unfold p_ltm_validate, ltm_validate, ltm_in, ltm_of. cbn [lj_skeleton lj_input lj_output].
      destruct (hj_skeleton j); [|reflexivity]. destruct (hj_input j) as [i|]; [|reflexivity].
      unfold peek. cbn [val option_map]. destruct (hj_output j) as [o|]; reflexivity.
  Qed.
  Lemma val_temp (w : world) t b size (k : bool -> prog bool) :
    val (p_temp t b size k) (w_data w) = match b with Some x => val (k (sized (option_map (w_data w t) b) size)) (w_data w) | None => Ok false end.
  Proof. destruct b; reflexivity. Qed.
  Lemma shares_temp reads d t b size (k : bool -> prog bool) : (forall x, b = Some x -> In (t, x) reads) -> (d < 10)%nat ->
    (forall x, shares reads d (k x)) -> shares reads d (p_temp t b size k).
  Proof.
    intros I L K. destruct b as [b|]; [|exact Logic.I]. cbn. split; [reflexivity|]. split; [apply I; reflexivity|]. split; [exact L|].
    intros x. split; [lia|]. cbn. apply K.
  Qed.
  Lemma skin_validate_exec checks (w : world) (j : hsjob) r w' :
    (forall a, In a (skin_reads j) -> readable (w_lock w a)) -> (forall b, In b (skin_outs j) -> readable (w_lock w (TV3, b))) ->
    exec (p_skin_validate checks j) w = (r, w') ->
    r = (match skin_validate checks (skin_in w j) with Ok b => Val b | Err e => Fail e | Panic => Panics end) /\ w_data w' = w_data w.
  Proof.
    intros RD RO E.
    destruct (read_exec (p_skin_validate checks j) w (skin_reads j ++ map (pair TV3) (skin_outs j)) r w') as [-> D]; [| |exact E|].
    - intros a I. apply in_app_or in I. destruct I as [I|I]; [auto|]. apply in_map_iff in I. destruct I as (b & <- & I). auto.
    - set (reads := skin_reads j ++ map (pair TV3) (skin_outs j)).
      assert (IM : forall x, hs_matrices j = Some x -> In (TMat, x) reads).
      { intros x Ex. unfold reads, skin_reads. rewrite Ex, !in_app_iff. cbn. tauto. }
      assert (IX : forall x, hs_indices j = Some x -> In (TU16, x) reads).
      { intros x Ex. unfold reads, skin_reads. rewrite Ex, !in_app_iff. cbn. tauto. }
      assert (IW : forall x, hs_weights j = Some x -> In (TF32, x) reads).
      { intros x Ex. unfold reads, skin_reads. rewrite Ex, !in_app_iff. cbn. tauto. }
      assert (IP : forall x, hs_positions j = Some x -> In (TV3, x) reads).
      { intros x Ex. unfold reads, skin_reads, skin_ins, vertex_bufs. rewrite Ex, !in_app_iff. cbn. tauto. }
      assert (IO : forall x, hs_out_positions j = Some x -> In (TV3, x) reads).
      { intros x Ex. unfold reads, skin_outs, vertex_bufs. rewrite Ex, !in_app_iff. cbn. tauto. }
      assert (INN : forall x, hs_normals j = Some x -> In (TV3, x) reads).
      { intros x Ex. unfold reads, skin_reads, skin_ins, vertex_bufs. rewrite Ex. cbn [is_some opt]. rewrite !map_app, !in_app_iff. cbn. tauto. }
      assert (INO : forall x, is_some (hs_normals j) = true -> hs_out_normals j = Some x -> In (TV3, x) reads).
      { intros x E1 Ex. unfold reads, skin_outs, vertex_bufs. rewrite E1, Ex. cbn [opt]. rewrite !map_app, !in_app_iff. cbn. tauto. }
      assert (ITT : forall x, is_some (hs_normals j) = true -> hs_tangents j = Some x -> In (TV3, x) reads).
      { intros x E1 Ex. unfold reads, skin_reads, skin_ins, vertex_bufs. rewrite E1, Ex. cbn [is_some opt]. rewrite !map_app, !in_app_iff. cbn. tauto. }
      assert (ITO : forall x, is_some (hs_normals j) = true -> is_some (hs_tangents j) = true -> hs_out_tangents j = Some x -> In (TV3, x) reads).
      { intros x E1 E2 Ex. unfold reads, skin_outs, vertex_bufs. rewrite E1, E2, Ex. cbn [opt]. rewrite !map_app, !in_app_iff. cbn. tauto. }
      clearbody reads. unfold p_skin_validate.
      destruct (hs_matrices j) as [mb|]; [|exact I]. cbn [peek shares].
      split; [reflexivity|]. split; [apply IM; reflexivity|]. split; [lia|]. intros ms. split; [lia|]. cbn [pred].
      destruct (hs_indices j) as [xb|] eqn:EX; [|exact I]. cbn [peek shares].
      split; [reflexivity|]. split; [apply IX; reflexivity|]. split; [lia|]. intros ix.
      assert (SL : forall A B (r : res A) (f : A -> prog B) d, (forall a, shares reads d (f a)) -> shares reads d (pbind (lift r) f)).
      { intros A B r0 f d H. destruct r0; cbn; auto. }
      assert (RS : forall ok, shares reads 1 (
                  p_temp TV3 (hs_positions j) (hs_vertex_count j) (fun b1 =>
                  p_temp TV3 (hs_out_positions j) (hs_vertex_count j) (fun b2 =>
                    let ok := ok && b1 && b2 in
                    match hs_normals j with
                    | Some _ =>
                        p_temp TV3 (hs_normals j) (hs_vertex_count j) (fun b3 =>
                        p_temp TV3 (hs_out_normals j) (hs_vertex_count j) (fun b4 =>
                          let ok := ok && b3 && b4 in
                          match hs_tangents j with
                          | Some _ =>
                              p_temp TV3 (hs_tangents j) (hs_vertex_count j) (fun b5 =>
                              p_temp TV3 (hs_out_tangents j) (hs_vertex_count j) (fun b6 => Ret (ok && b5 && b6)))
                          | None => Ret ok
                          end))
                    | None => Ret (ok && negb (is_some (hs_tangents j)))
                    end)))).
      { intros ok. apply shares_temp; [exact IP|lia|]. intros b1. apply shares_temp; [exact IO|lia|]. intros b2. cbv zeta.
        destruct (hs_normals j) as [nb|] eqn:EN; [|exact I].
        apply shares_temp; [exact INN|lia|]. intros b3. apply shares_temp; [intros x Ex; apply INO; auto|lia|].
        intros b4. destruct (hs_tangents j) as [tb|] eqn:ET; [|exact I].
        apply shares_temp; [intros x Ex; apply ITT; auto|lia|]. intros b5. apply shares_temp; [intros x Ex; apply ITO; auto|lia|].
        intros b6. exact I. }
      apply SL. intros si. destruct (1 <? hs_influences j)%N; [|apply RS].
      destruct (hs_weights j) as [wb|] eqn:EW; [|exact I]. cbn [peek shares].
      split; [reflexivity|]. split; [apply IW; reflexivity|]. split; [lia|]. intros ws.
      apply SL. intros sw. cbn [shares]. split; [lia|]. cbn [pred]. apply RS.
    - split; [|exact D].
      assert (VL : forall A B (r : res A) (f : A -> prog B) d, val (pbind (lift r) f) d = (let* a := r in val (f a) d)).
      { intros A B r0 f d. destruct r0; reflexivity. }
      assert (EQ : val (p_skin_validate checks j) (w_data w) = skin_validate checks (skin_in w j)).
      { unfold p_skin_validate, skin_validate.
        cbn [skin_in sj_vertex_count sj_influences sj_outs sj_matrices sj_indices sj_weights sj_positions sj_normals sj_tangents so_positions so_normals so_tangents].
        destruct (hs_matrices j) as [mb|]; [|reflexivity]. cbn [peek val option_map].
        destruct (hs_indices j) as [xb|]; [|reflexivity]. cbn [peek val option_map]. rewrite VL.
        destruct (umul checks _ (hs_influences j)) as [si| |]; [|reflexivity..]. cbn [bind].
        match goal with |- context [sized_at si ?l] => change (sized (Some l) si) with (sized_at (t := TU16) si l) end.
        set (ok := (0 <? hs_influences j)%N && _ && _). clearbody ok.
        assert (RS : forall ok, val (
                  p_temp TV3 (hs_positions j) (hs_vertex_count j) (fun b1 =>
                  p_temp TV3 (hs_out_positions j) (hs_vertex_count j) (fun b2 =>
                    let ok := ok && b1 && b2 in
                    match hs_normals j with
                    | Some _ =>
                        p_temp TV3 (hs_normals j) (hs_vertex_count j) (fun b3 =>
                        p_temp TV3 (hs_out_normals j) (hs_vertex_count j) (fun b4 =>
                          let ok := ok && b3 && b4 in
                          match hs_tangents j with
                          | Some _ =>
                              p_temp TV3 (hs_tangents j) (hs_vertex_count j) (fun b5 =>
                              p_temp TV3 (hs_out_tangents j) (hs_vertex_count j) (fun b6 => Ret (ok && b5 && b6)))
                          | None => Ret ok
                          end))
                    | None => Ret (ok && negb (is_some (hs_tangents j)))
                    end))) (w_data w) =
             Ok (ok && sized (option_map (w_data w TV3) (hs_positions j)) (hs_vertex_count j) &&
                 sized (option_map (w_data w TV3) (hs_out_positions j)) (hs_vertex_count j) &&
                 match option_map (w_data w TV3) (hs_normals j) with
                 | Some _ => sized (option_map (w_data w TV3) (hs_normals j)) (hs_vertex_count j) &&
                             sized (option_map (w_data w TV3) (hs_out_normals j)) (hs_vertex_count j) &&
                     match option_map (w_data w TV3) (hs_tangents j) with
                     | Some _ => sized (option_map (w_data w TV3) (hs_tangents j)) (hs_vertex_count j) &&
                                 sized (option_map (w_data w TV3) (hs_out_tangents j)) (hs_vertex_count j)
                     | None => true
                     end
                 | None => negb (is_some (option_map (w_data w TV3) (hs_tangents j)))
                 end)).
        { intros ok0.
          rewrite val_temp. destruct (hs_positions j) as [pb|]; [|cbn; rewrite andb_false_r; reflexivity].
          rewrite val_temp. destruct (hs_out_positions j) as [po|]; [|cbn; rewrite !andb_false_r; reflexivity].
          cbv zeta. destruct (hs_normals j) as [nb|]; cbn [option_map].
          2:{ cbn [val]. destruct (hs_tangents j); reflexivity. }
          rewrite val_temp. cbn [option_map]. rewrite val_temp. destruct (hs_out_normals j) as [no|]; [|cbn; rewrite !andb_false_r; reflexivity].
          destruct (hs_tangents j) as [tb|]; cbn [option_map].
          2:{ cbn [val]. rewrite andb_true_r. rewrite !andb_assoc. reflexivity. }
          rewrite val_temp. cbn [option_map]. rewrite val_temp. destruct (hs_out_tangents j) as [to|]; [|cbn; rewrite !andb_false_r; reflexivity].
          cbn [val option_map]. rewrite !andb_assoc. reflexivity. }
        destruct (1 <? hs_influences j)%N.
        - destruct (hs_weights j) as [wb|]; [|cbn [val option_map bind]; rewrite andb_false_r; reflexivity].
          cbn [peek val option_map]. rewrite VL.
          destruct (umul checks _ (hs_influences j - 1)) as [sw| |]; [|reflexivity..]. cbn [bind]. cbn [val]. rewrite RS. reflexivity.
        - cbn [bind]. rewrite RS, andb_true_r. reflexivity. }
      rewrite EQ. reflexivity.
  Qed.

  (** ** The jobs with one input and one output *)
  Lemma ltm_distinct checks (w : world) (j : hljob F) r w' :
    (forall b, In b (opt (hj_input j)) -> readable (w_lock w (TSoa, b))) -> (forall b, In b (opt (hj_output j)) -> idle (w_lock w (TMat, b))) ->
    exec (p_ltm checks j) w = (r, w') ->
    match ltm_run checks (ltm_in w j) with
    | Ok out => r = Val tt /\ option_map (w_data w' TMat) (hj_output j) = Some out
    | Err e => r = Fail e /\ w_data w' = w_data w
    | Panic => r = Panics
    end /\ only_changes (map (pair TMat) (opt (hj_output j))) w w'.
  Proof.
    intros RI IO. unfold exec, p_ltm, ltm_in, ltm_of.
    destruct (hj_skeleton j) as [sk|]; [|cbn; intros Q; inversion Q; subst; split; [auto|intros t b _; reflexivity]].
    destruct (hj_input j) as [i|]; [|cbn; intros Q; inversion Q; subst; split; [auto|intros t b _; reflexivity]].
    cbn [need pbind]. unfold borrow. cbn [pbind eval].
    destruct (readable_acquire _ (RI i (or_introl eq_refl))) as [l1 E1]. rewrite E1.
    destruct (hj_output j) as [o|]; [|cbn; intros Q; inversion Q; subst; split; [auto|intros t b _; reflexivity]].
    cbn [need pbind eval w_lock option_map opt map]. rewrite put_lock_ne by discriminate.
    destruct (idle_acquire _ (IO o (or_introl eq_refl))) as [l2 E2]. rewrite E2.
    cbn [load pbind eval w_data]. rewrite eval_bind, eval_lift.
    change (den F TSoa) with soa. change (den F TMat) with (mat4 F).
    match goal with |- context [ltm_run checks ?jj] => destruct (ltm_run checks jj) as [out|e|] end;
      cbn [eval leave]; intros Q; apply (f_equal (fun p => (fst p, snd p))) in Q; cbn [fst snd] in Q; apply pair_equal_spec in Q; destruct Q as [<- <-].
    - split; [split; [reflexivity|]|].
      + rewrite ?drop_all_data. cbn [w_data]. apply f_equal. exact (put_data_eq _ TMat o _).
      + intros t b N. rewrite ?drop_all_data. cbn [w_data]. apply put_data_ne. intros X. apply N. left. exact X.
    - split; [auto|]. intros t b _. rewrite ?drop_all_data. reflexivity.
    - split; [auto|]. intros t b _. rewrite ?drop_all_data. reflexivity.
  Qed.
  Lemma sampling_distinct {C} an cx (job : list soa -> res (C * list soa)) o (w : world) r w' :
    idle (w_lock w (TSoa, o)) ->
    exec (p_sampling an cx job (Some o)) w = (r, w') ->
    match (if an && cx then job (w_data w TSoa o) else Err InvalidJob) with
    | Ok (c, out) => r = Val c /\ w_data w' TSoa o = out
    | Err e => r = Fail e /\ w_data w' = w_data w
    | Panic => r = Panics
    end /\ only_changes [(TSoa, o)] w w'.
  Proof.
    intros IO. unfold exec, p_sampling.
    destruct an; [|cbn; intros Q; inversion Q; subst; split; [auto|intros t b _; reflexivity]].
    destruct cx; [|cbn; intros Q; inversion Q; subst; split; [auto|intros t b _; reflexivity]].
    cbn [guard_ pbind need]. unfold borrow. cbn [pbind eval andb].
    destruct (idle_acquire _ IO) as [l2 E2]. rewrite E2.
    cbn [load pbind eval w_data]. rewrite eval_bind, eval_lift.
    change (den F TSoa) with soa.
    destruct (job (w_data w TSoa o)) as [[c out]|e|];
      cbn [eval leave fst snd]; intros Q; apply (f_equal (fun p => (fst p, snd p))) in Q; cbn [fst snd] in Q; apply pair_equal_spec in Q; destruct Q as [<- <-].
    - split; [split; [reflexivity|]|].
      + rewrite ?drop_all_data. cbn [w_data]. exact (put_data_eq _ TSoa o _).
      + intros t b N. rewrite ?drop_all_data. cbn [w_data]. apply put_data_ne. intros X. apply N. left. exact X.
    - split; [auto|]. intros t b _. rewrite ?drop_all_data. reflexivity.
    - split; [auto|]. intros t b _. rewrite ?drop_all_data. reflexivity.
  Qed.

  (** ** Poisoned locks *)
  Lemma got_clean l m l' : acquire l m = Got l' -> lk_kind l = KLock -> lk_poison l = false /\ lk_kind l' = KLock /\ lk_poison l' = false.
  Proof.
    intros E K. unfold acquire in E. rewrite K in E.
    destruct (match m with Sh => _ | Ex => _ end); [discriminate|]. destruct (match m with Sh => _ | Ex => false end); [discriminate|].
    destruct (lk_poison l) eqn:P; [discriminate|]. inversion E. destruct m; auto.
  Qed.
  Lemma plan_clean {A} (k : prog A) ss : forall (w : world) g a w' g', eval (p_steps ss k) w g = EVal a w' g' ->
    forall b m, In (b, m) (gs ss) -> lk_kind (w_lock w b) = KLock -> lk_poison (w_lock w b) = false.
  Proof.
    induction ss as [|[t b m size|e|] ss IH]; intros w g a w' g' E b' m' I K; cbn [gs p_steps eval] in *; try discriminate; [destruct I|].
    destruct (acquire (w_lock w (t, b)) m) as [l'| | |] eqn:Q; try discriminate. cbn [w_data] in E.
    destruct (_ <=? _)%N; [|discriminate]. destruct (addr_eq (t, b) b') as [<-|n].
    - apply (got_clean _ _ _ Q K).
    - destruct I as [I|I]; [congruence|]. specialize (IH _ _ _ _ _ E b' m' I). cbn in IH. rewrite put_lock_ne in IH by exact n. auto.
  Qed.
  Lemma skin_clean checks (w : world) (j : hsjob) w' : exec (p_skin checks j) w = (Val tt, w') ->
    (forall b, In b (skin_ins j ++ skin_outs j) -> lk_kind (w_lock w (TV3, b)) = KLock -> lk_poison (w_lock w (TV3, b)) = false).
  Proof.
    unfold exec. rewrite (skin_plan checks j w []).
    destruct (eval (p_steps (plan checks j) _) w []) as [a w1 g1|e w1 g1|w1 g1|w1 g1] eqn:E; cbn; try discriminate. intros _ b I K.
    destruct (plan_cases (plan checks j) w []) as [(B & w2 & _ & E2)|H].
    2:{ specialize (H unit (p_body checks j)). rewrite E in H. destruct H. }
    pose proof (plan_good_guards checks w j B) as G. pose proof (plan_clean _ _ _ _ _ _ _ E (TV3, b)) as C. rewrite G in C.
    apply in_app_or in I. destruct I as [I|I].
    - apply (C Sh); [|exact K]. apply in_or_app. left. apply (in_map (fun a : addr => (a, Sh))), in_or_app. right. apply in_map, I.
    - apply (C Ex); [|exact K]. apply in_or_app. right. apply (in_map (fun b => (TV3, b, Ex))), I.
  Qed.
  Lemma blend_clean (w : world) (j : hbjob F) c w' : exec (p_blend j) w = (Val c, w') ->
    (forall o, hb_output j = Some o -> lk_kind (w_lock w (TSoa, o)) <> KFree \/ ~ alias o (hb_layers j ++ hb_additive j)) ->
    forall b, In b (opt (hb_output j) ++ map hl_transform (hb_layers j ++ hb_additive j)) ->
      lk_kind (w_lock w (TSoa, b)) = KLock -> lk_poison (w_lock w (TSoa, b)) = false.
  Proof.
    intros E H b I K. destruct (blend_opens w j c w' E) as (o & Ho & (l' & A) & R). specialize (R (H o Ho)).
    rewrite Ho in I. cbn [opt app] in I. destruct I as [<-|I]; [apply (got_clean _ _ _ A K)|].
    apply in_map_iff in I. destruct I as (l & <- & I). destruct (R l I) as (_ & l2 & A2). apply (got_clean _ _ _ A2 K).
  Qed.
  (** A panic poisons the locks held exclusively. *)
  Lemma drop_all_poison g : forall w : world, (forall a, lk_poison (w_lock w a) = true -> lk_poison (w_lock (drop_all true w g) a) = true) /\
    forall a, In (a, Ex) g -> lk_kind (w_lock w a) = KLock -> lk_poison (w_lock (drop_all true w g) a) = true.
  Proof.
    assert (P1 : forall (w : world) h a, lk_poison (w_lock w a) = true -> lk_poison (w_lock (drop_one true w h) a) = true).
    { intros w [b m] a P. unfold drop_one. cbn [w_lock fst snd]. destruct (addr_eq b a) as [<-|n]; [rewrite put_lock_eq|rewrite put_lock_ne by exact n; exact P].
      unfold release. destruct (lk_kind (w_lock w b)); [exact P| |]; destruct m; cbn; rewrite ?P; reflexivity. }
    induction g as [|[b m] g IH]; intros w; (split; [|]).
    - auto.
    - intros a [].
    - intros a P. apply (proj1 (IH (drop_one true w (b, m)))). apply P1, P.
    - intros a [E|I] K.
      + inversion E; subst. apply (proj1 (IH (drop_one true w (a, Ex)))). unfold drop_one. cbn [w_lock fst snd]. rewrite put_lock_eq.
        unfold release. rewrite K. cbn. apply orb_true_r.
      + apply (proj2 (IH (drop_one true w (b, m)))); [exact I|]. rewrite (drop_one_kinds true w (b, m) a). exact K.
  Qed.
  Definition kept {A} (w : world) (g : guards) (e : ev A) : Prop :=
    match e with
    | EVal _ w' g' | EFail _ w' g' | EPan w' g' | EBlock w' g' =>
        (forall a, lk_kind (w_lock w' a) = lk_kind (w_lock w a)) /\
        (forall a, In (a, Ex) g -> In (a, Ex) g') /\ (forall t b, In ((t, b), Ex) g' \/ w_data w' t b = w_data w t b)
    end.
  Lemma kept_eval {A} (p : prog A) Q : forall (w : world) g, guarded g p Q -> kept w g (eval p w g).
  Proof.
    induction p as [a|e| |a m q IHq k IHk|k IHk|t b k IHk|t b x k IHk]; intros w g G; cbn [eval guarded] in *; try (cbn; auto; fail).
    - destruct G as [G1 G2]. destruct (acquire (w_lock w a) m) as [l'| | |] eqn:E; [|apply IHq, G1|cbn; auto..].
      specialize (IHk (mk_world (put_lock (w_lock w) a l') (w_data w)) _ G2).
      assert (KK := kinds_acquire _ _ _ _ E).
      destruct (eval k _ _); cbn in IHk |- *; destruct IHk as (H0 & H1 & H2); (split; [intros a'; rewrite H0; apply KK|split; [intros a' I; apply H1; right; exact I|exact H2]]).
    - destruct g as [|[a []] g]; [destruct G| |destruct G]. specialize (IHk (drop_one false w (a, Sh)) _ G).
      destruct (eval k _ _); cbn [kept] in IHk |- *; destruct IHk as (H0 & H1 & H2);
        (split; [intros a'; rewrite H0; apply drop_one_kinds|split; [intros a' I; apply H1; destruct I as [I|I]; [inversion I|exact I]|exact H2]]).
    - apply IHk, G.
    - destruct G as [G1 G2]. specialize (IHk (mk_world (w_lock w) (put_data (w_data w) t b x)) _ G2).
      destruct (eval k _ _); cbn [kept w_data w_lock] in IHk |- *; destruct IHk as (H0 & H1 & H2);
        (split; [exact H0|split; [exact H1|]]; intros t' b';
         destruct (addr_eq (t, b) (t', b')) as [EQ|NE]; [left; rewrite <- EQ; apply H1, G1|
           destruct (H2 t' b') as [D|D]; [left; exact D|right; rewrite D; apply put_data_ne, NE]]).
  Qed.
  Lemma torn_poisons {A} (p : prog A) Q (w w' : world) t b : guarded [] p Q -> exec p w = (Panics, w') ->
    w_data w' t b <> w_data w t b -> lk_kind (w_lock w (t, b)) = KLock -> lk_poison (w_lock w' (t, b)) = true.
  Proof.
    intros G E D K. unfold exec in E. pose proof (kept_eval p Q w [] G) as H.
    destruct (eval p w []) as [a w1 g1|e w1 g1|w1 g1|w1 g1]; cbn [leave] in E; try discriminate.
    apply pair_equal_spec in E. destruct E as [_ <-]. destruct H as (H0 & _ & H2).
    apply (proj2 (drop_all_poison g1 w1)); [|rewrite H0; exact K].
    destruct (H2 t b) as [I|Q']; [exact I|]. destruct D. rewrite drop_all_data. exact Q'.
  Qed.
  (** The output, the first buffer borrowed, is poisoned by a panic. *)
  Lemma blend_panic_poisons (w : world) (j : hbjob F) o w' :
    hb_output j = Some o -> lk_kind (w_lock w (TSoa, o)) = KLock -> idle (w_lock w (TSoa, o)) ->
    exec (p_blend j) w = (Panics, w') -> lk_poison (w_lock w' (TSoa, o)) = true.
  Proof.
    intros Ho K Hi. pose proof (guarded_blend j) as G. unfold exec. unfold p_blend in *. rewrite Ho in *.
    destruct (hb_skeleton j) as [sk|]; [|discriminate]. destruct (hb_context j) as [ctx|]; [|discriminate].
    cbn [need pbind] in *. unfold borrow in *. cbn [pbind eval guarded] in *. destruct G as [_ G].
    destruct (idle_acquire _ Hi) as [l' E]. rewrite E.
    match goal with |- leave (eval ?p ?w0 ?g) = _ -> _ => pose proof (kept_eval p _ w0 g G) as H; destruct (eval p w0 g) as [a w1 g1|e w1 g1|w1 g1|w1 g1] end;
      cbn [leave]; try discriminate.
    intros Q. apply pair_equal_spec in Q. destruct Q as [_ <-]. destruct H as (H0 & H1 & _).
    apply (proj2 (drop_all_poison g1 w1)); [apply H1; left; reflexivity|]. rewrite H0.
    pose proof (kinds_acquire _ _ _ _ E (TSoa, o)) as KA. cbn in KA |- *. rewrite KA. exact K.
  Qed.
  Lemma ltm_panic_poisons checks (w : world) (j : hljob F) i o w' :
    hj_input j = Some i -> hj_output j = Some o -> lk_kind (w_lock w (TMat, o)) = KLock ->
    readable (w_lock w (TSoa, i)) -> idle (w_lock w (TMat, o)) ->
    exec (p_ltm checks j) w = (Panics, w') -> lk_poison (w_lock w' (TMat, o)) = true.
  Proof.
    intros Hin Ho K Ri Hi. pose proof (guarded_ltm checks j) as G. unfold exec. unfold p_ltm in *. rewrite Hin, Ho in *.
    destruct (hj_skeleton j) as [sk|]; [|discriminate].
    cbn [need pbind] in *. unfold borrow in *. cbn [pbind eval guarded] in *. destruct G as [_ [_ G]].
    destruct (readable_acquire _ Ri) as [l1 E1]. rewrite E1. cbn [w_lock]. rewrite put_lock_ne by discriminate.
    destruct (idle_acquire _ Hi) as [l' E]. rewrite E. cbn [w_data].
    match goal with |- leave (eval ?p ?w0 ?g) = _ -> _ => pose proof (kept_eval p _ w0 g G) as H; destruct (eval p w0 g) as [a w1 g1|e w1 g1|w1 g1|w1 g1] end;
      cbn [leave]; try discriminate.
    intros Q. apply pair_equal_spec in Q. destruct Q as [_ <-]. destruct H as (H0 & H1 & _).
    apply (proj2 (drop_all_poison g1 w1)); [apply H1; left; reflexivity|]. rewrite H0.
    pose proof (kinds_acquire _ _ _ _ E (TMat, o)) as KA. cbn in KA |- *. rewrite put_lock_eq in *. rewrite KA. exact K.
  Qed.
  Lemma sampling_panic_poisons {C} an cx (job : list soa -> res (C * list soa)) o (w : world) w' :
    lk_kind (w_lock w (TSoa, o)) = KLock -> idle (w_lock w (TSoa, o)) ->
    exec (p_sampling an cx job (Some o)) w = (Panics, w') -> lk_poison (w_lock w' (TSoa, o)) = true.
  Proof.
    intros K Hi. pose proof (guarded_sampling an cx job (Some o)) as G. unfold exec. unfold p_sampling in *.
    destruct an; [|discriminate]. destruct cx; [|discriminate].
    cbn [need pbind guard_] in *. unfold borrow in *. cbn [pbind eval guarded] in *. destruct G as [_ G].
    destruct (idle_acquire _ Hi) as [l' E]. rewrite E.
    match goal with |- leave (eval ?p ?w0 ?g) = _ -> _ => pose proof (kept_eval p _ w0 g G) as H; destruct (eval p w0 g) as [a w1 g1|e w1 g1|w1 g1|w1 g1] end;
      cbn [leave]; try discriminate.
    intros Q. apply pair_equal_spec in Q. destruct Q as [_ <-]. destruct H as (H0 & H1 & _).
    apply (proj2 (drop_all_poison g1 w1)); [apply H1; left; reflexivity|]. rewrite H0.
    pose proof (kinds_acquire _ _ _ _ E (TSoa, o)) as KA. cbn in KA |- *. rewrite KA. exact K.
  Qed.
  (** A poisoned lock is an error. *)
  Lemma ltm_clean checks (w : world) (j : hljob F) w' : exec (p_ltm checks j) w = (Val tt, w') ->
    (forall b, In b (opt (hj_input j)) -> lk_kind (w_lock w (TSoa, b)) = KLock -> lk_poison (w_lock w (TSoa, b)) = false) /\
    (forall b, In b (opt (hj_output j)) -> lk_kind (w_lock w (TMat, b)) = KLock -> lk_poison (w_lock w (TMat, b)) = false).
  Proof.
    unfold exec, p_ltm. destruct (hj_skeleton j) as [sk|]; [|discriminate]. destruct (hj_input j) as [i|]; [|discriminate].
    cbn [need pbind]. unfold borrow. cbn [pbind eval].
    destruct (acquire (w_lock w (TSoa, i)) Sh) as [l1| | |] eqn:E1; try discriminate.
    destruct (hj_output j) as [o|]; [|discriminate]. cbn [need pbind eval w_lock]. rewrite put_lock_ne by discriminate.
    destruct (acquire (w_lock w (TMat, o)) Ex) as [l2| | |] eqn:E2; try discriminate.
    intros _. split; intros b [<-|[]] K; [apply (got_clean _ _ _ E1 K)|apply (got_clean _ _ _ E2 K)].
  Qed.
  Lemma sampling_clean {C} an cx (job : list soa -> res (C * list soa)) o (w : world) c w' :
    exec (p_sampling an cx job (Some o)) w = (Val c, w') ->
    lk_kind (w_lock w (TSoa, o)) = KLock -> lk_poison (w_lock w (TSoa, o)) = false.
  Proof.
    unfold exec, p_sampling. destruct an; [|discriminate]. destruct cx; [|discriminate].
    cbn [need pbind guard_]. unfold borrow. cbn [pbind eval].
    destruct (acquire (w_lock w (TSoa, o)) Ex) as [l1| | |] eqn:E1; try discriminate. intros _ K. apply (got_clean _ _ _ E1 K).
  Qed.
End More.
