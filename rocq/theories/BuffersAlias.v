(** Proofs: jobs whose buffers alias. *)
From Verif Require Import Base Num Math Skeleton Sampling Blending BlendingProofs Skinning SkinningProofs Buffers BuffersSpec BuffersProofs.
Local Open Scope num_scope.

Section Alias.
  Context {F : Type} {NF : Num F}.
  Notation world := (world F). Notation prog := (prog F). Notation ev := (ev F).
  Notation soa := (transform (V4 F)).

  (** ** Programs that neither borrow nor fail, and write to [outs] only *)
  Fixpoint calm {A} (outs : list addr) (p : prog A) : Prop :=
    match p with
    | Ret _ | Pan => True
    | Throw _ | Acq _ _ _ _ | Drop _ => False
    | Load t b k => forall x, calm outs (k x)
    | Store t b x k => In (t, b) outs /\ calm outs k
    end.
  Lemma calm_bind {A B} outs (p : prog A) (f : A -> prog B) :
    calm outs p -> (forall a, calm outs (f a)) -> calm outs (pbind p f).
  Proof.
    intros Hp Hf. induction p as [a|e| |a m q IHq k IHk|k IHk|t b k IHk|t b x k IHk]; cbn in *; auto; try tauto.
  Qed.
  Lemma calm_lift {A} outs (r : res A) : (forall e, r <> Err e) -> calm outs (lift r).
  Proof. intros H. destruct r; cbn; auto. apply (H e eq_refl). Qed.
  Lemma calm_rd outs t b i : calm outs (rd t b i).
  Proof. intros l. apply calm_lift. intros e. apply get_err. Qed.
  Lemma calm_wr outs t b i v : In (t, b) outs -> calm outs (wr t b i v).
  Proof. intros H l. destruct (set l i v); cbn; auto. Qed.
  Lemma calm_for {S} outs (body : nat -> S -> prog S) n : forall k s,
    (forall i s, calm outs (body i s)) -> calm outs (pfor n k body s).
  Proof.
    induction n as [|n IH]; intros k s H; cbn [pfor]; [exact I|]. apply calm_bind; [apply H|]. intros s'. apply IH, H.
  Qed.
  (** Programs that write to [outs] only *)
  Fixpoint writes {A} (outs : list addr) (p : prog A) : Prop :=
    match p with
    | Ret _ | Pan | Throw _ => True
    | Acq _ _ q k => writes outs q /\ writes outs k
    | Drop k => writes outs k
    | Load t b k => forall x, writes outs (k x)
    | Store t b x k => In (t, b) outs /\ writes outs k
    end.
  Lemma calm_writes {A} outs (p : prog A) : calm outs p -> writes outs p.
  Proof. induction p; cbn; try tauto. auto. Qed.
  Lemma writes_bind {A B} outs (p : prog A) (f : A -> prog B) :
    writes outs p -> (forall a, writes outs (f a)) -> writes outs (pbind p f).
  Proof. intros Hp Hf. induction p; cbn in *; auto; try tauto. Qed.
  Lemma writes_eval {A} outs (p : prog A) : forall w g, writes outs p -> only_changes outs w (snd (leave (eval p w g))).
  Proof.
    assert (DD : forall b (w2 : world) g2, w_data (drop_all b w2 g2) = w_data w2).
    { clear. intros b w2 g2. revert w2. induction g2 as [|h g2 IH]; intros w2; cbn; [reflexivity|]. exact (IH (drop_one b w2 h)). }
    induction p as [a|e| |a m q IHq k IHk|k IHk|t b k IHk|t b x k IHk]; intros w g C; cbn [eval writes] in *.
    1,2,3: intros t b _; cbn; rewrite DD; reflexivity.
    - destruct (acquire (w_lock w a) m).
      + intros t b N. rewrite (IHk _ _ (proj2 C) t b N). reflexivity.
      + apply IHq, C.
      + intros t b _; cbn; rewrite DD; reflexivity.
      + intros t b _; reflexivity.
    - destruct g as [|h g]; [apply IHk, C|]. intros t b N. rewrite (IHk _ _ C t b N). reflexivity.
    - apply IHk, C.
    - intros t' b' N. rewrite (IHk _ _ (proj2 C) t' b' N). cbn. apply put_data_ne. intros Q. apply N. rewrite <- Q. apply C.
  Qed.
  Definition unch (outs : list addr) (w w' : world) : Prop :=
    w_lock w' = w_lock w /\ only_changes outs w w'.
  Lemma calm_eval {A} outs (p : prog A) : forall w g, calm outs p ->
    match eval p w g with
    | EVal _ w' g' | EPan w' g' => g' = g /\ unch outs w w'
    | _ => False
    end.
  Proof.
    induction p as [a|e| |a m q IHq k IHk|k IHk|t b k IHk|t b x k IHk]; intros w g C; cbn in *; try tauto.
    - repeat split.
    - repeat split.
    - apply IHk, C.
    - destruct C as [I C]. specialize (IHk (mk_world (w_lock w) (put_data (w_data w) t b x)) g C).
      destruct (eval k _ g); try tauto; destruct IHk as (-> & L & D); (split; [reflexivity|split; [exact L|]]);
        intros t' b' N; rewrite (D t' b' N); cbn; apply put_data_ne; congruence.
  Qed.

  Ltac calm_tac :=
    repeat first
      [ exact I | apply calm_for; intros | apply calm_bind; [|intros] | apply calm_rd
      | apply calm_wr; solve [cbn; auto] | apply calm_lift; intros; first [apply get_err|apply set_err|apply weight_err] ].
  Lemma calm_layer_pass o n l first accs : calm [(TSoa, o)] (p_layer_pass o n l first accs).
  Proof. unfold p_layer_pass. calm_tac. Qed.
  Lemma calm_additive_pass o n l v sub : calm [(TSoa, o)] (p_additive_pass o n l v sub).
  Proof. unfold p_additive_pass. calm_tac. Qed.
  Lemma calm_normalize o rest (c : bctx F) : calm [(TSoa, o)] (p_normalize o rest c).
  Proof.
    unfold p_normalize. apply calm_bind; [intros x; exact I|]. intros out. calm_tac.
    apply calm_lift. intros e. destruct (bc_partial c =? 0)%nat; [discriminate|].
    destruct (get (bc_weights c) i) eqn:G; cbn; try discriminate. destruct (get_err _ _ _ G).
  Qed.
  Lemma calm_rest_pose o rest thr (c : bctx F) : calm [(TSoa, o)] (p_rest_pose o rest thr c).
  Proof.
    unfold p_rest_pose. destruct (bc_partial c =? 0)%nat; [|calm_tac].
    destruct (nlt nzero (thr - bc_weight c)); [|exact I].
    destruct (bc_passes c =? 0)%nat; [|calm_tac].
    apply calm_bind; [intros x; exact I|]. intros x. apply calm_bind; [destruct (_ =? _)%nat; exact I|]. intros _. calm_tac.
  Qed.

  (** ** Blending: the loop over layers, with the output borrowed *)
  Definition alias (o : nat) (ls : list (hlayer F)) : Prop := exists l, In l ls /\ hl_transform l = o.
  Definition taken (w : world) (a : addr) : Prop := lk_kind (w_lock w a) <> KFree /\ lk_writer (w_lock w a) = true.
  Lemma taken_acquire (w : world) a m : taken w a ->
    acquire (w_lock w a) m = match lk_kind (w_lock w a) with KCell => Refused | _ => Wait end.
  Proof. intros [K T]. unfold acquire. rewrite T. destruct (lk_kind (w_lock w a)); [congruence| |]; destruct m; reflexivity. Qed.
  Lemma taken_sl (w w' : world) a : sl w w' -> taken w a -> taken w' a.
  Proof. intros H [A B]. unfold taken. rewrite H. split; assumption. Qed.

  (** A layer whose buffer is the output is not entered. *)
  Lemma enter_taken o n (l : hlayer F) w g : taken w (TSoa, o) -> hl_transform l = o ->
    eval (p_enter n l) w g = match lk_kind (w_lock w (TSoa, o)) with KCell => EPan w g | _ => EBlock w g end.
  Proof.
    intros T E. unfold p_enter, borrow. cbn [pbind eval]. rewrite E, (taken_acquire _ _ _ T).
    destruct (lk_kind (w_lock w (TSoa, o))); reflexivity.
  Qed.
  (** Entering a layer: which lock is taken, and what dropping it restores. *)
  Lemma enter_cases o n (l : hlayer F) (w : world) g : hl_transform l <> o ->
    match eval (p_enter n l) w g with
    | EVal _ w1 g1 =>
        layer_ok n (layer_in w l) = true /\
        exists l', acquire (w_lock w (TSoa, hl_transform l)) Sh = Got l' /\ w1 = entered w l' (hl_transform l) /\
                   g1 = ((TSoa, hl_transform l), Sh) :: g
    | EFail _ _ _ => readable (w_lock w (TSoa, hl_transform l)) -> layer_ok n (layer_in w l) = true -> False
    | EPan _ _ | EBlock _ _ => readable (w_lock w (TSoa, hl_transform l)) -> False
    end.
  Proof.
    intros Hne. destruct (acquire (w_lock w (TSoa, hl_transform l)) Sh) as [l'| | |] eqn:E.
    - rewrite (eval_enter n l w g l' E). destruct (layer_ok n (layer_in w l)) eqn:K; [|congruence].
      split; [reflexivity|]. exists l'. auto.
    - unfold p_enter, borrow. cbn [pbind eval]. rewrite E. cbn. intros R. destruct (readable_acquire _ R). congruence.
    - unfold p_enter, borrow. cbn [pbind eval]. rewrite E. cbn. intros R. destruct (readable_acquire _ R). congruence.
    - unfold p_enter, borrow. cbn [pbind eval]. rewrite E. cbn. intros R. destruct (readable_acquire _ R). congruence.
  Qed.
  Lemma drop_back (w w2 : world) l' b g : acquire (w_lock w (TSoa, b)) Sh = Got l' -> w_lock w2 = w_lock (entered w l' b) ->
    exists w3, eval (Drop (Ret tt : prog unit)) w2 (((TSoa, b), Sh) :: g) = EVal tt w3 g /\ sl w w3 /\ w_data w3 = w_data w2.
  Proof.
    intros E L. eexists. split; [reflexivity|]. split; [|reflexivity].
    intros a. unfold drop_one. cbn [w_lock fst snd]. rewrite L. cbn [entered w_lock].
    unfold put_lock at 1. destruct (addr_eq (TSoa, b) a) as [<-|n].
    - rewrite put_lock_eq. apply (acquire_release false _ _ _ E). reflexivity.
    - apply put_lock_ne, n.
  Qed.

  Definition oks (n : nat) (w : world) (o : nat) (ls : list (hlayer F)) : Prop :=
    forall l, In l ls -> hl_transform l <> o -> readable (w_lock w (TSoa, hl_transform l)) /\ layer_ok n (layer_in w l) = true.
  Lemma oks_next n (w w' : world) o ls : sl w w' -> only_changes [(TSoa, o)] w w' -> oks n w o ls -> oks n w' o ls.
  Proof.
    intros L D H l I N. destruct (H l I N) as [A B]. rewrite L. split; [exact A|].
    unfold layer_in. rewrite D; [exact B|]. intros [X|[]]. congruence.
  Qed.
  Definition opens (w : world) (ls : list (hlayer F)) : Prop :=
    forall l, In l ls -> exists l', acquire (w_lock w (TSoa, hl_transform l)) Sh = Got l'.
  Lemma opens_alias (w : world) o ls : taken w (TSoa, o) -> opens w ls -> ~ alias o ls.
  Proof.
    intros T H (l & I & E). destruct (H l I) as [l' Q]. rewrite E, (taken_acquire _ _ _ T) in Q.
    destruct (lk_kind _); discriminate.
  Qed.
  (** Outcome of a loop: it gets through only if no layer is the output; and if all the other
      layers are fine, it gets through, panics, or waits for the output's lock. *)
  Definition looped {S} (n o : nat) (ls : list (hlayer F)) (w : world) (g : guards) (e : ev S) : Prop :=
    match e with
    | EVal _ w' g' => g' = g /\ sl w w' /\ only_changes [(TSoa, o)] w w' /\ opens w ls
    | EFail _ _ _ => ~ oks n w o ls
    | EPan _ _ => True
    | EBlock _ _ => oks n w o ls -> lk_kind (w_lock w (TSoa, o)) = KLock
    end.

  (** The output is borrowed, or is not behind a cell and (by Rust's rules) not shared. *)
  Definition sep (w : world) (o : nat) (ls : list (hlayer F)) : Prop :=
    taken w (TSoa, o) \/ forall l, In l ls -> hl_transform l <> o.
  Lemma sep_sl (w w' : world) o ls : sl w w' -> sep w o ls -> sep w' o ls.
  Proof. intros L [T|T]; [left; eapply taken_sl; eassumption|right; exact T]. Qed.
  Lemma sep_tl (w : world) o l ls : sep w o (l :: ls) -> sep w o ls.
  Proof. intros [T|T]; [left; exact T|right]. intros l' I. apply T. right. exact I. Qed.
  Lemma sep_app_l (w : world) o l1 l2 : sep w o (l1 ++ l2) -> sep w o l1.
  Proof. intros [T|T]; [left; exact T|right]. intros l' I. apply T, in_or_app. auto. Qed.
  Lemma sep_app_r (w : world) o l1 l2 : sep w o (l1 ++ l2) -> sep w o l2.
  Proof. intros [T|T]; [left; exact T|right]. intros l' I. apply T, in_or_app. auto. Qed.

  Lemma loop_step {S S'} n o (l : hlayer F) ls (w : world) g (body : prog S) (k : S -> prog S') :
    sep w o (l :: ls) -> calm [(TSoa, o)] body ->
    (forall a w1, sl w w1 -> only_changes [(TSoa, o)] w w1 -> looped n o ls w1 g (eval (k a) w1 g)) ->
    looped n o (l :: ls) w g
      (eval (pbind (p_enter n l) (fun _ => pbind body (fun a => pbind drop (fun _ => k a)))) w g).
  Proof.
    intros T CB IH. rewrite eval_bind. destruct (Nat.eq_dec (hl_transform l) o) as [Eo|Eo].
    - destruct T as [T|T]; [|destruct (T l (or_introl eq_refl) Eo)]. rewrite (enter_taken o n l w g T Eo). destruct (lk_kind (w_lock w (TSoa, o))) eqn:K; cbn; auto.
      destruct T as [T _]; congruence.
    - pose proof (enter_cases o n l w g Eo) as H. destruct (eval (p_enter n l) w g) as [a w1 g1|e w1 g1|w1 g1|w1 g1].
      + destruct H as (OK & l' & E & -> & ->). rewrite eval_bind.
        pose proof (calm_eval [(TSoa, o)] body (entered w l' (hl_transform l)) (((TSoa, hl_transform l), Sh) :: g) CB) as CE.
        destruct (eval body _ _) as [s w2 g2|e w2 g2|w2 g2|w2 g2]; [|destruct CE|exact I|destruct CE].
        destruct CE as (-> & L & D). rewrite eval_bind. unfold drop.
        destruct (drop_back w w2 l' (hl_transform l) g E L) as (w3 & -> & SL & WD).
        assert (D3 : only_changes [(TSoa, o)] w w3). { intros t b N. rewrite WD. rewrite (D t b N). reflexivity. }
        specialize (IH s w3 SL D3).
        assert (OKS : oks n w o (l :: ls) -> oks n w3 o ls).
        { intros Q. apply (oks_next n w); auto. intros l0 I0. apply Q. right; exact I0. }
        destruct (eval (k s) w3 g) as [s' w4 g4|e w4 g4|w4 g4|w4 g4]; cbn in *.
        * destruct IH as (-> & L4 & D4 & NA). split; [reflexivity|]. split; [eapply sl_trans; eassumption|]. split.
          { intros t b N. rewrite (D4 t b N). apply D3, N. }
          intros l0 [<-|I0]; [exists l'; exact E|]. rewrite <- (SL (TSoa, hl_transform l0)). apply NA, I0.
        * intros Q. apply IH, OKS, Q.
        * exact I.
        * intros Q. rewrite <- (SL (TSoa, o)). apply IH, OKS, Q.
      + cbn. intros Q. destruct (Q l (or_introl eq_refl) Eo) as [Q1 Q2]. exact (H Q1 Q2).
      + exact I.
      + cbn. intros Q. destruct (Q l (or_introl eq_refl) Eo) as [Q1 Q2]. destruct (H Q1).
  Qed.

  Lemma blend_layers_looped n o (ls : list (hlayer F)) g : forall w c, sep w o ls ->
    looped n o ls w g (eval (p_blend_layers o n ls c) w g).
  Proof.
    induction ls as [|l ls IH]; intros w c T; cbn [p_blend_layers].
    - cbn. split; [reflexivity|]. split; [apply sl_refl|]. split; [intros t b _; reflexivity|]. intros l [].
    - apply loop_step; [exact T| |].
      + destruct (nle (hl_weight l) nzero); [exact I|]. apply calm_bind; [apply calm_layer_pass|]. intros accs. exact I.
      + intros a w1 L _. apply IH. eapply sep_tl, sep_sl; eassumption.
  Qed.
  Lemma add_layers_looped n o rl (ls : list (hlayer F)) g : forall w, sep w o ls ->
    looped n o ls w g (eval (p_add_layers o n rl ls) w g).
  Proof.
    induction ls as [|l ls IH]; intros w T; cbn [p_add_layers].
    - cbn. split; [reflexivity|]. split; [apply sl_refl|]. split; [intros t b _; reflexivity|]. intros l [].
    - apply loop_step; [exact T| |].
      + destruct (nlt nzero (hl_weight l)); [apply calm_additive_pass|]. destruct (nlt (hl_weight l) nzero); [apply calm_additive_pass|exact I].
      + intros a w1 L _. apply IH. eapply sep_tl, sep_sl; eassumption.
  Qed.

  Lemma valid_layers sk ctx thr (ls ads : list (layer F)) out :
    blend_validate (mk_bjob (Some sk) (Some ctx) thr ls ads (Some out)) = true ->
    nlt nzero thr && (num_soa_joints sk <=? length out)%nat = true /\
    (forall l, In l (ls ++ ads) -> layer_ok (num_soa_joints sk) l = true).
  Proof.
    unfold blend_validate. cbn [bj_skeleton bj_context bj_output bj_threshold bj_layers bj_additive]. intros H.
    apply andb_true_iff in H. destruct H as [H H4]. apply andb_true_iff in H. destruct H as [H H3].
    split; [exact H|]. rewrite forallb_forall in H3, H4. intros l I. apply in_app_or in I. destruct I; auto.
  Qed.

  Lemma calm_looped {S} n o (p : prog S) w g : calm [(TSoa, o)] p -> looped n o [] w g (eval p w g).
  Proof.
    intros C. pose proof (calm_eval _ p w g C) as H. destruct (eval p w g) as [a w1 g1|e w1 g1|w1 g1|w1 g1]; cbn; try tauto.
    destruct H as (-> & L & D). split; [reflexivity|]. split; [intros a0; rewrite L; reflexivity|]. split; [exact D|].
    intros l [].
  Qed.
  Lemma looped_bind {S S'} n o ls1 ls2 (p : prog S) (f : S -> prog S') w g : sep w o (ls1 ++ ls2) ->
    looped n o ls1 w g (eval p w g) ->
    (forall a w1, sep w1 o ls2 -> looped n o ls2 w1 g (eval (f a) w1 g)) ->
    looped n o (ls1 ++ ls2) w g (eval (pbind p f) w g).
  Proof.
    intros T H1 H2. rewrite eval_bind.
    assert (SP1 : forall w1, oks n w1 o (ls1 ++ ls2) -> oks n w1 o ls1) by (intros w1 Q l I; apply Q, in_or_app; auto).
    assert (SP2 : forall w1, oks n w1 o (ls1 ++ ls2) -> oks n w1 o ls2) by (intros w1 Q l I; apply Q, in_or_app; auto).
    destruct (eval p w g) as [a w1 g1|e w1 g1|w1 g1|w1 g1]; cbn in H1.
    - destruct H1 as (-> & L & D & NA). specialize (H2 a w1 (sep_app_r _ _ _ _ (sep_sl _ _ _ _ L T))).
      destruct (eval (f a) w1 g) as [s' w4 g4|e w4 g4|w4 g4|w4 g4]; cbn in *.
      + destruct H2 as (-> & L4 & D4 & NA'). split; [reflexivity|]. split; [eapply sl_trans; eassumption|]. split.
        { intros t b N. rewrite (D4 t b N). apply D, N. }
        intros l I. apply in_app_or in I. destruct I as [I|I]; [apply NA, I|]. rewrite <- (L (TSoa, hl_transform l)). apply NA', I.
      + intros Q. apply H2. eapply oks_next; eauto.
      + exact I.
      + intros Q. rewrite <- (L (TSoa, o)). apply H2. eapply oks_next; eauto.
    - cbn. auto.
    - exact I.
    - cbn. auto.
  Qed.
  Lemma tail_looped n o rest thr (j : hbjob F) c0 w g : sep w o (hb_layers j ++ hb_additive j) ->
    looped n o (hb_layers j ++ hb_additive j) w g
      (eval (pbind (p_blend_layers o n (hb_layers j) c0) (fun c =>
             pbind (p_rest_pose o rest thr c) (fun c =>
             pbind (p_normalize o rest c) (fun _ =>
             pbind (p_add_layers o n (length rest) (hb_additive j)) (fun _ => Ret c))))) w g).
  Proof.
    intros T. apply looped_bind; [exact T|apply blend_layers_looped; eapply sep_app_l, T|]. intros c w1 T1.
    apply (looped_bind n o [] (hb_additive j)); [exact T1|apply calm_looped, calm_rest_pose|]. intros c2 w2 T2.
    apply (looped_bind n o [] (hb_additive j)); [exact T2|apply calm_looped, calm_normalize|]. intros c3 w3 T3.
    rewrite <- (app_nil_r (hb_additive j)).
    apply looped_bind; [rewrite app_nil_r; exact T3|rewrite app_nil_r; apply add_layers_looped, T3|]. intros c4 w4 T4.
    apply calm_looped. exact I.
  Qed.
  Lemma writes_blend_layers n o (ls : list (hlayer F)) : forall c, writes [(TSoa, o)] (p_blend_layers o n ls c).
  Proof.
    induction ls as [|l ls IH]; intros c; cbn [p_blend_layers]; [exact I|].
    apply writes_bind; [cbn; split; [exact I|intros x; destruct (layer_ok _ _); exact I]|]. intros _.
    apply writes_bind; [|intros c'; apply IH].
    apply calm_writes. destruct (nle (hl_weight l) nzero); [exact I|]. apply calm_bind; [apply calm_layer_pass|]. intros accs. exact I.
  Qed.
  Lemma writes_add_layers n o rl (ls : list (hlayer F)) : writes [(TSoa, o)] (p_add_layers o n rl ls).
  Proof.
    induction ls as [|l ls IH]; cbn [p_add_layers]; [exact I|].
    apply writes_bind; [cbn; split; [exact I|intros x; destruct (layer_ok _ _); exact I]|]. intros _.
    apply writes_bind; [|intros c'; apply IH].
    apply calm_writes. destruct (nlt nzero (hl_weight l)); [apply calm_additive_pass|].
    destruct (nlt (hl_weight l) nzero); [apply calm_additive_pass|exact I].
  Qed.
  Lemma writes_blend (j : hbjob F) : writes (map (pair TSoa) (opt (hb_output j))) (p_blend j).
  Proof.
    unfold p_blend. destruct (hb_skeleton j) as [sk|]; [|exact I]. destruct (hb_context j) as [ctx|]; [|exact I].
    destruct (hb_output j) as [o|]; [|exact I]. cbn [opt map]. cbn [need pbind].
    cbn [borrow pbind writes]. split; [exact I|]. cbn [load pbind writes]. intros out.
    apply writes_bind; [destruct (_ && _); exact I|]. intros _.
    apply writes_bind; [apply writes_blend_layers|]. intros c. apply writes_bind; [apply calm_writes, calm_rest_pose|]. intros c'.
    apply writes_bind; [apply calm_writes, calm_normalize|]. intros _.
    apply writes_bind; [apply writes_add_layers|]. intros _. exact I.
  Qed.

  Lemma blend_alias (w : world) (j : hbjob F) o r w' :
    hb_output j = Some o -> lk_kind (w_lock w (TSoa, o)) <> KFree ->
    alias o (hb_layers j ++ hb_additive j) ->
    exec (p_blend j) w = (r, w') ->
    (forall c, r <> Val c) /\
    (blend_validate (blend_in w j) = true -> idle (w_lock w (TSoa, o)) ->
     (forall l, In l (hb_layers j ++ hb_additive j) -> hl_transform l <> o -> readable (w_lock w (TSoa, hl_transform l))) ->
     r = Panics \/ (lk_kind (w_lock w (TSoa, o)) = KLock /\ r = Blocks)).
  Proof.
    intros Ho K AL. unfold exec, p_blend, blend_in. rewrite Ho. cbn [option_map].
    destruct (hb_skeleton j) as [sk|].
    2:{ cbn. intros H; inversion H; subst. split; [discriminate|]. intros V; discriminate. }
    destruct (hb_context j) as [ctx|].
    2:{ cbn. intros H; inversion H; subst. split; [discriminate|]. intros V; discriminate. }
    cbn [need pbind]. unfold borrow. cbn [pbind eval].
    destruct (acquire (w_lock w (TSoa, o)) Ex) as [l'| | |] eqn:E.
    2,3,4: cbn; intros H; inversion H; subst; (split; [discriminate|]);
      intros _ Hi _; destruct (idle_acquire _ Hi); congruence.
    cbn [load pbind eval w_data]. rewrite eval_bind.
    change (@length (den F TSoa) (w_data w TSoa o)) with (@length soa (w_data w TSoa o)).
    destruct (nlt nzero (hb_threshold j) && (num_soa_joints sk <=? @length soa (w_data w TSoa o))%nat) eqn:OK.
    2:{ cbn -[blend_validate num_soa_joints]. intros H; inversion H; subst. split; [discriminate|].
        intros V _ _. destruct (valid_layers _ ctx _ _ _ _ V) as [V' _]. clear V; rename V' into V. change (den F TSoa) with soa in V. congruence. }
    cbn [guard_ eval]. set (n := num_soa_joints sk) in *.
    set (w0 := mk_world (put_lock (w_lock w) (TSoa, o) l') (w_data w)). pose (g := [((TSoa, o), Ex)] : guards).
    match goal with |- context [eval _ w0 ?g1] => change g1 with g end.
    destruct (acquire_got _ _ _ E K) as (K' & _ & _ & _ & Wr).
    assert (T : taken w0 (TSoa, o)). { unfold taken. cbn. rewrite put_lock_eq. split; [rewrite K'; exact K|exact Wr]. }
    assert (KK : lk_kind (w_lock w0 (TSoa, o)) = lk_kind (w_lock w (TSoa, o))). { cbn. rewrite put_lock_eq. exact K'. }
    assert (OKS : blend_validate (mk_bjob (Some sk) (Some ctx) (hb_threshold j) (map (layer_in w) (hb_layers j))
                     (map (layer_in w) (hb_additive j)) (Some (w_data w TSoa o))) = true ->
              (forall l, In l (hb_layers j ++ hb_additive j) -> hl_transform l <> o -> readable (w_lock w (TSoa, hl_transform l))) ->
              oks n w0 o (hb_layers j ++ hb_additive j)).
    { intros V R l I N. split; [cbn; rewrite put_lock_ne by congruence; apply R; assumption|].
      destruct (valid_layers _ ctx _ _ _ _ V) as [_ V']. apply V'. rewrite <- map_app. exact (in_map (layer_in w) _ _ I). }
    match goal with |- leave (eval ?p w0 g) = _ -> _ =>
      assert (LP : looped n o (hb_layers j ++ hb_additive j) w0 g (eval p w0 g)) end.
    { apply tail_looped. left. exact T. }
    match goal with |- leave ?ee = _ -> _ => destruct ee as [a w1 g1|er w1 g1|w1 g1|w1 g1] end; cbn in LP |- *;
      intros H; inversion H; subst r w'.
    - destruct LP as (_ & _ & _ & NA). destruct (opens_alias _ _ _ T NA AL).
    - split; [discriminate|]. intros V _ R. destruct (LP (OKS V R)).
    - split; [discriminate|]. auto.
    - split; [discriminate|]. intros V _ R. right. split; [|reflexivity]. rewrite <- KK. apply LP, OKS; assumption.
  Qed.

  (** Success means that all the buffers could be borrowed. *)
  Lemma blend_opens (w : world) (j : hbjob F) c w' : exec (p_blend j) w = (Val c, w') ->
    exists o, hb_output j = Some o /\ (exists l', acquire (w_lock w (TSoa, o)) Ex = Got l') /\
    (lk_kind (w_lock w (TSoa, o)) <> KFree \/ ~ alias o (hb_layers j ++ hb_additive j) ->
     forall l, In l (hb_layers j ++ hb_additive j) ->
       hl_transform l <> o /\ exists l', acquire (w_lock w (TSoa, hl_transform l)) Sh = Got l').
  Proof.
    unfold exec, p_blend.
    destruct (hb_skeleton j) as [sk|]; [|discriminate]. destruct (hb_context j) as [ctx|]; [|discriminate].
    destruct (hb_output j) as [o|]; [|discriminate].
    cbn [need pbind]. unfold borrow. cbn [pbind eval].
    destruct (acquire (w_lock w (TSoa, o)) Ex) as [l'| | |] eqn:E; [|discriminate..].
    cbn [load pbind eval w_data]. rewrite eval_bind.
    destruct (nlt nzero (hb_threshold j) && _) eqn:OK; [|discriminate].
    intros H. exists o. split; [reflexivity|]. split; [eexists; exact E|].
    cbn [guard_ eval] in H. set (n := num_soa_joints sk) in *.
    set (w0 := mk_world (put_lock (w_lock w) (TSoa, o) l') (w_data w)) in *. pose (g := [((TSoa, o), Ex)] : guards).
    match type of H with context [eval _ w0 ?g1] => change g1 with g in H end.
    intros Q l I.
    assert (S : sep w0 o (hb_layers j ++ hb_additive j)).
    { destruct Q as [K|NA]; [left|right; intros l0 I0 E0; apply NA; exists l0; auto].
      destruct (acquire_got _ _ _ E K) as (K' & _ & _ & _ & Wr). unfold taken. cbn. rewrite put_lock_eq. split; [rewrite K'; exact K|exact Wr]. }
    match type of H with leave (eval (pbind (p_blend_layers _ _ _ ?c0) _) _ _) = _ =>
      pose proof (tail_looped n o (sk_rest sk) (hb_threshold j) j c0 w0 g S) as LP end.
    match type of H with leave ?ee = _ => destruct ee as [a w1 g1|er w1 g1|w1 g1|w1 g1] end; cbn in H; try discriminate.
    destruct LP as (_ & _ & _ & OP).
    assert (NE : hl_transform l <> o).
    { destruct S as [T|S]; [|apply S, I]. intros X. apply (opens_alias _ _ _ T OP). exists l. auto. }
    split; [exact NE|]. destruct (OP l I) as [l2 A]. cbn in A. rewrite put_lock_ne in A by congruence. exists l2. exact A.
  Qed.
End Alias.
