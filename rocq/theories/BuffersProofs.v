(** Proofs about the borrows of the jobs. *)
From Verif Require Import Base Num Math Skeleton Sampling Blending BlendingProofs Skinning SkinningProofs Buffers BuffersSpec.
Local Open Scope num_scope.

Lemma put_lock_eq (ls : locks) a l : put_lock ls a l a = l.
Proof. unfold put_lock. destruct (addr_eq a a); congruence. Qed.
Lemma put_lock_ne (ls : locks) a l a' : a <> a' -> put_lock ls a l a' = ls a'.
Proof. unfold put_lock. destruct (addr_eq a a'); congruence. Qed.

Arguments put_lock : simpl never.
Arguments put_data : simpl never.
Arguments acquire : simpl never.

Section Proofs.
  Context {F : Type} {NF : Num F}.
  Notation world := (world F). Notation prog := (prog F). Notation ev := (ev F).
  Notation den := (den F). Notation data := (data F).

  Lemma put_data_eq (d : data) t b x : put_data d t b x t b = x.
  Proof.
    unfold put_data. destruct (ety_eq t t) as [e|n]; [|congruence].
    destruct (Nat.eq_dec b b); [|congruence]. destruct t; cbn in e;
      rewrite <- (Eqdep_dec.eq_rect_eq_dec ety_eq); reflexivity.
  Qed.
  Lemma put_data_ne (d : data) t b x t' b' : (t, b) <> (t', b') -> put_data d t b x t' b' = d t' b'.
  Proof.
    intros H. unfold put_data. destruct (ety_eq t t') as [e|n]; [|reflexivity].
    destruct (Nat.eq_dec b b'); [congruence|reflexivity].
  Qed.

  Lemma eval_bind {A B} (p : prog A) (f : A -> prog B) w g :
    eval (pbind p f) w g =
    match eval p w g with
    | EVal a w g => eval (f a) w g
    | EFail e w g => EFail e w g
    | EPan w g => EPan w g
    | EBlock w g => EBlock w g
    end.
  Proof.
    revert w g. induction p as [a|e| |a m q IHq k IHk|k IHk|t b k IHk|t b x k IHk]; intros w g; cbn; auto.
    - destruct (acquire (w_lock w a) m); auto.
    - destruct g; auto.
  Qed.
  Lemma eval_lift {A} (r : res A) w g :
    eval (lift r : prog A) (w : world) g = match r with Ok a => EVal a w g | Err e => EFail e w g | Panic => EPan w g end.
  Proof. destruct r; reflexivity. Qed.

  (** ** All borrows are released *)
  Definition sb (w w' : world) : Prop := forall a, same_borrows (w_lock w a) (w_lock w' a).
  Lemma sb_refl w : sb w w.
  Proof. intros a; repeat split. Qed.
  Lemma sb_trans w1 w2 w3 : sb w1 w2 -> sb w2 w3 -> sb w1 w3.
  Proof. intros H1 H2 a. destruct (H1 a) as (A & B & C), (H2 a) as (A' & B' & C'). repeat split; congruence. Qed.
  Lemma release_sb p p' l l' m : same_borrows l l' -> same_borrows (release p l m) (release p' l' m).
  Proof.
    intros (A & B & C). unfold release. rewrite A. destruct (lk_kind l) eqn:K.
    - repeat split; congruence.
    - destruct m; repeat split; cbn; congruence.
    - destruct m; repeat split; cbn; congruence.
  Qed.
  Lemma drop_one_sb p p' w w' h : sb w w' -> sb (drop_one p w h) (drop_one p' w' h).
  Proof.
    intros H a. unfold drop_one. cbn. unfold put_lock. destruct (addr_eq (fst h) a); [|apply H].
    apply release_sb, H.
  Qed.
  Lemma drop_all_sb p p' g : forall w w', sb w w' -> sb (drop_all p w g) (drop_all p' w' g).
  Proof.
    induction g as [|h g IH]; intros w w' H; cbn; [exact H|]. apply IH, drop_one_sb, H.
  Qed.
  Lemma acquire_kind l m l' : acquire l m = Got l' -> lk_kind l' = lk_kind l.
  Proof.
    unfold acquire. intros H. destruct (lk_kind l) eqn:K.
    - inversion H; subst; exact K.
    - destruct m; match type of H with (if ?b then _ else _) = _ => destruct b end; try discriminate;
        inversion H; reflexivity.
    - destruct m; repeat match type of H with (if ?b then _ else _) = _ => destruct b end; try discriminate;
        inversion H; reflexivity.
  Qed.
  (** A guard undoes what taking it did. *)
  Lemma acquire_release p l m l' : acquire l m = Got l' -> same_borrows l (release p l' m) /\ (p = false -> release p l' m = l).
  Proof.
    intros H. pose proof (acquire_kind _ _ _ H) as K. unfold acquire in H. unfold release. rewrite K.
    destruct l as [k r wr po]. cbn [lk_kind lk_readers lk_writer lk_poison] in *.
    destruct k; [|destruct m|destruct m]; cbn [lk_kind lk_readers lk_writer lk_poison] in *.
    - inversion H; subst; repeat split.
    - destruct (wr || (max_readers KCell <=? r)%N); [discriminate|]. inversion H; subst.
      cbn [lk_kind lk_readers lk_writer lk_poison]. rewrite N.add_sub. repeat split.
    - destruct wr; [discriminate|]. destruct (N.eqb_spec r 0); [|discriminate]. inversion H; subst.
      cbn. rewrite orb_false_r. repeat split.
    - destruct wr; [discriminate|]. destruct (max_readers KLock <=? r)%N; [discriminate|].
      destruct po; [discriminate|]. inversion H; subst. cbn [lk_kind lk_readers lk_writer lk_poison]. rewrite N.add_sub. repeat split.
    - destruct wr; [discriminate|]. destruct (N.eqb_spec r 0); [|discriminate]. destruct po; [discriminate|].
      cbn in H. inversion H; subst. cbn. split; [repeat split|]. intros ->. reflexivity.
  Qed.
  Definition after {A} (r : ev A) : option (world * guards) :=
    match r with EVal _ w g | EFail _ w g | EPan w g => Some (w, g) | EBlock _ _ => None end.

  Lemma eval_released {A} (p : prog A) : forall w g b,
    match after (eval p w g) with
    | Some (w', g') => sb (drop_all b w g) (drop_all b w' g')
    | None => True
    end.
  Proof.
    induction p as [a|e| |a m q IHq k IHk|k IHk|t b0 k IHk|t b0 x k IHk]; intros w g b; cbn; try apply sb_refl.
    - destruct (acquire (w_lock w a) m) as [l| | |] eqn:E; cbn; [|apply IHq|apply sb_refl|exact I].
      specialize (IHk (mk_world (put_lock (w_lock w) a l) (w_data w)) ((a, m) :: g) b).
      destruct (after _) as [[w' g']|]; [|exact I]. eapply sb_trans; [|exact IHk].
      cbn. apply drop_all_sb. intros a'. unfold drop_one. cbn.
      destruct (addr_eq a a') as [<-|n].
      + rewrite put_lock_eq, put_lock_eq. apply (acquire_release b _ _ _ E).
      + rewrite !put_lock_ne by exact n. repeat split.
    - destruct g as [|h g]; [apply IHk|].
      specialize (IHk (drop_one false w h) g b). destruct (after _) as [[w' g']|]; [|exact I].
      eapply sb_trans; [|exact IHk]. cbn. apply drop_all_sb, drop_one_sb, sb_refl.
    - apply IHk.
    - specialize (IHk (mk_world (w_lock w) (put_data (w_data w) t b0 x)) g b). destruct (after _) as [[w' g']|]; [|exact I].
      eapply sb_trans; [|exact IHk]. apply drop_all_sb. intros a; repeat split.
  Qed.
  Lemma exec_released {A} (p : prog A) w r w' : exec p w = (r, w') -> r <> Blocks -> sb w w'.
  Proof.
    unfold exec. intros H HB. pose proof (fun b => eval_released p w [] b) as R. cbn in R.
    destruct (eval p w []) as [a w1 g1|e w1 g1|w1 g1|w1 g1]; cbn in *; inversion H; subst; [apply R|apply R|apply R|congruence].
  Qed.

  (** Unless it panics, it leaves every lock exactly as it found it. *)
  Definition sl (w w' : world) : Prop := forall a, w_lock w' a = w_lock w a.
  Lemma sl_refl w : sl w w.
  Proof. intros a; reflexivity. Qed.
  Lemma sl_trans w1 w2 w3 : sl w1 w2 -> sl w2 w3 -> sl w1 w3.
  Proof. intros H1 H2 a. rewrite H2. apply H1. Qed.
  Lemma drop_one_sl p w w' h : sl w w' -> sl (drop_one p w h) (drop_one p w' h).
  Proof.
    intros H a. unfold drop_one. cbn. unfold put_lock. rewrite H. destruct (addr_eq (fst h) a); [reflexivity|apply H].
  Qed.
  Lemma drop_all_sl p g : forall w w', sl w w' -> sl (drop_all p w g) (drop_all p w' g).
  Proof. induction g as [|h g IH]; intros w w' H; cbn; [exact H|]. apply IH, drop_one_sl, H. Qed.
  Lemma eval_locks {A} (p : prog A) : forall w g,
    match after (eval p w g) with
    | Some (w', g') => sl (drop_all false w g) (drop_all false w' g')
    | None => True
    end.
  Proof.
    induction p as [a|e| |a m q IHq k IHk|k IHk|t b0 k IHk|t b0 x k IHk]; intros w g; cbn; try apply sl_refl.
    - destruct (acquire (w_lock w a) m) as [l| | |] eqn:E; cbn; [|apply IHq|apply sl_refl|exact I].
      specialize (IHk (mk_world (put_lock (w_lock w) a l) (w_data w)) ((a, m) :: g)).
      destruct (after _) as [[w' g']|]; [|exact I]. eapply sl_trans; [|exact IHk].
      cbn. apply drop_all_sl. intros a'. unfold drop_one. cbn.
      destruct (addr_eq a a') as [<-|n].
      + rewrite put_lock_eq, put_lock_eq. apply (acquire_release false _ _ _ E). reflexivity.
      + rewrite !put_lock_ne by exact n. reflexivity.
    - destruct g as [|h g]; [apply IHk|].
      specialize (IHk (drop_one false w h) g). destruct (after _) as [[w' g']|]; [|exact I].
      eapply sl_trans; [|exact IHk]. cbn. apply sl_refl.
    - apply IHk.
    - specialize (IHk (mk_world (w_lock w) (put_data (w_data w) t b0 x)) g). destruct (after _) as [[w' g']|]; [|exact I].
      eapply sl_trans; [|exact IHk]. apply drop_all_sl. intros a; reflexivity.
  Qed.
  Lemma exec_locks {A} (p : prog A) w r w' : exec p w = (r, w') -> r <> Blocks -> r <> Panics -> sl w w'.
  Proof.
    unfold exec. intros H HB HP. pose proof (eval_locks p w []) as R. cbn in R.
    destruct (eval p w []) as [a w1 g1|e w1 g1|w1 g1|w1 g1]; cbn in *; inversion H; subst; [apply R|apply R|congruence|congruence].
  Qed.

  (** ** The blending job on its buffers does what it does on their contents *)
  Notation soa := (transform (V4 F)).

  Lemma eval_rd t b i (w : world) g :
    eval (rd t b i) w g = match get (w_data w t b) i with Ok x => EVal x w g | Err e => EFail e w g | Panic => EPan w g end.
  Proof. unfold rd. cbn [eval]. apply eval_lift. Qed.
  Lemma eval_wr t b i v (w : world) g :
    eval (wr t b i v) w g =
    match set (w_data w t b) i v with
    | Ok l => EVal tt (mk_world (w_lock w) (put_data (w_data w) t b l)) g
    | _ => EPan w g
    end.
  Proof. unfold wr. cbn [eval]. destruct (set _ i v); reflexivity. Qed.

  Lemma eval_rd_soa b i (w : world) g :
    eval (rd TSoa b i : prog soa) w g =
    match @get soa (w_data w TSoa b) i with Ok x => EVal x w g | Err e => EFail e w g | Panic => EPan w g end.
  Proof. exact (eval_rd TSoa b i w g). Qed.
  Lemma eval_wr_soa b i (v : soa) (w : world) g :
    eval (wr TSoa b i v) w g =
    match @set soa (w_data w TSoa b) i v with
    | Ok l => EVal tt (mk_world (w_lock w) (put_data (w_data w) TSoa b l)) g
    | _ => EPan w g
    end.
  Proof. exact (eval_wr TSoa b i v w g). Qed.

  (** The same world, but for the content [x] of buffer [o]. *)
  Definition others (o : addr) (w w' : world) : Prop :=
    sl w w' /\ forall t b, (t, b) <> o -> w_data w' t b = w_data w t b.
  Definition at_ (o : nat) (x : list soa) (w w' : world) : Prop :=
    others (TSoa, o) w w' /\ w_data w' TSoa o = x.
  Lemma at_write o x y (w w' : world) : at_ o x w w' -> at_ o y w (mk_world (w_lock w') (put_data (w_data w') TSoa o y)).
  Proof.
    intros [[L D] E]. split; [split|]; cbn; [exact L| |apply (put_data_eq _ TSoa)].
    intros t b H. rewrite (put_data_ne _ TSoa) by congruence. apply D, H.
  Qed.
  Lemma at_others o x (w w' : world) : at_ o x w w' -> others (TSoa, o) w w'.
  Proof. intros [H _]; exact H. Qed.
  Lemma others_trans o (w1 w2 w3 : world) : others o w1 w2 -> others o w2 w3 -> others o w1 w3.
  Proof.
    intros [L1 D1] [L2 D2]. split; [eapply sl_trans; eauto|]. intros t b H. rewrite D2, D1 by exact H. reflexivity.
  Qed.
  Lemma at_trans o x y (w1 w2 w3 : world) : at_ o x w1 w2 -> at_ o y w2 w3 -> at_ o y w1 w3.
  Proof. intros [A _] [B E]. split; [eapply others_trans; eauto|exact E]. Qed.
  Lemma at_refl o (w : world) : at_ o (w_data w TSoa o) w w.
  Proof. split; [split; [apply sl_refl|reflexivity]|reflexivity]. Qed.

  (** [e] does in memory what the pure computation [r] says. *)
  Definition sim {P S} (st : P -> S) (out : P -> list soa) (o : nat) (w : world) (g : guards) (r : res P) (e : ev S) : Prop :=
    match r with
    | Ok p => exists w', e = EVal (st p) w' g /\ at_ o (out p) w w'
    | Err _ => False
    | Panic => exists w', e = EPan w' g /\ others (TSoa, o) w w'
    end.
  Lemma sim_for {P S} (st : P -> S) (out : P -> list soa) o w g n :
    forall k (body : nat -> S -> prog S) (pure : nat -> P -> res P) p w1,
    (forall i p w1, at_ o (out p) w w1 -> sim st out o w g (pure i p) (eval (body i (st p)) w1 g)) ->
    at_ o (out p) w w1 ->
    sim st out o w g (for_range n k pure p) (eval (pfor n k body (st p)) w1 g).
  Proof.
    induction n as [|n IH]; intros k body pure p w1 HB H1; cbn [for_range pfor].
    - exists w1. split; [reflexivity|exact H1].
    - rewrite eval_bind. pose proof (HB k p w1 H1) as HK.
      destruct (pure k p) as [p'|e|]; cbn [bind].
      + destruct HK as (w2 & -> & H2). apply IH; assumption.
      + destruct HK.
      + destruct HK as (w2 & -> & H2). exists w2. split; [reflexivity|exact H2].
  Qed.

  Lemma get_err {A} (l : list A) i e : get l i <> Err e.
  Proof. unfold get. destruct (nth_error l i); discriminate. Qed.
  Lemma set_err {A} (l : list A) i x e : set l i x <> Err e.
  Proof. unfold set. destruct (i <? length l)%nat; discriminate. Qed.
  Lemma weight_err v (l : layer F) i e : weight_at v l i <> Err e.
  Proof.
    unfold weight_at. destruct (ly_joint_weights l) eqn:E; [discriminate|]. rewrite <- E.
    destruct (get _ i) eqn:G; cbn; [discriminate| |discriminate]. apply get_err in G. destruct G.
  Qed.

  (** Step through a body: pure computations on the left, reads and writes on the right. *)
  Ltac pan H := eexists; split; [reflexivity|apply (at_others _ _ _ _ H)].
  Ltac noerr G := exfalso; first [exact (get_err _ _ _ G)|exact (set_err _ _ _ _ G)|exact (weight_err _ _ _ _ G)].

  Lemma sim_layer_pass o n (l : hlayer F) first w g accs :
    hl_transform l <> o ->
    forall w1 x, at_ o x w w1 ->
    sim fst snd o w g (layer_pass n (layer_in w l) first (accs, x)) (eval (p_layer_pass o n l first accs) w1 g).
  Proof.
    intros Hne w1 x H1. unfold layer_pass, p_layer_pass.
    apply (sim_for (@fst (list (V4 F)) (list soa)) (@snd (list (V4 F)) (list soa)) o w g n) with (p := (accs, x)); [|exact H1].
    clear x w1 H1 accs. intros i [a x] w1 H1. cbn [fst snd] in *.
    rewrite eval_bind, eval_lift. change (weight_at (hl_weight l) (as_layer l []) i) with (weight_at (ly_weight (layer_in w l)) (layer_in w l) i).
    destruct (weight_at _ _ i) as [wt|e|] eqn:G; cbn [bind]; [|noerr G|pan H1].
    rewrite eval_bind, eval_lift. destruct (get a i) as [ac|e|] eqn:G1; cbn [bind]; [|noerr G1|pan H1].
    rewrite eval_bind, eval_lift. destruct (set a i _) as [acs|e|] eqn:G2; cbn [bind]; [|noerr G2|pan H1].
    rewrite eval_bind, eval_rd_soa. rewrite (proj2 (proj1 H1)) by congruence. cbn [layer_in ly_transform].
    destruct (@get soa (w_data w TSoa (hl_transform l)) i) as [t|e|] eqn:G3; cbn [bind]; [|noerr G3|pan H1].
    rewrite eval_bind, eval_rd_soa. rewrite (proj2 H1).
    destruct (get x i) as [ou|e|] eqn:G4; cbn [bind]; [|noerr G4|pan H1].
    rewrite eval_bind, eval_wr_soa. rewrite (proj2 H1).
    destruct (set x i _) as [y|e|] eqn:G5; cbn [bind]; [|noerr G5|pan H1].
    cbn [eval]. eexists. split; [reflexivity|]. cbn [snd]. eapply at_write, H1.
  Qed.

  Lemma sim_additive_pass o n (l : hlayer F) v sub w g :
    hl_transform l <> o ->
    forall w1 x, at_ o x w w1 ->
    sim (fun _ => tt) (fun x => x) o w g (additive_pass n (layer_in w l) v sub x) (eval (p_additive_pass o n l v sub) w1 g).
  Proof.
    intros Hne w1 x H1. unfold additive_pass, p_additive_pass.
    apply (sim_for (fun _ : list soa => tt) (fun x => x) o w g n) with (p := x); [|exact H1].
    clear x w1 H1. intros i x w1 H1.
    rewrite eval_bind, eval_lift. change (weight_at v (as_layer l []) i) with (weight_at v (layer_in w l) i).
    destruct (weight_at _ _ i) as [wt|e|] eqn:G; cbn [bind]; [|noerr G|pan H1].
    rewrite eval_bind, eval_rd_soa. rewrite (proj2 (proj1 H1)) by congruence. cbn [layer_in ly_transform].
    destruct (@get soa (w_data w TSoa (hl_transform l)) i) as [t|e|] eqn:G3; cbn [bind]; [|noerr G3|pan H1].
    rewrite eval_bind, eval_rd_soa. rewrite (proj2 H1).
    destruct (get x i) as [ou|e|] eqn:G4; cbn [bind]; [|noerr G4|pan H1].
    rewrite eval_wr_soa. rewrite (proj2 H1).
    destruct (set x i _) as [y|e|] eqn:G5; cbn [bind]; [|noerr G5|pan H1].
    eexists. split; [reflexivity|]. eapply at_write, H1.
  Qed.

  Lemma sim_normalize o rest (c : bctx F) w g :
    forall w1 x, at_ o x w w1 ->
    sim (fun _ => tt) (fun x => x) o w g (normalize rest (c, x)) (eval (p_normalize o rest c) w1 g).
  Proof.
    intros w1 x H1. unfold normalize, p_normalize. rewrite eval_bind. cbn [load eval fst snd]. rewrite (proj2 H1).
    apply (sim_for (fun _ : list soa => tt) (fun x => x) o w g) with (p := x); [|exact H1].
    clear x w1 H1. intros i x w1 H1.
    rewrite eval_bind, eval_rd_soa. rewrite (proj2 H1).
    destruct (get x i) as [ou|e|] eqn:G4; cbn [bind]; [|noerr G4|pan H1].
    rewrite eval_bind, eval_lift.
    assert (K : match (if (bc_partial c =? 0)%nat then Ok (splat (nrecip (bc_weight c)))
                       else let* acc := get (bc_weights c) i in Ok (nrecip acc)) with Err _ => False | _ => True end).
    { destruct (bc_partial c =? 0)%nat; [exact I|]. destruct (get (bc_weights c) i) eqn:G; cbn; [exact I|noerr G|exact I]. }
    destruct (if (bc_partial c =? 0)%nat then _ else _) as [ra|e|]; cbn [bind]; [|destruct K|pan H1].
    rewrite eval_wr_soa, (proj2 H1).
    destruct (set x i _) as [y|e|] eqn:G5; cbn [bind]; [|noerr G5|pan H1].
    eexists. split; [reflexivity|]. eapply at_write, H1.
  Qed.

  (** copy_from_slice, element by element *)
  Lemma upd_app {A} (l1 l2 : list A) x y : upd (l1 ++ x :: l2) (length l1) y = l1 ++ y :: l2.
  Proof. induction l1 as [|a l1 IH]; cbn; [reflexivity|]. rewrite IH. reflexivity. Qed.
  Lemma copy_loop (rest : list soa) n : forall k x, (k + n = length rest)%nat -> length x = length rest -> firstn k x = firstn k rest ->
    for_range n k (fun i out => let* r := get rest i in set out i r) x = Ok rest.
  Proof.
    induction n as [|n IH]; intros k x Hk Hl Hf; cbn [for_range].
    - rewrite !firstn_all2 in Hf by lia. rewrite Hf. reflexivity.
    - destruct (get_lt rest k ltac:(lia)) as [r Hr]. rewrite Hr. cbn [bind]. rewrite set_lt by lia. cbn [bind].
      apply IH; [lia|rewrite upd_length; lia|].
      apply get_Ok in Hr. apply nth_error_ext. intros i.
      destruct (Nat.lt_ge_cases i (S k)) as [Hi|Hi].
      2:{ rewrite !(proj2 (nth_error_None _ _)); [reflexivity|rewrite firstn_length; lia|rewrite firstn_length; lia]. }
      assert (FN : forall (l : list soa) m, (i < m)%nat -> nth_error (firstn m l) i = nth_error l i).
      { clear. intros l m. revert l i. induction m as [|m IH]; intros [|a l] [|i] H; cbn; auto; try lia. apply IH. lia. }
      rewrite !FN by lia. destruct (Nat.eq_dec i k) as [->|n1].
      + rewrite nth_error_upd_same by lia. symmetry; exact Hr.
      + rewrite nth_error_upd_other by lia. rewrite <- (FN x k) by lia. rewrite Hf. apply FN. lia.
  Qed.

  Lemma sim_rest_pose o rest thr (c : bctx F) w g :
    forall w1 x, at_ o x w w1 ->
    sim fst snd o w g (blend_rest_pose rest thr (c, x)) (eval (p_rest_pose o rest thr c) w1 g).
  Proof.
    intros w1 x H1. unfold blend_rest_pose, p_rest_pose. cbn [fst snd].
    destruct (bc_partial c =? 0)%nat.
    - destruct (nlt nzero (thr - bc_weight c)); [|exists w1; split; [reflexivity|exact H1]].
      destruct (bc_passes c =? 0)%nat.
      + rewrite eval_bind. cbn [load eval]. rewrite (proj2 H1). unfold copy_from_slice.
        rewrite eval_bind. change (@length (den TSoa) x) with (@length soa x).
        destruct (Nat.eqb_spec (length x) (length rest)) as [E|E]; [|pan H1].
        cbn [eval bind]. rewrite eval_bind.
        assert (S : sim (fun _ => tt) (fun x => x) o w g
          (for_range (length rest) 0 (fun i out => let* r := get rest i in set out i r) x)
          (eval (pfor (length rest) 0 (fun idx _ => pbind (lift (get rest idx)) (fun r => wr TSoa o idx r)) tt) w1 g)).
        { apply (sim_for (fun _ : list soa => tt) (fun x => x) o w g) with (p := x); [|exact H1].
          clear E x w1 H1. intros i x w1 H1. rewrite eval_bind, eval_lift.
          destruct (get rest i) as [r|e|] eqn:G; cbn [bind]; [|noerr G|pan H1].
          rewrite eval_wr_soa, (proj2 H1). destruct (set x i r) as [y|e|] eqn:G5; [|noerr G5|pan H1].
          eexists. split; [reflexivity|]. eapply at_write, H1. }
        rewrite copy_loop in S; [|lia|exact E|reflexivity]. destruct S as (w2 & -> & H2).
        exists w2. split; [reflexivity|exact H2].
      + rewrite eval_bind.
        match goal with |- sim _ _ _ _ _ (bind (for_range ?n ?k ?f x) _) (match eval (pfor _ _ ?b tt) w1 g with _ => _ end) =>
          assert (S : sim (fun _ => tt) (fun x => x) o w g (for_range n k f x) (eval (pfor n k b tt) w1 g)) end.
        { apply (sim_for (fun _ : list soa => tt) (fun x => x) o w g) with (p := x); [|exact H1].
          clear x w1 H1. intros i x w1 H1. rewrite eval_bind, eval_lift.
          destruct (get rest i) as [r|e|] eqn:G; cbn [bind]; [|noerr G|pan H1].
          rewrite eval_bind, eval_rd_soa, (proj2 H1). destruct (get x i) as [ou|e|] eqn:G1; cbn [bind]; [|noerr G1|pan H1].
          rewrite eval_wr_soa, (proj2 H1). destruct (set x i _) as [y|e|] eqn:G5; [|noerr G5|pan H1].
          eexists. split; [reflexivity|]. eapply at_write, H1. }
        destruct (for_range _ _ _ x) as [y|e|]; cbn [bind]; [|destruct S|].
        * destruct S as (w2 & -> & H2). exists w2. split; [reflexivity|exact H2].
        * destruct S as (w2 & -> & H2). exists w2. split; [reflexivity|exact H2].
    - rewrite eval_bind.
      match goal with |- sim _ _ _ _ _ (bind (for_range ?n ?k ?f (bc_weights c, x)) _) (match eval (pfor _ _ ?b _) w1 g with _ => _ end) =>
        assert (S : sim (@fst (list (V4 F)) (list soa)) snd o w g (for_range n k f (bc_weights c, x)) (eval (pfor n k b (bc_weights c)) w1 g)) end.
      { apply (sim_for (@fst (list (V4 F)) (list soa)) (@snd (list (V4 F)) (list soa)) o w g) with (p := (bc_weights c, x)); [|exact H1].
        clear x w1 H1. intros i [a x] w1 H1. cbn [fst snd] in *. rewrite eval_bind, eval_lift.
        destruct (get a i) as [ac|e|] eqn:G; cbn [bind]; [|noerr G|pan H1].
        rewrite eval_bind, eval_lift. destruct (set a i _) as [acs|e|] eqn:G2; cbn [bind]; [|noerr G2|pan H1].
        rewrite eval_bind, eval_lift. destruct (get rest i) as [r|e|] eqn:G3; cbn [bind]; [|noerr G3|pan H1].
        rewrite eval_bind, eval_rd_soa, (proj2 H1). destruct (get x i) as [ou|e|] eqn:G1; cbn [bind]; [|noerr G1|pan H1].
        rewrite eval_bind, eval_wr_soa, (proj2 H1). destruct (set x i _) as [y|e|] eqn:G5; [|noerr G5|pan H1].
        cbn [eval bind]. eexists. split; [reflexivity|]. eapply at_write, H1. }
      destruct (for_range _ _ _ (bc_weights c, x)) as [[ac y]|e|]; cbn [bind]; [|destruct S|].
      * destruct S as (w2 & -> & H2). exists w2. split; [reflexivity|exact H2].
      * destruct S as (w2 & -> & H2). exists w2. split; [reflexivity|exact H2].
  Qed.

  (** *** Taking and dropping the borrow of a layer *)
  Lemma readable_acquire l : readable l -> exists l', acquire l Sh = Got l'.
  Proof.
    intros (A & B & C). unfold acquire. rewrite A, B.
    assert (E : (max_readers (lk_kind l) <=? lk_readers l)%N = false) by (apply N.leb_gt; lia). rewrite E.
    destruct (lk_kind l); eexists; reflexivity.
  Qed.
  Lemma idle_acquire l : idle l -> exists l', acquire l Ex = Got l'.
  Proof.
    intros (A & B & C). unfold acquire. rewrite A, B, C. destruct (lk_kind l); eexists; reflexivity.
  Qed.

  Definition entered (w : world) (l : lock) (b : nat) : world := mk_world (put_lock (w_lock w) (TSoa, b) l) (w_data w).
  Lemma eval_enter n (l : hlayer F) (w : world) g l' :
    acquire (w_lock w (TSoa, hl_transform l)) Sh = Got l' ->
    let w1 := entered w l' (hl_transform l) in let g1 := ((TSoa, hl_transform l), Sh) :: g in
    eval (p_enter n l) w g =
    if layer_ok n (layer_in w l) then EVal tt w1 g1 else EFail InvalidJob w1 g1.
  Proof.
    intros E. cbv zeta. unfold p_enter, borrow. cbn [pbind eval]. rewrite E. cbn [eval load pbind w_data].
    change (as_layer l (w_data w TSoa (hl_transform l))) with (layer_in w l).
    destruct (layer_ok n (layer_in w l)); reflexivity.
  Qed.
  (** In the end the guard is dropped again. *)
  Lemma drop_entered (w w2 : world) l b l' g x o : acquire (w_lock w (TSoa, b)) Sh = Got l' ->
    at_ o x (entered w l' b) w2 -> l = l' ->
    exists w3, eval (Drop (Ret tt : prog unit)) w2 (((TSoa, b), Sh) :: g) = EVal tt w3 g /\ at_ o x w w3.
  Proof.
    intros E [[L D] X] ->. eexists. split; [reflexivity|]. split; [split|].
    - intros a. unfold drop_one. cbn [w_lock fst snd]. unfold put_lock at 1. destruct (addr_eq (TSoa, b) a) as [<-|n].
      + rewrite (L (TSoa, b)). cbn [entered w_lock]. rewrite put_lock_eq. apply (acquire_release false _ _ _ E). reflexivity.
      + rewrite L. cbn [entered w_lock]. apply put_lock_ne, n.
    - intros t b' Hn. unfold drop_one. cbn [w_data]. rewrite D by exact Hn. reflexivity.
    - exact X.
  Qed.
  Lemma at_entered o x (w w1 : world) l b : at_ o x w w1 -> at_ o x (entered w l b) (entered w1 l b).
  Proof.
    intros [[L D] X]. split; [split|]; cbn; [|exact D|exact X]. intros a. unfold put_lock. cbn.
    unfold put_lock. destruct (addr_eq (TSoa, b) a); [reflexivity|apply L].
  Qed.
  Lemma layer_in_at o x (w w1 : world) l : hl_transform l <> o -> at_ o x w w1 -> layer_in w1 l = layer_in w l.
  Proof. intros H [[_ D] _]. unfold layer_in. rewrite D by congruence. reflexivity. Qed.

  (** Outcome of the layers: [r] is the pure one. *)
  Definition bsim {S} (st : bctx F * list soa -> S) (o : nat) (w : world) (g : guards) (r : bres F) (e : ev S) : Prop :=
    match r with
    | BOk s => exists w', e = EVal (st s) w' g /\ at_ o (snd s) w w'
    | BErr er s => exists w' g', e = EFail er w' g' /\ w_data w' TSoa o = snd s /\
                     (forall t b, (t, b) <> (TSoa, o) -> w_data w' t b = w_data w t b)
    | BPanic => exists w' g', e = EPan w' g' /\ (forall t b, (t, b) <> (TSoa, o) -> w_data w' t b = w_data w t b)
    end.
  Lemma bsim_base {S} (st : bctx F * list soa -> S) o w w1 g r e : others (TSoa, o) w w1 ->
    bsim st o w1 g r e -> bsim st o w g r e.
  Proof.
    intros [L D] H. destruct r as [s|er s|]; cbn in *.
    - destruct H as (w' & E & [[L1 D1] X]). exists w'. split; [exact E|]. split; [split|exact X].
      + eapply sl_trans; eauto.
      + intros t b N. rewrite D1, D by exact N. reflexivity.
    - destruct H as (w' & g' & E & X & D1). exists w', g'. repeat split; auto. intros t b N. rewrite D1, D by exact N. reflexivity.
    - destruct H as (w' & g' & E & D1). exists w', g'. split; [exact E|]. intros t b N. rewrite D1, D by exact N. reflexivity.
  Qed.

  Lemma sim_blend_layers o n w g (ls : list (hlayer F)) :
    (forall l, In l ls -> hl_transform l <> o /\ readable (w_lock w (TSoa, hl_transform l))) ->
    forall c x w1, at_ o x w w1 ->
    bsim fst o w g (blend_layers n (map (layer_in w) ls) (c, x)) (eval (p_blend_layers o n ls c) w1 g).
  Proof.
    induction ls as [|l ls IH]; intros HL c x w1 H1; cbn [map blend_layers p_blend_layers].
    - exists w1. split; [reflexivity|exact H1].
    - destruct (HL l (or_introl eq_refl)) as [Hne Hr]. rewrite <- (proj1 (proj1 H1)) in Hr.
      destruct (readable_acquire _ Hr) as [l' E].
      rewrite eval_bind, (eval_enter n l w1 g l' E). rewrite (layer_in_at o x w w1 l Hne H1).
      destruct (layer_ok n (layer_in w l)); cbn [negb].
      2:{ eexists _, _. split; [reflexivity|]. split; [exact (proj2 H1)|]. intros t b Hn. apply (proj2 (proj1 H1)), Hn. }
      rewrite eval_bind. cbn [layer_in ly_weight].
      set (g1 := ((TSoa, hl_transform l), Sh) :: g).
      destruct (nle (hl_weight l) nzero).
      + cbn [eval]. rewrite eval_bind. unfold drop.
        destruct (drop_entered w1 (entered w1 l' (hl_transform l)) l' (hl_transform l) l' g x o E) as (w3 & Ed & H3); [|reflexivity|].
        { split; [split; [apply sl_refl|reflexivity]|exact (proj2 H1)]. }
        fold g1 in Ed. rewrite Ed.
        apply IH; [intros l0 I; apply HL; right; exact I|]. eapply at_trans; eauto.
      + rewrite eval_bind. cbn [fst snd].
        pose proof (sim_layer_pass o n l (bc_passes c =? 0)%nat (entered w1 l' (hl_transform l)) g1 (bc_weights c) Hne
                      (entered w1 l' (hl_transform l)) x) as S.
        assert (A : at_ o x (entered w1 l' (hl_transform l)) (entered w1 l' (hl_transform l))).
        { split; [split; [apply sl_refl|reflexivity]|exact (proj2 H1)]. }
        specialize (S A). assert (LE : layer_in (entered w1 l' (hl_transform l)) l = layer_in w l).
        { rewrite <- (layer_in_at o x w w1 l Hne H1). reflexivity. }
        rewrite LE in S. unfold sim in S.
        destruct (layer_pass n (layer_in w l) _ (bc_weights c, x)) as [[accs y]|e|] eqn:LP.
        * destruct S as (w2 & -> & H2). cbn [fst snd] in *. cbn [eval]. rewrite eval_bind. unfold drop.
          destruct (drop_entered w1 w2 l' (hl_transform l) l' g y o E H2 eq_refl) as (w3 & Ed & H3).
        fold g1 in Ed. rewrite Ed.
          change (is_partial (as_layer l [])) with (is_partial (layer_in w l)).
          apply IH; [intros l0 I; apply HL; right; exact I|]. eapply at_trans; eauto.
        * destruct S.
        * destruct S as (w2 & -> & [_ D2]). eexists _, _. split; [reflexivity|].
          intros t b N. rewrite D2 by exact N. cbn. apply (proj2 (proj1 H1)), N.
  Qed.

  Lemma sim_add_layers o n rl w g (ls : list (hlayer F)) :
    (forall l, In l ls -> hl_transform l <> o /\ readable (w_lock w (TSoa, hl_transform l))) ->
    forall c x w1, at_ o x w w1 ->
    bsim (fun _ => tt) o w g (add_layers n rl (map (layer_in w) ls) (c, x)) (eval (p_add_layers o n rl ls) w1 g) /\
    match add_layers n rl (map (layer_in w) ls) (c, x) with BOk s => fst s = c | _ => True end.
  Proof.
    induction ls as [|l ls IH]; intros HL c x w1 H1; cbn [map add_layers p_add_layers].
    - split; [|reflexivity]. exists w1. split; [reflexivity|exact H1].
    - destruct (HL l (or_introl eq_refl)) as [Hne Hr]. rewrite <- (proj1 (proj1 H1)) in Hr.
      destruct (readable_acquire _ Hr) as [l' E].
      rewrite eval_bind, (eval_enter n l w1 g l' E). rewrite (layer_in_at o x w w1 l Hne H1).
      destruct (layer_ok n (layer_in w l)); cbn [negb].
      2:{ split; [|exact I]. eexists _, _. split; [reflexivity|]. split; [exact (proj2 H1)|]. intros t b Hn. apply (proj2 (proj1 H1)), Hn. }
      rewrite eval_bind. cbn [layer_in ly_weight fst snd].
      set (g1 := ((TSoa, hl_transform l), Sh) :: g). set (we := entered w1 l' (hl_transform l)).
      assert (A : at_ o x we we).
      { split; [split; [apply sl_refl|reflexivity]|exact (proj2 H1)]. }
      assert (LE : layer_in we l = layer_in w l).
      { rewrite <- (layer_in_at o x w w1 l Hne H1). reflexivity. }
      match goal with |- context [match ?r with Ok _ => _ | Err _ => _ | Panic => _ end] =>
        match r with (if _ then _ else _) => set (pr := r) end end.
      match goal with |- context [eval ?p we g1] => set (pp := p) end.
      assert (S : sim (fun _ => tt) (fun x => x) o we g1 pr (eval pp we g1)).
      { subst pr pp. change (mk_layer (w_data w TSoa (hl_transform l)) (hl_weight l) (hl_joint_weights l)) with (layer_in w l).
        rewrite <- LE.
        destruct (nlt nzero (hl_weight l)); [apply sim_additive_pass; assumption|].
        destruct (nlt (hl_weight l) nzero); [apply sim_additive_pass; assumption|].
        exists we. split; [reflexivity|exact A]. }
      destruct pr as [y|e|]; unfold sim in S.
      + destruct S as (w2 & -> & H2). rewrite eval_bind. unfold drop.
        destruct (drop_entered w1 w2 l' (hl_transform l) l' g y o E H2 eq_refl) as (w3 & Ed & H3).
        fold g1 in Ed. rewrite Ed.
        apply IH; [intros l0 I; apply HL; right; exact I|]. eapply at_trans; eauto.
      + destruct S.
      + split; [|exact I]. destruct S as (w2 & -> & [_ D2]). eexists _, _. split; [reflexivity|].
        intros t b N. rewrite D2 by exact N. cbn. apply (proj2 (proj1 H1)), N.
  Qed.

  Lemma rest_pose_err rest thr (s : bctx F * list soa) e : blend_rest_pose rest thr s <> Err e.
  Proof.
    intros H. pose proof (sim_rest_pose 0 rest thr (fst s) (mk_world (fun _ => mk_lock KFree 0 false false)
      (put_data (fun _ _ => []) TSoa 0 (snd s))) []) as S.
    specialize (S _ (snd s) (conj (conj (fun a => eq_refl) (fun t b _ => eq_refl)) (put_data_eq _ TSoa 0 (snd s)))).
    destruct s. cbn [fst snd] in S. rewrite H in S. destruct S.
  Qed.
  Lemma normalize_err rest (s : bctx F * list soa) e : normalize rest s <> Err e.
  Proof.
    intros H. pose proof (sim_normalize 0 rest (fst s) (mk_world (fun _ => mk_lock KFree 0 false false)
      (put_data (fun _ _ => []) TSoa 0 (snd s))) []) as S.
    specialize (S _ (snd s) (conj (conj (fun a => eq_refl) (fun t b _ => eq_refl)) (put_data_eq _ TSoa 0 (snd s)))).
    destruct s. cbn [fst snd] in S. rewrite H in S. destruct S.
  Qed.

  Definition locked (w : world) (l : lock) (o : nat) : world := mk_world (put_lock (w_lock w) (TSoa, o) l) (w_data w).
  Lemma blend_distinct (w : world) (j : hbjob F) o r w' :
    hb_output j = Some o -> idle (w_lock w (TSoa, o)) ->
    (forall l, In l (hb_layers j ++ hb_additive j) -> hl_transform l <> o /\ readable (w_lock w (TSoa, hl_transform l))) ->
    exec (p_blend j) w = (r, w') ->
    match blend_run (blend_in w j) with
    | BOk (c, x) => r = Val c /\ w_data w' TSoa o = x
    | BErr e (_, x) => r = Fail e /\ w_data w' TSoa o = x
    | BPanic => r = Panics
    end /\ only_changes [(TSoa, o)] w w'.
  Proof.
    intros Ho Hi HL. unfold exec, p_blend, blend_run, blend_in. rewrite Ho.
    cbn [bj_skeleton bj_context bj_output bj_threshold bj_layers bj_additive option_map].
    destruct (hb_skeleton j) as [sk|]; [|cbn; intros H; inversion H; subst; destruct (hb_context j); repeat split].
    destruct (hb_context j) as [ctx|]; [|cbn; intros H; inversion H; subst; repeat split].
    cbn [need pbind]. unfold borrow. cbn [pbind eval].
    destruct (idle_acquire _ Hi) as [l' E]. rewrite E. cbn [load pbind eval w_data].
    change (@length (den TSoa) (w_data w TSoa o)) with (@length soa (w_data w TSoa o)).
    destruct (nlt nzero (hb_threshold j) && (num_soa_joints sk <=? @length soa (w_data w TSoa o))%nat);
      cbn [negb guard_ pbind].
    2:{ cbn. intros H; inversion H; subst. split; [split; reflexivity|]. intros t b _. reflexivity. }
    set (n := num_soa_joints sk).
    set (accs := if (length (bc_weights ctx) <? n)%nat then resize (bc_weights ctx) n nzero else bc_weights ctx).
    set (w0 := mk_world (put_lock (w_lock w) (TSoa, o) l') (w_data w)). pose (g := [((TSoa, o), Ex)] : guards).
    match goal with |- context [eval _ w0 ?g1] => change g1 with g end.
    assert (HL0 : forall l, In l (hb_layers j ++ hb_additive j) -> hl_transform l <> o /\ readable (w_lock w0 (TSoa, hl_transform l))).
    { intros l I. destruct (HL l I) as [A B]. split; [exact A|]. cbn. rewrite put_lock_ne by congruence. exact B. }
    assert (IN : forall ls, map (layer_in w) ls = map (layer_in w0) ls) by reflexivity.
    rewrite (IN (hb_layers j)), (IN (hb_additive j)).
    assert (F0 : forall (w2 : world), others (TSoa, o) w0 w2 -> only_changes [(TSoa, o)] w (drop_all false w2 g)).
    { intros w2 [_ D] t b Hn. cbn. rewrite D; [reflexivity|]. intros X; apply Hn; left; congruence. }
    assert (DD : forall b (w2 : world) g2, w_data (drop_all b w2 g2) = w_data w2).
    { clear. intros b w2 g2. revert w2. induction g2 as [|h g2 IH]; intros w2; cbn; [reflexivity|]. exact (IH (drop_one b w2 h)). }
    assert (OC : forall b (w2 : world) g2, (forall t b, (t, b) <> (TSoa, o) -> w_data w2 t b = w_data w0 t b) ->
              only_changes [(TSoa, o)] w (drop_all b w2 g2)).
    { intros b w2 g2 D t b' Hn. rewrite DD. rewrite D; [reflexivity|]. intros X; apply Hn; left; congruence. }
    rewrite eval_bind.
    pose proof (sim_blend_layers o n w0 g (hb_layers j) (fun l I => HL0 l (in_or_app _ _ _ (or_introl I)))
                  (mk_bctx 0 0 nzero accs) (w_data w TSoa o) w0 (conj (conj (sl_refl _) (fun t b _ => eq_refl)) eq_refl)) as S.
    destruct (blend_layers n _ _) as [[c x]|e [c x]|]; cbn [bsim fst snd] in S.
    2:{ destruct S as (w2 & g2 & -> & X & D). cbn [leave]. intros H; inversion H; subst. rewrite DD. split; [split; reflexivity|apply OC, D]. }
    2:{ destruct S as (w2 & g2 & -> & D). cbn [leave]. intros H; inversion H; subst. split; [reflexivity|apply OC, D]. }
    destruct S as (w2 & -> & H2). rewrite eval_bind.
    pose proof (sim_rest_pose o (sk_rest sk) (hb_threshold j) c w0 g w2 x H2) as S.
    destruct (blend_rest_pose _ _ (c, x)) as [[c1 x1]|e|] eqn:RP; cbn [sim fst snd] in S; [|destruct S|].
    2:{ destruct S as (w3 & -> & [_ D]). cbn [leave]. intros H; inversion H; subst. split; [reflexivity|exact (OC true _ g D)]. }
    destruct S as (w3 & -> & H3). rewrite eval_bind.
    pose proof (sim_normalize o (sk_rest sk) c1 w0 g w3 x1 H3) as S.
    destruct (normalize _ (c1, x1)) as [x2|e|] eqn:NO; cbn [sim fst snd] in S; [|destruct S|].
    2:{ destruct S as (w4 & -> & [_ D]). cbn [leave]. intros H; inversion H; subst. split; [reflexivity|exact (OC true _ g D)]. }
    destruct S as (w4 & -> & H4). rewrite eval_bind.
    pose proof (sim_add_layers o n (length (sk_rest sk)) w0 g (hb_additive j) (fun l I => HL0 l (in_or_app _ _ _ (or_intror I)))
                  c1 x2 w4 H4) as [S SC]. cbn [fst snd].
    destruct (add_layers n _ _ (c1, x2)) as [[c3 x3]|e [c3 x3]|]; cbn [bsim fst snd] in S.
    2:{ destruct S as (w5 & g2 & -> & X & D). cbn [leave]. intros H; inversion H; subst. rewrite DD. split; [split; reflexivity|apply OC, D]. }
    2:{ destruct S as (w5 & g2 & -> & D). cbn [leave]. intros H; inversion H; subst. split; [reflexivity|apply OC, D]. }
    destruct S as (w5 & -> & H5). cbn in SC. subst c3. cbn [eval leave]. intros H; inversion H; subst.
    split; [split; [reflexivity|exact (proj2 H5)]|exact (OC false _ g (proj2 (proj1 H5)))].
  Qed.

  (** ** Guards exclude each other *)

  (** What holding [g] says about the locks, and about the guards themselves: an exclusive guard
      is the only one on its buffer. *)
  Definition held (w : world) (g : guards) : Prop :=
    forall a m, In (a, m) g -> lk_kind (w_lock w a) <> KFree ->
      match m with Sh => lk_readers (w_lock w a) <> 0%N | Ex => lk_writer (w_lock w a) = true end.
  Fixpoint excl (kd : addr -> kind) (g : guards) : Prop :=
    match g with
    | [] => True
    | (a, m) :: g =>
        excl kd g /\
        (kd a <> KFree -> forall m', In (a, m') g -> m = Sh /\ m' = Sh)
    end.
  Definition kd (w : world) : addr -> kind := fun a => lk_kind (w_lock w a).
  Definition skinds (w w' : world) : Prop := forall a, lk_kind (w_lock w' a) = lk_kind (w_lock w a).
  Lemma excl_ext kd1 kd2 g : (forall a, kd1 a = kd2 a) -> excl kd1 g -> excl kd2 g.
  Proof.
    intros H. induction g as [|[a m] g IH]; cbn; [auto|]. intros [A B]. split; [auto|]. rewrite <- H. exact B.
  Qed.

  (** Counting, to follow releases: [holds g a] guards on [a], all shared or one exclusive. *)
  Fixpoint nsh (g : guards) (a : addr) : N :=
    match g with
    | [] => 0
    | (a', Sh) :: g => (if addr_eq a' a then 1 else 0) + nsh g a
    | _ :: g => nsh g a
    end%N.
  Lemma nsh_pos g a : In (a, Sh) g -> (nsh g a <> 0)%N.
  Proof.
    induction g as [|[a' m] g IH]; cbn; [tauto|]. intros [E|E].
    - inversion E; subst. destruct (addr_eq a a); [lia|congruence].
    - specialize (IH E). destruct m; [|exact IH]. lia.
  Qed.
  Definition counted (w : world) (g : guards) : Prop :=
    forall a, lk_kind (w_lock w a) <> KFree ->
      (nsh g a <= lk_readers (w_lock w a))%N /\ (In (a, Ex) g -> lk_writer (w_lock w a) = true).
  Lemma counted_held w g : counted w g -> held w g.
  Proof.
    intros H a m I K. destruct (H a K) as [A B]. destruct m; [|auto]. pose proof (nsh_pos g a I). lia.
  Qed.

  Lemma acquire_got l m l' : acquire l m = Got l' -> lk_kind l <> KFree ->
    lk_kind l' = lk_kind l /\ lk_writer l = false /\
    match m with
    | Sh => lk_readers l' = (lk_readers l + 1)%N /\ lk_writer l' = false
    | Ex => lk_readers l = 0%N /\ lk_readers l' = 0%N /\ lk_writer l' = true
    end.
  Proof.
    intros H K. pose proof (acquire_kind _ _ _ H) as K'. split; [exact K'|]. unfold acquire in H.
    destruct (lk_kind l) eqn:E; [congruence| |]; destruct m; destruct (lk_writer l) eqn:Wr; cbn in H; try discriminate; split; try reflexivity.
    - destruct (_ <=? _)%N; [discriminate|]. inversion H; cbn. auto.
    - destruct (N.eqb_spec (lk_readers l) 0); [|discriminate]. inversion H; cbn. auto.
    - destruct (_ <=? _)%N; [discriminate|]. destruct (lk_poison l); [discriminate|]. inversion H; cbn. auto.
    - destruct (N.eqb_spec (lk_readers l) 0); [|discriminate]. destruct (lk_poison l); [discriminate|]. inversion H; cbn. auto.
  Qed.
  (** A guard can only be had if the other guards allow it. *)
  Lemma acquire_excl w g a m l' : counted w g -> acquire (w_lock w a) m = Got l' ->
    lk_kind (w_lock w a) <> KFree -> forall m', In (a, m') g -> m = Sh /\ m' = Sh.
  Proof.
    intros C E K m' I. destruct (acquire_got _ _ _ E K) as (_ & B & D). pose proof (counted_held _ _ C a m' I K) as Hh.
    destruct m'; [|congruence]. destruct m; [auto|]. destruct D as (D & _). congruence.
  Qed.
  Lemma counted_acquire w g a m l' : counted w g -> acquire (w_lock w a) m = Got l' ->
    counted (mk_world (put_lock (w_lock w) a l') (w_data w)) ((a, m) :: g).
  Proof.
    intros C E a' K. cbn [w_lock] in *. destruct (addr_eq a a') as [<-|n].
    - rewrite put_lock_eq in *. pose proof (acquire_kind _ _ _ E) as EK. rewrite EK in K.
      destruct (acquire_got _ _ _ E K) as (_ & B & D). destruct (C a K) as [C1 C2]. destruct m; cbn [nsh].
      + destruct D as [D1 D2]. destruct (addr_eq a a); [|congruence]. split; [lia|].
        intros [I|I]; [discriminate|]. specialize (C2 I). congruence.
      + destruct D as (D1 & D2 & D3). split; [lia|auto].
    - rewrite put_lock_ne in * by exact n. destruct (C a' K) as [C1 C2]. split.
      + cbn. destruct m; [|exact C1]. destruct (addr_eq a a'); [congruence|exact C1].
      + intros [I|I]; [inversion I; congruence|auto].
  Qed.
  Lemma counted_release w g a m : excl (kd w) ((a, m) :: g) -> counted w ((a, m) :: g) ->
    counted (drop_one false w (a, m)) g.
  Proof.
    intros [_ X] C a' K. unfold drop_one in *. cbn [fst snd w_lock] in *.
    destruct (addr_eq a a') as [<-|n].
    - rewrite put_lock_eq in *.
      assert (K0 : lk_kind (w_lock w a) <> KFree). { unfold release in K. destruct (lk_kind (w_lock w a)) eqn:Q; [congruence|discriminate|discriminate]. }
      destruct (C a K0) as [C1 C2]. specialize (X K0). unfold release. destruct (lk_kind (w_lock w a)) eqn:Q; [congruence| |].
      all: destruct m; cbn [lk_readers lk_writer nsh] in *; [destruct (addr_eq a a); [|congruence]|]; split; try lia; intros I;
        (specialize (X Ex I); destruct X; congruence) || idtac.
    - rewrite put_lock_ne in * by exact n. destruct (C a' K) as [C1 C2]. split.
      + cbn in C1. destruct m; [|exact C1]. destruct (addr_eq a a'); [congruence|exact C1].
      + intros I. apply C2. right; exact I.
  Qed.
  Lemma release_kind p l m : lk_kind (release p l m) = lk_kind l.
  Proof. unfold release. destruct (lk_kind l) eqn:E; [exact E| |]; destruct m; reflexivity. Qed.
  Lemma drop_one_kinds p w h : skinds w (drop_one p w h).
  Proof.
    intros a. unfold drop_one. cbn. destruct (addr_eq (fst h) a) as [<-|n]; [rewrite put_lock_eq; apply release_kind|rewrite put_lock_ne by exact n; reflexivity].
  Qed.
  Lemma kinds_acquire w a m l' : acquire (w_lock w a) m = Got l' -> skinds w (mk_world (put_lock (w_lock w) a l') (w_data w)).
  Proof.
    intros E a'. cbn. destruct (addr_eq a a') as [<-|n]; [rewrite put_lock_eq; apply (acquire_kind _ _ _ E)|rewrite put_lock_ne by exact n; reflexivity].
  Qed.

  Definition at_end {A} (r : ev A) : world * guards :=
    match r with EVal _ w g | EFail _ w g | EPan w g | EBlock w g => (w, g) end.
  Lemma eval_excl {A} (p : prog A) : forall w g, counted w g -> excl (kd w) g ->
    let '(w', g') := at_end (eval p w g) in skinds w w' /\ counted w' g' /\ excl (kd w') g'.
  Proof.
    assert (T : forall w1 w2 w3, skinds w1 w2 -> skinds w2 w3 -> skinds w1 w3) by (intros w1 w2 w3 H1 H2 a; rewrite H2; apply H1).
    induction p as [a|e| |a m q IHq k IHk|k IHk|t b0 k IHk|t b0 x k IHk]; intros w g C X; cbn [eval at_end];
      try (split; [intros a0; reflexivity|auto]).
    - destruct (acquire (w_lock w a) m) as [l| | |] eqn:E; cbn [at_end]; [|apply IHq; assumption|split; [intros a0; reflexivity|auto]..].
      pose proof (kinds_acquire w a m l E) as KK.
      specialize (IHk (mk_world (put_lock (w_lock w) a l) (w_data w)) ((a, m) :: g) (counted_acquire _ _ _ _ _ C E)).
      destruct (at_end (eval k _ _)) as [w' g'].
      destruct IHk as (I1 & I2); [|split; [eapply T; eassumption|exact I2]].
      split.
      + apply (excl_ext (kd w)); [intros a0; symmetry; apply KK|exact X].
      + unfold kd. rewrite (KK a). apply (acquire_excl w g a m l C E).
    - destruct g as [|[a m] g].
      + apply IHk; assumption.
      + pose proof (drop_one_kinds false w (a, m)) as KK. specialize (IHk (drop_one false w (a, m)) g (counted_release _ _ _ _ X C)).
        destruct (at_end (eval k _ _)) as [w' g']. destruct IHk as (I1 & I2).
        { apply (excl_ext (kd w)); [intros a0; symmetry; apply KK|exact (proj1 X)]. }
        split; [eapply T; eassumption|exact I2].
    - apply IHk; assumption.
    - specialize (IHk (mk_world (w_lock w) (put_data (w_data w) t b0 x)) g C X). exact IHk.
  Qed.
End Proofs.
