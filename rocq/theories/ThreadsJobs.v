(** Proofs: which buffers the jobs borrow, and what they hold at that time. *)
From Verif Require Import Base Num Math Skeleton Sampling Blending Skinning Buffers BuffersSpec BuffersProofs BuffersAlias BuffersSkin
  BuffersMore Threads ThreadsSpec ThreadsProofs.

Section Jobs.
  Context {F : Type} {NF : Num F} {C : Type}.
  Notation prog := (prog F). Notation job := (job F C).

  (** [g] was taken from a list. *)
  Definition below (l g : list (addr * mode)) : Prop := incl g l /\ (length g <= length l)%nat.
  Definition in_turn (l : list (addr * mode)) (g : guards) (a : addr) (m : mode) : Prop :=
    exists l1 l2, l = l1 ++ (a, m) :: l2 /\ below l1 g.
  (** The job borrows [a] while it holds [g]. *)
  Definition takes (j : job) (g : guards) (a : addr) (m : mode) : Prop :=
    match j with
    | JSample _ _ _ o => g = [] /\ In (a, m) (uses j)
    | JBlend b =>
        exists o, hb_output b = Some o /\
          ((g = [] /\ a = (TSoa, o) /\ m = Ex) \/
           (g = [((TSoa, o), Ex)] /\ m = Sh /\ exists l, In l (layer_bufs b) /\ a = (TSoa, l)))
    | JBlendV b =>
        exists o, hb_output b = Some o /\
          ((g = [] /\ a = (TSoa, o) /\ m = Sh) \/
           (g = [((TSoa, o), Sh)] /\ m = Sh /\ exists l, In l (layer_bufs b) /\ a = (TSoa, l)))
    | JLtm _ b =>
        exists i, hj_input b = Some i /\
          ((g = [] /\ a = (TSoa, i) /\ m = Sh) \/
           (g = [((TSoa, i), Sh)] /\ m = Ex /\ exists o, hj_output b = Some o /\ a = (TMat, o)))
    | JLtmV b =>
        exists i, hj_input b = Some i /\
          ((g = [] /\ a = (TSoa, i) /\ m = Sh) \/
           (g = [((TSoa, i), Sh)] /\ m = Sh /\ exists o, hj_output b = Some o /\ a = (TMat, o)))
    | JSkin _ b => in_turn (skin_bufs b Ex) g a m
    | JSkinV _ b => in_turn (skin_bufs b Sh) g a m
    end.
  (** It drops this guard early. *)
  Definition lets (j : job) (h : addr * mode) : Prop :=
    match j with
    | JBlend b | JBlendV b => exists l, In l (layer_bufs b) /\ h = ((TSoa, l), Sh)
    | JSkinV _ b => In h (skin_bufs b Sh)
    | _ => False
    end.

  Lemma traced_weaken {A} (Q Q' : guards -> addr -> mode -> Prop) (D D' : addr * mode -> Prop) P (p : prog A) : forall g,
    (forall g a m, Q g a m -> Q' g a m) -> (forall h, D h -> D' h) -> traced Q D g p P -> traced Q' D' g p P.
  Proof.
    intros g HQ HD. revert g. induction p as [a|e| |a m q IHq k IHk|k IHk|t b k IHk|t b x k IHk]; intros g T; cbn in *; auto.
    - destruct T as (T0 & T1 & T2). auto.
    - destruct g as [|h g]; [destruct T|]. destruct T. auto.
  Qed.
  Lemma traced_end {A B} Q D (p : prog A) (f : A -> B) g :
    traced Q D g p (fun _ _ => True) -> traced Q D g (pbind p (fun a => Ret (f a))) (fun _ _ => True).
  Proof. intros H. apply traced_bind. eapply traced_mono; [|exact H]. intros; exact I. Qed.
  Lemma guarded_end {A B} (p : prog A) (f : A -> B) g :
    guarded g p (fun _ _ => True) -> guarded g (pbind p (fun a => Ret (f a))) (fun _ _ => True).
  Proof. intros H. apply guarded_bind. eapply guarded_mono; [|exact H]. intros; exact I. Qed.

  (** ** Blending *)
  Lemma traced_blend (j : hbjob F) : traced (takes (JBlend j)) (lets (JBlend j)) [] (p_blend j) (fun _ _ => True).
  Proof.
    unfold p_blend. destruct (hb_skeleton j) as [sk|]; [|exact I]. destruct (hb_context j) as [ctx|]; [|exact I].
    destruct (hb_output j) as [o|] eqn:O; [|exact I]. cbn [need pbind borrow traced]. split; [|split; [exact I|]].
    { exists o. split; [exact O|]. left. auto. }
    cbn [load pbind traced]. intros out.
    set (g := [((TSoa, o), Ex)]). set (Q := takes (JBlend j)). set (D := lets (JBlend j)).
    assert (EN : forall B n (l : hlayer F) (f : unit -> prog B) P, In (hl_transform l) (layer_bufs j) ->
              traced Q D (((TSoa, hl_transform l), Sh) :: g) (f tt) P -> traced Q D g (pbind (p_enter n l) f) P).
    { intros B n l f P IN H. unfold p_enter. cbn. split; [|split; [exact I|]].
      - exists o. split; [exact O|]. right. split; [reflexivity|]. split; [reflexivity|]. eauto.
      - intros x. destruct (layer_ok _ _); [exact H|exact I]. }
    assert (BL : forall ls, incl ls (hb_layers j ++ hb_additive j) -> forall c,
      traced Q D g (p_blend_layers o (num_soa_joints sk) ls c) (keep g)).
    { intros ls. induction ls as [|l ls IH]; intros IN c; cbn [p_blend_layers]; [reflexivity|].
      apply EN; [apply in_map, IN; left; reflexivity|]. apply traced_then.
      - destruct (nle (hl_weight l) nzero); [reflexivity|]. apply traced_then; [|intros; reflexivity].
        apply quiet_traced. eapply calm_quiet, calm_layer_pass.
      - intros c'. cbn. split; [exists (hl_transform l); split; [apply in_map, IN; left; reflexivity|reflexivity]|].
        apply IH. intros x H. apply IN. right. exact H. }
    assert (AL : forall ls, incl ls (hb_layers j ++ hb_additive j) ->
      traced Q D g (p_add_layers o (num_soa_joints sk) (length (sk_rest sk)) ls) (keep g)).
    { intros ls. induction ls as [|l ls IH]; intros IN; cbn [p_add_layers]; [reflexivity|].
      apply EN; [apply in_map, IN; left; reflexivity|]. apply traced_then.
      - apply quiet_traced. destruct (nlt nzero (hl_weight l)); [eapply calm_quiet, calm_additive_pass|].
        destruct (nlt (hl_weight l) nzero); [eapply calm_quiet, calm_additive_pass|exact I].
      - intros _. cbn. split; [exists (hl_transform l); split; [apply in_map, IN; left; reflexivity|reflexivity]|].
        apply IH. intros x H. apply IN. right. exact H. }
    apply traced_then; [destruct (_ && _); cbn; reflexivity|]. intros _.
    apply traced_then; [apply BL; intros x H; apply in_or_app; auto|].
    intros c. apply traced_then; [apply quiet_traced; eapply calm_quiet, calm_rest_pose|]. intros c'.
    apply traced_then; [apply quiet_traced; eapply calm_quiet, calm_normalize|]. intros _.
    apply traced_then; [apply AL; intros x H; apply in_or_app; auto|]. intros; exact I.
  Qed.
  Lemma check_layers_ok n Q D g (ls : list (hlayer F)) P : forall ok (k : bool -> prog bool),
    (forall l, In l ls -> Q g (TSoa, hl_transform l) Sh /\ D ((TSoa, hl_transform l), Sh) /\ P ((TSoa, hl_transform l), Sh)) ->
    (forall ok, traced Q D g (k ok) (fun _ _ => True) /\ guarded g (k ok) (fun _ _ => True)) ->
    traced Q D g (p_check_layers n ls ok k) (fun _ _ => True) /\ guarded g (p_check_layers n ls ok k) (fun _ _ => True).
  Proof.
    induction ls as [|l ls IH]; intros ok k HL HK; cbn [p_check_layers]; [apply HK|].
    destruct (HL l (or_introl eq_refl)) as (H1 & H2 & _).
    assert (HL' : forall l0, In l0 ls -> Q g (TSoa, hl_transform l0) Sh /\ D ((TSoa, hl_transform l0), Sh) /\ P ((TSoa, hl_transform l0), Sh))
      by (intros l0 H; apply HL; right; exact H).
    unfold peek. cbn. split.
    - split; [exact H1|]. split; [exact I|]. intros x. split; [exact H2|]. apply IH; assumption.
    - split; [exact I|]. split; [eexists; left; reflexivity|]. intros x. apply IH; assumption.
  Qed.
  Lemma blend_validate_ok (j : hbjob F) :
    traced (takes (JBlendV j)) (lets (JBlendV j)) [] (p_blend_validate j) (fun _ _ => True) /\
    guarded [] (p_blend_validate j) (fun _ _ => True).
  Proof.
    unfold p_blend_validate. destruct (hb_skeleton j) as [sk|]; [|split; exact I]. destruct (hb_context j) as [ctx|]; [|split; exact I].
    destruct (hb_output j) as [o|] eqn:O; [|split; exact I].
    assert (K : forall out : list (den F TSoa),
      let p := p_check_layers (num_soa_joints sk) (hb_layers j) (nlt nzero (hb_threshold j) && (num_soa_joints sk <=? length out)%nat)
         (fun ok => p_check_layers (num_soa_joints sk) (hb_additive j) ok Ret) in
      traced (takes (JBlendV j)) (lets (JBlendV j)) [((TSoa, o), Sh)] p (fun _ _ => True) /\
      guarded [((TSoa, o), Sh)] p (fun _ _ => True)).
    { intros out. 
      assert (L : forall l, In l (hb_layers j ++ hb_additive j) ->
        takes (JBlendV j) [((TSoa, o), Sh)] (TSoa, hl_transform l) Sh /\ lets (JBlendV j) ((TSoa, hl_transform l), Sh) /\ True).
      { intros l H. split; [|split; [|exact I]].
        - exists o. split; [exact O|]. right. split; [reflexivity|]. split; [reflexivity|]. exists (hl_transform l).
          split; [apply in_map; exact H|reflexivity].
        - exists (hl_transform l). split; [apply in_map; exact H|reflexivity]. }
      apply check_layers_ok with (P := fun _ => True).
      - intros l H. apply L, in_or_app. auto.
      - intros ok. apply check_layers_ok with (P := fun _ => True).
        + intros l H. apply L, in_or_app. auto.
        + intros ok'. split; exact I. }
    unfold peek. cbn. split.
    - split; [|split; [exact I|intros x; apply (K x)]]. exists o. split; [exact O|]. left. auto.
    - split; [exact I|]. split; [eexists; left; reflexivity|]. intros x. apply (K x).
  Qed.

  (** ** Local to model, sampling *)
  Lemma traced_ltm checks (j : hljob F) : traced (takes (JLtm checks j)) (lets (JLtm checks j)) [] (p_ltm checks j) (fun _ _ => True).
  Proof.
    unfold p_ltm. destruct (hj_skeleton j) as [sk|]; [|exact I]. destruct (hj_input j) as [i|] eqn:IN; [|exact I].
    cbn [need pbind borrow traced]. split; [exists i; split; [exact IN|left; auto]|]. split; [exact I|].
    destruct (hj_output j) as [o|] eqn:O; [|exact I]. cbn [need pbind borrow traced load].
    split; [exists i; split; [exact IN|right; split; [reflexivity|]; split; [reflexivity|]; eauto]|]. split; [exact I|].
    intros x y. destruct (ltm_run _ _); cbn; auto.
  Qed.
  Lemma ltm_validate_ok (j : hljob F) :
    traced (takes (JLtmV j)) (lets (JLtmV j)) [] (p_ltm_validate j) (fun _ _ => True) /\
    guarded [] (p_ltm_validate j) (fun _ _ => True).
  Proof.
    unfold p_ltm_validate. destruct (hj_skeleton j) as [sk|]; [|split; exact I]. destruct (hj_input j) as [i|] eqn:IN; [|split; exact I].
    unfold peek. cbn. split.
    - split; [exists i; split; [exact IN|left; auto]|]. split; [exact I|]. intros x.
      destruct (hj_output j) as [o|] eqn:O; [|exact I]. cbn. split; [|auto].
      exists i. split; [exact IN|]. right; split; [reflexivity|]; split; [reflexivity|]; eauto.
    - split; [exact I|]. split; [eexists; left; reflexivity|]. intros x. destruct (hj_output j) as [o|]; [|exact I]. cbn.
      split; [exact I|]. split; [eexists; left; reflexivity|auto].
  Qed.
  Lemma traced_sampling an cx f o : traced (takes (JSample an cx f o)) (lets (JSample an cx f o)) [] (p_sampling an cx f o) (fun _ _ => True).
  Proof.
    unfold p_sampling. destruct an; [|exact I]. destruct cx; [|exact I]. destruct o as [o|]; [|exact I].
    cbn. split; [split; [reflexivity|left; reflexivity]|]. split; [exact I|]. intros x. destruct (f x); cbn; auto.
  Qed.

  (** ** Skinning *)
  Section Skin.
  Variable L : list (addr * mode).
  Variable D : addr * mode -> Prop.
  Notation Q := (in_turn L).
  Lemma below_skip l l' g : below l g -> below (l ++ l') g.
  Proof. intros [H1 H2]. split; [intros x X; apply in_or_app; auto|]. rewrite app_length. lia. Qed.
  Lemma below_take l h g : below l g -> below (l ++ [h]) (h :: g).
  Proof.
    intros [H1 H2]. split; [|rewrite app_length; cbn; lia]. intros x [<-|X]; apply in_or_app; [right; left; reflexivity|left; auto].
  Qed.
  Lemma traced_borrow {B} t b m g (f : unit -> prog B) P L1 L2 : L = L1 ++ named t m [b] ++ L2 -> below L1 g ->
    (forall g', below (L1 ++ named t m [b]) g' -> traced Q D g' (f tt) P) -> traced Q D g (pbind (borrow t b m) f) P.
  Proof.
    intros E BL H. cbn. split; [exists L1, L2; split; [exact E|exact BL]|]. split; [exact I|]. apply H, below_take, BL.
  Qed.
  Lemma traced_assoc {A B E} (p : prog A) (f : A -> prog B) (h : B -> prog E) Q' g P :
    traced Q' D g (pbind p (fun a => pbind (f a) h)) P -> traced Q' D g (pbind (pbind p f) h) P.
  Proof.
    revert g. induction p as [a|e| |a m q IHq k IHk|k IHk|t b k IHk|t b x k IHk]; intros g G; cbn in *; auto.
    - destruct G as (G0 & G1 & G2). auto.
    - destruct g as [|h0 g]; [destruct G|]. destruct G. auto.
  Qed.
  Lemma traced_unpack {B} t b m size g (f : nat -> prog B) P L1 L2 : L = L1 ++ named t m (opt b) ++ L2 -> below L1 g ->
    (forall b' g', below (L1 ++ named t m (opt b)) g' -> traced Q D g' (f b') P) -> traced Q D g (pbind (p_unpack t b m size) f) P.
  Proof.
    intros E BL H. unfold p_unpack. destruct b as [b|]; [|exact I]. cbn [need pbind].
    apply traced_assoc, (traced_borrow t b m g _ P L1 L2 E BL). intros g' BL'. cbn. intros x. destruct (_ <=? _)%N; [|exact I]. cbn. apply H, BL'.
  Qed.
  Lemma traced_take {B} t b g (f : nat -> prog B) P L1 L2 : L = L1 ++ named t Sh (opt b) ++ L2 -> below L1 g ->
    (forall b' g', below (L1 ++ named t Sh (opt b)) g' -> traced Q D g' (f b') P) -> traced Q D g (pbind (p_take t b) f) P.
  Proof.
    intros E BL H. unfold p_take. destruct b as [b|]; [|exact I]. cbn [need pbind].
    apply traced_assoc, (traced_borrow t b Sh g _ P L1 L2 E BL). intros g' BL'. cbn. apply H, BL'.
  Qed.
  Lemma traced_unwrap {B} b g (f : nat -> prog B) P L1 L2 : L = L1 ++ named TMat Sh (opt b) ++ L2 -> below L1 g ->
    (forall b' g', below (L1 ++ named TMat Sh (opt b)) g' -> traced Q D g' (f b') P) ->
    traced Q D g (pbind (match b with Some b => pbind (borrow TMat b Sh) (fun _ => Ret b) | None => Pan end) f) P.
  Proof.
    intros E BL H. destruct b as [b|]; [|exact I].
    apply traced_assoc, (traced_borrow TMat b Sh g _ P L1 L2 E BL). intros g' BL'. cbn. apply H, BL'.
  Qed.
  Lemma traced_its {B} it b g (f : option nat -> prog B) P L1 L2 : L = L1 ++ named TMat Sh (opt b) ++ L2 -> below L1 g ->
    (forall b' g', below (L1 ++ named TMat Sh (opt b)) g' -> traced Q D g' (f b') P) -> traced Q D g (pbind (p_its it b) f) P.
  Proof.
    intros E BL H. unfold p_its. destruct it; [|cbn [pbind]; apply H, below_skip, BL].
    apply traced_assoc, (traced_take TMat b g _ P L1 L2 E BL). intros b' g' BL'. cbn. apply H, BL'.
  Qed.
  Lemma traced_unpack3 {B} j m vc p n t g (f : nat * nat * nat -> prog B) P L1 L2 :
    L = L1 ++ named TV3 m (vertex_bufs j p n t) ++ L2 -> below L1 g ->
    (forall b' g', below (L1 ++ named TV3 m (vertex_bufs j p n t)) g' -> traced Q D g' (f b') P) ->
    traced Q D g (pbind (p_unpack3 (hvariant j) m vc p n t) f) P.
  Proof.
    intros E BL H. unfold p_unpack3, vertex_bufs, hvariant in *. unfold named in *. rewrite map_app in *. fold (named TV3 m (opt p)) in *.
    apply traced_assoc, (traced_unpack TV3 p m vc g _ P L1 (map (fun b => (TV3, b, m)) (if is_some (hs_normals j) then opt n ++ (if is_some (hs_tangents j) then opt t else []) else []) ++ L2)); [rewrite E, <- app_assoc; reflexivity|exact BL|].
    intros p' g1 B1. destruct (hs_normals j) as [hn|]; cbn [is_some] in *.
    - rewrite map_app in *. fold (named TV3 m (opt n)) in *.
      assert (EN : forall (k : nat -> prog B), (forall b' g', below (L1 ++ named TV3 m (opt p) ++ named TV3 m (opt n)) g' -> traced Q D g' (k b') P) ->
        traced Q D g1 (pbind (p_unpack TV3 n m vc) k) P).
      { intros k HK. eapply (traced_unpack TV3 n m vc g1 k P (L1 ++ named TV3 m (opt p))); [|exact B1|intros b' g' X; apply HK; rewrite app_assoc; exact X].
        rewrite E, <- !app_assoc. reflexivity. }
      destruct (hs_tangents j) as [ht|]; cbn [is_some] in *.
      + fold (named TV3 m (opt t)) in *. apply traced_assoc, EN. intros n' g2 B2.
        apply traced_assoc, (traced_unpack TV3 t m vc g2 _ P (L1 ++ named TV3 m (opt p) ++ named TV3 m (opt n)) L2); [|exact B2|].
        * rewrite E, <- !app_assoc. reflexivity.
        * intros t' g3 B3. cbn [pbind]. apply H. rewrite <- !app_assoc in B3. exact B3.
      + apply traced_assoc, EN. intros n' g2 B2. cbn [pbind]. apply H. cbn [map]. rewrite app_nil_r. exact B2.
    - cbn [pbind]. apply H. cbn [map]. rewrite app_nil_r. exact B1.
  Qed.
  Lemma quiet_load t b : quiet (load t b : prog (list (den F t))). Proof. cbn. auto. Qed.
  Lemma quiet_its b : quiet (load_its b : prog _).
  Proof. destruct b; [|exact I]. cbn. auto. Qed.
  Lemma quiet_vertices n (vertex : nat -> prog _) k ins outs : (forall i, quiet (vertex i)) -> quiet (p_vertices n vertex k ins outs).
  Proof.
    intros HV. destruct ins as [[pi ni] ti], outs as [[po no] to]. unfold p_vertices. apply quiet_for. intros i _.
    assert (W : forall a b f, quiet (p_write a b i f : prog unit)).
    { intros a b f. unfold p_write, rd. apply quiet_bind; [intros l; apply quiet_lift|]. intros x. unfold wr. cbn. intros l.
      destruct (set l i (f x)); exact I. }
    apply quiet_bind; [apply HV|]. intros mm. apply quiet_bind; [apply W|]. intros _.
    apply quiet_bind; [destruct k; [exact I|apply W..]|]. intros _. destruct k; [exact I|exact I|apply W].
  Qed.
  End Skin.
  Lemma traced_skin checks (j : hsjob) : traced (takes (JSkin checks j)) (lets (JSkin checks j)) [] (p_skin checks j) (fun _ _ => True).
  Proof.
    rewrite h_dispatch. destruct (_ =? 0)%N; [exact I|].
    assert (B0 : below [] []) by (split; [intros x []|cbn; lia]).
    unfold takes, lets. set (L := skin_bufs j Ex).
    assert (EL : L = [] ++ named TMat Sh (opt (hs_matrices j)) ++ named TMat Sh (opt (hs_it_matrices j)) ++
      named TU16 Sh (opt (hs_indices j)) ++ named TF32 Sh (opt (hs_weights j)) ++
      named TV3 Sh (skin_ins j) ++ named TV3 Ex (skin_outs j) ++ []) by (unfold L, skin_bufs; rewrite app_nil_r; reflexivity).
    clearbody L.
    assert (EM : forall g, traced (in_turn L) (fun _ => False) g (Ret tt : prog unit) (fun _ _ => True)) by (intros; exact I).
    destruct (_ =? 1)%N.
    - unfold p_skinning_1.
      eapply traced_take; [exact EL|exact B0|]. intros ms g1 B1. rewrite app_assoc in EL.
      eapply traced_its; [exact EL|exact B1|]. intros its g2 B2. rewrite app_assoc in EL.
      eapply traced_unpack; [exact EL|exact B2|]. intros ix g3 B3. rewrite app_assoc in EL.
      apply (below_skip _ (named TF32 Sh (opt (hs_weights j)))) in B3. rewrite app_assoc in EL.
      eapply traced_unpack3; [exact EL|exact B3|]. intros ins g4 B4. rewrite app_assoc in EL.
      eapply traced_unpack3; [exact EL|exact B4|]. intros outs g5 B5.
      eapply traced_mono; [|apply quiet_traced]; [intros; exact I|]. apply quiet_vertices. intros i.
      apply quiet_bind; [apply quiet_load|]. intros lm. apply quiet_bind; [apply quiet_its|]. intros li.
      apply quiet_bind; [apply quiet_load|]. intros lx. apply quiet_lift.
    - unfold p_skinning_impl.
      eapply traced_unwrap; [exact EL|exact B0|]. intros ms g1 B1. rewrite app_assoc in EL.
      eapply traced_its; [exact EL|exact B1|]. intros its g2 B2. rewrite app_assoc in EL.
      apply traced_then; [apply quiet_traced, quiet_lift|]. intros si.
      eapply traced_unpack; [exact EL|exact B2|]. intros ix g3 B3. rewrite app_assoc in EL.
      apply traced_then; [apply quiet_traced, quiet_lift|]. intros sw.
      eapply traced_unpack; [exact EL|exact B3|]. intros ws g3' B3'. rewrite app_assoc in EL.
      eapply traced_unpack3; [exact EL|exact B3'|]. intros ins g4 B4. rewrite app_assoc in EL.
      eapply traced_unpack3; [exact EL|exact B4|]. intros outs g5 B5.
      eapply traced_mono; [|apply quiet_traced]; [intros; exact I|]. apply quiet_vertices. intros i.
      apply quiet_bind; [apply quiet_load|]. intros lm. apply quiet_bind; [apply quiet_its|]. intros li.
      apply quiet_bind; [apply quiet_load|]. intros lx. apply quiet_bind; [apply quiet_load|]. intros lw. apply quiet_lift.
  Qed.
  Definition vok (Q : guards -> addr -> mode -> Prop) (D : addr * mode -> Prop) (g : guards) (p : prog bool) : Prop :=
    traced Q D g p (fun _ _ => True) /\ guarded g p (fun _ _ => True).
  Lemma vok_ret (Q : guards -> addr -> mode -> Prop) (D : addr * mode -> Prop) (g : guards) b : vok Q D g (Ret b). Proof. split; exact I. Qed.
  Lemma vok_peek (Q : guards -> addr -> mode -> Prop) (D : addr * mode -> Prop) (g : guards) t b r k : Q g (t, b) Sh -> (forall l, vok Q D (((t, b), Sh) :: g) (k l)) -> vok Q D g (peek t b r k).
  Proof.
    intros H K. unfold peek, vok. cbn. split.
    - split; [exact H|]. split; [exact I|]. intros x. apply K.
    - split; [exact I|]. split; [eexists; left; reflexivity|]. intros x. apply K.
  Qed.
  Lemma vok_drop (Q : guards -> addr -> mode -> Prop) (D : addr * mode -> Prop) (g : guards) a k : D (a, Sh) -> vok Q D g k -> vok Q D ((a, Sh) :: g) (Drop k).
  Proof. intros H [K1 K2]. split; cbn; auto. Qed.
  Lemma vok_lift (Q : guards -> addr -> mode -> Prop) (D : addr * mode -> Prop) (g : guards) {A} (r : res A) k : (forall a, vok Q D g (k a)) -> vok Q D g (pbind (lift r) k).
  Proof. intros H. destruct r; cbn; [apply H|split; exact I|split; exact I]. Qed.
  Lemma vok_temp (Q : guards -> addr -> mode -> Prop) (D : addr * mode -> Prop) (g : guards) t b size k : (forall x, b = Some x -> Q g (t, x) Sh /\ D ((t, x), Sh)) -> (forall r, vok Q D g (k r)) ->
    vok Q D g (p_temp t b size k).
  Proof.
    intros H K. unfold p_temp. destruct b as [b|]; [|apply vok_ret]. destruct (H b eq_refl) as [H1 H2].
    apply vok_peek; [exact H1|]. intros l. apply vok_drop; [exact H2|]. apply K.
  Qed.
  Lemma skin_validate_ok checks (j : hsjob) :
    vok (takes (JSkinV checks j)) (lets (JSkinV checks j)) [] (p_skin_validate checks j).
  Proof.
    unfold takes, lets. set (L := skin_bufs j Sh). set (D := fun h => In h L). set (Q := in_turn L).
    assert (B0 : forall h, In h L -> snd h = Sh -> Q [] (fst h) Sh).
    { intros [a m] H E. cbn in E; subst m. apply in_split in H. destruct H as (l1 & l2 & E). exists l1, l2. split; [exact E|].
      split; [intros x []|cbn; lia]. }
    assert (NM : forall t b x, b = Some x -> In ((t, x), Sh) (named t Sh (opt b))) by (intros t b x ->; left; reflexivity).
    unfold p_skin_validate. destruct (hs_matrices j) as [m|] eqn:M; [|apply vok_ret].
    assert (LM : In ((TMat, m), Sh) L) by (unfold L, skin_bufs; rewrite M; left; reflexivity).
    apply vok_peek; [apply (B0 _ LM eq_refl)|]. intros ms. apply vok_drop; [exact LM|].
    destruct (hs_indices j) as [x|] eqn:X; [|apply vok_ret].
    set (T := named TF32 Sh (opt (hs_weights j)) ++ named TV3 Sh (skin_ins j) ++ named TV3 Sh (skin_outs j)).
    set (A := named TMat Sh (opt (hs_matrices j)) ++ named TMat Sh (opt (hs_it_matrices j))).
    assert (EL : L = A ++ ((TU16, x), Sh) :: T).
    { unfold L, A, T, skin_bufs. rewrite X, <- app_assoc. reflexivity. }
    assert (LX : In ((TU16, x), Sh) L) by (rewrite EL; apply in_or_app; right; left; reflexivity).
    apply vok_peek; [apply (B0 _ LX eq_refl)|]. intros ix. apply vok_lift. intros si. cbv zeta.
    set (g := [((TU16, x), Sh)]).
    assert (QT : forall a, In (a, Sh) T -> Q g a Sh /\ D (a, Sh)).
    { intros a H. split; [|unfold D; rewrite EL; apply in_or_app; right; right; exact H].
      apply in_split in H. destruct H as (l1 & l2 & E). exists (A ++ ((TU16, x), Sh) :: l1), l2. split.
      - rewrite EL, E, <- app_assoc. reflexivity.
      - split; [|rewrite app_length; cbn; lia]. intros h [<-|[]]. apply in_or_app. right. left. reflexivity. }
    assert (QI : forall b, In b (skin_ins j ++ skin_outs j) -> Q g (TV3, b) Sh /\ D ((TV3, b), Sh)).
    { intros b H. apply QT. unfold T. apply in_or_app. right. unfold named. rewrite <- map_app. apply (in_map (fun b => ((TV3, b), Sh))). exact H. }
    set (vc := hs_vertex_count j).
    assert (RE : forall ok, vok Q D g
      (p_temp TV3 (hs_positions j) vc (fun b1 =>
       p_temp TV3 (hs_out_positions j) vc (fun b2 =>
         match hs_normals j with
         | Some _ =>
             p_temp TV3 (hs_normals j) vc (fun b3 =>
             p_temp TV3 (hs_out_normals j) vc (fun b4 =>
               match hs_tangents j with
               | Some _ =>
                   p_temp TV3 (hs_tangents j) vc (fun b5 =>
                   p_temp TV3 (hs_out_tangents j) vc (fun b6 => Ret (ok && b1 && b2 && b3 && b4 && b5 && b6)))
               | None => Ret (ok && b1 && b2 && b3 && b4)
               end))
         | None => Ret (ok && b1 && b2 && negb (is_some (hs_tangents j)))
         end)))).
    { intros ok.
      assert (O : forall b x, b = Some x -> In x (opt b)) by (intros b y ->; left; reflexivity).
      apply vok_temp; [intros y E; apply QI; unfold skin_ins, vertex_bufs; apply in_or_app; left; apply in_or_app; left; auto|]. intros b1.
      apply vok_temp; [intros y E; apply QI; unfold skin_outs, vertex_bufs; apply in_or_app; right; apply in_or_app; left; auto|]. intros b2.
      destruct (hs_normals j) as [n|] eqn:N; [|apply vok_ret].
      apply vok_temp; [intros y E; apply QI; unfold skin_ins, vertex_bufs; rewrite N; cbn [is_some]; apply in_or_app; left; apply in_or_app; right; apply in_or_app; left; auto|]. intros b3.
      apply vok_temp; [intros y E; apply QI; unfold skin_outs, vertex_bufs; rewrite N; cbn [is_some]; apply in_or_app; right; apply in_or_app; right; apply in_or_app; left; auto|]. intros b4.
      destruct (hs_tangents j) as [t|] eqn:TG; [|apply vok_ret].
      apply vok_temp; [intros y E; apply QI; unfold skin_ins, vertex_bufs; rewrite N, TG; cbn [is_some]; apply in_or_app; left; apply in_or_app; right; apply in_or_app; right; auto|]. intros b5.
      apply vok_temp; [intros y E; apply QI; unfold skin_outs, vertex_bufs; rewrite N, TG; cbn [is_some]; apply in_or_app; right; apply in_or_app; right; apply in_or_app; right; auto|]. intros b6.
      apply vok_ret. }
    destruct (1 <? hs_influences j)%N; [|apply (RE (_ && _ && _))]. destruct (hs_weights j) as [b|] eqn:W; [|apply vok_ret].
    assert (QW : Q g (TF32, b) Sh /\ D ((TF32, b), Sh)) by (apply QT; unfold T; rewrite ?W; left; reflexivity).
    apply vok_peek; [apply QW|]. intros ws. apply vok_lift. intros sw. apply vok_drop; [apply QW|]. apply (RE (_ && _ && _ && _)).
  Qed.

  (** ** All jobs *)
  Lemma job_ok (j : job) :
    traced (takes j) (lets j) [] (job_prog j) (fun _ _ => True) /\ guarded [] (job_prog j) (fun _ _ => True).
  Proof.
    destruct j; cbn [job_prog]; (split; [apply traced_end|apply guarded_end]).
    - apply traced_sampling.
    - apply guarded_sampling.
    - apply traced_blend.
    - apply guarded_blend.
    - apply traced_ltm.
    - apply guarded_ltm.
    - apply traced_skin.
    - apply guarded_skin.
    - apply blend_validate_ok.
    - apply blend_validate_ok.
    - apply ltm_validate_ok.
    - apply ltm_validate_ok.
    - apply skin_validate_ok.
    - apply skin_validate_ok.
  Qed.
  Lemma takes_uses (j : job) g a m : takes j g a m -> In (a, m) (uses j).
  Proof.
    assert (N : forall t m b bs, In b bs -> In ((t, b), m) (named t m bs)) by (intros t m0 b bs H; apply (in_map (fun b => ((t, b), m0))); exact H).
    assert (O : forall b x, b = Some x -> In x (opt b)) by (intros b y ->; left; reflexivity).
    destruct j; cbn [takes uses].
    - intros [_ H]. exact H.
    - intros (o & E & [(_ & -> & ->)|(_ & -> & l & H & ->)]); apply in_or_app; auto.
    - intros (i & E & [(_ & -> & ->)|(_ & -> & o & E' & ->)]); apply in_or_app; auto.
    - intros (l1 & l2 & E & _). rewrite E. apply in_or_app. right. left. reflexivity.
    - intros (o & E & [(_ & -> & ->)|(_ & -> & l & H & ->)]); apply in_or_app; auto.
    - intros (i & E & [(_ & -> & ->)|(_ & -> & o & E' & ->)]); apply in_or_app; auto.
    - intros (l1 & l2 & E & _). rewrite E. apply in_or_app. right. left. reflexivity.
  Qed.
  Lemma skin_bufs_length j m : (length (skin_bufs j m) <= 10)%nat.
  Proof.
    unfold skin_bufs, named, skin_ins, skin_outs, vertex_bufs, opt. rewrite !app_length, !map_length.
    destruct (hs_matrices j), (hs_it_matrices j), (hs_indices j), (hs_weights j), (hs_normals j), (hs_tangents j); cbn [is_some]; rewrite !app_length;
    destruct (hs_positions j), (hs_out_positions j); cbn [length]; try lia;
    destruct (hs_out_normals j); cbn [length]; try lia; destruct (hs_out_tangents j); cbn [length]; lia.
  Qed.
  Lemma takes_few (j : job) g a m : takes j g a m -> (length g < 10)%nat.
  Proof.
    assert (S : forall b x, in_turn (skin_bufs b x) g a m -> (length g < 10)%nat).
    { intros b x (l1 & l2 & E & _ & LE). pose proof (skin_bufs_length b x) as H. rewrite E, app_length in H. cbn in H. lia. }
    destruct j; cbn [takes].
    - intros [-> _]. cbn. lia.
    - intros (o & E & [(-> & _)|(-> & _)]); cbn; lia.
    - intros (o & E & [(-> & _)|(-> & _)]); cbn; lia.
    - apply S.
    - intros (o & E & [(-> & _)|(-> & _)]); cbn; lia.
    - intros (o & E & [(-> & _)|(-> & _)]); cbn; lia.
    - apply S.
  Qed.
  Lemma pairs_split {A} (P : A -> A -> Prop) l1 x l2 y : ForallOrdPairs P (l1 ++ x :: l2) -> In y l1 -> P y x.
  Proof.
    induction l1 as [|z l1 IH]; cbn; intros H I; [destruct I|]. inversion H as [|? ? H1 H2]; subst.
    destruct I as [->|I]; [|auto]. rewrite Forall_forall in H1. apply H1. apply in_or_app. right. left. reflexivity.
  Qed.
  Lemma skin_addrs j m m' : map fst (skin_bufs j m) = map fst (skin_bufs j m').
  Proof. unfold skin_bufs, named. rewrite !map_app, !map_map. reflexivity. Qed.
  Lemma takes_ordered k rank (j : job) g a m b m' : ordered k rank j -> takes j g a m -> In (b, m') g ->
    k b = KLock -> k a = KLock -> (rank b < rank a)%nat.
  Proof.
    assert (S : forall s x, ForallOrdPairs (fun a b => k a = KLock -> k b = KLock -> (rank a < rank b)%nat) (map fst (skin_bufs s Ex)) ->
      in_turn (skin_bufs s x) g a m -> In (b, m') g -> k b = KLock -> k a = KLock -> (rank b < rank a)%nat).
    { intros s x OR (l1 & l2 & E & I & _) H. rewrite (skin_addrs s Ex x), E, map_app in OR. cbn [map] in OR.
      apply (pairs_split _ _ _ _ b OR). apply in_map_iff. exists (b, m'). split; [reflexivity|auto]. }
    destruct j; cbn [takes ordered]; intros OR T H.
    - destruct T as [-> _]. destruct H.
    - destruct T as (o & E & [(-> & _)|(-> & _ & l & Il & ->)]); [destruct H|]. destruct H as [H|[]]. inversion H; subst. apply OR; assumption.
    - destruct T as (i & E & [(-> & _)|(-> & _ & l & Il & ->)]); [destruct H|]. destruct H as [H|[]]. inversion H; subst. apply OR; assumption.
    - eapply S; eassumption.
    - destruct T as (o & E & [(-> & _)|(-> & _ & l & Il & ->)]); [destruct H|]. destruct H as [H|[]]. inversion H; subst. apply OR; assumption.
    - destruct T as (i & E & [(-> & _)|(-> & _ & l & Il & ->)]); [destruct H|]. destruct H as [H|[]]. inversion H; subst. apply OR; assumption.
    - eapply S; eassumption.
  Qed.

  (** ** The initial state *)
  Definition tQ (scs : list (script F C)) (i : nat) (g : guards) (a : addr) (m : mode) : Prop :=
    exists j, may_run scs i j /\ takes j g a m.
  Definition tD (scs : list (script F C)) (h : addr * mode) : Prop :=
    exists i j, may_run scs i j /\ lets j h.
  Definition kinds (w : world F) (a : addr) : kind := lk_kind (w_lock w a).
  Lemma total_start scs a m : total (map (@start F NF C) scs) a m = 0%nat.
  Proof. induction scs as [|sc scs IH]; cbn [map]; [reflexivity|]. rewrite total_cons, IH. reflexivity. Qed.
  Lemma initial_good w scs : unborrowed w -> good (tQ scs) (tD scs) (kinds w) (initial w scs).
  Proof.
    intros U. split.
    - intros a. unfold initial. cbn [s_world s_threads]. rewrite !total_start. destruct (U a) as [U1 U2]. split; [reflexivity|]. split; [|auto].
      intros _. rewrite U1, U2. split; [reflexivity|]. split; [reflexivity|]. lia.
    - unfold initial. cbn [s_world s_threads]. intros i th N. rewrite nth_error_map in N. destruct (nth_error scs i) as [sc|] eqn:S; [|discriminate]. inversion N; subst.
      split; [|split; exact I]. intros f log H. cbn in H. apply in_map_iff in H. destruct H as (j & <- & IJ).
      assert (MR : may_run scs i (j log)) by (exists sc, j, log; auto).
      destruct (job_ok (j log)) as [T G]. split; [exact G|]. eapply traced_weaken; [| |exact T].
      + intros g a m X. exists (j log). auto.
      + intros h X. exists i, (j log). auto.
  Qed.
  Lemma typed_ok w scs : well_typed w scs -> forall i j g g' a m m', i <> j -> tQ scs i g a m -> tQ scs j g' a m' ->
    kinds w a = KLock \/ (kinds w a = KFree /\ m = Sh /\ m' = Sh).
  Proof.
    intros W i j g g' a m m' N (x & Mx & Tx) (y & My & Ty).
    apply (W i j a m m' N); [exists x|exists y]; (split; [assumption|eapply takes_uses; eassumption]).
  Qed.
End Jobs.
