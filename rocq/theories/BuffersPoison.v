(** C66, [validate]: it reports a poisoned lock by answering false; it never fails. *)
From Coq Require Import Arith Lia Bool.
From Verif Require Import Base Num NumF32 Math Skeleton Blending Skinning Buffers BuffersSpec BuffersProofs BuffersMore BuffersProps.

Section Poison.
  Context {F : Type} {NF : Num F}.
  Notation prog := (prog F). Notation world := (world F).

  (** Every path to the answer [true] borrows every address in [P]; no path ends with an error or writes. *)
  Fixpoint vets (P : addr -> Prop) (p : prog bool) : Prop :=
    match p with
    | Ret b => b = true -> forall a, ~ P a
    | Throw _ => False
    | Pan => True
    | Acq a m q k => vets P q /\ vets (fun b => P b /\ a <> b) k
    | Drop k => vets P k
    | Load t b k => forall x, vets P (k x)
    | Store _ _ _ _ => False
    end.

  Lemma vets_mono : forall (p : prog bool) (P Q : addr -> Prop), (forall a, Q a -> P a) -> vets P p -> vets Q p.
  Proof.
    induction p as [b|e| |a m q IHq k IHk|k IHk|t b k IHk|t b x k IHk]; intros P Q PQ V; cbn [vets] in *; auto.
    - intros T a H. apply (V T a), PQ, H.
    - destruct V as [Vq Vk]. split; [exact (IHq P Q PQ Vq)|]. refine (IHk _ _ _ Vk). cbn. intros b [H N]. split; auto.
    - exact (IHk P Q PQ V).
    - intros x. exact (IHk x P Q PQ (V x)).
  Qed.
  Definition same_locks (w w' : world) : Prop := forall a, lk_kind (w_lock w' a) = lk_kind (w_lock w a) /\ lk_poison (w_lock w' a) = lk_poison (w_lock w a).
  Lemma same_drop w h : same_locks w (drop_one false w h).
  Proof.
    intros a. unfold drop_one, put_lock. cbn [w_lock]. destruct (addr_eq (fst h) a) as [<-|]; [|auto].
    unfold release. destruct (lk_kind (w_lock w (fst h))) eqn:K; [auto|..];
      destruct (snd h); cbn; rewrite ?K, ?orb_false_r; auto.
  Qed.
  Lemma same_got (w : world) a m l : acquire (w_lock w a) m = Got l -> same_locks w (mk_world (put_lock (w_lock w) a l) (w_data w)).
  Proof.
    intros A a'. unfold put_lock. cbn [w_lock]. destruct (addr_eq a a') as [<-|]; [|auto].
    unfold acquire in A. destruct (lk_kind (w_lock w a)) eqn:K; destruct m;
      repeat match type of A with context [if ?c then _ else _] => destruct c eqn:? end; inversion A; subst; cbn; auto.
  Qed.

  Lemma vets_eval : forall (p : prog bool) P (w : world) g, vets P p ->
    match eval p w g with
    | EVal b _ _ => b = true -> forall a, P a -> lk_kind (w_lock w a) = KLock -> lk_poison (w_lock w a) = false
    | EFail _ _ _ => False
    | _ => True
    end.
  Proof.
    induction p as [b|e| |a m q IHq k IHk|k IHk|t b k IHk|t b x k IHk]; intros P w g V; cbn [eval vets] in *.
    - intros T a H. destruct (V T a H).
    - contradiction.
    - exact I.
    - destruct V as [Vq Vk]. destruct (acquire (w_lock w a) m) as [l'| | |] eqn:A; [|apply IHq, Vq|exact I..].
      specialize (IHk _ (mk_world (put_lock (w_lock w) a l') (w_data w)) ((a, m) :: g) Vk).
      destruct (eval k _ _) as [b w' g'| | |]; try exact IHk. intros T a' H K.
      destruct (addr_eq a a') as [<-|N]; [apply (got_clean _ _ _ A K)|].
      destruct (same_got w a m l' A a') as [E1 E2]. rewrite <- E2. apply (IHk T a'); [|rewrite E1; exact K].
      split; [exact H|exact N].
    - destruct g as [|h g]; [apply IHk, V|]. specialize (IHk P (drop_one false w h) g V).
      destruct (eval k _ _) as [b w' g'| | |]; try exact IHk. intros T a H K.
      destruct (same_drop w h a) as [E1 E2]. rewrite <- E2. apply (IHk T a H). rewrite E1; exact K.
    - apply IHk, V.
    - contradiction.
  Qed.

  Lemma vets_check n ls : forall P ok (k : bool -> prog bool),
    (forall ok, vets (fun a => P a /\ ~ In a (map (fun l => (TSoa, hl_transform l)) ls)) (k ok)) -> vets P (p_check_layers n ls ok k).
  Proof.
    induction ls as [|l ls IH]; intros P ok k H; cbn [p_check_layers].
    - specialize (H ok). revert H. apply vets_mono. cbn. tauto.
    - unfold peek. cbn [vets]. split; [discriminate|]. intros x. apply IH. intros ok'. specialize (H ok'). revert H. apply vets_mono.
      cbn [map In]. tauto.
  Qed.
  Lemma vets_blend (j : hbjob F) :
    vets (fun a => exists b, a = (TSoa, b) /\ In b (opt (hb_output j) ++ map hl_transform (hb_layers j ++ hb_additive j))) (p_blend_validate j).
  Proof.
    unfold p_blend_validate. destruct (hb_skeleton j); [|discriminate]. destruct (hb_context j); [|discriminate].
    destruct (hb_output j) as [o|]; [|discriminate]. unfold peek. cbn [vets opt]. split; [discriminate|]. intros x.
    apply vets_check. intros ok. apply vets_check. intros ok'. cbn [vets]. intros _ a ((((b' & -> & I) & N0) & N1) & N2).
    rewrite map_app in I. cbn [app] in I. rewrite !(map_map hl_transform) in * || idtac.
    destruct I as [<-|I]; [congruence|]. apply in_app_or in I. rewrite in_map_iff in N1, N2. destruct I as [I|I]; apply in_map_iff in I; destruct I as (l & <- & I).
    + apply N1. exists l. auto.
    + apply N2. exists l. auto.
  Qed.
  Lemma vets_ltm (j : hljob F) :
    vets (fun a => exists b, (a = (TSoa, b) /\ In b (opt (hj_input j))) \/ (a = (TMat, b) /\ In b (opt (hj_output j)))) (p_ltm_validate j).
  Proof.
    unfold p_ltm_validate. destruct (hj_skeleton j); [|discriminate]. destruct (hj_input j) as [i|]; [|discriminate].
    unfold peek. cbn [vets opt]. split; [discriminate|]. intros x. destruct (hj_output j) as [o|]; [|discriminate].
    cbn [vets opt]. split; [discriminate|]. intros y _ a (((b & [(-> & [<-|[]])|(-> & [<-|[]])]) & N1) & N2); congruence.
  Qed.

  Lemma vets_temp t b size P (k : bool -> prog bool) :
    (forall x ok, b = Some x -> vets (fun a => P a /\ (t, x) <> a) (k ok)) -> vets P (p_temp t b size k).
  Proof.
    intros H. unfold p_temp. destruct b as [b|]; [|discriminate]. unfold peek. cbn [vets]. split; [discriminate|].
    intros l. apply H. reflexivity.
  Qed.
  Lemma vets_lift P (r : res N) (k : N -> prog bool) : (forall e, r <> Err e) -> (forall n, vets P (k n)) -> vets P (pbind (lift r) k).
  Proof. intros E H. destruct r as [n|e|]; cbn; [apply H|destruct (E e eq_refl)|exact I]. Qed.
  Lemma umul_noerr checks a b e : umul checks a b <> Err e.
  Proof. unfold umul. repeat match goal with |- context [if ?c then _ else _] => destruct c end; discriminate. Qed.
  Definition skin_looks (j : hsjob) : list addr :=
    map (pair TMat) (opt (hs_matrices j)) ++ map (pair TU16) (opt (hs_indices j)) ++
    map (pair TF32) (if (1 <? hs_influences j)%N then opt (hs_weights j) else []) ++ map (pair TV3) (skin_ins j ++ skin_outs j).
  Lemma vets_skin checks (j : hsjob) : vets (fun a => In a (skin_looks j)) (p_skin_validate checks j).
  Proof.
    unfold p_skin_validate, skin_looks, skin_ins, skin_outs, vertex_bufs. destruct (hs_matrices j) as [m|]; [|discriminate]. unfold peek. cbn [vets]. split; [discriminate|].
    intros ms. destruct (hs_indices j) as [x|]; [|discriminate]. cbn [vets]. split; [discriminate|]. intros ix.
    apply vets_lift; [apply umul_noerr|]. intros si. cbv beta.
    set (rest := fun ok : bool =>
                  p_temp TV3 (hs_positions j) (hs_vertex_count j) (fun b1 =>
                  p_temp TV3 (hs_out_positions j) (hs_vertex_count j) (fun b2 =>
                    let ok := ok && b1 && b2 in
                    match hs_normals j with
                    | Some _ =>
                        p_temp TV3 (hs_normals j) (hs_vertex_count j) (fun b3 =>
                        p_temp TV3 (hs_out_normals j) (hs_vertex_count j) (fun b4 =>
                          let ok := ok && b3 && b4 in
                          match hs_tangents j with
                          | Some _ =>
                              p_temp TV3 (hs_tangents j) (hs_vertex_count j) (fun b5 =>
                              p_temp TV3 (hs_out_tangents j) (hs_vertex_count j) (fun b6 => Ret (ok && b5 && b6)))
                          | None => Ret ok
                          end))
                    | None => Ret (ok && negb (is_some (hs_tangents j)))
                    end)) : prog bool).
      assert (R : forall ok (Q : addr -> Prop), (forall a, Q a -> In a (map (pair TV3) ((opt (hs_positions j) ++ (if is_some (hs_normals j) then opt (hs_normals j) ++ (if is_some (hs_tangents j) then opt (hs_tangents j) else []) else [])) ++
            (opt (hs_out_positions j) ++ (if is_some (hs_normals j) then opt (hs_out_normals j) ++ (if is_some (hs_tangents j) then opt (hs_out_tangents j) else []) else []))))) -> vets Q (rest ok)).
    { intros ok Q HQ. unfold rest. apply vets_temp. intros b1 o1 E1. apply vets_temp. intros b2 o2 E2. rewrite E1, E2 in HQ. cbv zeta.
      destruct (hs_normals j) as [nn|]; cbn [is_some opt app] in HQ.
      - apply vets_temp. intros b3 o3 [= <-]. apply vets_temp. intros b4 o4 E4. rewrite E4 in HQ.
        destruct (hs_tangents j) as [tt_|]; cbn [is_some opt app] in HQ.
        + apply vets_temp. intros b5 o5 [= <-]. apply vets_temp. intros b6 o6 E6. rewrite E6 in HQ. cbn [vets]. intros _ a H.
          assert (HQ' : Q a) by tauto. apply HQ in HQ'. cbn in HQ'. intuition congruence.
        + cbn [vets]. intros _ a H. assert (HQ' : Q a) by tauto. apply HQ in HQ'. cbn in HQ'. intuition congruence.
      - cbn [vets]. intros _ a H. assert (HQ' : Q a) by tauto. apply HQ in HQ'. cbn in HQ'. intuition congruence. }
    cbv zeta. destruct (1 <? hs_influences j)%N.
    - destruct (hs_weights j) as [b|]; [|discriminate]. cbn [vets]. split; [discriminate|]. intros ws. apply vets_lift; [apply umul_noerr|].
      intros sw. cbn [vets]. apply (R (_ && _)). intros a (((H & N1) & N2) & N3). cbn [opt map app In] in H. destruct H as [?|[?|[?|H]]]; [congruence..|exact H].
    - apply (R (_ && _ && _)). intros a ((H & N1) & N2). cbn [opt map app In] in H. destruct H as [?|[?|H]]; [congruence..|exact H].
  Qed.

  Lemma vets_exec (p : prog bool) P (w : world) : vets P p ->
    (forall e, fst (exec p w) <> Fail e) /\
    (fst (exec p w) = Val true -> forall a, P a -> lk_kind (w_lock w a) = KLock -> lk_poison (w_lock w a) = false).
  Proof.
    intros V. pose proof (vets_eval p P w [] V) as H. unfold exec, leave. destruct (eval p w []); cbn [fst]; split; try discriminate; try contradiction.
    intros [= E]. exact (H E).
  Qed.

  (** [validate] never returns an error, and answers true only if no lock it looks at is poisoned. *)
Theorem C66_blend_validate_poisoned (w : world) (j : hbjob F) :
    (forall e, fst (exec (p_blend_validate j) w) <> Fail e) /\
    (fst (exec (p_blend_validate j) w) = Val true ->
     forall b, In b (opt (hb_output j) ++ map hl_transform (hb_layers j ++ hb_additive j)) ->
       lk_kind (w_lock w (TSoa, b)) = KLock -> lk_poison (w_lock w (TSoa, b)) = false).
  Proof. destruct (vets_exec _ _ w (vets_blend j)) as [A B]. split; [exact A|]. intros T b I. apply (B T). eauto. Qed.
Theorem C66_ltm_validate_poisoned (w : world) (j : hljob F) :
    (forall e, fst (exec (p_ltm_validate j) w) <> Fail e) /\
    (fst (exec (p_ltm_validate j) w) = Val true ->
     (forall b, In b (opt (hj_input j)) -> lk_kind (w_lock w (TSoa, b)) = KLock -> lk_poison (w_lock w (TSoa, b)) = false) /\
     (forall b, In b (opt (hj_output j)) -> lk_kind (w_lock w (TMat, b)) = KLock -> lk_poison (w_lock w (TMat, b)) = false)).
  Proof.
    destruct (vets_exec _ _ w (vets_ltm j)) as [A B]. split; [exact A|]. intros T. split; intros b I; apply (B T); eauto.
  Qed.
  (** Skinning looks at the matrices, the indices, the weights if there is more than one influence, and the vertices;
      not at the inverse transposed matrices. *)
Theorem C66_skin_validate_poisoned checks (w : world) (j : hsjob) :
    (forall e, fst (exec (p_skin_validate checks j) w) <> Fail e) /\
    (fst (exec (p_skin_validate checks j) w) = Val true ->
     forall a, In a (skin_looks j) -> lk_kind (w_lock w a) = KLock -> lk_poison (w_lock w a) = false).
  Proof. exact (vets_exec _ _ w (vets_skin checks j)). Qed.
End Poison.
Print Assumptions C66_blend_validate_poisoned.
Print Assumptions C66_ltm_validate_poisoned.
Print Assumptions C66_skin_validate_poisoned.

(** A blend that is valid while no lock is poisoned, and is not once the lock of its layer is: [validate] answers false. *)
Definition poison (w : world f32) (b : nat) : world f32 :=
  mk_world (put_lock (w_lock w) (TSoa, b) (mk_lock KLock 0 false true)) (w_data w).
Example C66_validate_example :
  fst (exec (p_blend_validate (x_blend 0 [1])) (x_world KLock)) = Val true /\
  fst (exec (p_blend_validate (x_blend 0 [1])) (poison (x_world KLock) 1)) = Val false.
Proof. split; vm_compute; reflexivity. Qed.
