(** Proofs: a skinning job borrows its buffers one after the other, then computes. *)
From Coq Require FinFun.
From Verif Require Import Base Num Math Skeleton Blending BlendingProofs Skinning SkinningProofs Buffers BuffersSpec BuffersProofs BuffersAlias.
Local Open Scope num_scope.

Section Skin.
  Context {F : Type} {NF : Num F}.
  Variable checks : bool.
  Notation world := (world F). Notation prog := (prog F). Notation ev := (ev F).

  (** ** The acquisitions of a job, as a list *)
  Inductive step := Lock (t : ety) (b : nat) (m : mode) (size : N) | Stop (e : ozz_error) | Crash.
  Fixpoint p_steps {A} (ss : list step) (k : prog A) : prog A :=
    match ss with
    | [] => k
    | Lock t b m size :: ss =>
        Acq (t, b) m (Throw LockPoison) (Load t b (fun l =>
          if (size <=? N.of_nat (length l))%N then p_steps ss k else Throw InvalidJob))
    | Stop e :: _ => Throw e
    | Crash :: _ => Pan
    end.
  Definition peq {A} (p q : prog A) : Prop := forall w g, eval p w g = eval q w g.
  Lemma peq_refl {A} (p : prog A) : peq p p. Proof. intros w g; reflexivity. Qed.
  Lemma peq_trans {A} (p q r : prog A) : peq p q -> peq q r -> peq p r.
  Proof. intros H1 H2 w g. rewrite H1. apply H2. Qed.
  Lemma peq_steps {A} ss : forall (p q : prog A), peq p q -> peq (p_steps ss p) (p_steps ss q).
  Proof.
    induction ss as [|[t b m size|e|] ss IH]; intros p q H w g; cbn [p_steps eval]; try reflexivity; [apply H|].
    destruct (acquire _ _); try reflexivity. cbn [w_data]. destruct (_ <=? _)%N; [apply IH, H|reflexivity].
  Qed.
  Lemma steps_app {A} s1 s2 : forall (k : prog A), peq (p_steps (s1 ++ s2) k) (p_steps s1 (p_steps s2 k)).
  Proof.
    induction s1 as [|[t b m size|e|] s1 IH]; intros k w g; cbn [p_steps app eval]; try reflexivity.
    destruct (acquire _ _); try reflexivity. cbn [w_data]. destruct (_ <=? _)%N; [apply IH|reflexivity].
  Qed.

  Definition want (none : step) (t : ety) (b : option nat) (m : mode) (size : N) : list step :=
    match b with Some b => [Lock t b m size] | None => [none] end.
  Definition oget (b : option nat) : nat := match b with Some b => b | None => 0%nat end.
  Definition inv_ := Stop InvalidJob.

  Lemma peq_unpack {A} t b m size (f : nat -> prog A) :
    peq (pbind (p_unpack t b m size) f) (p_steps (want inv_ t b m size) (f (oget b))).
  Proof.
    intros w g. destruct b as [b|]; [|reflexivity]. unfold p_unpack, borrow, load, guard_.
    cbn [need pbind want p_steps eval oget].
    destruct (acquire _ _); try reflexivity. cbn [w_data]. destruct (_ <=? _)%N; reflexivity.
  Qed.
  Lemma le0 n : (0 <=? N.of_nat n)%N = true.
  Proof. apply N.leb_le. lia. Qed.
  Lemma peq_take {A} t b (f : nat -> prog A) :
    peq (pbind (p_take t b) f) (p_steps (want inv_ t b Sh 0) (f (oget b))).
  Proof.
    intros w g. destruct b as [b|]; [|reflexivity]. unfold p_take, borrow.
    cbn [need pbind want p_steps eval oget].
    destruct (acquire _ _); try reflexivity. cbn [eval]. rewrite le0. reflexivity.
  Qed.
  Lemma peq_unwrap {A} b (f : nat -> prog A) :
    peq (pbind (match b with Some b => pbind (borrow TMat b Sh) (fun _ => Ret b) | None => Pan end) f)
        (p_steps (want Crash TMat b Sh 0) (f (oget b))).
  Proof.
    intros w g. destruct b as [b|]; [|reflexivity]. unfold borrow.
    cbn [need pbind want p_steps eval oget].
    destruct (acquire _ _); try reflexivity. cbn [eval]. rewrite le0. reflexivity.
  Qed.
  Definition want3 (k : pnt) (m : mode) (vc : N) (p n t : option nat) : list step :=
    want inv_ TV3 p m vc ++
    (match k with P => [] | _ => want inv_ TV3 n m vc end) ++
    (match k with PNT => want inv_ TV3 t m vc | _ => [] end).
  Definition get3 (k : pnt) (p n t : option nat) : nat * nat * nat :=
    (oget p, match k with P => 0%nat | _ => oget n end, match k with PNT => oget t | _ => 0%nat end).
  Lemma bind_bind {A B C} (p : prog A) (f : A -> prog B) (h : B -> prog C) :
    peq (pbind (pbind p f) h) (pbind p (fun a => pbind (f a) h)).
  Proof.
    intros w g. rewrite !eval_bind. destruct (eval p w g); try reflexivity. rewrite eval_bind. reflexivity.
  Qed.
  Lemma peq_unpack3 {A} k m vc p n t (f : nat * nat * nat -> prog A) :
    peq (pbind (p_unpack3 k m vc p n t) f) (p_steps (want3 k m vc p n t) (f (get3 k p n t))).
  Proof.
    unfold p_unpack3, want3, get3.
    eapply peq_trans; [apply bind_bind|]. eapply peq_trans; [apply peq_unpack|].
    eapply peq_trans; [|intros w g; symmetry; apply steps_app]. apply peq_steps.
    eapply peq_trans; [|intros w g; symmetry; apply steps_app].
    destruct k; cbn [pbind p_steps].
    - apply peq_refl.
    - eapply peq_trans; [apply bind_bind|]. apply peq_unpack.
    - eapply peq_trans; [apply bind_bind|]. eapply peq_trans; [apply peq_unpack|]. apply peq_steps.
      eapply peq_trans; [apply bind_bind|]. apply peq_unpack.
  Qed.

  Definition hvariant (j : hsjob) : pnt :=
    if is_some (hs_normals j) then (if is_some (hs_tangents j) then PNT else PN) else P.
  Definition huses_it (j : hsjob) : bool := is_some (hs_normals j) && is_some (hs_it_matrices j).
  Definition rstep (r : res N) (f : N -> list step) : list step :=
    match r with Ok x => f x | Err e => [Stop e] | Panic => [Crash] end.
  Definition plan (j : hsjob) : list step :=
    let vc := hs_vertex_count j in let inf := hs_influences j in
    let ins := want3 (hvariant j) Sh vc (hs_positions j) (hs_normals j) (hs_tangents j) in
    let outs := want3 (hvariant j) Ex vc (hs_out_positions j) (hs_out_normals j) (hs_out_tangents j) in
    let its := if huses_it j then want inv_ TMat (hs_it_matrices j) Sh 0 else [] in
    if (inf =? 0)%N then [inv_]
    else if (inf =? 1)%N then
      want inv_ TMat (hs_matrices j) Sh 0 ++ its ++ want inv_ TU16 (hs_indices j) Sh vc ++ ins ++ outs
    else
      want Crash TMat (hs_matrices j) Sh 0 ++ its ++
      rstep (umul checks vc inf) (fun si => want inv_ TU16 (hs_indices j) Sh si ++
      rstep (umul checks vc (inf - 1)) (fun sw => want inv_ TF32 (hs_weights j) Sh sw ++ ins ++ outs)).
  Definition p_vertex (j : hsjob) (i : nat) : prog (mat4 F * mat4 F) :=
    let its := if huses_it j then Some (oget (hs_it_matrices j)) else None in
    if (hs_influences j =? 1)%N then
      pbind (load TMat (oget (hs_matrices j))) (fun lm => pbind (load_its its) (fun li =>
      pbind (load TU16 (oget (hs_indices j))) (fun lx => lift (vertex_1 lm li lx i))))
    else
      pbind (load TMat (oget (hs_matrices j))) (fun lm => pbind (load_its its) (fun li =>
      pbind (load TU16 (oget (hs_indices j))) (fun lx => pbind (load TF32 (oget (hs_weights j))) (fun lw =>
      lift (vertex_n checks (hs_influences j) lm li lx lw i))))).
  Definition p_body (j : hsjob) : prog unit :=
    p_vertices (N.to_nat (hs_vertex_count j)) (p_vertex j) (hvariant j)
      (get3 (hvariant j) (hs_positions j) (hs_normals j) (hs_tangents j))
      (get3 (hvariant j) (hs_out_positions j) (hs_out_normals j) (hs_out_tangents j)).

  Lemma h_dispatch (j : hsjob) : p_skin checks j =
    (if (hs_influences j =? 0)%N then Throw InvalidJob
     else if (hs_influences j =? 1)%N then p_skinning_1 (huses_it j) (hvariant j) j
     else p_skinning_impl checks (hs_influences j) (huses_it j) (hvariant j) j) :> prog unit.
  Proof.
    unfold p_skin. destruct (N.eqb_spec (hs_influences j) 0) as [Z|Z]; [reflexivity|].
    unfold h_branch, huses_it, hvariant.
    destruct (N.eqb_spec (hs_influences j) 1) as [E1|E1].
    { rewrite E1. destruct (hs_normals j), (hs_tangents j), (hs_it_matrices j); reflexivity. }
    destruct (N.eq_dec (hs_influences j) 2) as [E2|E2].
    { rewrite E2. destruct (hs_normals j), (hs_tangents j), (hs_it_matrices j); reflexivity. }
    destruct (N.eq_dec (hs_influences j) 3) as [E3|E3].
    { rewrite E3. destruct (hs_normals j), (hs_tangents j), (hs_it_matrices j); reflexivity. }
    destruct (N.eq_dec (hs_influences j) 4) as [E4|E4].
    { rewrite E4. destruct (hs_normals j), (hs_tangents j), (hs_it_matrices j); reflexivity. }
    replace (N.min (hs_influences j - 1) 4) with 4%N by lia.
    destruct (hs_normals j), (hs_tangents j), (hs_it_matrices j); reflexivity.
  Qed.

  Ltac next := eapply peq_trans; [|intros ? ?; symmetry; apply steps_app]; apply peq_steps.
  Lemma peq_its {A} (it : bool) b (f : option nat -> prog A) :
    peq (pbind (p_its it b) f) (p_steps (if it then want inv_ TMat b Sh 0 else []) (f (if it then Some (oget b) else None))).
  Proof.
    unfold p_its. destruct it; [|apply peq_refl]. eapply peq_trans; [apply bind_bind|]. apply peq_take.
  Qed.
  Lemma peq_lift {A} (r : res N) (f : N -> prog A) ss k : (forall x, r = Ok x -> peq (f x) (p_steps (ss x) k)) ->
    peq (pbind (lift r) f) (p_steps (rstep r ss) k).
  Proof. intros H. destruct r; cbn [lift pbind rstep p_steps]; [apply H; reflexivity|apply peq_refl|apply peq_refl]. Qed.
  Lemma skin_plan (j : hsjob) : peq (p_skin checks j) (p_steps (plan j) (p_body j)).
  Proof.
    rewrite h_dispatch. unfold plan. destruct (hs_influences j =? 0)%N; [apply peq_refl|].
    unfold p_body, p_vertex. destruct (hs_influences j =? 1)%N.
    - unfold p_skinning_1. eapply peq_trans; [apply peq_take|]. next.
      eapply peq_trans; [apply peq_its|]. next.
      eapply peq_trans; [apply peq_unpack|]. next.
      eapply peq_trans; [apply peq_unpack3|]. next.
      eapply peq_trans; [apply peq_unpack3|]. apply peq_refl.
    - unfold p_skinning_impl.
      eapply peq_trans; [apply peq_unwrap|]. next.
      eapply peq_trans; [apply peq_its|]. next.
      apply peq_lift. intros si _.
      eapply peq_trans; [apply peq_unpack|]. next.
      apply peq_lift. intros sw _.
      eapply peq_trans; [apply peq_unpack|]. next.
      eapply peq_trans; [apply peq_unpack3|]. next.
      eapply peq_trans; [apply peq_unpack3|]. apply peq_refl.
  Qed.

  (** ** Evaluating a plan *)
  Fixpoint gs (ss : list step) : guards :=
    match ss with
    | Lock t b m _ :: ss => ((t, b), m) :: gs ss
    | _ => []
    end.
  (** What goes wrong in the plan, whatever the state of the locks *)
  Fixpoint bad (w : world) (ss : list step) : option (option ozz_error) :=
    match ss with
    | [] => None
    | Lock t b _ size :: ss => if (size <=? N.of_nat (length (w_data w t b)))%N then bad w ss else Some (Some InvalidJob)
    | Stop e :: _ => Some (Some e)
    | Crash :: _ => Some None
    end.
  Lemma bad_data (w w' : world) ss : w_data w' = w_data w -> bad w' ss = bad w ss.
  Proof. intros E. induction ss as [|[t b m size|e|] ss IH]; cbn; try reflexivity. rewrite E, IH. reflexivity. Qed.
  (** Either the plan stops and no data has changed, or the continuation runs with all the guards. *)
  Lemma plan_cases ss : forall (w : world) g,
    (bad w ss = None /\ exists w1, w_data w1 = w_data w /\
       eval (p_steps ss (Ret tt)) w g = EVal tt w1 (rev (gs ss) ++ g)) \/
    (forall A (k : prog A), match eval (p_steps ss k) w g with
     | EVal _ _ _ => False
     | EFail _ w' _ | EPan w' _ | EBlock w' _ => w_data w' = w_data w
     end).
  Proof.
    induction ss as [|[t b m size|e|] ss IH]; intros w g; cbn [p_steps gs rev app bad].
    - left. split; [reflexivity|]. exists w. auto.
    - cbn [eval]. destruct (acquire (w_lock w (t, b)) m) as [l'| | |] eqn:E; cbn [eval]; [|right; intros; reflexivity..]. cbn [w_data].
      destruct (_ <=? _)%N; [|right; intros; reflexivity].
      set (w1 := mk_world (put_lock (w_lock w) (t, b) l') (w_data w)).
      rewrite <- app_assoc. cbn [app]. rewrite <- (bad_data w w1) by reflexivity. exact (IH w1 ((t, b, m) :: g)).
    - right. intros A k. reflexivity.
    - right. intros A k. reflexivity.
  Qed.

  (** ** Plans all of whose acquisitions succeed *)
  Definition shs (g : guards) : list addr := map fst (filter (fun h => match snd h with Sh => true | Ex => false end) g).
  Definition exs (g : guards) : list addr := map fst (filter (fun h => match snd h with Ex => true | Sh => false end) g).
  Lemma in_shs g a : In a (shs g) <-> In (a, Sh) g.
  Proof.
    unfold shs. rewrite in_map_iff. split.
    - intros ([a' m] & <- & I). apply filter_In in I. destruct I as [I M]. destruct m; [exact I|discriminate].
    - intros I. exists (a, Sh). split; [reflexivity|]. apply filter_In. auto.
  Qed.
  Lemma in_exs g a : In a (exs g) <-> In (a, Ex) g.
  Proof.
    unfold exs. rewrite in_map_iff. split.
    - intros ([a' m] & <- & I). apply filter_In in I. destruct I as [I M]. destruct m; [discriminate|exact I].
    - intros I. exists (a, Ex). split; [reflexivity|]. apply filter_In. auto.
  Qed.
  (** The state of the locks when [g] has been acquired from [w0]. *)
  Definition got (w0 w : world) (g : guards) : Prop :=
    w_data w = w_data w0 /\
    forall a,
      lk_kind (w_lock w a) = lk_kind (w_lock w0 a) /\
      (~ In a (map fst g) -> w_lock w a = w_lock w0 a) /\
      (~ In (a, Ex) g -> lk_poison (w_lock w0 a) = false -> lk_writer (w_lock w0 a) = false ->
       lk_poison (w_lock w a) = false /\ lk_writer (w_lock w a) = false /\
       (lk_readers (w_lock w a) <= lk_readers (w_lock w0 a) + N.of_nat (length g))%N).
  Lemma got_start w : got w w [].
  Proof. split; [reflexivity|]. intros a. split; [reflexivity|]. split; [reflexivity|]. intros _ P W. cbn. repeat split; try assumption; lia. Qed.
  Lemma got_next w0 w g a m l' : got w0 w g -> acquire (w_lock w a) m = Got l' ->
    got w0 (mk_world (put_lock (w_lock w) a l') (w_data w)) ((a, m) :: g).
  Proof.
    intros [D G] E. split; [exact D|]. intros a'. cbn [w_lock]. destruct (G a') as (G1 & G2 & G3).
    destruct (addr_eq a a') as [<-|n].
    - rewrite put_lock_eq. split; [rewrite (acquire_kind _ _ _ E); exact G1|]. split; [intros N; destruct N; left; reflexivity|].
      intros N P W. destruct m; [|destruct N; left; reflexivity].
      destruct G3 as (H1 & H2 & H3); [intros I; apply N; right; exact I|assumption|assumption|].
      unfold acquire in E. rewrite H1, H2 in E. cbn [length].
      destruct (lk_kind (w_lock w a)) eqn:K; cbn [orb] in E.
      + inversion E; subst l'. repeat split; try assumption. lia.
      + destruct (_ <=? _)%N; inversion E; subst l'; cbn. repeat split; lia.
      + destruct (_ <=? _)%N; inversion E; subst l'; cbn. repeat split; lia.
    - rewrite put_lock_ne by exact n. split; [exact G1|]. split.
      + intros N. apply G2. intros I; apply N; right; exact I.
      + intros N P W. destruct G3 as (H1 & H2 & H3); [intros I; apply N; right; exact I|assumption|assumption|].
        cbn [length]. repeat split; try assumption. lia.
  Qed.
  Lemma got_sh w0 w g a : got w0 w g -> readable (w_lock w0 a) -> ~ In (a, Ex) g -> (length g < 10)%nat ->
    exists l', acquire (w_lock w a) Sh = Got l'.
  Proof.
    intros [D G] (R1 & R2 & R3) N L. destruct (G a) as (K & _ & H). destruct (H N R2 R1) as (H1 & H2 & H3).
    assert (Q : (max_readers (lk_kind (w_lock w0 a)) <=? lk_readers (w_lock w a))%N = false) by (apply N.leb_gt; lia).
    unfold acquire. rewrite H1, H2, K, Q. destruct (lk_kind (w_lock w0 a)); cbn [orb]; eauto.
  Qed.
  Lemma got_ex w0 w g a : got w0 w g -> idle (w_lock w0 a) -> ~ In a (map fst g) -> exists l', acquire (w_lock w a) Ex = Got l'.
  Proof. intros [D G] I N. destruct (G a) as (_ & H & _). rewrite (H N). apply idle_acquire, I. Qed.

  (** An acquisition in conflict with those that precede it. *)
  Definition clash (h : addr * mode) (g : guards) : Prop :=
    match snd h with Sh => In (fst h, Ex) g | Ex => In (fst h) (map fst g) end.
  Fixpoint clashes (ss : guards) (g : guards) : Prop :=
    match ss with [] => False | h :: ss => clash h g \/ clashes ss (h :: g) end.
  Definition fresh (w : world) (ss : guards) : Prop :=
    (forall a, In (a, Sh) ss -> readable (w_lock w a)) /\ (forall a, In (a, Ex) ss -> idle (w_lock w a)).
  Lemma plan_ok {A} (k : prog A) w0 ss : forall w g, got w0 w g -> fresh w0 (gs ss) -> (length g + length (gs ss) <= 10)%nat ->
    ~ clashes (gs ss) g ->
    match bad w0 ss with
    | Some (Some e) => exists w' g', eval (p_steps ss k) w g = EFail e w' g' /\ w_data w' = w_data w0
    | Some None => exists w' g', eval (p_steps ss k) w g = EPan w' g' /\ w_data w' = w_data w0
    | None => exists w', eval (p_steps ss k) w g = eval k w' (rev (gs ss) ++ g) /\ got w0 w' (rev (gs ss) ++ g)
    end.
  Proof.
    induction ss as [|[t b m size|e|] ss IH]; intros w g G [FS FX] L NC; cbn [bad p_steps gs rev app] in *.
    - exists w. split; [reflexivity|exact G].
    - cbn [eval]. assert (AQ : exists l', acquire (w_lock w (t, b)) m = Got l').
      { destruct m.
        - eapply got_sh; [exact G|apply FS; left; reflexivity| |cbn in L; lia]. intros I. apply NC. left. exact I.
        - eapply got_ex; [exact G|apply FX; left; reflexivity|]. intros I. apply NC. left. exact I. }
      destruct AQ as [l' E]. rewrite E. cbn [w_data]. pose proof (proj1 G) as D.
      rewrite D. destruct (_ <=? _)%N.
      + rewrite <- app_assoc. cbn [app]. apply IH.
        * rewrite <- D. apply got_next; assumption.
        * split; intros a I; [apply FS|apply FX]; right; exact I.
        * cbn in L |- *. lia.
        * intros C. apply NC. right. exact C.
      + cbn [eval]. do 2 eexists. split; [reflexivity|]. reflexivity.
    - cbn [eval]. do 2 eexists. split; [reflexivity|]. exact (proj1 G).
    - cbn [eval]. do 2 eexists. split; [reflexivity|]. exact (proj1 G).
  Qed.
  Lemma acq_cases w0 w g a m : got w0 w g -> counted w g -> lk_kind (w_lock w0 a) <> KFree ->
    (match m with Sh => readable (w_lock w0 a) | Ex => idle (w_lock w0 a) end) -> (length g < 10)%nat ->
    (exists l', acquire (w_lock w a) m = Got l') \/
    acquire (w_lock w a) m = (match lk_kind (w_lock w0 a) with KCell => Refused | _ => Wait end).
  Proof.
    intros G CT K R L. assert (KK : lk_kind (w_lock w a) = lk_kind (w_lock w0 a)) by apply G.
    assert (ED : forall x y : addr * mode, {x = y} + {x <> y}).
    { intros [x mx] [y my]. destruct (addr_eq x y) as [->|n]; [|right; congruence]. destruct mx, my; (left; reflexivity) || (right; discriminate). }
    destruct (in_dec ED (a, Ex) g) as [I|I].
    { right. assert (W : lk_writer (w_lock w a) = true) by (apply (CT a); [congruence|exact I]).
      unfold acquire. rewrite W, KK. destruct (lk_kind (w_lock w0 a)); [congruence| |]; destruct m; reflexivity. }
    destruct m; [left; eapply got_sh; eassumption|].
    destruct (in_dec addr_eq a (map fst g)) as [I'|I']; [|left; eapply got_ex; eassumption].
    right. assert (S : In (a, Sh) g).
    { apply in_map_iff in I'. destruct I' as ([a' m] & E & I'). cbn in E. subst a'. destruct m; [exact I'|contradiction]. }
    pose proof (counted_held _ _ CT a Sh S) as H. cbn in H. rewrite KK in H. specialize (H K).
    unfold acquire. rewrite KK. apply N.eqb_neq in H. rewrite H. rewrite orb_true_r.
    destruct (lk_kind (w_lock w0 a)); [congruence| |]; reflexivity.
  Qed.
  (** The plan with a clash: the first one decides. *)
  Lemma plan_clash {A} (k : prog A) w0 ss : forall w g, got w0 w g -> counted w g -> fresh w0 (gs ss) ->
    (length g + length (gs ss) <= 10)%nat -> bad w0 ss = None -> clashes (gs ss) g ->
    (forall a m, In (a, m) (gs ss) -> lk_kind (w_lock w0 a) <> KFree) ->
    (exists w' g', eval (p_steps ss k) w g = EPan w' g' /\ exists a m, In (a, m) (gs ss) /\ lk_kind (w_lock w0 a) = KCell) \/
    (exists w' g', eval (p_steps ss k) w g = EBlock w' g' /\ exists a m, In (a, m) (gs ss) /\ lk_kind (w_lock w0 a) = KLock).
  Proof.
    induction ss as [|[t b m size|e|] ss IH]; intros w g G CT [FS FX] L B C NF'; cbn [bad p_steps gs] in *; try discriminate; [destruct C|].
    destruct (_ <=? _)%N eqn:SZ; [|discriminate]. cbn [eval].
    assert (KK : lk_kind (w_lock w (t, b)) = lk_kind (w_lock w0 (t, b))) by apply G.
    assert (K : lk_kind (w_lock w0 (t, b)) <> KFree) by (apply (NF' _ m); left; reflexivity).
    destruct (acq_cases w0 w g (t, b) m) as [[l' E]|E]; auto.
    { destruct m; [apply FS|apply FX]; left; reflexivity. }
    { cbn in L. lia. }
    - rewrite E. cbn [w_data]. rewrite (proj1 G), SZ.
      destruct C as [C|C].
      + exfalso. pose proof (acquire_excl _ _ _ _ _ CT E) as X. rewrite KK in X.
        unfold clash in C. destruct m; cbn [fst snd] in C.
        * specialize (X K Ex C). destruct X; discriminate.
        * apply in_map_iff in C. destruct C as ([a m] & Ea & I). cbn in Ea. subst a. specialize (X K m I). destruct X; discriminate.
      + specialize (IH (mk_world (put_lock (w_lock w) (t, b) l') (w_data w)) ((t, b, m) :: g)).
        destruct IH as [(w' & g' & Q & a & m' & I & Ka)|(w' & g' & Q & a & m' & I & Ka)]; auto.
        * apply got_next; assumption.
        * apply counted_acquire; assumption.
        * split; intros a I; [apply FS|apply FX]; right; exact I.
        * cbn in L |- *. lia.
        * intros a m0 I. apply (NF' a m0). right. exact I.
        * left. exists w', g'. rewrite (proj1 G) in Q. split; [exact Q|]. exists a, m'. split; [right; exact I|exact Ka].
        * right. exists w', g'. rewrite (proj1 G) in Q. split; [exact Q|]. exists a, m'. split; [right; exact I|exact Ka].
    - rewrite E. destruct (lk_kind (w_lock w0 (t, b))) eqn:KE; [congruence| |].
      + left. do 2 eexists. split; [reflexivity|]. exists (t, b), m. split; [left; reflexivity|exact KE].
      + right. do 2 eexists. split; [reflexivity|]. exists (t, b), m. split; [left; reflexivity|exact KE].
  Qed.

  (** ** The guards of a plan *)
  Fixpoint gs_all (ss : list step) : guards :=
    match ss with
    | [] => []
    | Lock t b m _ :: ss => ((t, b), m) :: gs_all ss
    | _ :: ss => gs_all ss
    end.
  Lemma gs_prefix ss : exists r, gs_all ss = gs ss ++ r.
  Proof.
    induction ss as [|[t b m size|e|] ss [r IH]]; cbn; [exists []; reflexivity| |eauto|eauto]. exists r. rewrite IH. reflexivity.
  Qed.
  Lemma gs_all_app a b : gs_all (a ++ b) = gs_all a ++ gs_all b.
  Proof. induction a as [|[t bb m size|e|] a IH]; cbn; rewrite ?IH; reflexivity. Qed.
  Lemma gs_good (w : world) ss : bad w ss = None -> gs ss = gs_all ss.
  Proof.
    induction ss as [|[t b m size|e|] ss IH]; cbn; try discriminate; [reflexivity|].
    destruct (_ <=? _)%N; [|discriminate]. intros H. rewrite (IH H). reflexivity.
  Qed.
  Lemma gs_want t b m size none : (none = inv_ \/ none = Crash) ->
    gs_all (want none t b m size) = map (fun b => ((t, b), m)) (opt b).
  Proof. intros H. destruct b; [reflexivity|]. destruct H as [-> | ->]; reflexivity. Qed.
  Lemma gs_want3 j m vc p n t :
    gs_all (want3 (hvariant j) m vc p n t) = map (fun b => ((TV3, b), m)) (vertex_bufs j p n t).
  Proof.
    unfold want3, vertex_bufs, hvariant. rewrite !gs_all_app, !map_app, gs_want by auto. f_equal.
    destruct (is_some (hs_normals j)); [|reflexivity]. rewrite map_app.
    destruct (is_some (hs_tangents j)); rewrite !gs_want by auto; cbn; rewrite ?app_nil_r; reflexivity.
  Qed.
  Definition base (j : hsjob) : list addr :=
    map (pair TMat) (opt (hs_matrices j)) ++ (if huses_it j then map (pair TMat) (opt (hs_it_matrices j)) else []) ++
    map (pair TU16) (opt (hs_indices j)) ++ (if (hs_influences j =? 1)%N then [] else map (pair TF32) (opt (hs_weights j))).
  Lemma gs_rstep_le r f : gs_all (rstep r f) = match r with Ok x => gs_all (f x) | _ => [] end.
  Proof. destruct r; reflexivity. Qed.
  (** All of the plan, or what precedes an overflow *)
  Lemma plan_guards j : exists r,
    map (fun a => (a, Sh)) (base j ++ map (pair TV3) (skin_ins j)) ++ map (fun b => ((TV3, b), Ex)) (skin_outs j) = gs_all (plan j) ++ r.
  Proof.
    unfold plan. destruct (hs_influences j =? 0)%N; [eexists; reflexivity|].
    unfold base. destruct (hs_influences j =? 1)%N.
    - exists []. rewrite !gs_all_app, !gs_want3, !gs_want by auto. rewrite !map_app, !map_map, ?app_nil_r.
      assert (IT : gs_all (if huses_it j then want inv_ TMat (hs_it_matrices j) Sh 0 else []) =
                   map (fun a => (a, Sh)) (if huses_it j then map (pair TMat) (opt (hs_it_matrices j)) else [])).
      { destruct (huses_it j); [|reflexivity]. rewrite gs_want by auto. rewrite map_map. reflexivity. }
      rewrite IT, ?app_nil_r. rewrite <- !app_assoc. reflexivity.
    - rewrite !gs_all_app, gs_want by auto. rewrite !gs_rstep_le. rewrite !map_app, !map_map.
      assert (IT : gs_all (if huses_it j then want inv_ TMat (hs_it_matrices j) Sh 0 else []) =
                   map (fun a => (a, Sh)) (if huses_it j then map (pair TMat) (opt (hs_it_matrices j)) else [])).
      { destruct (huses_it j); [|reflexivity]. rewrite gs_want by auto. rewrite map_map. reflexivity. }
      rewrite IT.
      destruct (umul checks _ (hs_influences j)) as [si| |]; [|eexists; rewrite <- !app_assoc; cbn [app]; reflexivity..].
      rewrite gs_all_app, gs_want by auto. rewrite gs_rstep_le.
      destruct (umul checks _ (hs_influences j - 1)) as [sw| |]; [|eexists; rewrite <- !app_assoc; cbn [app]; reflexivity..].
      rewrite !gs_all_app, !gs_want3, !gs_want by auto. exists []. rewrite <- !app_assoc, ?app_nil_r. reflexivity.
  Qed.
  Lemma plan_good_guards (w : world) j : bad w (plan j) = None ->
    gs (plan j) = map (fun a => (a, Sh)) (base j ++ map (pair TV3) (skin_ins j)) ++ map (fun b => ((TV3, b), Ex)) (skin_outs j).
  Proof.
    intros B. rewrite (gs_good w _ B). unfold plan in B |- *. destruct (hs_influences j =? 0)%N; [discriminate|].
    unfold base. destruct (hs_influences j =? 1)%N.
    - rewrite !gs_all_app, !gs_want3, !gs_want by auto. rewrite !map_app, !map_map, ?app_nil_r.
      assert (IT : gs_all (if huses_it j then want inv_ TMat (hs_it_matrices j) Sh 0 else []) =
                   map (fun a => (a, Sh)) (if huses_it j then map (pair TMat) (opt (hs_it_matrices j)) else [])).
      { destruct (huses_it j); [|reflexivity]. rewrite gs_want by auto. rewrite map_map. reflexivity. }
      rewrite IT, ?app_nil_r. rewrite <- !app_assoc. reflexivity.
    - assert (BA : forall a b, bad w (a ++ b) = None -> bad w b = None).
      { induction a as [|[t b m size|e|] a IH]; cbn; intros b0; try discriminate; [auto|]. destruct (_ <=? _)%N; [apply IH|discriminate]. }
      rewrite !gs_all_app, gs_want by auto. rewrite !gs_rstep_le. rewrite !map_app, !map_map.
      assert (IT : gs_all (if huses_it j then want inv_ TMat (hs_it_matrices j) Sh 0 else []) =
                   map (fun a => (a, Sh)) (if huses_it j then map (pair TMat) (opt (hs_it_matrices j)) else [])).
      { destruct (huses_it j); [|reflexivity]. rewrite gs_want by auto. rewrite map_map. reflexivity. }
      rewrite IT. apply BA, BA in B.
      destruct (umul checks _ (hs_influences j)) as [si| |]; [|discriminate..]. cbn [rstep] in B. apply BA in B.
      rewrite gs_all_app, gs_want by auto. rewrite gs_rstep_le.
      destruct (umul checks _ (hs_influences j - 1)) as [sw| |]; [|discriminate..].
      rewrite !gs_all_app, !gs_want3, !gs_want by auto. rewrite <- !app_assoc. reflexivity.
  Qed.

  Lemma clashes_split l : forall g, clashes l g -> exists l1 h l2, l = l1 ++ h :: l2 /\ clash h (rev l1 ++ g).
  Proof.
    induction l as [|h l IH]; intros g; cbn; [tauto|]. intros [C|C].
    - exists [], h, l. auto.
    - destruct (IH _ C) as (l1 & h' & l2 & -> & C'). exists (h :: l1), h', l2. split; [reflexivity|]. cbn. rewrite <- app_assoc. exact C'.
  Qed.
  Lemma split_clashes l1 h l2 : forall g, clash h (rev l1 ++ g) -> clashes (l1 ++ h :: l2) g.
  Proof.
    induction l1 as [|h' l1 IH]; intros g C; cbn; [left; exact C|]. right. apply IH. cbn in C. rewrite <- app_assoc in C. exact C.
  Qed.
  Lemma clash_free l : NoDup (exs l) -> (forall a, In (a, Sh) l -> In (a, Ex) l -> False) -> ~ clashes l [].
  Proof.
    intros ND DJ C. destruct (clashes_split _ _ C) as (l1 & [a m] & l2 & -> & X). rewrite app_nil_r in X.
    unfold clash in X. cbn [fst snd] in X. destruct m.
    - apply in_rev in X. apply (DJ a); apply in_or_app; [right; left; reflexivity|left; exact X].
    - apply in_map_iff in X. destruct X as ([a' m] & E & I). cbn in E. subst a'. apply in_rev in I. destruct m.
      + apply (DJ a); apply in_or_app; [left; exact I|right; left; reflexivity].
      + unfold exs in ND. rewrite filter_app, map_app in ND. cbn in ND. apply NoDup_remove_2 in ND.
        apply ND, in_or_app. left. apply in_exs. exact I.
  Qed.
  Lemma exs_plan S E : exs (map (fun a => (a, Sh)) S ++ map (fun b : nat => ((TV3, b), Ex)) E) = map (pair TV3) E.
  Proof.
    induction S as [|a S IH]; [|exact IH].
    induction E as [|e E IH]; [reflexivity|]. cbn. f_equal. exact IH.
  Qed.
  Lemma NoDup_app_l {A} (a b : list A) : NoDup (a ++ b) -> NoDup a.
  Proof. induction a; cbn; intros H; [constructor|]. inversion H; subst. constructor; [|auto]. intros I. apply H2, in_or_app; auto. Qed.
  Lemma base_reads j a : In a (base j ++ map (pair TV3) (skin_ins j)) -> In a (skin_reads j).
  Proof.
    unfold base, skin_reads. rewrite !in_app_iff. destruct (huses_it j), (hs_influences j =? 1)%N; cbn [In]; tauto.
  Qed.
  Lemma opt_le b : (length (opt b) <= 1)%nat. Proof. destruct b; cbn; lia. Qed.
  Lemma vertex_le j p n t : (length (vertex_bufs j p n t) <= 3)%nat.
  Proof.
    unfold vertex_bufs. pose proof (opt_le p). pose proof (opt_le n). pose proof (opt_le t). rewrite app_length.
    destruct (is_some (hs_normals j)); [rewrite app_length; destruct (is_some (hs_tangents j))|]; cbn; lia.
  Qed.
  Lemma plan_facts (w : world) j :
    NoDup (skin_outs j) -> (forall b, In b (skin_ins j) -> ~ In b (skin_outs j)) ->
    (forall a, In a (skin_reads j) -> readable (w_lock w a)) -> (forall b, In b (skin_outs j) -> idle (w_lock w (TV3, b))) ->
    fresh w (gs (plan j)) /\ (length (gs (plan j)) <= 10)%nat /\ ~ clashes (gs (plan j)) [].
  Proof.
    intros ND DJ RD ID. destruct (plan_guards j) as [r Hr]. destruct (gs_prefix (plan j)) as [r' Hr'].
    rewrite Hr', <- app_assoc in Hr. set (r2 := r' ++ r) in *. clearbody r2.
    assert (IN : forall h, In h (gs (plan j)) -> In h (map (fun a => (a, Sh)) (base j ++ map (pair TV3) (skin_ins j)) ++ map (fun b => ((TV3, b), Ex)) (skin_outs j))).
    { intros h I. rewrite Hr. apply in_or_app. auto. }
    assert (SH : forall a, In (a, Sh) (gs (plan j)) -> In a (base j ++ map (pair TV3) (skin_ins j))).
    { intros a I. apply IN, in_app_or in I. destruct I as [I|I]; apply in_map_iff in I; destruct I as (x & E & I); inversion E; subst; exact I. }
    assert (EX : forall a, In (a, Ex) (gs (plan j)) -> In a (map (pair TV3) (skin_outs j))).
    { intros a I. apply IN, in_app_or in I. destruct I as [I|I]; apply in_map_iff in I; destruct I as (x & E & I); inversion E; subst. apply in_map, I. }
    split; [split|split].
    - intros a I. apply RD, base_reads, SH, I.
    - intros a I. apply EX, in_map_iff in I. destruct I as (b & <- & I). apply ID, I.
    - assert (Q : (length (gs (plan j)) <= length (gs (plan j) ++ r2))%nat) by (rewrite app_length; lia).
      rewrite <- Hr in Q. rewrite !app_length, !map_length, !app_length, !map_length in Q. unfold base in Q. rewrite !app_length, !map_length in Q.
      pose proof (vertex_le j (hs_positions j) (hs_normals j) (hs_tangents j)).
      pose proof (vertex_le j (hs_out_positions j) (hs_out_normals j) (hs_out_tangents j)).
      pose proof (opt_le (hs_matrices j)). pose proof (opt_le (hs_it_matrices j)). pose proof (opt_le (hs_indices j)). pose proof (opt_le (hs_weights j)).
      fold (skin_ins j) (skin_outs j) in *.
      destruct (huses_it j), (hs_influences j =? 1)%N; rewrite ?map_length in Q; cbn [length] in Q; lia.
    - apply clash_free.
      + apply (NoDup_app_l _ (exs r2)). unfold exs. rewrite <- map_app, <- filter_app. rewrite <- Hr. fold (exs (map (fun a => (a, Sh)) (base j ++ map (pair TV3) (skin_ins j)) ++ map (fun b => ((TV3, b), Ex)) (skin_outs j))).
        rewrite exs_plan. apply FinFun.Injective_map_NoDup; [intros x y E; inversion E; reflexivity|exact ND].
      + intros a I1 I2. apply SH in I1. apply EX in I2. apply in_map_iff in I2. destruct I2 as (b & <- & I2).
        apply in_app_or in I1. destruct I1 as [I1|I1].
        * unfold base in I1. rewrite !in_app_iff in I1. clear - I1.
          assert (NT : forall t l, In (TV3, b) (map (pair t) l) -> t = TV3 /\ In b l).
          { intros t l I. apply in_map_iff in I. destruct I as (x & E & I). inversion E; subst. auto. }
          destruct I1 as [I|[I|[I|I]]].
          -- apply NT in I. destruct I; discriminate.
          -- destruct (huses_it j); [|destruct I]. apply NT in I. destruct I; discriminate.
          -- apply NT in I. destruct I; discriminate.
          -- destruct (hs_influences j =? 1)%N; [destruct I|]. apply NT in I. destruct I; discriminate.
        * apply in_map_iff in I1. destruct I1 as (x & E & I1). inversion E; subst. exact (DJ b I1 I2).
  Qed.

  (** ** The plan and the checks of the pure job *)
  Definition bchk {A} (w : world) (ss : list step) (r : res A) : res A :=
    match bad w ss with None => r | Some (Some e) => Err e | Some None => Panic end.
  Lemma bchk_app {A} w a b (r : res A) : bchk w (a ++ b) r = bchk w a (bchk w b r).
  Proof.
    unfold bchk. induction a as [|[t bb m size|e|] a IH]; cbn; try reflexivity. destruct (_ <=? _)%N; [exact IH|reflexivity].
  Qed.
  Lemma bchk_unpack {A} (w : world) t b m size (f : list (den F t) -> res A) :
    (let* x := unpack (option_map (w_data w t) b) size in f x) = bchk w (want inv_ t b m size) (f (w_data w t (oget b))).
  Proof.
    unfold bchk. destruct b as [b|]; [|reflexivity]. cbn [option_map unpack want bad oget].
    rewrite N.leb_antisym. destruct (_ <? _)%N; reflexivity.
  Qed.
  Lemma bchk_matrices {A} (w : world) b (f : list (mat4 F) -> res A) :
    (let* x := Skinning.ok_or (option_map (w_data w TMat) b) InvalidJob in f x) = bchk w (want inv_ TMat b Sh 0) (f (w_data w TMat (oget b))).
  Proof. unfold bchk. destruct b as [b|]; [|reflexivity]. cbn [option_map want bad oget Skinning.ok_or bind]. rewrite le0. reflexivity. Qed.
  Lemma bchk_unwrap {A} (w : world) b (f : list (mat4 F) -> res A) :
    (let* x := match option_map (w_data w TMat) b with Some ms => Ok ms | None => Panic end in f x) =
    bchk w (want Crash TMat b Sh 0) (f (w_data w TMat (oget b))).
  Proof. unfold bchk. destruct b as [b|]; [|reflexivity]. cbn [option_map want bad oget bind]. rewrite le0. reflexivity. Qed.
  Definition hits (w : world) (j : hsjob) : option (list (mat4 F)) :=
    if huses_it j then Some (w_data w TMat (oget (hs_it_matrices j))) else None.
  Lemma bchk_its {A} (w : world) j (f : option (list (mat4 F)) -> res A) :
    (let* its := (if huses_it j then let* x := Skinning.ok_or (option_map (w_data w TMat) (hs_it_matrices j)) InvalidJob in Ok (Some x) else Ok None) in f its) =
    bchk w (if huses_it j then want inv_ TMat (hs_it_matrices j) Sh 0 else []) (f (hits w j)).
  Proof.
    unfold hits. destruct (huses_it j); [|reflexivity]. 
    etransitivity; [|exact (bchk_matrices w (hs_it_matrices j) (fun x => f (Some x)))].
    destruct (Skinning.ok_or _ _); reflexivity.
  Qed.
  Lemma bchk_lift {A} w (r : res N) (f : N -> res A) ss k : (forall x, r = Ok x -> f x = bchk w (ss x) k) ->
    (let* x := r in f x) = bchk w (rstep r ss) k.
  Proof. intros H. destruct r; cbn [bind rstep]; [apply H; reflexivity|reflexivity|reflexivity]. Qed.
  Lemma bchk_pnt {A} (w : world) j (f : list (vec3 F) * list (vec3 F) * list (vec3 F) -> res A) :
    (let* x := unpack_pnt (hvariant j) (skin_in w j) in f x) =
    bchk w (want3 (hvariant j) Sh (hs_vertex_count j) (hs_positions j) (hs_normals j) (hs_tangents j) ++
            want3 (hvariant j) Ex (hs_vertex_count j) (hs_out_positions j) (hs_out_normals j) (hs_out_tangents j))
      (f (w_data w TV3 (oget (hs_positions j)),
          match hvariant j with P => [] | _ => w_data w TV3 (oget (hs_normals j)) end,
          match hvariant j with PNT => w_data w TV3 (oget (hs_tangents j)) | _ => [] end)).
  Proof.
    assert (BB : forall X Y (r : res X) (f : X -> res Y) (h : Y -> res A), (let* y := (let* x := r in f x) in h y) = (let* x := r in let* y := f x in h y)).
    { intros X Y r f0 h. destruct r; reflexivity. }
    unfold unpack_pnt, want3, skin_in.
    cbn [sj_vertex_count sj_positions sj_normals sj_tangents sj_outs so_positions so_normals so_tangents].
    rewrite !bchk_app.
    rewrite BB, (bchk_unpack w TV3 _ Sh). f_equal.
    destruct (hvariant j); cbn [bind].
    - unfold bchk at 1. cbn [bad]. unfold bchk at 1. cbn [bad].
      rewrite BB, (bchk_unpack w TV3 _ Ex). f_equal.
    - rewrite BB, (bchk_unpack w TV3 _ Sh). f_equal. unfold bchk at 1. cbn [bad].
      rewrite BB, (bchk_unpack w TV3 _ Ex). f_equal.
      rewrite BB, (bchk_unpack w TV3 _ Ex). f_equal.
    - rewrite BB, (bchk_unpack w TV3 _ Sh). f_equal.
      rewrite BB, (bchk_unpack w TV3 _ Sh). f_equal.
      rewrite BB, (bchk_unpack w TV3 _ Ex). f_equal.
      rewrite BB, (bchk_unpack w TV3 _ Ex). f_equal.
      rewrite BB, (bchk_unpack w TV3 _ Ex). f_equal.
  Qed.

  Definition hvertex (w : world) (j : hsjob) : nat -> res (mat4 F * mat4 F) :=
    let ms := w_data w TMat (oget (hs_matrices j)) in let ix := w_data w TU16 (oget (hs_indices j)) in
    if (hs_influences j =? 1)%N then vertex_1 ms (hits w j) ix
    else vertex_n checks (hs_influences j) ms (hits w j) ix (w_data w TF32 (oget (hs_weights j))).
  Definition hrun (w : world) (j : hsjob) : sres F :=
    vertices (N.to_nat (hs_vertex_count j)) 0 (hvertex w j) (hvariant j)
      (w_data w TV3 (oget (hs_positions j)))
      (match hvariant j with P => [] | _ => w_data w TV3 (oget (hs_normals j)) end)
      (match hvariant j with PNT => w_data w TV3 (oget (hs_tangents j)) | _ => [] end)
      (sj_outs (skin_in w j)).
  Lemma skin_pure (w : world) j : skin_run checks (skin_in w j) = finish (skin_in w j) (bchk w (plan j) (Ok (hrun w j))).
  Proof.
    rewrite run_dispatch. unfold plan.
    assert (VK : variant (skin_in w j) = hvariant j).
    { unfold variant, hvariant, skin_in. cbn. destruct (hs_normals j), (hs_tangents j); reflexivity. }
    assert (UK : uses_it (skin_in w j) = huses_it j).
    { unfold uses_it, huses_it, skin_in. cbn. destruct (hs_normals j), (hs_it_matrices j); reflexivity. }
    rewrite VK, UK. change (sj_influences (skin_in w j)) with (hs_influences j).
    unfold hrun, hvertex.
    destruct (hs_influences j =? 0)%N; [reflexivity|].
    destruct (hs_influences j =? 1)%N.
    - unfold skinning_1. f_equal. rewrite bchk_app. cbn [skin_in sj_matrices sj_it_matrices sj_indices sj_vertex_count].
      rewrite bchk_matrices. f_equal. rewrite bchk_app, bchk_its. f_equal. rewrite bchk_app, (bchk_unpack w TU16 _ Sh). f_equal.
      fold (skin_in w j). rewrite bchk_pnt. f_equal.
    - unfold skinning_impl. f_equal. rewrite bchk_app. cbn [skin_in sj_matrices sj_it_matrices sj_indices sj_vertex_count sj_weights].
      rewrite bchk_unwrap. f_equal. rewrite bchk_app, bchk_its. f_equal.
      apply bchk_lift. intros si _. rewrite bchk_app, (bchk_unpack w TU16 _ Sh). f_equal.
      apply bchk_lift. intros sw _. rewrite bchk_app, (bchk_unpack w TF32 _ Sh). f_equal.
      fold (skin_in w j). rewrite bchk_pnt. f_equal.
  Qed.

  (** ** The loop over the vertices *)
  Lemma bad_app (w : world) a b : bad w (a ++ b) = None -> bad w a = None /\ bad w b = None.
  Proof.
    induction a as [|[t bb m size|e|] a IH]; cbn; try discriminate; [auto|]. destruct (_ <=? _)%N; [exact IH|discriminate].
  Qed.
  Lemma plan_some (w : world) j : bad w (plan j) = None ->
    bad w (want3 (hvariant j) Sh (hs_vertex_count j) (hs_positions j) (hs_normals j) (hs_tangents j)) = None /\
    bad w (want3 (hvariant j) Ex (hs_vertex_count j) (hs_out_positions j) (hs_out_normals j) (hs_out_tangents j)) = None.
  Proof.
    unfold plan. destruct (hs_influences j =? 0)%N; [discriminate|]. destruct (hs_influences j =? 1)%N; intros B.
    - apply bad_app in B. destruct B as [_ B]. apply bad_app in B. destruct B as [_ B]. apply bad_app in B. destruct B as [_ B].
      apply bad_app in B. exact B.
    - apply bad_app in B. destruct B as [_ B]. apply bad_app in B. destruct B as [_ B].
      destruct (umul checks _ (hs_influences j)) as [si| |]; [|discriminate..]. cbn [rstep] in B. apply bad_app in B. destruct B as [_ B].
      destruct (umul checks _ (hs_influences j - 1)) as [sw| |]; [|discriminate..]. cbn [rstep] in B. apply bad_app in B. destruct B as [_ B].
      apply bad_app in B. exact B.
  Qed.
  Lemma want_some (w : world) t b m size : bad w (want inv_ t b m size) = None -> b = Some (oget b).
  Proof. destruct b; [reflexivity|discriminate]. Qed.
  Lemma want3_some (w : world) j m vc p n t : bad w (want3 (hvariant j) m vc p n t) = None ->
    p = Some (oget p) /\
    match hvariant j with P => True | PN => n = Some (oget n) | PNT => n = Some (oget n) /\ t = Some (oget t) end /\
    vertex_bufs j p n t = match hvariant j with P => [oget p] | PN => [oget p; oget n] | PNT => [oget p; oget n; oget t] end.
  Proof.
    unfold want3, vertex_bufs, hvariant. intros B. apply bad_app in B. destruct B as [B1 B2]. apply bad_app in B2. destruct B2 as [B2 B3].
    apply want_some in B1. split; [exact B1|]. destruct p as [p|]; [|discriminate].
    destruct (is_some (hs_normals j)); [destruct (is_some (hs_tangents j))|].
    - apply want_some in B2, B3. split; [split; assumption|]. destruct n, t; try discriminate. reflexivity.
    - apply want_some in B2. split; [assumption|]. destruct n; try discriminate. reflexivity.
    - split; [exact I|reflexivity].
  Qed.

  Lemma eval_p_write (inp out i : nat) f (w : world) g (l0 : list (vec3 F)) : w_data w TV3 inp = l0 ->
    (exists l, write (Some (w_data w TV3 out)) i l0 f = Ok (Some l) /\
       eval (p_write inp out i f) w g = EVal tt (mk_world (w_lock w) (put_data (w_data w) TV3 out l)) g) \/
    (write (Some (w_data w TV3 out)) i l0 f = Panic /\ eval (p_write inp out i f) w g = EPan w g).
  Proof.
    intros <-. unfold p_write, rd, wr, write. cbn [pbind eval]. rewrite eval_bind, eval_lift.
    change (den F TV3) with (vec3 F).
    destruct (get (w_data w TV3 inp : list (vec3 F)) i) as [x|e|] eqn:G; cbn [bind].
    - cbn [eval]. destruct (set (w_data w TV3 out : list (vec3 F)) i (f x)) as [l|e|] eqn:S; cbn [bind eval].
      + left. exists l. auto.
      + destruct (set_err _ _ _ _ S).
      + right. auto.
    - destruct (get_err _ _ _ G).
    - right. auto.
  Qed.
  Lemma load_its_eval {A} (w : world) g b (f : option (list (mat4 F)) -> prog A) :
    eval (pbind (load_its b) f) w g = eval (f (option_map (w_data w TMat) b)) w g.
  Proof. destruct b; reflexivity. Qed.
  Lemma eval_p_vertex (j : hsjob) i (w0 w : world) g : only_changes (map (pair TV3) (skin_outs j)) w0 w ->
    eval (p_vertex j i) w g = match hvertex w0 j i with Ok x => EVal x w g | Err e => EFail e w g | Panic => EPan w g end.
  Proof.
    intros D. assert (DN : forall t b, t <> TV3 -> w_data w t b = w_data w0 t b).
    { intros t b N. apply D. intros I. apply in_map_iff in I. destruct I as (x & E & _). congruence. }
    assert (HI : option_map (w_data w TMat) (if huses_it j then Some (oget (hs_it_matrices j)) else None) = hits w0 j).
    { unfold hits. destruct (huses_it j); [cbn [option_map]; rewrite DN by discriminate|]; reflexivity. }
    unfold p_vertex, hvertex. destruct (hs_influences j =? 1)%N.
    - cbn [load pbind eval]. rewrite load_its_eval, HI. cbn [load pbind eval]. rewrite !DN by discriminate. apply eval_lift.
    - cbn [load pbind eval]. rewrite load_its_eval, HI. cbn [load pbind eval]. rewrite !DN by discriminate. apply eval_lift.
  Qed.

  Definition st (w0 w : world) (j : hsjob) (o : souts F) : Prop :=
    only_changes (map (pair TV3) (skin_outs j)) w0 w /\ skin_results w j o.
  Lemma oc_store outs (w0 w : world) b x : only_changes outs w0 w -> In (TV3, b) outs ->
    only_changes outs w0 (mk_world (w_lock w) (put_data (w_data w) TV3 b x)).
  Proof. intros D I t b' N. cbn [w_data]. rewrite put_data_ne by congruence. apply D, N. Qed.
  Lemma body_sim (w0 : world) j g :
    NoDup (skin_outs j) -> (forall b, In b (skin_ins j) -> ~ In b (skin_outs j)) -> bad w0 (plan j) = None ->
    forall n i o w, st w0 w j o ->
    match vertices n i (hvertex w0 j) (hvariant j) (w_data w0 TV3 (oget (hs_positions j)))
            (match hvariant j with P => [] | _ => w_data w0 TV3 (oget (hs_normals j)) end)
            (match hvariant j with PNT => w_data w0 TV3 (oget (hs_tangents j)) | _ => [] end) o,
          eval (pfor n i (fun i _ =>
            pbind (p_vertex j i) (fun mm =>
            pbind (p_write (oget (hs_positions j)) (oget (hs_out_positions j)) i (transform_point3 (fst mm))) (fun _ =>
            pbind (match hvariant j with P => Ret tt | _ => p_write (oget (hs_normals j)) (oget (hs_out_normals j)) i (transform_vector3 (snd mm)) end) (fun _ =>
            match hvariant j with PNT => p_write (oget (hs_tangents j)) (oget (hs_out_tangents j)) i (transform_vector3 (snd mm)) | _ => Ret tt end)))) tt) w g
    with
    | SOk o', EVal _ w' g' => g' = g /\ w_lock w' = w_lock w /\ st w0 w' j o'
    | SErr e o', EFail e' w' g' => e' = e /\ g' = g /\ w_lock w' = w_lock w /\ st w0 w' j o'
    | SPanic, EPan w' g' => g' = g /\ w_lock w' = w_lock w /\ only_changes (map (pair TV3) (skin_outs j)) w0 w'
    | _, _ => False
    end.
  Proof.
    intros ND DJ B. destruct (plan_some _ _ B) as [BI BO].
    destruct (want3_some _ _ _ _ _ _ _ BI) as (IP & IS & II). destruct (want3_some _ _ _ _ _ _ _ BO) as (OP & OS & OO).
    fold (skin_ins j) in II. fold (skin_outs j) in OO. rewrite OO, II in DJ. rewrite OO in ND.
    unfold st, skin_results. rewrite OO.
    set (outs := map (pair TV3) _).
    assert (DIN : forall (w : world) b, only_changes outs w0 w -> In b (skin_ins j) -> w_data w TV3 b = w_data w0 TV3 b).
    { intros w b D I. apply D. intros Q. apply in_map_iff in Q. destruct Q as (x & E & Q). inversion E; subst x. rewrite II in I. exact (DJ b I Q). }
    rewrite II in DIN.
    assert (EV : forall i (w : world), only_changes outs w0 w ->
      eval (p_vertex j i) w g = match hvertex w0 j i with Ok x => EVal x w g | Err e => EFail e w g | Panic => EPan w g end).
    { intros i w D. apply eval_p_vertex. rewrite OO. exact D. }
    generalize dependent (p_vertex j). intros pv EV. generalize dependent (hvertex w0 j). intros hv EV. clear B BI BO II OO.
    unfold hvariant in *. destruct (hs_positions j) as [pi|]; [|discriminate]. destruct (hs_out_positions j) as [po|]; [|discriminate].
    clear IP OP. cbn [oget option_map] in *.
    destruct (hs_normals j) as [ni|]; cbn [is_some] in *; [destruct (hs_tangents j) as [ti|]; cbn [is_some] in *|]; cbn [oget option_map] in *.
    - destruct OS as [ON OT]. destruct (hs_out_normals j) as [no|]; [|discriminate]. destruct (hs_out_tangents j) as [to|]; [|discriminate].
      clear ON OT IS. cbn [oget option_map] in *.
      induction n as [|n IH]; intros i o w (D & R1 & R2); cbn [vertices pfor].
      { cbn [eval]. split; [reflexivity|]. split; [reflexivity|]. split; [assumption|]. split; assumption. }
      rewrite eval_bind, eval_bind. rewrite (EV i w D).
      destruct (hv i) as [mm|e|]; [|cbn; auto 10|cbn; auto 10].
      destruct (R2 eq_refl) as [R2' R3']. specialize (R3' eq_refl). rename R2' into RN, R3' into RT.
      unfold write_vertex. rewrite R1, RN, RT. rewrite eval_bind.
      destruct (eval_p_write pi po i (transform_point3 (fst mm)) w g _ (DIN w pi D (or_introl eq_refl)))
        as [(l & -> & ->)|(-> & ->)]; cbn [bind]; [|auto].
      set (w1 := mk_world (w_lock w) (put_data (w_data w) TV3 po l)) in *.
      assert (D1 : only_changes outs w0 w1) by (apply oc_store; [exact D|left; reflexivity]).
      rewrite eval_bind.
      assert (E1 : w_data w TV3 no = w_data w1 TV3 no).
      { cbn. rewrite put_data_ne; [reflexivity|]. intros Q; inversion Q; subst. inversion ND as [|? ? X]; subst. apply X. left; reflexivity. }
      rewrite E1.
      destruct (eval_p_write ni no i (transform_vector3 (snd mm)) w1 g _ (DIN w1 ni D1 (or_intror (or_introl eq_refl))))
        as [(l' & -> & ->)|(-> & ->)]; cbn [bind]; [|auto].
      set (w2 := mk_world (w_lock w1) (put_data (w_data w1) TV3 no l')) in *.
      assert (D2 : only_changes outs w0 w2) by (apply oc_store; [exact D1|right; left; reflexivity]).
      assert (E2 : w_data w TV3 to = w_data w2 TV3 to).
      { cbn. rewrite !put_data_ne; [reflexivity| |]; intros Q; inversion Q; subst; inversion ND as [|? ? X Y]; subst.
        - apply X. right; left; reflexivity.
        - inversion Y as [|? ? X' Y']; subst. apply X'. left; reflexivity. }
      rewrite E2.
      destruct (eval_p_write ti to i (transform_vector3 (snd mm)) w2 g _ (DIN w2 ti D2 (or_intror (or_intror (or_introl eq_refl)))))
        as [(l'' & -> & ->)|(-> & ->)]; cbn [bind]; [|auto].
      set (w3 := mk_world (w_lock w2) (put_data (w_data w2) TV3 to l'')) in *.
      assert (D3 : only_changes outs w0 w3) by (apply oc_store; [exact D2|right; right; left; reflexivity]).
      specialize (IH (Datatypes.S i) (mk_souts (Some l) (Some l') (Some l'')) w3). apply IH.
      split; [exact D3|]. cbn [so_positions so_normals so_tangents].
      inversion ND as [|? ? X Y]; subst. inversion Y as [|? ? X' Y']; subst.
      split; [|intros _; split; [|intros _]]; f_equal; cbn [w3 w2 w1 w_data].
      + rewrite 2!put_data_ne; [rewrite put_data_eq; reflexivity| |]; intros Q; inversion Q; subst; apply X; cbn; auto.
      + rewrite put_data_ne; [rewrite put_data_eq; reflexivity|]; intros Q; inversion Q; subst; apply X'; cbn; auto.
      + rewrite put_data_eq; reflexivity.
    - destruct (hs_out_normals j) as [no|]; [|discriminate].
      clear IS OS. cbn [oget option_map] in *.
      induction n as [|n IH]; intros i o w (D & R1 & R2); cbn [vertices pfor].
      { cbn [eval]. split; [reflexivity|]. split; [reflexivity|]. split; [assumption|]. split; assumption. }
      rewrite eval_bind, eval_bind. rewrite (EV i w D).
      destruct (hv i) as [mm|e|]; [|cbn; auto 10|cbn; auto 10].
      destruct (R2 eq_refl) as [RN _].
      unfold write_vertex. rewrite R1, RN. rewrite eval_bind.
      destruct (eval_p_write pi po i (transform_point3 (fst mm)) w g _ (DIN w pi D (or_introl eq_refl)))
        as [(l & -> & ->)|(-> & ->)]; cbn [bind]; [|auto].
      set (w1 := mk_world (w_lock w) (put_data (w_data w) TV3 po l)) in *.
      assert (D1 : only_changes outs w0 w1) by (apply oc_store; [exact D|left; reflexivity]).
      rewrite eval_bind.
      assert (E1 : w_data w TV3 no = w_data w1 TV3 no).
      { cbn. rewrite put_data_ne; [reflexivity|]. intros Q; inversion Q; subst. inversion ND as [|? ? X]; subst. apply X. left; reflexivity. }
      rewrite E1.
      destruct (eval_p_write ni no i (transform_vector3 (snd mm)) w1 g _ (DIN w1 ni D1 (or_intror (or_introl eq_refl))))
        as [(l' & -> & ->)|(-> & ->)]; cbn [bind]; [|auto].
      set (w2 := mk_world (w_lock w1) (put_data (w_data w1) TV3 no l')) in *.
      assert (D2 : only_changes outs w0 w2) by (apply oc_store; [exact D1|right; left; reflexivity]).
      cbn [eval].
      specialize (IH (Datatypes.S i) (mk_souts (Some l) (Some l') (so_tangents o)) w2). apply IH.
      split; [exact D2|]. cbn [so_positions so_normals so_tangents].
      inversion ND as [|? ? X Y]; subst.
      split; [|intros _; split; [|discriminate]]; f_equal; cbn [w2 w1 w_data].
      + rewrite put_data_ne; [rewrite put_data_eq; reflexivity|]; intros Q; inversion Q; subst; apply X; cbn; auto.
      + rewrite put_data_eq; reflexivity.
    - clear IS OS. induction n as [|n IH]; intros i o w (D & R1 & R2); cbn [vertices pfor].
      { cbn [eval]. split; [reflexivity|]. split; [reflexivity|]. split; [assumption|]. split; assumption. }
      rewrite eval_bind, eval_bind. rewrite (EV i w D).
      destruct (hv i) as [mm|e|]; [|cbn; auto 10|cbn; auto 10].
      unfold write_vertex. rewrite R1. rewrite eval_bind.
      destruct (eval_p_write pi po i (transform_point3 (fst mm)) w g _ (DIN w pi D (or_introl eq_refl)))
        as [(l & -> & ->)|(-> & ->)]; cbn [bind]; [|auto].
      set (w1 := mk_world (w_lock w) (put_data (w_data w) TV3 po l)) in *.
      assert (D1 : only_changes outs w0 w1) by (apply oc_store; [exact D|left; reflexivity]).
      cbn [eval pbind].
      specialize (IH (Datatypes.S i) (mk_souts (Some l) (so_normals o) (so_tangents o)) w1). apply IH.
      split; [exact D1|]. cbn [so_positions so_normals so_tangents].
      split; [|discriminate]. f_equal; cbn [w1 w_data]. rewrite put_data_eq; reflexivity.
  Qed.

  Lemma drop_all_data b g : forall w : world, w_data (drop_all b w g) = w_data w.
  Proof. induction g as [|h g IH]; intros w; cbn; [reflexivity|]. exact (IH (drop_one b w h)). Qed.
  Lemma skin_results_data (w w' : world) j o : w_data w' = w_data w -> skin_results w j o -> skin_results w' j o.
  Proof. intros E. unfold skin_results. rewrite E. auto. Qed.
  Lemma skin_results_in (w : world) j : skin_results w j (sj_outs (skin_in w j)).
  Proof. unfold skin_results, skin_in. cbn. auto. Qed.

  Lemma skin_distinct (w : world) (j : hsjob) r w' :
    NoDup (skin_outs j) -> (forall b, In b (skin_ins j) -> ~ In b (skin_outs j)) ->
    (forall a, In a (skin_reads j) -> readable (w_lock w a)) -> (forall b, In b (skin_outs j) -> idle (w_lock w (TV3, b))) ->
    exec (p_skin checks j) w = (r, w') ->
    match skin_run checks (skin_in w j) with
    | SOk o => r = Val tt /\ skin_results w' j o
    | SErr e o => r = Fail e /\ skin_results w' j o
    | SPanic => r = Panics
    end /\ only_changes (map (pair TV3) (skin_outs j)) w w'.
  Proof.
    intros ND DJ RD ID. unfold exec. rewrite (skin_plan j w []). rewrite skin_pure.
    destruct (plan_facts w j ND DJ RD ID) as (FR & LE & NC).
    pose proof (plan_ok (p_body j) w (plan j) w [] (got_start w) FR LE NC) as H. unfold bchk.
    destruct (bad w (plan j)) as [[e|]|] eqn:B.
    - destruct H as (w1 & g1 & -> & D). cbn. intros E; inversion E; subst.
      split; [split; [reflexivity|]|].
      + eapply skin_results_data; [rewrite drop_all_data; exact D|]. apply skin_results_in.
      + intros t b _. rewrite drop_all_data, D. reflexivity.
    - destruct H as (w1 & g1 & -> & D). cbn. intros E; inversion E; subst.
      split; [reflexivity|]. intros t b _. rewrite drop_all_data, D. reflexivity.
    - destruct H as (w1 & -> & (D & _)). cbn [finish]. unfold hrun.
      pose proof (body_sim w j (rev (gs (plan j)) ++ []) ND DJ B (N.to_nat (hs_vertex_count j)) 0%nat (sj_outs (skin_in w j)) w1) as S.
      destruct (plan_some _ _ B) as [BI BO].
      assert (PB : p_body j = pfor (N.to_nat (hs_vertex_count j)) 0 (fun i _ =>
            pbind (p_vertex j i) (fun mm =>
            pbind (p_write (oget (hs_positions j)) (oget (hs_out_positions j)) i (transform_point3 (fst mm))) (fun _ =>
            pbind (match hvariant j with P => Ret tt | _ => p_write (oget (hs_normals j)) (oget (hs_out_normals j)) i (transform_vector3 (snd mm)) end) (fun _ =>
            match hvariant j with PNT => p_write (oget (hs_tangents j)) (oget (hs_out_tangents j)) i (transform_vector3 (snd mm)) | _ => Ret tt end)))) tt).
      { unfold p_body, p_vertices, get3. destruct (hvariant j); reflexivity. }
      rewrite PB. assert (S0 : st w w1 j (sj_outs (skin_in w j))).
      { split; [intros t b _; rewrite D; reflexivity|]. apply (skin_results_data w w1 j _ D), skin_results_in. }
      specialize (S S0).
      destruct (vertices _ _ _ _ _ _ _ _) as [o'|e o'|], (eval (pfor _ _ _ _) _ _) as [a w2 g2|er w2 g2|w2 g2|w2 g2]; try destruct S as [].
      + destruct a. cbn. intros E; inversion E; subst. destruct H0 as (_ & S1 & S2). split; [split; [reflexivity|]|].
        * eapply skin_results_data; [apply drop_all_data|exact S2].
        * intros t b N. rewrite drop_all_data. apply S1, N.
      + cbn. intros E; inversion E; subst. destruct H0 as (_ & _ & S1 & S2). split; [split; [reflexivity|]|].
        * eapply skin_results_data; [apply drop_all_data|exact S2].
        * intros t b N. rewrite drop_all_data. apply S1, N.
      + cbn. intros E; inversion E; subst. destruct H0 as (_ & S1). split; [reflexivity|].
        intros t b N. rewrite drop_all_data. apply S1, N.
  Qed.

  (** ** Aliased outputs *)
  Definition aliased (j : hsjob) : Prop := (exists b, In b (skin_ins j) /\ In b (skin_outs j)) \/ ~ NoDup (skin_outs j).
  Lemma dup_split (l : list nat) : ~ NoDup l -> exists a l1 l2 l3, l = l1 ++ a :: l2 ++ a :: l3.
  Proof.
    induction l as [|x l IH]; intros N; [destruct N; constructor|].
    destruct (in_dec Nat.eq_dec x l) as [I|I].
    - apply in_split in I. destruct I as (l2 & l3 & ->). exists x, [], l2, l3. reflexivity.
    - destruct IH as (a & l1 & l2 & l3 & ->); [intros ND; apply N; constructor; assumption|]. exists a, (x :: l1), l2, l3. reflexivity.
  Qed.
  Lemma aliased_guards (w : world) j : aliased j -> bad w (plan j) = None ->
    exists b m l1 l2 l3, In b (skin_outs j) /\ gs (plan j) = l1 ++ ((TV3, b), m) :: l2 ++ ((TV3, b), Ex) :: l3.
  Proof.
    intros A B. rewrite (plan_good_guards w j B). rewrite map_app, map_map. rewrite <- app_assoc. destruct A as [(b & I & O)|N].
    - destruct (in_split _ _ I) as (i1 & i2 & ->). destruct (in_split _ _ O) as (o1 & o2 & E). exists b, Sh.
      rewrite E, !map_app. cbn [map].
      exists (map (fun a => (a, Sh)) (base j) ++ map (fun b => ((TV3, b), Sh)) i1), (map (fun b => ((TV3, b), Sh)) i2 ++ map (fun b => ((TV3, b), Ex)) o1), (map (fun b => ((TV3, b), Ex)) o2).
      split; [rewrite <- E; exact O|]. rewrite <- !app_assoc. cbn [app]. rewrite <- ?app_assoc. reflexivity.
    - destruct (dup_split _ N) as (b & l1 & l2 & l3 & E). exists b, Ex. rewrite E. rewrite map_app. cbn [map]. rewrite map_app. cbn [map].
      
      exists (map (fun a => (a, Sh)) (base j) ++ map (fun b => ((TV3, b), Sh)) (skin_ins j) ++ map (fun b => ((TV3, b), Ex)) l1), (map (fun b => ((TV3, b), Ex)) l2), (map (fun b => ((TV3, b), Ex)) l3).
      split; [apply in_or_app; right; left; reflexivity|]. rewrite <- !app_assoc. reflexivity.
  Qed.
  Lemma excl_rev_pair kd0 l1 a m l2 l3 : excl kd0 (rev (l1 ++ (a, m) :: l2 ++ (a, Ex) :: l3)) -> kd0 a = KFree.
  Proof.
    rewrite rev_app_distr. cbn [rev]. rewrite rev_app_distr. cbn [rev]. rewrite <- !app_assoc. cbn [app].
    induction (rev l3) as [|[a' m'] l IH]; cbn [app excl].
    - intros [_ H]. destruct (kd0 a) eqn:K; [reflexivity| |].
      + destruct (H ltac:(discriminate) m) as [X _]; [|discriminate]. apply in_or_app. right. left. reflexivity.
      + destruct (H ltac:(discriminate) m) as [X _]; [|discriminate]. apply in_or_app. right. left. reflexivity.
    - intros [H _]. apply IH, H.
  Qed.
  Lemma sized_want (w : world) t b m size : bad w (want inv_ t b m size) = None <-> sized (option_map (w_data w t) b) size = true.
  Proof. destruct b as [b|]; cbn; [|split; discriminate]. destruct (_ <=? _)%N; split; congruence. Qed.
  Lemma app_bad (w : world) a b : bad w a = None -> bad w b = None -> bad w (a ++ b) = None.
  Proof. induction a as [|[t bb m size|e|] a IH]; cbn; try discriminate; [auto|]. destruct (_ <=? _)%N; [exact IH|discriminate]. Qed.
  Lemma validate_plan (w : world) j : (hs_vertex_count j < 18446744073709551616)%N -> skin_validate checks (skin_in w j) = Ok true -> bad w (plan j) = None.
  Proof.
    intros VC. unfold skin_validate. cbn [skin_in sj_vertex_count sj_influences sj_outs sj_matrices sj_indices sj_weights sj_positions sj_normals sj_tangents so_positions so_normals so_tangents].
    unfold plan. destruct (hs_matrices j) as [mb|]; [|discriminate]. cbn [option_map].
    destruct (hs_indices j) as [xb|]; [|discriminate]. cbn [option_map].
    destruct (umul checks (hs_vertex_count j) (hs_influences j)) as [si| |] eqn:SI; [|discriminate..]. cbn [bind].
    intros H.
    match type of H with (let* okw := ?c in _) = _ => destruct c as [okw| |] eqn:OW end; [|discriminate..]. cbn [bind] in H.
    injection H as H. 
    apply andb_true_iff in H; destruct H as [H X1]. apply andb_true_iff in H; destruct H as [H X2].
    apply andb_true_iff in H; destruct H as [H X3]. apply andb_true_iff in H; destruct H as [H X4].
    apply andb_true_iff in H; destruct H as [H X5]. apply andb_true_iff in H; destruct H as [H X6].
    apply N.ltb_lt in H.
    assert (IT : bad w (if huses_it j then want inv_ TMat (hs_it_matrices j) Sh 0 else []) = None).
    { unfold huses_it. destruct (hs_normals j), (hs_it_matrices j); try reflexivity. cbn. rewrite le0. reflexivity. }
    assert (V3 : forall m, bad w (want3 (hvariant j) m (hs_vertex_count j) (hs_positions j) (hs_normals j) (hs_tangents j)) = None /\
                 bad w (want3 (hvariant j) m (hs_vertex_count j) (hs_out_positions j) (hs_out_normals j) (hs_out_tangents j)) = None).
    { intros m. unfold want3, hvariant. destruct (hs_normals j) as [nb|]; cbn [is_some option_map] in *.
      - apply andb_true_iff in X1. destruct X1 as [X1 Y1]. apply andb_true_iff in X1. destruct X1 as [X1 Y2].
        destruct (hs_tangents j) as [tb|]; cbn [is_some option_map] in *.
        + apply andb_true_iff in Y1. destruct Y1 as [Y1 Y3].
          split; (apply app_bad; [|apply app_bad]); apply sized_want; assumption.
        + split; (apply app_bad; [|apply app_bad]); try reflexivity; apply sized_want; assumption.
      - split; (apply app_bad; [|apply app_bad]); try reflexivity; apply sized_want; assumption. }
    assert (Z : (hs_influences j =? 0)%N = false) by (apply N.eqb_neq; lia). rewrite Z.
    destruct (N.eqb_spec (hs_influences j) 1) as [E1|E1].
    - rewrite E1 in SI. assert (SI' : si = hs_vertex_count j).
      { rewrite umul_small in SI by (rewrite N.mul_1_r; exact VC). rewrite N.mul_1_r in SI. inversion SI. reflexivity. }
      subst si. apply app_bad; [cbn; rewrite le0; reflexivity|]. apply app_bad; [exact IT|].
      apply app_bad; [apply sized_want; exact X5|]. apply app_bad; apply V3.
    - assert (L : (1 <? hs_influences j)%N = true) by (apply N.ltb_lt; lia). rewrite L in OW.
      apply app_bad; [cbn; rewrite le0; reflexivity|]. apply app_bad; [exact IT|]. cbn [rstep].
      apply app_bad; [apply sized_want; exact X5|].
      destruct (hs_weights j) as [wb|]; cbn [option_map] in OW; [|congruence].
      destruct (umul checks (hs_vertex_count j) (hs_influences j - 1)) as [sw| |]; [|discriminate..].
      cbn [bind] in OW. injection OW as OW. cbn [rstep]. apply app_bad; [apply sized_want; rewrite <- OW in X4; exact X4|].
      apply app_bad; apply V3.
  Qed.
  Lemma skin_alias (w : world) (j : hsjob) r w' :
    aliased j -> (forall b, In b (skin_outs j) -> lk_kind (w_lock w (TV3, b)) <> KFree) ->
    exec (p_skin checks j) w = (r, w') ->
    r <> Val tt /\ w_data w' = w_data w.
  Proof.
    intros A K. unfold exec. rewrite (skin_plan j w []).
    destruct (plan_cases (plan j) w []) as [(B & w1 & _ & E)|H].
    - exfalso. pose proof (eval_excl (p_steps (plan j) (Ret tt)) w []) as X. rewrite E in X. cbn [at_end] in X.
      destruct X as (SK & _ & EX); [intros a Ka; cbn; split; [lia|tauto]|exact I|].
      destruct (aliased_guards w j A B) as (b & m & l1 & l2 & l3 & O & G). rewrite G, app_nil_r in EX.
      apply excl_rev_pair in EX. unfold kd in EX. rewrite (SK (TV3, b)) in EX. exact (K b O EX).
    - specialize (H unit (p_body j)). destruct (eval _ w []) as [a w1 g1|e w1 g1|w1 g1|w1 g1]; [destruct H|..]; cbn; intros Q; inversion Q; subst;
        (split; [discriminate|]); rewrite ?drop_all_data; exact H.
  Qed.
  Lemma plan_facts' (w : world) j :
    (forall a, In a (skin_reads j) -> readable (w_lock w a)) -> (forall b, In b (skin_outs j) -> idle (w_lock w (TV3, b))) ->
    fresh w (gs (plan j)) /\ (length (gs (plan j)) <= 10)%nat /\
    (forall a m, In (a, m) (gs (plan j)) -> In a (skin_reads j ++ map (pair TV3) (skin_outs j))).
  Proof.
    intros RD ID. destruct (plan_guards j) as [r Hr]. destruct (gs_prefix (plan j)) as [r' Hr'].
    rewrite Hr', <- app_assoc in Hr. set (r2 := r' ++ r) in *. clearbody r2.
    assert (IN : forall h, In h (gs (plan j)) -> In h (map (fun a => (a, Sh)) (base j ++ map (pair TV3) (skin_ins j)) ++ map (fun b => ((TV3, b), Ex)) (skin_outs j))).
    { intros h I. rewrite Hr. apply in_or_app. auto. }
    assert (SH : forall a, In (a, Sh) (gs (plan j)) -> In a (base j ++ map (pair TV3) (skin_ins j))).
    { intros a I. apply IN, in_app_or in I. destruct I as [I|I]; apply in_map_iff in I; destruct I as (x & E & I); inversion E; subst; exact I. }
    assert (EX : forall a, In (a, Ex) (gs (plan j)) -> In a (map (pair TV3) (skin_outs j))).
    { intros a I. apply IN, in_app_or in I. destruct I as [I|I]; apply in_map_iff in I; destruct I as (x & E & I); inversion E; subst. apply in_map, I. }
    split; [split|split].
    - intros a I. apply RD, base_reads, SH, I.
    - intros a I. apply EX, in_map_iff in I. destruct I as (b & <- & I). apply ID, I.
    - assert (Q : (length (gs (plan j)) <= length (gs (plan j) ++ r2))%nat) by (rewrite app_length; lia).
      rewrite <- Hr in Q. rewrite !app_length, !map_length, !app_length, !map_length in Q. unfold base in Q. rewrite !app_length, !map_length in Q.
      pose proof (vertex_le j (hs_positions j) (hs_normals j) (hs_tangents j)).
      pose proof (vertex_le j (hs_out_positions j) (hs_out_normals j) (hs_out_tangents j)).
      pose proof (opt_le (hs_matrices j)). pose proof (opt_le (hs_it_matrices j)). pose proof (opt_le (hs_indices j)). pose proof (opt_le (hs_weights j)).
      fold (skin_ins j) (skin_outs j) in *.
      destruct (huses_it j), (hs_influences j =? 1)%N; rewrite ?map_length in Q; cbn [length] in Q; lia.
    - intros a [] I; apply in_or_app; [left; apply base_reads, SH, I|right; apply EX, I].
  Qed.
  Lemma skin_alias_how (w : world) (j : hsjob) r w' :
    aliased j -> (hs_vertex_count j < 18446744073709551616)%N -> skin_validate checks (skin_in w j) = Ok true ->
    (forall a, In a (skin_reads j) -> readable (w_lock w a)) -> (forall b, In b (skin_outs j) -> idle (w_lock w (TV3, b))) ->
    (forall a, In a (skin_reads j ++ map (pair TV3) (skin_outs j)) -> lk_kind (w_lock w a) <> KFree) ->
    exec (p_skin checks j) w = (r, w') ->
    (r = Panics /\ exists a, In a (skin_reads j ++ map (pair TV3) (skin_outs j)) /\ lk_kind (w_lock w a) = KCell) \/
    (r = Blocks /\ exists a, In a (skin_reads j ++ map (pair TV3) (skin_outs j)) /\ lk_kind (w_lock w a) = KLock).
  Proof.
    intros A VC V RD ID K. unfold exec. rewrite (skin_plan j w []).
    pose proof (validate_plan w j VC V) as B. destruct (plan_facts' w j RD ID) as (FR & LE & IN).
    assert (C : clashes (gs (plan j)) []).
    { destruct (aliased_guards w j A B) as (b & m & l1 & l2 & l3 & O & ->).
      rewrite app_comm_cons, app_assoc. apply split_clashes. unfold clash. cbn [fst snd].
      rewrite app_nil_r, map_rev, <- in_rev, map_app. apply in_or_app. right. left. reflexivity. }
    destruct (plan_clash (p_body j) w (plan j) w [] (got_start w)) as [(w1 & g1 & -> & a & m & I & KA)|(w1 & g1 & -> & a & m & I & KA)]; auto.
    - intros a Ka; cbn; split; [lia|tauto].
    - intros a m I. apply K, (IN a m I).
    - cbn. intros Q; inversion Q; subst. left. split; [reflexivity|]. exists a. split; [apply (IN a m I)|exact KA].
    - cbn. intros Q; inversion Q; subst. right. split; [reflexivity|]. exists a. split; [apply (IN a m I)|exact KA].
  Qed.
End Skin.
