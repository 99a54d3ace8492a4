(** C36-C38: skinning. *)
From Coq Require Import Reals Lra Psatz.
From Verif Require Import Base Num NumR NumF32 Math MathSpec MathProofs Blending BlendingProofs Skinning SkinningSpec SkinningProofs.
Local Open Scope R_scope.

Section Any.
  Context {F : Type} {NF : Num F}.
  Variable checks : bool.

  Lemma run_none (j : sjob F) : sj_matrices j = None ->
    skin_run checks j = if (sj_influences j <=? 1)%N then SErr InvalidJob (sj_outs j) else SPanic.
  Proof.
    intros Hm. rewrite run_dispatch.
    destruct (N.eqb_spec (sj_influences j) 0) as [E|E]; [rewrite E; reflexivity|].
    destruct (N.eqb_spec (sj_influences j) 1) as [E1|E1]; [rewrite E1; unfold skinning_1; rewrite Hm; reflexivity|].
    destruct (N.leb_spec (sj_influences j) 1); [lia|]. unfold skinning_impl. rewrite Hm. reflexivity.
  Qed.
  Lemma run_SOk (j : sjob F) o' : (sj_vertex_count j * sj_influences j < 18446744073709551616)%N -> skin_run checks j = SOk o' ->
    exists ms, sj_matrices j = Some ms /\ sj_influences j <> 0%N /\ ready j = true /\
      vertices (N.to_nat (sj_vertex_count j)) 0 (vertex checks j ms) (variant j) (olist (sj_positions j)) (olist (sj_normals j))
                        (match variant j with PNT => olist (sj_tangents j) | _ => [] end) (sj_outs j) = SOk o'.
  Proof.
    intros Hs H. destruct (sj_matrices j) as [ms|] eqn:Hm.
    2:{ rewrite (run_none j Hm) in H. destruct (sj_influences j <=? 1)%N; discriminate. }
    destruct (N.eq_dec (sj_influences j) 0) as [E|E].
    { rewrite run_dispatch, E in H. discriminate. }
    rewrite (run_matrices checks j ms Hm Hs E) in H. exists ms.
    destruct (ready j); [|discriminate]. auto.
  Qed.
End Any.

(** ** C36 *)
Lemma upto_replaced v inp out out' (P : nat -> vec3 R -> vec3 R -> Prop) image li :
  inp = Some li -> upto 0 (0 + v) li P out out' ->
  (forall i p q, (i < v)%nat -> P i p q -> forall r, (r < 3)%nat -> coord q r = image i p r) -> replaced v inp out out' image.
Proof.
  intros E (l & l' & E1 & E2 & L & U & V) H. exists li, l, l'. split; [exact E|]. split; [exact E1|]. split; [exact E2|].
  split; [exact L|]. split.
  - intros i Hi. apply U. lia.
  - intros i Hi. destruct (V i) as (p & q & A & B & C); [lia|]. exists p, q. split; [exact A|]. split; [exact B|]. apply H; assumption.
Qed.

Lemma vertex_sum checks (j : sjob R) ms i mm : sj_influences j <> 0%N ->
  (sj_vertex_count j * sj_influences j < 18446744073709551616)%N -> (N.of_nat i < sj_vertex_count j)%N ->
  vertex checks j ms i = Ok mm ->
  let n := N.to_nat (sj_influences j) in let ws := olist (sj_weights j) in let ix := olist (sj_indices j) in
  is_sum n (fst mm) (weight n ws i) (fun k => matrix ms (influence n ix i k)) /\
  is_sum n (snd mm) (weight n ws i) (fun k => matrix (its_or ms (used_its j)) (influence n ix i k)) /\
  (forall k, (k < n)%nat -> (influence n ix i k < length ms)%nat /\ (influence n ix i k < length (its_or ms (used_its j)))%nat).
Proof.
  intros Hz Hs Hi H. cbv zeta. unfold vertex in H. destruct (N.eqb_spec (sj_influences j) 1) as [E|E].
  - rewrite E. apply (vertex_1_R _ _ _ (olist (sj_weights j))) in H. exact H.
  - apply vertex_n_R in H; [exact H|lia|nia].
Qed.

Theorem C36_linear_blend checks (j : sjob R) o' :
  (sj_vertex_count j * sj_influences j < 18446744073709551616)%N ->
  skin_run checks j = SOk o' ->
  let v := N.to_nat (sj_vertex_count j) in let n := N.to_nat (sj_influences j) in let out := sj_outs j in
  exists ms indices ws,
    sj_matrices j = Some ms /\ sj_indices j = Some indices /\ (n <> 1%nat -> sj_weights j = Some ws) /\
    (v * n <= length indices)%nat /\ (n <> 1%nat -> v * (n - 1) <= length ws)%nat /\
    (* matrices for normals and tangents *)
    let nms := match sj_it_matrices j with Some its => its | None => ms end in
    (forall i k, (i < v)%nat -> (k < n)%nat -> (influence n indices i k < length ms)%nat /\
       (sj_normals j <> None -> (influence n indices i k < length nms)%nat)) /\
    replaced v (sj_positions j) (so_positions out) (so_positions o') (blended apply_point n ms indices ws) /\
    (match sj_normals j with
     | Some _ => replaced v (sj_normals j) (so_normals out) (so_normals o') (blended apply_vector n nms indices ws)
     | None => so_normals o' = so_normals out
     end) /\
    (match sj_normals j, sj_tangents j with
     | Some _, Some _ => replaced v (sj_tangents j) (so_tangents out) (so_tangents o') (blended apply_vector n nms indices ws)
     | _, _ => so_tangents o' = so_tangents out
     end).
Proof.
  intros Hs H. cbv zeta. destruct (run_SOk checks j o' Hs H) as (ms & Hm & Hz & HR & HV).
  pose proof (ready_bufs j HR) as ((lp & Ep & Lp) & (lo & Eo & Lo) & Hn & Ht).
  apply vertices_ok in HV. destruct HV as (A & B & C & D).
  assert (SZ : (exists ix, sj_indices j = Some ix /\ (sj_vertex_count j * sj_influences j <= N.of_nat (length ix))%N) /\
     (sj_influences j <> 1%N -> exists ws, sj_weights j = Some ws /\ (sj_vertex_count j * (sj_influences j - 1) <= N.of_nat (length ws))%N)).
  { unfold ready in HR. cbv zeta in HR. apply andb_true_iff in HR. destruct HR as [HR _]. apply andb_true_iff in HR. destruct HR as [HR _].
    apply andb_true_iff in HR. destruct HR as [HR _]. apply andb_true_iff in HR. destruct HR as [HI HW].
    split; [apply sized_Some, HI|]. intros E. destruct (N.ltb_spec 1 (sj_influences j)); [|lia]. apply sized_Some, HW. }
  destruct SZ as [(ix & EI & LI) HW].
  exists ms, ix, (olist (sj_weights j)).
  split; [exact Hm|]. split; [exact EI|].
  split. { intros E. destruct HW as (ws & EW & LW); [lia|]. rewrite EW. reflexivity. }
  split; [lia|].
  split. { intros E. destruct HW as (ws & EW & LW); [lia|]. rewrite EW. cbn [olist]. lia. }
  assert (IT : sj_normals j <> None -> its_or ms (used_its j) = match sj_it_matrices j with Some its => its | None => ms end).
  { intros E. unfold used_its, uses_it. destruct (sj_normals j); [|contradiction]. destruct (sj_it_matrices j); reflexivity. }
  assert (VS := fun i mm (Hi : (N.of_nat i < sj_vertex_count j)%N) => vertex_sum checks j ms i mm Hz Hs Hi).
  rewrite EI in VS. cbn [olist] in VS. cbv zeta in VS.
  assert (IMG1 : forall i p q, (i < N.to_nat (sj_vertex_count j))%nat ->
     (exists mm, vertex checks j ms i = Ok mm /\ q = transform_point3 (fst mm) p) -> forall r, (r < 3)%nat ->
     coord q r = blended apply_point (N.to_nat (sj_influences j)) ms ix (olist (sj_weights j)) i p r).
  { intros i p q Hi (mm & Hv & ->) r Hr. destruct (VS i mm ltac:(lia) Hv) as (S1 & _).
    rewrite point3_R by exact Hr. apply sum_point; [exact S1|lia]. }
  assert (IMG2 : sj_normals j <> None -> forall i p q, (i < N.to_nat (sj_vertex_count j))%nat ->
     (exists mm, vertex checks j ms i = Ok mm /\ q = transform_vector3 (snd mm) p) -> forall r, (r < 3)%nat ->
     coord q r = blended apply_vector (N.to_nat (sj_influences j)) (match sj_it_matrices j with Some its => its | None => ms end) ix (olist (sj_weights j)) i p r).
  { intros E i p q Hi (mm & Hv & ->) r Hr. destruct (VS i mm ltac:(lia) Hv) as (_ & S2 & _).
    rewrite vector3_R by exact Hr. rewrite <- (IT E). apply sum_vector; [exact S2|lia]. }
  split.
  { intros i k Hi Hk. destruct (D i) as [mm Hv]; [lia|]. destruct (VS i mm ltac:(lia) Hv) as (_ & _ & S3).
    destruct (S3 k Hk) as [S4 S5]. split; [exact S4|]. intros E. rewrite <- (IT E). exact S5. }
  split.
  { eapply upto_replaced; [exact Ep| |exact IMG1]. rewrite Ep in A. cbn [olist] in A. apply A. rewrite Eo. discriminate. }
  split.
  - destruct (sj_normals j) as [nl|] eqn:En.
    + destruct Hn as [(l1 & E1 & _) (l2 & E2 & _)]. { unfold variant. rewrite En. cbn. destruct (is_some (sj_tangents j)); discriminate. }
      inversion E1; subst l1. eapply upto_replaced; [reflexivity| |apply IMG2; discriminate]. cbn [olist] in B.
      assert (K : variant j <> P). { unfold variant. rewrite En. cbn. destruct (is_some (sj_tangents j)); discriminate. }
      destruct (variant j); [contradiction|apply B; rewrite E2; discriminate|apply B; rewrite E2; discriminate].
    + unfold variant in B. rewrite En in B. exact B.
  - destruct (sj_normals j) as [nl|] eqn:En; [destruct (sj_tangents j) as [tl|] eqn:Et|].
    + assert (K : variant j = PNT). { unfold variant. rewrite En, Et. reflexivity. }
      destruct (Ht K) as [(l1 & E1 & _) (l2 & E2 & _)]. inversion E1; subst l1.
      eapply upto_replaced; [reflexivity| |apply IMG2; discriminate].
      rewrite K in C. cbn [olist] in C. apply C. rewrite E2. discriminate.
    + unfold variant in C. rewrite En, Et in C. exact C.
    + unfold variant in C. rewrite En in C. exact C.
Qed.
Print Assumptions C36_linear_blend.

(** ** C37 *)
Lemma weights_sum_to_one n ws i : (1 <= n)%nat -> rsum n (weight n ws i) = 1.
Proof.
  intros Hn. replace (rsum n) with (rsum (S (n - 1))) by (f_equal; lia). cbn [rsum].
  unfold weight at 2. rewrite Nat.eqb_refl.
  rewrite (rsum_ext (n - 1) (weight n ws i) (fun k => nth (i * (n - 1) + k) ws 0)); [ring|].
  intros k Hk. unfold weight. destruct (Nat.eqb_spec k (n - 1)); [lia|reflexivity].
Qed.
Lemma blended_same apply n ms ix ws i p r m : (1 <= n)%nat -> (forall k, (k < n)%nat -> matrix ms (influence n ix i k) = m) ->
  blended apply n ms ix ws i p r = apply m p r.
Proof.
  intros Hn H. unfold blended. rewrite (rsum_ext n _ (fun k => weight n ws i k * apply m p r)).
  - rewrite rsum_scale, weights_sum_to_one by exact Hn. ring.
  - intros k Hk. rewrite H by exact Hk. reflexivity.
Qed.

(** If the matrices of vertex [i]'s joints are all [m], the position is [m] applied to it; likewise
    normals and tangents with the matrices used for them. *)
Theorem C37_partition_of_unity checks (j : sjob R) o' i m nm :
  (sj_vertex_count j * sj_influences j < 18446744073709551616)%N ->
  skin_run checks j = SOk o' -> (i < N.to_nat (sj_vertex_count j))%nat ->
  let n := N.to_nat (sj_influences j) in
  (forall ms indices k, sj_matrices j = Some ms -> sj_indices j = Some indices -> (k < n)%nat ->
     nth_error ms (influence n indices i k) = Some m /\
     nth_error (match sj_it_matrices j with Some its => its | None => ms end) (influence n indices i k) = Some nm) ->
  (exists li lo p q, sj_positions j = Some li /\ so_positions o' = Some lo /\ nth_error li i = Some p /\ nth_error lo i = Some q /\
     forall r, (r < 3)%nat -> coord q r = apply_point m p r) /\
  (forall li, sj_normals j = Some li ->
     (exists lo p q, so_normals o' = Some lo /\ nth_error li i = Some p /\ nth_error lo i = Some q /\
        forall r, (r < 3)%nat -> coord q r = apply_vector nm p r) /\
     (forall lt, sj_tangents j = Some lt ->
        exists lo p q, so_tangents o' = Some lo /\ nth_error lt i = Some p /\ nth_error lo i = Some q /\
        forall r, (r < 3)%nat -> coord q r = apply_vector nm p r)).
Proof.
  intros Hs H Hi n HM. destruct (C36_linear_blend checks j o' Hs H) as (ms & ix & ws & E1 & E2 & E3 & E4 & E5 & E6 & HP & HN & HT).
  fold n in HP, HN, HT.
  assert (Hn : (1 <= n)%nat). { destruct (run_SOk checks j o' Hs H) as (? & _ & Hz & _). unfold n. lia. }
  assert (M1 : forall k, (k < n)%nat -> matrix ms (influence n ix i k) = m).
  { intros k Hk. apply nth_error_nth. apply (HM ms ix k E1 E2 Hk). }
  assert (M2 : forall k, (k < n)%nat -> matrix (match sj_it_matrices j with Some its => its | None => ms end) (influence n ix i k) = nm).
  { intros k Hk. apply nth_error_nth. apply (HM ms ix k E1 E2 Hk). }
  split.
  - destruct HP as (li & lo & lo' & A1 & A2 & A3 & A4 & A5 & A6). destruct (A6 i Hi) as (p & q & B1 & B2 & B3).
    exists li, lo', p, q. repeat (split; [assumption|]). intros r Hr. rewrite B3 by exact Hr. apply blended_same; assumption.
  - intros li En. rewrite En in HN, HT. split.
    + destruct HN as (li' & lo & lo' & A1 & A2 & A3 & A4 & A5 & A6). inversion A1; subst li'. destruct (A6 i Hi) as (p & q & B1 & B2 & B3).
      exists lo', p, q. repeat (split; [assumption|]). intros r Hr. rewrite B3 by exact Hr. apply blended_same; assumption.
    + intros lt Et. rewrite Et in HT.
      destruct HT as (li' & lo & lo' & A1 & A2 & A3 & A4 & A5 & A6). inversion A1; subst li'. destruct (A6 i Hi) as (p & q & B1 & B2 & B3).
      exists lo', p, q. repeat (split; [assumption|]). intros r Hr. rewrite B3 by exact Hr. apply blended_same; assumption.
Qed.
Print Assumptions C37_partition_of_unity.

(** ** C38.  Full statement: [run] returns InvalidJob exactly when [validate] is false, and never
    panics.  Proved below: that holds except for (a) unset matrices with two or more influences,
    where [run] panics; (b) an empty matrix buffer or tangents without normals, which only [validate]
    rejects; all this for vertex_count * influences_count below 2^64.  The exceptions are real. *)
Theorem C38_agree_partial {F} {NF : Num F} checks (j : sjob F) :
  (sj_vertex_count j * sj_influences j < 18446744073709551616)%N ->
  (exists b, skin_validate checks j = Ok b) /\
  (skin_validate checks j = Ok true ->
     (exists o, skin_run checks j = SOk o) \/ (exists o, skin_run checks j = SErr InvalidIndex o)) /\
  (forall o, skin_run checks j = SErr InvalidJob o -> skin_validate checks j = Ok false /\ o = sj_outs j) /\
  (skin_run checks j = SPanic <-> sj_matrices j = None /\ (2 <= sj_influences j)%N) /\
  (skin_validate checks j = Ok false ->
     (exists o, skin_run checks j = SErr InvalidJob o) \/ skin_run checks j = SPanic \/
     sj_matrices j = Some [] \/ (sj_normals j = None /\ sj_tangents j <> None)).
Proof.
  intros Hs. rewrite (validate_ready checks j Hs).
  destruct (sj_matrices j) as [ms|] eqn:Hm.
  2:{ rewrite (run_none checks j Hm). split; [eexists; reflexivity|]. split; [discriminate|].
      destruct (N.leb_spec (sj_influences j) 1).
      - split; [intros o E; inversion E; auto|]. split; [split; [discriminate|intros [_ ?]; lia]|]. left. eexists. reflexivity.
      - split; [discriminate|]. split; [split; [intros _; split; [reflexivity|lia]|reflexivity]|]. right. left. reflexivity. }
  split; [eexists; reflexivity|].
  destruct (N.ltb_spec 0 (sj_influences j)) as [Hz|Hz].
  2:{ rewrite run_dispatch. replace (sj_influences j) with 0%N by lia. cbn [N.eqb andb].
      split; [discriminate|]. split; [intros o E; inversion E; auto|]. split; [split; [discriminate|intros [? _]; discriminate]|]. left. eexists. reflexivity. }
  destruct (ready j) eqn:HR.
  - assert (RR := run_ready checks j ms Hm HR Hs ltac:(lia)).
    split; [|split; [|split]].
    + intros _. destruct RR as [[o H]|(o & H & _)]; [left|right]; eauto.
    + intros o E. destruct RR as [[o1 H]|(o1 & H & _)]; rewrite H in E; discriminate.
    + split; [|intros [? _]; discriminate]. intros E. destruct RR as [[o1 H]|(o1 & H & _)]; rewrite H in E; discriminate.
    + intros E. right. right. destruct ms as [|m0 ms0]; [left; reflexivity|right].
      destruct (sj_normals j) as [nl|]; [discriminate|]. destruct (sj_tangents j) as [tl|]; [|discriminate]. split; [reflexivity|discriminate].
  - rewrite (run_matrices checks j ms Hm Hs ltac:(lia)), HR. rewrite andb_false_r, andb_false_l.
    split; [discriminate|]. split; [intros o E; inversion E; auto|]. split; [split; [discriminate|intros [? _]; discriminate]|]. left. eexists. reflexivity.
Qed.
Print Assumptions C38_agree_partial.

(** A validated job whose joint indices all have matrices runs to completion. *)
Theorem C38_valid_job_runs {F} {NF : Num F} checks (j : sjob F) :
  (sj_vertex_count j * sj_influences j < 18446744073709551616)%N ->
  skin_validate checks j = Ok true ->
  (forall ms indices k jx, sj_matrices j = Some ms -> sj_indices j = Some indices ->
     (N.of_nat k < sj_vertex_count j * sj_influences j)%N -> nth_error indices k = Some jx ->
     (N.to_nat jx < length ms)%nat /\ forall its, sj_it_matrices j = Some its -> (N.to_nat jx < length its)%nat) ->
  exists o, skin_run checks j = SOk o.
Proof.
  intros Hs HV HI. rewrite (validate_ready checks j Hs) in HV.
  destruct (sj_matrices j) as [ms|] eqn:Hm; [|discriminate]. inversion HV as [HV']. clear HV.
  apply andb_true_iff in HV'. destruct HV' as [HV' _]. apply andb_true_iff in HV'. destruct HV' as [HV' HR].
  apply andb_true_iff in HV'. destruct HV' as [HZ _]. apply N.ltb_lt in HZ.
  destruct (run_ready checks j ms Hm HR Hs ltac:(lia)) as [H|(o & _ & i & Hi & He)]; [exact H|].
  destruct (good_vertex checks j ms i HR ltac:(lia) Hs Hi) as [mm Hv].
  - intros ix k jx Ex Hk Hx. destruct (HI ms ix k jx eq_refl Ex Hk Hx) as [A B]. split; [exact A|].
    intros l El. apply B. unfold used_its in El. destruct (uses_it j); [exact El|discriminate].
  - rewrite Hv in He. discriminate.
Qed.
Print Assumptions C38_valid_job_runs.

(** The exceptions. *)
Definition empty_outs : souts f32 := mk_souts (Some []) None None.
Theorem C38_run_panics_refuted :
  exists j : sjob f32, skin_validate true j = Ok false /\ skin_run true j = SPanic.
Proof.
  exists (mk_sjob 0 2 None None (Some []) (Some []) (Some []) None None empty_outs). split; reflexivity.
Qed.
Print Assumptions C38_run_panics_refuted.
(** Rejected jobs that run: tangents without normals (the tangents are ignored), empty matrices. *)
Theorem C38_rejected_runs_refuted :
  (exists j : sjob f32, sj_matrices j <> Some [] /\ skin_validate true j = Ok false /\ skin_run true j = SOk (sj_outs j)) /\
  (exists j : sjob f32, sj_tangents j = None /\ skin_validate true j = Ok false /\ skin_run true j = SOk (sj_outs j)).
Proof.
  split.
  - exists (mk_sjob 0 1 (Some [mat_identity]) None (Some []) None (Some []) None (Some []) empty_outs).
    split; [discriminate|]. split; reflexivity.
  - exists (mk_sjob 0 1 (Some []) None (Some []) None (Some []) None None empty_outs).
    split; [reflexivity|]. split; reflexivity.
Qed.
Print Assumptions C38_rejected_runs_refuted.
(** A release build accepts sizes whose product wraps, then panics; a debug build panics in [validate]. *)
Definition wrap_job (zero : vec3 f32) : sjob f32 :=
  mk_sjob 16 1152921504606846977 (Some [mat_identity]) None (Some (repeat 0%N 16)) (Some []) (Some (repeat zero 16)) None None
    (mk_souts (Some (repeat zero 16)) None None).
Theorem C38_overflow_refuted zero :
  skin_validate false (wrap_job zero) = Ok true /\ skin_run false (wrap_job zero) = SPanic /\
  skin_validate true (wrap_job zero) = Panic.
Proof. split; [reflexivity|]. split; reflexivity. Qed.
Print Assumptions C38_overflow_refuted.
(** An out-of-range joint index is reported after earlier vertices are written. *)
Theorem C38_partial_write_refuted : exists (j : sjob f32) o,
  skin_validate true j = Ok true /\ skin_run true j = SErr InvalidIndex o /\ o <> sj_outs j.
Proof.
  set (one := V3 none_ none_ none_ : vec3 f32). set (zero := V3 nzero nzero nzero : vec3 f32).
  exists (mk_sjob 2 1 (Some [mat_identity]) None (Some [0%N; 1%N]) None (Some [one; one]) None None (mk_souts (Some [zero; zero]) None None)).
  exists (mk_souts (Some [transform_point3 mat_identity one; zero]) None None).
  split; [reflexivity|]. split; [reflexivity|].
  intros E. apply (f_equal (fun o => match so_positions o with Some (p :: _) => f32_to_bits (vx p) | _ => 0%N end)) in E.
  vm_compute in E. discriminate.
Qed.
Print Assumptions C38_partial_write_refuted.

(** ** Non-vacuity: two vertices, three influences, normals through inverse-transpose matrices. *)
Definition ex_mat (a b : R) : mat4 R := mk4 (mk4 a 0 0 0) (mk4 0 a 0 0) (mk4 0 0 a 0) (mk4 b 0 0 1).
Definition ex_job : sjob R :=
  mk_sjob 2 3 (Some [ex_mat 1 0; ex_mat 2 1; ex_mat 3 5]) (Some [ex_mat 1 0; ex_mat 4 0; ex_mat 5 0])
    (Some [0; 1; 2; 2; 2; 1]%N) (Some [1/2; 1/4; 1/3; 1/3]) (Some [V3 1 2 3; V3 4 5 6]) (Some [V3 1 0 0; V3 0 1 0]) None
    (mk_souts (Some [V3 0 0 0; V3 0 0 0; V3 7 8 9]) (Some [V3 0 0 0; V3 0 0 0]) None).
Example C36_hypotheses : (sj_vertex_count ex_job * sj_influences ex_job < 18446744073709551616)%N /\
  exists o', skin_run true ex_job = SOk o'.
Proof. split; [reflexivity|]. eexists. reflexivity. Qed.
Example C36_value : exists o' lo q, skin_run true ex_job = SOk o' /\ so_positions o' = Some lo /\ nth_error lo 0 = Some q /\
  vx q = 1/2 * 1 + 1/4 * (2 * 1 + 1) + 1/4 * (3 * 1 + 5) /\ nth_error lo 2 = Some (V3 7 8 9).
Proof.
  destruct C36_hypotheses as [Hs [o' H]]. exists o'.
  destruct (C36_linear_blend true ex_job o' Hs H) as (ms & ix & ws & E1 & E2 & E3 & _ & _ & _ & (li & lo & lo' & A1 & A2 & A3 & _ & A5 & A6) & _).
  inversion E1; subst ms. inversion E2; subst ix. pose proof (E3 ltac:(vm_compute; discriminate)) as E3'. inversion E3'; subst ws.
  destruct (A6 0%nat ltac:(vm_compute; lia)) as (p & q & B1 & B2 & B3).
  inversion A1; subst li. inversion B1; subst p.
  exists lo', q. split; [exact H|]. split; [exact A3|]. split; [exact B2|]. split.
  - specialize (B3 0%nat ltac:(lia)). cbn [coord] in B3. rewrite B3. cbv -[Rplus Rmult Rdiv Rminus IZR Rinv]. field.
  - rewrite A5 by (vm_compute; lia). inversion A2. reflexivity.
Qed.
(** All joints of a vertex on one matrix. *)
Example C37_hypotheses : let j := mk_sjob 1 2 (Some [ex_mat 1 0; ex_mat 2 1]) None (Some [1; 1]%N) (Some [7]) (Some [V3 1 2 3]) None None
    (mk_souts (Some [V3 0 0 0]) None None) in
  (sj_vertex_count j * sj_influences j < 18446744073709551616)%N /\ (exists o', skin_run true j = SOk o') /\
  (forall ms indices k, sj_matrices j = Some ms -> sj_indices j = Some indices -> (k < 2)%nat ->
     nth_error ms (influence 2 indices 0 k) = Some (ex_mat 2 1)).
Proof.
  split; [reflexivity|]. split; [eexists; reflexivity|]. intros ms ix k E1 E2 Hk. inversion E1; inversion E2; subst.
  destruct k as [|[|k]]; [reflexivity..|lia].
Qed.
Example C38_hypotheses : skin_validate true ex_job = Ok true.
Proof. reflexivity. Qed.
