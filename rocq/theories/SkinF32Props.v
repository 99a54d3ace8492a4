(** C84: skinning in single precision follows the linear blend formula. *)
From Coq Require Import Reals Lra Lia Psatz.
From Flocq Require Import Core.Core IEEE754.BinarySingleNaN.
From Verif Require Import Base Num NumR NumF32 Math MathSpec Blending BlendingProofs Skinning SkinningSpec SkinningProofs SkinningProps
  F32Facts F32Err InterpF32 NormF32 BlendF32 BlendF32Proofs BlendF32Props RigidF32 SkinF32Spec SkinF32.
Local Open Scope R_scope.

Lemma upto_near e v inp out out' (P : nat -> vec3 f32 -> vec3 f32 -> Prop) image li :
  inp = Some li -> upto 0 (0 + v) li P out out' ->
  (forall i p q, (i < v)%nat -> In p li -> P i p q -> forall r, (r < 3)%nat ->
     is_finite (coord32 q r) = true /\ Rabs (B2R (coord32 q r) - image i (real_vec p) r) <= e) ->
  replaced_near e v inp out out' image.
Proof.
  intros E (l & l' & E1 & E2 & L & U & V) H. exists li, l, l'. split; [exact E|]. split; [exact E1|]. split; [exact E2|].
  split; [exact L|]. split.
  - intros i Hi. apply U. lia.
  - intros i Hi. destruct (V i) as (p & q & A & B & C); [lia|]. exists p, q. split; [exact A|]. split; [exact B|].
    apply (H i p q Hi); [eapply nth_error_In, A|exact C].
Qed.

Lemma vertex_near checks (j : sjob f32) B ms i mm : p2 (-40) <= B <= p2 40 -> sj_influences j <> 0%N -> (sj_influences j <= 4096)%N ->
  (sj_vertex_count j * sj_influences j < 18446744073709551616)%N -> (N.of_nat i < sj_vertex_count j)%N ->
  let n := N.to_nat (sj_influences j) in let ws := olist (sj_weights j) in let ix := olist (sj_indices j) in
  (forall m, In m ms -> small_mat B m) -> (forall m, In m (its_or32 ms (used_its j)) -> small_mat B m) ->
  (n <> 1%nat -> small_weights (N.to_nat (sj_vertex_count j)) n ws) ->
  vertex checks j ms i = Ok mm ->
  near_sum B (7.6 * INR n * eps * B) n (fst mm) (weight n (map (fun x : f32 => B2R x) ws) i) (fun k => matrix (map real_mat ms) (influence n ix i k)) /\
  near_sum B (7.6 * INR n * eps * B) n (snd mm) (weight n (map (fun x : f32 => B2R x) ws) i)
    (fun k => matrix (map real_mat (its_or32 ms (used_its j))) (influence n ix i k)).
Proof.
  intros HB Hz Hk Hs Hi. cbv zeta. intros Hms Hits Hw H. unfold vertex in H. destruct (N.eqb_spec (sj_influences j) 1) as [E|E].
  - rewrite E. apply vertex_1_32; auto.
  - assert (N1 : N.to_nat (sj_influences j) <> 1%nat) by lia. destruct (Hw N1 i ltac:(lia)) as [W1 W2].
    apply (vertex_n_32 B checks _ ms (used_its j)); auto; [lia|nia].
Qed.

Theorem C84_single_precision checks (j : sjob f32) o' B P :
  let v := N.to_nat (sj_vertex_count j) in let n := N.to_nat (sj_influences j) in let out := sj_outs j in
  (sj_vertex_count j * sj_influences j < 18446744073709551616)%N -> (sj_influences j <= 4096)%N ->
  bpow radix2 (-40) <= B <= bpow radix2 40 -> bpow radix2 (-40) <= P <= bpow radix2 40 ->
  (* the inputs are finite and bounded *)
  (forall ms m, sj_matrices j = Some ms \/ sj_it_matrices j = Some ms -> In m ms -> small_mat B m) ->
  (forall ws, n <> 1%nat -> sj_weights j = Some ws -> small_weights v n ws) ->
  (forall l p, sj_positions j = Some l \/ sj_normals j = Some l \/ sj_tangents j = Some l -> In p l -> small_vec P p) ->
  skin_run checks j = SOk o' ->
  exists ms indices ws,
    sj_matrices j = Some ms /\ sj_indices j = Some indices /\ (n <> 1%nat -> sj_weights j = Some ws) /\
    let real_ws := map (fun x : f32 => B2R x) ws in
    let nms := match sj_it_matrices j with Some its => its | None => ms end in
    replaced_near (INR n * bpow radix2 (-19) * B * (3 * P + 1)) v (sj_positions j) (so_positions out) (so_positions o')
      (blended apply_point n (map real_mat ms) indices real_ws) /\
    (match sj_normals j with
     | Some _ => replaced_near (INR n * bpow radix2 (-19) * B * (3 * P)) v (sj_normals j) (so_normals out) (so_normals o')
                   (blended apply_vector n (map real_mat nms) indices real_ws)
     | None => so_normals o' = so_normals out
     end) /\
    (match sj_normals j, sj_tangents j with
     | Some _, Some _ => replaced_near (INR n * bpow radix2 (-19) * B * (3 * P)) v (sj_tangents j) (so_tangents out) (so_tangents o')
                   (blended apply_vector n (map real_mat nms) indices real_ws)
     | _, _ => so_tangents o' = so_tangents out
     end).
Proof.
  intros v n out Hs H4 HB HP Hms Hws Hps H. subst v n out. destruct (run_SOk checks j o' Hs H) as (ms & Hm & Hz & HR & HV).
  pose proof (ready_bufs j HR) as ((lp & Ep & Lp) & (lo & Eo & Lo) & Hn & Ht).
  apply vertices_ok in HV. destruct HV as (A & Bn & C & D).
  assert (SZ : (exists ix, sj_indices j = Some ix) /\ (sj_influences j <> 1%N -> exists ws, sj_weights j = Some ws)).
  { unfold ready in HR. cbv zeta in HR. apply andb_true_iff in HR. destruct HR as [HR _]. apply andb_true_iff in HR. destruct HR as [HR _].
    apply andb_true_iff in HR. destruct HR as [HR _]. apply andb_true_iff in HR. destruct HR as [HI HW].
    split; [apply sized_Some in HI; destruct HI as (ix & EI & _); eauto|].
    intros E. destruct (N.ltb_spec 1 (sj_influences j)); [|lia]. apply sized_Some in HW. destruct HW as (ws & EW & _); eauto. }
  destruct SZ as [(ix & EI) HW].
  exists ms, ix, (olist (sj_weights j)).
  split; [exact Hm|]. split; [exact EI|].
  split. { intros E. destruct HW as (ws & EW); [lia|]. rewrite EW. reflexivity. }
  cbv zeta.
  assert (IT : sj_normals j <> None -> its_or32 ms (used_its j) = match sj_it_matrices j with Some its => its | None => ms end).
  { intros E. unfold used_its, uses_it. destruct (sj_normals j); [|contradiction]. destruct (sj_it_matrices j); reflexivity. }
  assert (S1 : forall m, In m ms -> small_mat B m) by (intros m I; apply (Hms ms); auto).
  assert (S2 : forall m, In m (its_or32 ms (used_its j)) -> small_mat B m).
  { intros m I. unfold used_its in I. destruct (uses_it j); cbn [its_or32] in I; [|auto].
    destruct (sj_it_matrices j) as [its|] eqn:Ei; cbn [its_or32] in I; [|auto]. apply (Hms its); auto. }
  assert (S3 : N.to_nat (sj_influences j) <> 1%nat -> small_weights (N.to_nat (sj_vertex_count j)) (N.to_nat (sj_influences j)) (olist (sj_weights j))).
  { intros E. destruct HW as (ws & EW); [lia|]. apply Hws; [exact E|]. rewrite EW. reflexivity. }
  assert (VS := fun i mm (Hi : (N.of_nat i < sj_vertex_count j)%N) => vertex_near checks j B ms i mm HB Hz H4 Hs Hi S1 S2 S3).
  rewrite EI in VS. cbn [olist] in VS. cbv zeta in VS.
  assert (K : (1 <= N.to_nat (sj_influences j) <= N.to_nat 4096)%nat) by lia.
  assert (IMG1 : forall i p q, (i < N.to_nat (sj_vertex_count j))%nat -> In p lp ->
     (exists mm, vertex checks j ms i = Ok mm /\ q = transform_point3 (fst mm) p) -> forall r, (r < 3)%nat ->
     is_finite (coord32 q r) = true /\ Rabs (B2R (coord32 q r) -
       blended apply_point (N.to_nat (sj_influences j)) (map real_mat ms) ix (map (fun x : f32 => B2R x) (olist (sj_weights j))) i (real_vec p) r)
       <= INR (N.to_nat (sj_influences j)) * bpow radix2 (-19) * B * (3 * P + 1)).
  { intros i p q Hi Ip (mm & Hv & ->) r Hr. destruct (VS i mm ltac:(lia) Hv) as (V1 & _).
    apply image_point; auto. apply (Hps lp); auto. }
  assert (IMG2 : sj_normals j <> None -> forall l, sj_normals j = Some l \/ sj_tangents j = Some l -> forall i p q, (i < N.to_nat (sj_vertex_count j))%nat -> In p l ->
     (exists mm, vertex checks j ms i = Ok mm /\ q = transform_vector3 (snd mm) p) -> forall r, (r < 3)%nat ->
     is_finite (coord32 q r) = true /\ Rabs (B2R (coord32 q r) -
       blended apply_vector (N.to_nat (sj_influences j)) (map real_mat (match sj_it_matrices j with Some its => its | None => ms end)) ix
         (map (fun x : f32 => B2R x) (olist (sj_weights j))) i (real_vec p) r)
       <= INR (N.to_nat (sj_influences j)) * bpow radix2 (-19) * B * (3 * P)).
  { intros E l El i p q Hi Ip (mm & Hv & ->) r Hr. destruct (VS i mm ltac:(lia) Hv) as (_ & V2).
    rewrite (IT E) in V2. apply image_vector; auto. apply (Hps l); [|exact Ip]. right. exact El. }
  split.
  { eapply upto_near; [exact Ep| |exact IMG1]. rewrite Ep in A. cbn [olist] in A. apply A. rewrite Eo. discriminate. }
  split.
  - destruct (sj_normals j) as [nl|] eqn:En.
    + destruct Hn as [(l1 & E1 & _) (l2 & E2 & _)]. { unfold variant. rewrite En. cbn. destruct (is_some (sj_tangents j)); discriminate. }
      inversion E1; subst l1. eapply upto_near; [reflexivity| |apply IMG2; [discriminate|auto]]. cbn [olist] in Bn.
      assert (K' : variant j <> Skinning.P). { unfold variant. rewrite En. cbn. destruct (is_some (sj_tangents j)); discriminate. }
      destruct (variant j); [contradiction|apply Bn; rewrite E2; discriminate|apply Bn; rewrite E2; discriminate].
    + unfold variant in Bn. rewrite En in Bn. exact Bn.
  - destruct (sj_normals j) as [nl|] eqn:En; [destruct (sj_tangents j) as [tl|] eqn:Et|].
    + assert (K' : variant j = PNT). { unfold variant. rewrite En, Et. reflexivity. }
      destruct (Ht K') as [(l1 & E1 & _) (l2 & E2 & _)]. inversion E1; subst l1.
      eapply upto_near; [reflexivity| |apply IMG2; [discriminate|auto]].
      rewrite K' in C. cbn [olist] in C. apply C. rewrite E2. discriminate.
    + unfold variant in C. rewrite En, Et in C. exact C.
    + unfold variant in C. rewrite En in C. exact C.
Qed.
Print Assumptions C84_single_precision.

(** ** Non-vacuity: two vertices, three influences, normals through inverse-transpose matrices; entries and
    coordinates at most 2. *)
Definition ex84_mat (a b : f32) : mat4 f32 := mk4 (mk4 a nzero nzero nzero) (mk4 nzero a nzero nzero) (mk4 nzero nzero a nzero) (mk4 b nzero nzero none_).
Definition ex84_job : sjob f32 :=
  mk_sjob 2 3 (Some [ex84_mat none_ nzero; ex84_mat ntwo none_; ex84_mat nhalf ntwo]) (Some [ex84_mat none_ nzero; ex84_mat nhalf nzero; ex84_mat ntwo nzero])
    (Some [0; 1; 2; 2; 2; 1]%N) (Some [nhalf; nhalf; none_; nhalf]) (Some [V3 none_ ntwo nhalf; V3 nhalf none_ none_]) (Some [V3 none_ nzero nzero; V3 nzero none_ nzero]) None
    (mk_souts (Some [V3 nzero nzero nzero; V3 nzero nzero nzero; V3 none_ ntwo nhalf]) (Some [V3 nzero nzero nzero; V3 nzero nzero nzero]) None).
Lemma ex84_vals : Forall (fun x : f32 => is_finite x = true /\ Rabs (B2R x) <= 2) [nzero; none_; ntwo; nhalf].
Proof.
  destruct fin_zero as [Z1 Z2], fin_one as [O1 O2], fin_two as [T1 T2], fin_half as [H1 H2].
  repeat (apply Forall_cons; [split; [assumption|rewrite ?Z2, ?O2, ?T2, ?H2; apply Rabs_le; lra]|]). apply Forall_nil.
Qed.
Example C84_hypotheses : let j := ex84_job in
  (sj_vertex_count j * sj_influences j < 18446744073709551616)%N /\ (sj_influences j <= 4096)%N /\
  (forall ms m, sj_matrices j = Some ms \/ sj_it_matrices j = Some ms -> In m ms -> small_mat 2 m) /\
  (forall ws, sj_weights j = Some ws -> small_weights 2 3 ws) /\
  (forall l p, sj_positions j = Some l \/ sj_normals j = Some l \/ sj_tangents j = Some l -> In p l -> small_vec 2 p) /\
  exists o', skin_run true j = SOk o'.
Proof.
  pose proof ex84_vals as V. rewrite Forall_forall in V.
  assert (M : forall a b, In a [nzero; none_; ntwo; nhalf] -> In b [nzero; none_; ntwo; nhalf] -> small_mat 2 (ex84_mat a b)).
  { intros a b Ha Hb r c Hr Hc. apply V.
    destruct r as [|[|[|r]]]; [..|lia]; (destruct c as [|[|[|[|c]]]]; [..|lia]); cbn [ent lane ex84_mat l0 l1 l2 l3]; try assumption; cbn [In]; auto 6. }
  cbv zeta. split; [reflexivity|]. split; [vm_compute; discriminate|]. split; [|split; [|split]].
  - intros ms m [E|E] I; inversion E; subst ms; cbn [In] in I; repeat (destruct I as [<-|I]; [apply M; cbn [In]; auto 6|]); contradiction.
  - intros ws E. inversion E; subst ws. destruct fin_one as [O1 O2], fin_half as [H1 H2].
    intros i Hi. split.
    + intros k Hk. destruct i as [|[|i]]; [..|lia]; (destruct k as [|[|k]]; [..|lia]); assumption.
    + destruct i as [|[|i]]; [..|lia].
      * change (0 + Rabs (B2R (nhalf : f32)) + Rabs (B2R (nhalf : f32)) <= 2). rewrite H2, Rabs_pos_eq by lra. lra.
      * change (0 + Rabs (B2R (none_ : f32)) + Rabs (B2R (nhalf : f32)) <= 2). rewrite O2, H2, !Rabs_pos_eq by lra. lra.
  - intros l p [E|[E|E]] I; inversion E; subst l; cbn [In] in I;
      repeat (destruct I as [<-|I]; [intros r Hr; apply V; destruct r as [|[|[|r]]]; [..|lia]; cbn [coord32 vx vy vz In]; auto 6|]); contradiction.
  - eexists. reflexivity.
Qed.
