(** Skinning: dispatch, loops and the linear blend formula. *)
From Coq Require Import Reals Lra Psatz.
From Verif Require Import Base Num NumR Math MathSpec MathProofs Blending BlendingProofs Skinning SkinningSpec.
Local Open Scope R_scope.

Lemma for_range_inv {S} (body : nat -> S -> res S) (Inv : nat -> S -> Prop) n : forall k s s',
  (forall i s s', (k <= i < k + n)%nat -> body i s = Ok s' -> Inv i s -> Inv (Datatypes.S i) s') ->
  for_range n k body s = Ok s' -> Inv k s -> Inv (k + n)%nat s'.
Proof.
  induction n as [|n IH]; intros k s s' H E I; cbn [for_range] in E.
  - inversion E; subst. rewrite Nat.add_0_r. exact I.
  - destruct (body k s) as [s1| |] eqn:B; cbn [bind] in E; try discriminate.
    replace (k + Datatypes.S n)%nat with (Datatypes.S k + n)%nat by lia.
    apply (IH (Datatypes.S k) s1 s'); auto.
    + intros i a b Hi. apply H. lia.
    + apply (H k s s1); auto. lia.
Qed.

Section Dispatch.
  Context {F : Type} {NF : Num F}.
  Variable checks : bool.

  (** What the 25 instances amount to. *)
  Definition variant (j : sjob F) : pnt :=
    if is_some (sj_normals j) then (if is_some (sj_tangents j) then PNT else PN) else P.
  Definition uses_it (j : sjob F) : bool := is_some (sj_normals j) && is_some (sj_it_matrices j).
  Lemma run_dispatch j : skin_run checks j =
    if (sj_influences j =? 0)%N then SErr InvalidJob (sj_outs j)
    else if (sj_influences j =? 1)%N then skinning_1 (uses_it j) (variant j) j
    else skinning_impl checks (sj_influences j) (uses_it j) (variant j) j.
  Proof.
    unfold skin_run. destruct (N.eqb_spec (sj_influences j) 0) as [Z|Z]; [reflexivity|].
    unfold skin_branch, uses_it, variant.
    destruct (N.eqb_spec (sj_influences j) 1) as [E1|E1].
    { rewrite E1. destruct (sj_normals j), (sj_tangents j), (sj_it_matrices j); reflexivity. }
    destruct (N.eq_dec (sj_influences j) 2) as [E2|E2].
    { rewrite E2. destruct (sj_normals j), (sj_tangents j), (sj_it_matrices j); reflexivity. }
    destruct (N.eq_dec (sj_influences j) 3) as [E3|E3].
    { rewrite E3. destruct (sj_normals j), (sj_tangents j), (sj_it_matrices j); reflexivity. }
    destruct (N.eq_dec (sj_influences j) 4) as [E4|E4].
    { rewrite E4. destruct (sj_normals j), (sj_tangents j), (sj_it_matrices j); reflexivity. }
    replace (N.min (sj_influences j - 1) 4) with 4%N by lia.
    destruct (sj_normals j), (sj_tangents j), (sj_it_matrices j); reflexivity.
  Qed.

  (** One output buffer over the vertex loop. *)
  Definition upto (lo hi : nat) (inp : list (vec3 F)) (f : nat -> vec3 F -> vec3 F -> Prop) (o o' : option (list (vec3 F))) : Prop :=
    exists l l', o = Some l /\ o' = Some l' /\ length l' = length l /\
      (forall i, ~ (lo <= i < hi)%nat -> nth_error l' i = nth_error l i) /\
      (forall i, (lo <= i < hi)%nat -> exists p q, nth_error inp i = Some p /\ nth_error l' i = Some q /\ f i p q).

  Lemma write_inv (out : option (list (vec3 F))) i inp f o : write out i inp f = Ok o ->
    exists l p, out = Some l /\ nth_error inp i = Some p /\ (i < length l)%nat /\ o = Some (upd l i (f p)).
  Proof.
    unfold write. destruct out as [l|]; [|discriminate]. intros H.
    apply bind_Ok in H. destruct H as (p & G & H). apply bind_Ok in H. destruct H as (l' & S & H).
    apply set_Ok in S. destruct S as [S1 S2]. apply get_Ok in G. inversion H; subst. eauto 8.
  Qed.
  Lemma nth_error_upd {A} (l : list A) : forall i k x, nth_error (upd l i x) k =
    if (i =? k)%nat && (k <? length l)%nat then Some x else nth_error l k.
  Proof.
    induction l as [|h t IH]; intros [|i] [|k] x; cbn; auto.
    - rewrite andb_false_r. reflexivity.
    - rewrite IH. reflexivity.
  Qed.
  Lemma upto_step i hi (inp : list (vec3 F)) f o l p :
    (exists l0, o = Some l0 /\ nth_error inp i = Some p /\ (i < length l0)%nat /\ l = upd l0 i (f p)) ->
    forall (P : nat -> vec3 F -> vec3 F -> Prop) o', (forall q, q = f p -> P i p q) -> (S i <= hi)%nat -> upto (S i) hi inp P (Some l) o' -> upto i hi inp P o o'.
  Proof.
    intros (l0 & -> & Hp & Hi & ->) P o' HP Hhi (l1 & l' & E1 & E2 & L & U & V). inversion E1; subst l1.
    exists l0, l'. split; [reflexivity|]. split; [exact E2|]. split; [rewrite L; apply upd_length|]. split.
    - intros k Hk. rewrite U by lia. rewrite nth_error_upd. destruct (Nat.eqb_spec i k); [lia|]. reflexivity.
    - intros k Hk. destruct (Nat.eq_dec k i) as [->|Hne].
      + exists p, (f p). split; [exact Hp|]. split; [|apply HP; reflexivity].
        rewrite U by lia. rewrite nth_error_upd, Nat.eqb_refl. cbn [andb].
        destruct (Nat.ltb_spec i (length l0)); [reflexivity|lia].
      + apply V. lia.
  Qed.

  Lemma vertices_ok count : forall i vertex k pos nrm tan (o o' : souts F),
    vertices count i vertex k pos nrm tan o = SOk o' ->
    (so_positions o <> None -> upto i (i + count) pos (fun i p q => exists mm, vertex i = Ok mm /\ q = transform_point3 (fst mm) p)
      (so_positions o) (so_positions o')) /\
    (match k with P => so_normals o' = so_normals o
     | _ => so_normals o <> None -> upto i (i + count) nrm (fun i p q => exists mm, vertex i = Ok mm /\ q = transform_vector3 (snd mm) p)
              (so_normals o) (so_normals o') end) /\
    (match k with PNT => so_tangents o <> None -> upto i (i + count) tan (fun i p q => exists mm, vertex i = Ok mm /\ q = transform_vector3 (snd mm) p)
              (so_tangents o) (so_tangents o')
     | _ => so_tangents o' = so_tangents o end) /\
    (forall idx, (i <= idx < i + count)%nat -> exists mm, vertex idx = Ok mm).
  Proof.
    assert (R : forall lo inp (P : nat -> vec3 F -> vec3 F -> Prop) o, o <> None -> upto lo (lo + 0) inp P o o).
    { intros lo inp P o H. destruct o as [l|]; [|contradiction]. exists l, l. repeat split; auto. intros; lia. }
    induction count as [|count IH]; intros i vertex k pos nrm tan o o' H; cbn [vertices] in H.
    - inversion H; subst o'. split; [apply R|]. split; [destruct k; auto|]. split; [destruct k; auto|]. intros; lia.
    - destruct (vertex i) as [mm| |] eqn:Ev; try discriminate.
      destruct (write_vertex k i pos nrm tan mm o) as [o1| |] eqn:W; try discriminate.
      apply IH in H. destruct H as (A & B & C & D).
      unfold write_vertex in W. apply bind_Ok in W. destruct W as (p1 & W1 & W).
      apply bind_Ok in W. destruct W as (n1 & W2 & W). apply bind_Ok in W. destruct W as (t1 & W3 & W).
      inversion W; subst o1; clear W. cbn [so_positions so_normals so_tangents] in *.
      replace (i + S count)%nat with (S i + count)%nat by lia.
      apply write_inv in W1. destruct W1 as (l & p & E1 & E2 & E3 & ->).
      split; [|split; [|split]].
      + intros _. eapply (upto_step i (S i + count) pos (transform_point3 (fst mm)) _ _ p); [|intros q ->; exists mm; split; [exact Ev|reflexivity]|lia|apply A; discriminate]. eauto 8.
      + destruct k.
        * inversion W2; congruence.
        * apply write_inv in W2. destruct W2 as (l2 & p2 & F1 & F2 & F3 & ->). intros _.
          eapply (upto_step i (S i + count) nrm (transform_vector3 (snd mm)) _ _ p2); [|intros q ->; exists mm; split; [exact Ev|reflexivity]|lia|apply B; discriminate]. eauto 8.
        * apply write_inv in W2. destruct W2 as (l2 & p2 & F1 & F2 & F3 & ->). intros _.
          eapply (upto_step i (S i + count) nrm (transform_vector3 (snd mm)) _ _ p2); [|intros q ->; exists mm; split; [exact Ev|reflexivity]|lia|apply B; discriminate]. eauto 8.
      + destruct k.
        * inversion W3; congruence.
        * inversion W3; congruence.
        * apply write_inv in W3. destruct W3 as (l2 & p2 & F1 & F2 & F3 & ->). intros _.
          eapply (upto_step i (S i + count) tan (transform_vector3 (snd mm)) _ _ p2); [|intros q ->; exists mm; split; [exact Ev|reflexivity]|lia|apply C; discriminate]. eauto 8.
      + intros idx Hi. destruct (Nat.eq_dec idx i) as [->|]; [eauto|]. apply D. lia.
  Qed.

  Lemma unpack_Ok {A} (b : option (list A)) n l : unpack b n = Ok l -> b = Some l /\ (n <= N.of_nat (length l))%N.
  Proof.
    unfold unpack. destruct b as [x|]; [|discriminate]. destruct (N.ltb_spec (N.of_nat (length x)) n); [discriminate|].
    intros H0. inversion H0; subst. auto.
  Qed.
  Lemma ok_or_Ok {A} (b : option A) e x : ok_or b e = Ok x -> b = Some x.
  Proof. destruct b; cbn; intros H; inversion H; reflexivity. Qed.
  Lemma umul_small a b : (a * b < 18446744073709551616)%N -> umul checks a b = Ok (a * b)%N.
  Proof. intros H. unfold umul. destruct (N.ltb_spec (a * b) 18446744073709551616); [reflexivity|lia]. Qed.

  (** What a successful [unpack_pnt] gives. *)
  Lemma unpack_pnt_Ok k (j : sjob F) p n t : unpack_pnt k j = Ok (p, n, t) ->
    let vc := sj_vertex_count j in
    (sj_positions j = Some p /\ exists l, so_positions (sj_outs j) = Some l /\ (vc <= N.of_nat (length l))%N /\ (vc <= N.of_nat (length p))%N) /\
    (k <> P -> sj_normals j = Some n /\ exists l, so_normals (sj_outs j) = Some l /\ (vc <= N.of_nat (length l))%N /\ (vc <= N.of_nat (length n))%N) /\
    (k = PNT -> sj_tangents j = Some t /\ exists l, so_tangents (sj_outs j) = Some l /\ (vc <= N.of_nat (length l))%N /\ (vc <= N.of_nat (length t))%N).
  Proof.
    unfold unpack_pnt. intros H.
    apply bind_Ok in H. destruct H as (p' & H1 & H). apply bind_Ok in H. destruct H as (n' & H2 & H).
    apply bind_Ok in H. destruct H as (t' & H3 & H). apply bind_Ok in H. destruct H as (lp & H4 & H).
    apply bind_Ok in H. destruct H as (ln & H5 & H). apply bind_Ok in H. destruct H as (lt & H6 & H).
    inversion H; subst p' n' t'. apply unpack_Ok in H1. apply unpack_Ok in H4. cbv zeta.
    split; [|split].
    - destruct H1, H4. split; eauto.
    - intros K. destruct k; [contradiction| |]; apply unpack_Ok in H2; apply unpack_Ok in H5; destruct H2, H5; split; eauto.
    - intros ->. apply unpack_Ok in H3; apply unpack_Ok in H6; destruct H3, H6; split; eauto.
  Qed.
End Dispatch.

(** ** Real arithmetic *)
Lemma rsum_ext n f g : (forall k, (k < n)%nat -> f k = g k) -> rsum n f = rsum n g.
Proof. induction n as [|n IH]; intros H; cbn; [reflexivity|]. rewrite IH by (intros; apply H; lia). rewrite H by lia. reflexivity. Qed.
Lemma rsum_scale n f c : rsum n (fun k => f k * c) = rsum n f * c.
Proof. induction n as [|n IH]; cbn; [ring|]. rewrite IH. ring. Qed.
Lemma rsum_plus n f g : rsum n (fun k => f k + g k) = rsum n f + rsum n g.
Proof. induction n as [|n IH]; cbn; [ring|]. rewrite IH. ring. Qed.

Lemma point3_R (m : mat4 R) p r : (r < 3)%nat -> coord (transform_point3 m p) r = apply_point m p r.
Proof.
  intros Hr. destruct m as [[? ? ? ?] [? ? ? ?] [? ? ? ?] [? ? ? ?]], p.
  destruct r as [|[|[|r]]]; [..|lia]; unfold transform_point3, apply_point, coord, ent; nr; ring.
Qed.
Lemma vector3_R (m : mat4 R) p r : (r < 3)%nat -> coord (transform_vector3 m p) r = apply_vector m p r.
Proof.
  intros Hr. destruct m as [[? ? ? ?] [? ? ? ?] [? ? ? ?] [? ? ? ?]], p.
  destruct r as [|[|[|r]]]; [..|lia]; unfold transform_vector3, apply_vector, coord, ent; nr; ring.
Qed.
Lemma col_mul_R (m : mat4 R) w r c : (r < 4)%nat -> (c < 4)%nat -> ent (mat4_col_mul m (splat w)) r c = w * ent m r c.
Proof.
  intros Hr Hc. destruct m as [[? ? ? ?] [? ? ? ?] [? ? ? ?] [? ? ? ?]].
  destruct r as [|[|[|[|r]]]]; [..|lia]; (destruct c as [|[|[|[|c]]]]; [..|lia]); unfold mat4_col_mul, ent; nr; ring.
Qed.
Lemma mat_add_R (a b : mat4 R) r c : (r < 4)%nat -> (c < 4)%nat -> ent (mat_add a b) r c = ent a r c + ent b r c.
Proof.
  intros Hr Hc. destruct a as [[? ? ? ?] [? ? ? ?] [? ? ? ?] [? ? ? ?]], b as [[? ? ? ?] [? ? ? ?] [? ? ? ?] [? ? ? ?]].
  destruct r as [|[|[|[|r]]]]; [..|lia]; (destruct c as [|[|[|[|c]]]]; [..|lia]); reflexivity.
Qed.

(** [m] is the weighted sum of matrices. *)
Definition is_sum (k : nat) (m : mat4 R) (w : nat -> R) (ms : nat -> mat4 R) : Prop :=
  forall r c, (r < 4)%nat -> (c < 4)%nat -> ent m r c = rsum k (fun j => w j * ent (ms j) r c).
Lemma sum_point k m w ms p r : is_sum k m w ms -> (r < 4)%nat -> apply_point m p r = rsum k (fun j => w j * apply_point (ms j) p r).
Proof.
  intros H Hr. unfold apply_point. rewrite !H by lia.
  rewrite <- !rsum_scale, <- !rsum_plus. apply rsum_ext. intros; ring.
Qed.
Lemma sum_vector k m w ms p r : is_sum k m w ms -> (r < 4)%nat -> apply_vector m p r = rsum k (fun j => w j * apply_vector (ms j) p r).
Proof.
  intros H Hr. unfold apply_vector. rewrite !H by lia.
  rewrite <- !rsum_scale, <- !rsum_plus. apply rsum_ext. intros; ring.
Qed.

Definition its_or (ms : list (mat4 R)) (its : option (list (mat4 R))) : list (mat4 R) :=
  match its with Some l => l | None => ms end.

Lemma get_n_nth {A} (l : list A) i x d : get_n l i = Ok x -> x = nth (N.to_nat i) l d /\ (N.to_nat i < length l)%nat.
Proof.
  unfold get_n. intros H. apply get_Ok in H. split; [|apply nth_error_Some; congruence].
  symmetry. apply nth_error_nth. exact H.
Qed.
Lemma get_mat_nth (ms : list (mat4 R)) i m : get_mat ms i = Ok m -> m = matrix ms (N.to_nat i) /\ (N.to_nat i < length ms)%nat.
Proof.
  unfold get_mat, matrix. intros H. apply ok_or_Ok in H. split; [|apply nth_error_Some; congruence].
  symmetry. apply nth_error_nth. exact H.
Qed.
Lemma lookup2_R ms its idx w mm : lookup2 ms its idx w = Ok mm ->
  fst mm = mat4_col_mul (matrix ms (N.to_nat idx)) w /\ snd mm = mat4_col_mul (matrix (its_or ms its) (N.to_nat idx)) w /\
  (N.to_nat idx < length ms)%nat /\ (N.to_nat idx < length (its_or ms its))%nat.
Proof.
  unfold lookup2. intros H. apply bind_Ok in H. destruct H as (m & H1 & H). apply bind_Ok in H. destruct H as (mi & H2 & H).
  inversion H; subst mm. cbn [fst snd]. apply get_mat_nth in H1. destruct H1 as [-> L1].
  destruct its as [its|]; cbn [its_or].
  - apply get_mat_nth in H2. destruct H2 as [-> L2]. auto.
  - inversion H2; subst. auto.
Qed.

Lemma vertex_n_R checks n ms its indices ws i mm :
  (2 <= n)%N -> (N.of_nat i * n < 18446744073709551616)%N ->
  vertex_n checks n ms its indices ws i = Ok mm ->
  let k := N.to_nat n in
  is_sum k (fst mm) (weight k ws i) (fun j => matrix ms (influence k indices i j)) /\
  is_sum k (snd mm) (weight k ws i) (fun j => matrix (its_or ms its) (influence k indices i j)) /\
  (forall j, (j < k)%nat -> (influence k indices i j < length ms)%nat /\ (influence k indices i j < length (its_or ms its))%nat).
Proof.
  intros Hn Hs H k. unfold vertex_n in H.
  rewrite !umul_small in H by nia. cbn [bind] in H.
  apply bind_Ok in H. destruct H as (w0 & W0 & H). apply bind_Ok in H. destruct H as (i0 & I0 & H).
  apply bind_Ok in H. destruct H as (m0 & M0 & H). apply bind_Ok in H. destruct H as ((sum & ml) & FR & H).
  apply bind_Ok in H. destruct H as (i1 & I1 & H). apply bind_Ok in H. destruct H as (m1 & M1 & H).
  inversion H; subst mm; clear H. cbn [fst snd].
  set (wt := fun j => nth (i * (k - 1) + j) ws 0).
  assert (OW : forall jj, N.to_nat (N.of_nat i * (n - 1) + N.of_nat jj) = (i * (k - 1) + jj)%nat).
  { intros jj. rewrite N2Nat.inj_add, N2Nat.inj_mul, N2Nat.inj_sub, !Nat2N.id. reflexivity. }
  assert (OI : forall jj, N.to_nat (N.of_nat i * n + N.of_nat jj) = (i * k + jj)%nat).
  { intros jj. rewrite N2Nat.inj_add, N2Nat.inj_mul, !Nat2N.id. reflexivity. }
  set (Inv := fun (jj : nat) (s : V4 R * (mat4 R * mat4 R)) =>
     fst s = splat (rsum jj wt) /\
     is_sum jj (fst (snd s)) wt (fun j => matrix ms (influence k indices i j)) /\
     is_sum jj (snd (snd s)) wt (fun j => matrix (its_or ms its) (influence k indices i j)) /\
     forall j, (j < jj)%nat -> (influence k indices i j < length ms)%nat /\ (influence k indices i j < length (its_or ms its))%nat).
  assert (IN : Inv (k - 1)%nat (sum, ml)).
  { replace (k - 1)%nat with (1 + N.to_nat (N.max (n - 1) 1 - 1))%nat by lia.
    eapply (for_range_inv _ Inv); [|exact FR|].
    - intros jj s s' Hj B (S1 & S2 & S3 & S4).
      apply bind_Ok in B. destruct B as (w & B1 & B). apply bind_Ok in B. destruct B as (ix & B2 & B).
      apply bind_Ok in B. destruct B as (mm & B3 & B). inversion B; subst s'; clear B. cbn [fst snd].
      apply (get_n_nth _ _ _ 0) in B1. destruct B1 as [B1 _]. rewrite OW in B1. fold (wt jj) in B1.
      apply (get_n_nth _ _ _ 0%N) in B2. destruct B2 as [B2 _]. rewrite OI in B2.
      apply lookup2_R in B3. destruct B3 as (C1 & C2 & C3 & C4).
      rewrite B2 in C1, C2, C3, C4. fold (influence k indices i jj) in C1, C2, C3, C4.
      split; [|split; [|split]].
      + cbn [fst snd]. rewrite S1, B1. reflexivity.
      + intros r c Hr Hc. cbn [fst snd]. rewrite mat_add_R, (S2 r c), C1, col_mul_R by assumption. cbn [rsum]. rewrite B1. reflexivity.
      + intros r c Hr Hc. cbn [fst snd]. rewrite mat_add_R, (S3 r c), C2, col_mul_R by assumption. cbn [rsum]. rewrite B1. reflexivity.
      + intros j Hjj. destruct (Nat.eq_dec j jj) as [->|]; [auto|apply S4; lia].
    - apply (get_n_nth _ _ _ 0) in W0. destruct W0 as [W0 _].
      replace (N.of_nat i * (n - 1))%N with (N.of_nat i * (n - 1) + N.of_nat 0)%N in W0 by lia. rewrite OW in W0. fold (wt 0%nat) in W0.
      apply (get_n_nth _ _ _ 0%N) in I0. destruct I0 as [I0 _].
      replace (N.of_nat i * n)%N with (N.of_nat i * n + N.of_nat 0)%N in I0 by lia. rewrite OI in I0.
      apply lookup2_R in M0. destruct M0 as (C1 & C2 & C3 & C4). rewrite I0 in C1, C2, C3, C4.
      fold (influence k indices i 0) in C1, C2, C3, C4.
      split; [|split; [|split]]; cbn [fst snd].
      + rewrite W0. cbn [rsum]. rewrite Rplus_0_l. reflexivity.
      + intros r c Hr Hc. rewrite C1, col_mul_R by assumption. cbn [rsum]. rewrite W0. ring.
      + intros r c Hr Hc. rewrite C2, col_mul_R by assumption. cbn [rsum]. rewrite W0. ring.
      + intros j Hj. replace j with 0%nat by lia. auto. }
  destruct IN as (S1 & S2 & S3 & S4). cbn [fst snd] in *.
  apply (get_n_nth _ _ _ 0%N) in I1. destruct I1 as [I1 _].
  replace (N.of_nat i * n + n - 1)%N with (N.of_nat i * n + N.of_nat (k - 1))%N in I1 by lia. rewrite OI in I1.
  apply lookup2_R in M1. destruct M1 as (C1 & C2 & C3 & C4). rewrite I1 in C1, C2, C3, C4.
  fold (influence k indices i (k - 1)) in C1, C2, C3, C4.
  assert (EW : nsub (splat none_) sum = splat (weight k ws i (k - 1))).
  { rewrite S1. unfold weight. rewrite Nat.eqb_refl. fold wt. rewrite <- none_R. reflexivity. }
  assert (LW : forall j, (j < k - 1)%nat -> weight k ws i j = wt j).
  { intros j Hj. unfold weight. destruct (Nat.eqb_spec j (k - 1)); [lia|reflexivity]. }
  assert (KK : k = S (k - 1)) by lia.
  split; [|split].
  - intros r c Hr Hc. rewrite mat_add_R, (S2 r c), C1 by assumption. change (@num_arith R Rnum) with Rarith. rewrite EW, col_mul_R by assumption.
    rewrite KK at 6. cbn [rsum]. f_equal. apply rsum_ext. intros j Hj. rewrite LW by exact Hj. reflexivity.
  - intros r c Hr Hc. rewrite mat_add_R, (S3 r c), C2 by assumption. change (@num_arith R Rnum) with Rarith. rewrite EW, col_mul_R by assumption.
    rewrite KK at 6. cbn [rsum]. f_equal. apply rsum_ext. intros j Hj. rewrite LW by exact Hj. reflexivity.
  - intros j Hj. destruct (Nat.eq_dec j (k - 1)) as [->|]; [auto|apply S4; lia].
Qed.

Lemma vertex_1_R ms its indices ws i mm : vertex_1 ms its indices i = Ok mm ->
  is_sum 1 (fst mm) (weight 1 ws i) (fun j => matrix ms (influence 1 indices i j)) /\
  is_sum 1 (snd mm) (weight 1 ws i) (fun j => matrix (its_or ms its) (influence 1 indices i j)) /\
  (forall j, (j < 1)%nat -> (influence 1 indices i j < length ms)%nat /\ (influence 1 indices i j < length (its_or ms its))%nat).
Proof.
  unfold vertex_1. intros H. apply bind_Ok in H. destruct H as (ix & H1 & H). apply bind_Ok in H. destruct H as (m & H2 & H).
  apply bind_Ok in H. destruct H as (mi & H3 & H). inversion H; subst mm. cbn [fst snd].
  assert (E : influence 1 indices i 0 = N.to_nat ix).
  { unfold influence. rewrite Nat.mul_1_r, Nat.add_0_r. f_equal. apply nth_error_nth. apply get_Ok, H1. }
  assert (W : weight 1 ws i 0 = 1) by (unfold weight; cbn; ring).
  apply get_mat_nth in H2. destruct H2 as [-> L2].
  assert (Q : mi = matrix (its_or ms its) (N.to_nat ix) /\ (N.to_nat ix < length (its_or ms its))%nat).
  { destruct its as [its|]; cbn [its_or]; [apply get_mat_nth, H3|]. inversion H3; subst. auto. }
  destruct Q as [-> L3].
  split; [|split].
  - intros r c Hr Hc. cbn [rsum]. rewrite W, E. ring.
  - intros r c Hr Hc. cbn [rsum]. rewrite W, E. ring.
  - intros j Hj. replace j with 0%nat by lia. rewrite E. auto.
Qed.

(** ** Acceptance *)
Section Accept.
  Context {F : Type} {NF : Num F}.
  Variable checks : bool.

  Definition olist {A} (b : option (list A)) : list A := match b with Some l => l | None => [] end.
  Lemma unpack_sized {A} (b : option (list A)) n : unpack b n = if sized b n then Ok (olist b) else Err InvalidJob.
  Proof.
    destruct b as [l|]; [|reflexivity]. cbn. destruct (N.ltb_spec (N.of_nat (length l)) n), (N.leb_spec n (N.of_nat (length l))); try lia; reflexivity.
  Qed.

  (** The sizes both functions require. *)
  Definition ready (j : sjob F) : bool :=
    let vc := sj_vertex_count j in let inf := sj_influences j in
    sized (sj_indices j) (vc * inf) && (if (1 <? inf)%N then sized (sj_weights j) (vc * (inf - 1)) else true) &&
    sized (sj_positions j) vc && sized (so_positions (sj_outs j)) vc &&
    match sj_normals j with
    | Some _ => sized (sj_normals j) vc && sized (so_normals (sj_outs j)) vc &&
        match sj_tangents j with Some _ => sized (sj_tangents j) vc && sized (so_tangents (sj_outs j)) vc | None => true end
    | None => true
    end.
  Definition used_its (j : sjob F) : option (list (mat4 F)) := if uses_it j then sj_it_matrices j else None.
  Definition vertex (j : sjob F) (ms : list (mat4 F)) : nat -> res (mat4 F * mat4 F) :=
    if (sj_influences j =? 1)%N then vertex_1 ms (used_its j) (olist (sj_indices j))
    else vertex_n checks (sj_influences j) ms (used_its j) (olist (sj_indices j)) (olist (sj_weights j)).

  Lemma unpack_pnt_ready (j : sjob F) :
    unpack_pnt (variant j) j =
    let vc := sj_vertex_count j in
    if sized (sj_positions j) vc && sized (so_positions (sj_outs j)) vc &&
       match sj_normals j with
       | Some _ => sized (sj_normals j) vc && sized (so_normals (sj_outs j)) vc &&
           match sj_tangents j with Some _ => sized (sj_tangents j) vc && sized (so_tangents (sj_outs j)) vc | None => true end
       | None => true
       end
    then Ok (olist (sj_positions j), olist (sj_normals j), match variant j with PNT => olist (sj_tangents j) | _ => [] end)
    else Err InvalidJob.
  Proof.
    unfold unpack_pnt, variant. cbv zeta. rewrite !unpack_sized.
    destruct (sj_normals j) as [nl|]; cbn [is_some]; [destruct (sj_tangents j) as [tl|]; cbn [is_some]|].
    - rewrite ?unpack_sized.
      destruct (sized (sj_positions j) _); cbn [bind andb]; [|reflexivity].
      destruct (sized (Some nl) _); cbn [bind andb]; [|rewrite andb_false_r; reflexivity].
      destruct (sized (Some tl) _); cbn [bind andb]; [|rewrite !andb_false_r; reflexivity].
      destruct (sized (so_positions _) _); cbn [bind andb]; [|reflexivity].
      destruct (sized (so_normals _) _); cbn [bind andb]; [|reflexivity].
      destruct (sized (so_tangents _) _); cbn [bind andb]; reflexivity.
    - rewrite ?unpack_sized.
      destruct (sized (sj_positions j) _); cbn [bind andb]; [|reflexivity].
      destruct (sized (Some nl) _); cbn [bind andb]; [|rewrite andb_false_r; reflexivity].
      destruct (sized (so_positions _) _); cbn [bind andb]; [|reflexivity].
      destruct (sized (so_normals _) _); cbn [bind andb]; reflexivity.
    - destruct (sized (sj_positions j) _); cbn [bind andb]; [|reflexivity].
      destruct (sized (so_positions _) _); cbn [bind andb]; reflexivity.
  Qed.

  Lemma used_its_ok (j : sjob F) {B} (k : option (list (mat4 F)) -> res B) :
    (let* its := (if uses_it j then let* x := ok_or (sj_it_matrices j) InvalidJob in Ok (Some x) else Ok None) in k its) = k (used_its j).
  Proof.
    unfold used_its, uses_it. destruct (sj_normals j), (sj_it_matrices j); reflexivity.
  Qed.

  Lemma run_matrices (j : sjob F) ms : sj_matrices j = Some ms ->
    (sj_vertex_count j * sj_influences j < 18446744073709551616)%N -> (sj_influences j <> 0)%N ->
    skin_run checks j =
      if ready j then vertices (N.to_nat (sj_vertex_count j)) 0 (vertex j ms) (variant j) (olist (sj_positions j)) (olist (sj_normals j))
                        (match variant j with PNT => olist (sj_tangents j) | _ => [] end) (sj_outs j)
      else SErr InvalidJob (sj_outs j).
  Proof.
    intros Hm Hs Hz. rewrite run_dispatch. destruct (N.eqb_spec (sj_influences j) 0); [contradiction|].
    unfold vertex, ready. cbv zeta.
    destruct (N.eqb_spec (sj_influences j) 1) as [E|E].
    - unfold skinning_1. rewrite Hm. cbn [ok_or bind]. rewrite used_its_ok. rewrite E. rewrite N.mul_1_r. cbn [N.ltb N.compare Pos.compare Pos.compare_cont].
      rewrite andb_true_r. rewrite unpack_sized, unpack_pnt_ready. cbv zeta.
      destruct (sized (sj_indices j) _); cbn [bind andb finish]; [|reflexivity].
      match goal with |- context [if ?b then Ok ?x else _] => destruct b end; cbn [bind finish]; reflexivity.
    - unfold skinning_impl. rewrite Hm. cbn [bind]. rewrite used_its_ok. rewrite !umul_small by nia. cbn [bind].
      assert (L : (1 <? sj_influences j)%N = true) by (apply N.ltb_lt; lia). rewrite L.
      rewrite !unpack_sized, unpack_pnt_ready. cbv zeta.
      destruct (sized (sj_indices j) _); cbn [bind andb finish]; [|reflexivity].
      destruct (sized (sj_weights j) _); cbn [bind andb finish]; [|reflexivity].
      match goal with |- context [if ?b then Ok ?x else _] => destruct b end; cbn [bind finish]; reflexivity.
  Qed.

  Lemma sized_Some {A} (b : option (list A)) n : sized b n = true -> exists l, b = Some l /\ (n <= N.of_nat (length l))%N.
  Proof. destruct b as [l|]; [|discriminate]. cbn. intros H. exists l. split; [reflexivity|apply N.leb_le, H]. Qed.

  Lemma validate_ready (j : sjob F) : (sj_vertex_count j * sj_influences j < 18446744073709551616)%N ->
    skin_validate checks j = Ok (match sj_matrices j with
      | None => false
      | Some ms => (0 <? sj_influences j)%N && negb (length ms =? 0)%nat && ready j &&
                   negb (negb (is_some (sj_normals j)) && is_some (sj_tangents j))
      end).
  Proof.
    intros Hs. unfold skin_validate, ready. cbv zeta. destruct (sj_matrices j) as [ms|]; [|reflexivity].
    destruct (sj_indices j) as [ix|]; [|cbn [sized]; rewrite !andb_false_l, andb_false_r; reflexivity].
    rewrite umul_small by exact Hs. cbn [bind].
    assert (W : (if (1 <? sj_influences j)%N then match sj_weights j with None => Ok false | Some _ =>
                let* sw := umul checks (sj_vertex_count j) (sj_influences j - 1) in Ok (sized (sj_weights j) sw) end else Ok true)
              = Ok (if (1 <? sj_influences j)%N then sized (sj_weights j) (sj_vertex_count j * (sj_influences j - 1)) else true)).
    { destruct (1 <? sj_influences j)%N; [|reflexivity]. rewrite umul_small by nia. destruct (sj_weights j); reflexivity. }
    rewrite W. cbn [bind]. f_equal.
    destruct (0 <? sj_influences j)%N, (negb (length ms =? 0)%nat), (sized (Some ix) _), (if (1 <? sj_influences j)%N then _ else _),
      (sized (sj_positions j) _), (sized (so_positions _) _); cbn [andb]; try reflexivity.
    all: destruct (sj_normals j), (sj_tangents j); cbn [is_some negb andb]; rewrite ?andb_true_r, ?andb_false_r; reflexivity.
  Qed.

  Lemma get_in {A} (l : list A) i : (i < length l)%nat -> exists x, get l i = Ok x.
  Proof. intros H. unfold get. destruct (nth_error l i) eqn:E; [eauto|]. apply nth_error_None in E. lia. Qed.
  Lemma write_ok (out : option (list (vec3 F))) l i inp f : out = Some l -> (i < length l)%nat -> (i < length inp)%nat ->
    exists l', write out i inp f = Ok (Some l') /\ length l' = length l.
  Proof.
    intros -> H1 H2. unfold write. destruct (get_in inp i H2) as [x ->]. cbn [bind].
    unfold set. destruct (Nat.ltb_spec i (length l)); [|lia]. cbn [bind]. eexists. split; [reflexivity|]. apply upd_length.
  Qed.

  Definition holds (n : nat) (o : option (list (vec3 F))) : Prop := exists l, o = Some l /\ (n <= length l)%nat.
  Lemma vertices_total count : forall i vertex k (pos nrm tan : list (vec3 F)) o,
    (forall idx, (i <= idx < i + count)%nat -> vertex idx <> Panic /\ (forall e, vertex idx = Err e -> e = InvalidIndex)) ->
    holds (i + count) (so_positions o) -> (i + count <= length pos)%nat ->
    (k <> P -> holds (i + count) (so_normals o) /\ (i + count <= length nrm)%nat) ->
    (k = PNT -> holds (i + count) (so_tangents o) /\ (i + count <= length tan)%nat) ->
    (exists o', vertices count i vertex k pos nrm tan o = SOk o') \/
    (exists o', vertices count i vertex k pos nrm tan o = SErr InvalidIndex o' /\
       exists idx, (i <= idx < i + count)%nat /\ vertex idx = Err InvalidIndex).
  Proof.
    induction count as [|count IH]; intros i vertex k pos nrm tan o Hv Hp Hp' Hn Ht; cbn [vertices]; [left; eauto|].
    destruct (Hv i) as [Hv1 Hv2]; [lia|].
    destruct (vertex i) as [mm|e|] eqn:Ev; [|right|contradiction].
    2:{ rewrite (Hv2 e eq_refl) in *. exists o. split; [reflexivity|]. exists i. split; [lia|exact Ev]. }
    destruct Hp as (lp & Ep & Lp).
    destruct (write_ok (so_positions o) lp i pos (transform_point3 (fst mm)) Ep) as (lp' & W1 & L1); [lia|lia|].
    assert (N1 : exists on, match k with P => Ok (so_normals o) | _ => write (so_normals o) i nrm (transform_vector3 (snd mm)) end = Ok on /\
                 (k <> P -> holds (i + S count) on)).
    { destruct k; [eexists; split; [reflexivity|contradiction]|..];
      (destruct Hn as [(l & E & L) Hn']; [discriminate|];
       destruct (write_ok (so_normals o) l i nrm (transform_vector3 (snd mm)) E) as (l' & W & L'); [lia|lia|];
       exists (Some l'); split; [exact W|]; intros _; exists l'; split; [reflexivity|lia]). }
    destruct N1 as (on & N1 & N2).
    assert (T1 : exists ot, match k with PNT => write (so_tangents o) i tan (transform_vector3 (snd mm)) | _ => Ok (so_tangents o) end = Ok ot /\
                 (k = PNT -> holds (i + S count) ot)).
    { destruct k; [eexists; split; [reflexivity|discriminate]..|].
      destruct Ht as [(l & E & L) Ht']; [reflexivity|].
      destruct (write_ok (so_tangents o) l i tan (transform_vector3 (snd mm)) E) as (l' & W & L'); [lia|lia|].
      exists (Some l'); split; [exact W|]; intros _; exists l'; split; [reflexivity|lia]. }
    destruct T1 as (ot & T1 & T2).
    unfold write_vertex. rewrite W1. cbn [bind]. rewrite N1. cbn [bind]. rewrite T1. cbn [bind].
    replace (i + S count)%nat with (S i + count)%nat in * by lia.
    destruct (IH (S i) vertex k pos nrm tan (mk_souts (Some lp') on ot)) as [H|(o' & H & idx & Hi & He)].
    - intros idx Hi. apply Hv. lia.
    - exists lp'. split; [reflexivity|]. lia.
    - lia.
    - intros K. split; [apply N2, K|]. apply Hn, K.
    - intros K. split; [apply T2, K|]. apply Ht, K.
    - left. exact H.
    - right. exists o'. split; [exact H|]. exists idx. split; [lia|exact He].
  Qed.

  (** A vertex whose indices and weights are stored never panics, and fails only on a joint index
      that has no matrix. *)
  Definition fine {A} (r : res A) : Prop := r <> Panic /\ forall e, r = Err e -> e = InvalidIndex.
  Lemma fine_bind {A B} (r : res A) (k : A -> res B) : fine r -> (forall x, r = Ok x -> fine (k x)) -> fine (bind r k).
  Proof.
    intros [H1 H2] K. destruct r as [x|e|]; cbn [bind]; [apply K; reflexivity| |contradiction].
    split; [discriminate|]. intros e' E. inversion E; subst. apply H2. reflexivity.
  Qed.
  Lemma fine_Ok {A} (x : A) : fine (Ok x).
  Proof. split; [discriminate|]. intros e E; discriminate. Qed.
  Lemma fine_get_mat (ms : list (mat4 F)) i : fine (get_mat ms i).
  Proof. unfold get_mat, ok_or. destruct (nth_error ms (N.to_nat i)); [apply fine_Ok|]. split; [discriminate|]. intros e E. inversion E; reflexivity. Qed.
  Lemma fine_lookup2 ms its i (w : V4 F) : fine (lookup2 ms its i w).
  Proof.
    unfold lookup2. apply fine_bind; [apply fine_get_mat|]. intros m _. apply fine_bind; [|intros; apply fine_Ok].
    destruct its; [apply fine_get_mat|apply fine_Ok].
  Qed.
  Lemma fine_get {A} (l : list A) i : (i < length l)%nat -> fine (get l i).
  Proof. intros H. destruct (get_in l i H) as [x ->]. apply fine_Ok. Qed.
  Lemma fine_get_n {A} (l : list A) i : (i < N.of_nat (length l))%N -> fine (get_n l i).
  Proof. intros H. apply fine_get. lia. Qed.
  Lemma fine_for_range {S} (body : nat -> S -> res S) n : forall k s,
    (forall i s, (k <= i < k + n)%nat -> fine (body i s)) -> fine (for_range n k body s).
  Proof.
    induction n as [|n IH]; intros k s H; cbn [for_range]; [apply fine_Ok|].
    apply fine_bind; [apply H; lia|]. intros x _. apply IH. intros i s' Hi. apply H. lia.
  Qed.
  Lemma fine_vertex (j : sjob F) ms i : ready j = true -> (sj_influences j <> 0)%N ->
    (sj_vertex_count j * sj_influences j < 18446744073709551616)%N ->
    (N.of_nat i < sj_vertex_count j)%N -> fine (vertex j ms i).
  Proof.
    intros HR Hz Hs Hi. unfold ready in HR. cbv zeta in HR.
    apply andb_true_iff in HR. destruct HR as [HR _]. apply andb_true_iff in HR. destruct HR as [HR _].
    apply andb_true_iff in HR. destruct HR as [HR _]. apply andb_true_iff in HR. destruct HR as [HI HW].
    apply sized_Some in HI. destruct HI as (ix & EI & LI). unfold vertex. rewrite EI. cbn [olist].
    destruct (N.eqb_spec (sj_influences j) 1) as [E|E].
    - unfold vertex_1. apply fine_bind; [apply fine_get; nia|]. intros x _. apply fine_bind; [apply fine_get_mat|].
      intros m _. apply fine_bind; [|intros; apply fine_Ok]. destruct (used_its j); [apply fine_get_mat|apply fine_Ok].
    - assert (L : (1 <? sj_influences j)%N = true) by (apply N.ltb_lt; lia). rewrite L in HW.
      apply sized_Some in HW. destruct HW as (ws & EW & LW). rewrite EW. cbn [olist]. clear L.
      set (n := sj_influences j) in *. set (vc := sj_vertex_count j) in *.
      assert (B1 : (N.of_nat i * n + n <= vc * n)%N) by nia.
      assert (B2 : (N.of_nat i * (n - 1) + (n - 1) <= vc * (n - 1))%N) by nia.
      unfold vertex_n. rewrite !umul_small by lia. cbn [bind].
      apply fine_bind; [apply fine_get_n; lia|]. intros w _. apply fine_bind; [apply fine_get_n; lia|]. intros jx _.
      apply fine_bind; [apply fine_lookup2|]. intros mm _. apply fine_bind.
      + apply fine_for_range. intros k s Hk. apply fine_bind; [apply fine_get_n; lia|]. intros w1 _.
        apply fine_bind; [apply fine_get_n; lia|]. intros jx1 _. apply fine_bind; [apply fine_lookup2|]. intros; apply fine_Ok.
      + intros [sum mm1] _. apply fine_bind; [apply fine_get_n; lia|]. intros jx1 _. apply fine_bind; [apply fine_lookup2|]. intros; apply fine_Ok.
  Qed.

  (** With every used index inside the matrices, no error either. *)
  Definition good {A} (r : res A) : Prop := exists x, r = Ok x.
  Lemma good_bind {A B} (r : res A) (k : A -> res B) : good r -> (forall x, r = Ok x -> good (k x)) -> good (bind r k).
  Proof. intros [x ->] K. cbn [bind]. apply K. reflexivity. Qed.
  Lemma good_Ok {A} (x : A) : good (Ok x).
  Proof. eexists; reflexivity. Qed.
  Lemma good_get_mat (ms : list (mat4 F)) i : (N.to_nat i < length ms)%nat -> good (get_mat ms i).
  Proof. unfold get_mat, ok_or. intros H. destruct (nth_error ms (N.to_nat i)) eqn:E; [apply good_Ok|]. apply nth_error_None in E. lia. Qed.
  Definition in_range (ms : list (mat4 F)) (its : option (list (mat4 F))) (i : N) : Prop :=
    (N.to_nat i < length ms)%nat /\ forall l, its = Some l -> (N.to_nat i < length l)%nat.
  Lemma good_lookup2 ms its i (w : V4 F) : in_range ms its i -> good (lookup2 ms its i w).
  Proof.
    intros [H1 H2]. unfold lookup2. apply good_bind; [apply good_get_mat, H1|]. intros m _. apply good_bind; [|intros; apply good_Ok].
    destruct its; [apply good_get_mat, H2; reflexivity|apply good_Ok].
  Qed.
  Lemma good_get_n {A} (l : list A) i : (i < N.of_nat (length l))%N -> good (get_n l i).
  Proof. intros H. unfold get_n. destruct (get_in l (N.to_nat i)) as [x ->]; [lia|]. apply good_Ok. Qed.
  Lemma good_for_range {S} (body : nat -> S -> res S) n : forall k s,
    (forall i s, (k <= i < k + n)%nat -> good (body i s)) -> good (for_range n k body s).
  Proof.
    induction n as [|n IH]; intros k s H; cbn [for_range]; [apply good_Ok|].
    apply good_bind; [apply H; lia|]. intros x _. apply IH. intros i s' Hi. apply H. lia.
  Qed.
  Lemma good_vertex (j : sjob F) ms i : ready j = true -> (sj_influences j <> 0)%N ->
    (sj_vertex_count j * sj_influences j < 18446744073709551616)%N ->
    (N.of_nat i < sj_vertex_count j)%N ->
    (forall ix k jx, sj_indices j = Some ix -> (N.of_nat k < sj_vertex_count j * sj_influences j)%N -> nth_error ix k = Some jx -> in_range ms (used_its j) jx) ->
    good (vertex j ms i).
  Proof.
    intros HR Hz Hs Hi HJ. unfold ready in HR. cbv zeta in HR.
    apply andb_true_iff in HR. destruct HR as [HR _]. apply andb_true_iff in HR. destruct HR as [HR _].
    apply andb_true_iff in HR. destruct HR as [HR _]. apply andb_true_iff in HR. destruct HR as [HI HW].
    apply sized_Some in HI. destruct HI as (ix & EI & LI). unfold vertex. rewrite EI. cbn [olist].
    specialize (HJ ix).
    destruct (N.eqb_spec (sj_influences j) 1) as [E|E].
    - unfold vertex_1. apply good_bind; [apply get_in; nia|]. intros x Hx. apply get_Ok in Hx.
      destruct (HJ i x EI) as [I1 I2]; [nia|exact Hx|].
      apply good_bind; [apply good_get_mat, I1|].
      intros m _. apply good_bind; [|intros; apply good_Ok]. destruct (used_its j); [apply good_get_mat, I2; reflexivity|apply good_Ok].
    - assert (L : (1 <? sj_influences j)%N = true) by (apply N.ltb_lt; lia). rewrite L in HW.
      apply sized_Some in HW. destruct HW as (ws & EW & LW). rewrite EW. cbn [olist]. clear L.
      set (n := sj_influences j) in *. set (vc := sj_vertex_count j) in *.
      assert (B1 : (N.of_nat i * n + n <= vc * n)%N) by nia.
      assert (B2 : (N.of_nat i * (n - 1) + (n - 1) <= vc * (n - 1))%N) by nia.
      assert (HG : forall k x, (k < vc * n)%N -> get_n ix k = Ok x -> in_range ms (used_its j) x).
      { intros k x Hk Hx. apply (HJ (N.to_nat k) x EI); [lia|]. apply get_Ok, Hx. }
      unfold vertex_n. rewrite !umul_small by lia. cbn [bind].
      apply good_bind; [apply good_get_n; lia|]. intros w _. apply good_bind; [apply good_get_n; lia|]. intros jx Hx.
      apply good_bind; [apply good_lookup2; eapply HG; [|exact Hx]; lia|]. intros mm _. apply good_bind.
      + apply good_for_range. intros k s Hk. apply good_bind; [apply good_get_n; lia|]. intros w1 _.
        apply good_bind; [apply good_get_n; lia|]. intros jx1 Hx1. apply good_bind; [apply good_lookup2; eapply HG; [|exact Hx1]; lia|]. intros; apply good_Ok.
      + intros [sum mm1] _. apply good_bind; [apply good_get_n; lia|]. intros jx1 Hx1. apply good_bind; [apply good_lookup2; eapply HG; [|exact Hx1]; lia|]. intros; apply good_Ok.
  Qed.

  Lemma ready_bufs (j : sjob F) : ready j = true ->
    let v := N.to_nat (sj_vertex_count j) in
    holds v (sj_positions j) /\ holds v (so_positions (sj_outs j)) /\
    (variant j <> P -> holds v (sj_normals j) /\ holds v (so_normals (sj_outs j))) /\
    (variant j = PNT -> holds v (sj_tangents j) /\ holds v (so_tangents (sj_outs j))).
  Proof.
    intros HR v. unfold ready in HR. cbv zeta in HR.
    assert (SH : forall b, sized b (sj_vertex_count j) = true -> holds v b).
    { intros b Hb. apply sized_Some in Hb. destruct Hb as (l & E & L). exists l. split; [exact E|]. unfold v. lia. }
    apply andb_true_iff in HR. destruct HR as [HR HN]. apply andb_true_iff in HR. destruct HR as [HR H1].
    apply andb_true_iff in HR. destruct HR as [HR H2]. clear HR.
    split; [auto|]. split; [auto|]. unfold variant.
    destruct (sj_normals j) as [nl|]; cbn [is_some]; [|split; [contradiction|discriminate]].
    apply andb_true_iff in HN. destruct HN as [HN HT]. apply andb_true_iff in HN. destruct HN as [HN1 HN2].
    split; [auto|]. destruct (sj_tangents j); cbn [is_some]; [|discriminate]. intros _.
    apply andb_true_iff in HT. destruct HT. auto.
  Qed.

  Lemma run_ready (j : sjob F) ms : sj_matrices j = Some ms -> ready j = true ->
    (sj_vertex_count j * sj_influences j < 18446744073709551616)%N -> (sj_influences j <> 0)%N ->
    (exists o', skin_run checks j = SOk o') \/
    (exists o', skin_run checks j = SErr InvalidIndex o' /\
       exists i, (N.of_nat i < sj_vertex_count j)%N /\ vertex j ms i = Err InvalidIndex).
  Proof.
    intros Hm HR Hs Hz. rewrite (run_matrices j ms Hm Hs Hz), HR.
    destruct (ready_bufs j HR) as ((lp & Ep & Lp) & Ho & Hn & Ht).
    edestruct (vertices_total (N.to_nat (sj_vertex_count j)) 0 (vertex j ms) (variant j) (olist (sj_positions j)) (olist (sj_normals j))
      (match variant j with PNT => olist (sj_tangents j) | _ => [] end) (sj_outs j)) as [H|(o' & H & i & Hi & He)].
    - intros idx Hi. apply fine_vertex; auto. lia.
    - exact Ho.
    - rewrite Ep. exact Lp.
    - intros K. destruct (Hn K) as [(l & E & L) ?]. split; [assumption|]. rewrite E. exact L.
    - intros K. destruct (Ht K) as [(l & E & L) ?]. split; [assumption|]. rewrite K, E. exact L.
    - left. exact H.
    - right. exists o'. split; [exact H|]. exists i. split; [lia|exact He].
  Qed.
End Accept.
