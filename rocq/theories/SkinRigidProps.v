(** C97: a skin moved by rigid joints does not stretch. *)
From Coq Require Import Reals Lra Lia Psatz.
From Flocq Require Import Core.Core IEEE754.BinarySingleNaN.
From Verif Require Import Base Num NumR NumF32 Math MathSpec Skinning SkinningSpec SkinningProofs F32Facts F32Err BlendF32Props RigidSpec RigidRow RigidProps SkinF32Spec SkinF32Props SkinRigidSpec.
Local Open Scope R_scope.

Definition nv (f : nat -> R) : R := n3 (f 0%nat) (f 1%nat) (f 2%nat).
Lemma n3_scale k x y z : 0 <= k -> n3 (k * x) (k * y) (k * z) = k * n3 x y z.
Proof.
  intros K. unfold n3. replace (k * x * (k * x) + k * y * (k * y) + k * z * (k * z)) with ((k * k) * (x * x + y * y + z * z)) by ring.
  rewrite sqrt_mult; [|nra|nra]. rewrite sqrt_square by exact K. reflexivity.
Qed.
Lemma convex n (w : nat -> R) (x : nat -> nat -> R) L : (forall j, (j < n)%nat -> 0 <= w j) -> (forall j, (j < n)%nat -> nv (x j) <= L) ->
  nv (fun r => rsum n (fun j => w j * x j r)) <= rsum n w * L.
Proof.
  induction n as [|n IH]; intros W X.
  - unfold nv. cbn [rsum]. unfold n3. replace (0 * 0 + 0 * 0 + 0 * 0) with 0 by ring. rewrite sqrt_0. lra.
  - cbn [rsum]. unfold nv in *. eapply Rle_trans; [apply n3_triang|]. rewrite n3_scale by (apply W; lia).
    pose proof (IH ltac:(intros; apply W; lia) ltac:(intros; apply X; lia)). pose proof (X n ltac:(lia)). pose proof (W n ltac:(lia)). nra.
Qed.
Lemma n3_diff x y z x' y' z' : Rabs (n3 x y z - n3 x' y' z') <= n3 (x - x') (y - y') (z - z').
Proof.
  apply Rabs_le. split.
  - pose proof (n3_triang x y z (x' - x) (y' - y) (z' - z)) as H.
    replace (x + (x' - x)) with x' in H by ring. replace (y + (y' - y)) with y' in H by ring. replace (z + (z' - z)) with z' in H by ring.
    replace (n3 (x' - x) (y' - y) (z' - z)) with (n3 (x - x') (y - y') (z - z')) in H by (unfold n3; f_equal; ring). lra.
  - pose proof (n3_triang (x - x') (y - y') (z - z') x' y' z') as H.
    replace (x - x' + x') with x in H by ring. replace (y - y' + y') with y in H by ring. replace (z - z' + z') with z in H by ring. lra.
Qed.

(** A matrix near a rotation keeps lengths. *)
Lemma near_turn (m : mat4 R) q a d : 0 <= a -> is_rotation q -> (forall r c, (r < 3)%nat -> (c < 3)%nat -> Rabs (ent m r c - q r c) <= a) ->
  Rabs (nv (apply_vector m d) - n3 (vx d) (vy d) (vz d)) <= 4 * a * n3 (vx d) (vy d) (vz d).
Proof.
  intros A Q E. set (D := n3 (vx d) (vy d) (vz d)).
  set (t := fun r => q r 0%nat * vx d + q r 1%nat * vy d + q r 2%nat * vz d).
  assert (T : nv t = D).
  { unfold nv, D, n3. f_equal. unfold t. pose proof (rotation_columns q Q) as C. unfold sum3 in C.
    pose proof (C 0 0 ltac:(lia) ltac:(lia))%nat as C00. pose proof (C 1 1 ltac:(lia) ltac:(lia))%nat as C11. pose proof (C 2 2 ltac:(lia) ltac:(lia))%nat as C22.
    pose proof (C 0 1 ltac:(lia) ltac:(lia))%nat as C01. pose proof (C 0 2 ltac:(lia) ltac:(lia))%nat as C02. pose proof (C 1 2 ltac:(lia) ltac:(lia))%nat as C12.
    cbn [Nat.eqb] in *. clear -C00 C11 C22 C01 C02 C12.
    revert C00 C11 C22 C01 C02 C12. generalize (q 0%nat 0%nat), (q 0%nat 1%nat), (q 0%nat 2%nat), (q 1%nat 0%nat), (q 1%nat 1%nat), (q 1%nat 2%nat), (q 2%nat 0%nat), (q 2%nat 1%nat), (q 2%nat 2%nat).
    intros q00 q01 q02 q10 q11 q12 q20 q21 q22 C00 C11 C22 C01 C02 C12. generalize (vx d), (vy d), (vz d). intros x y z.
    transitivity ((q00 * q00 + q10 * q10 + q20 * q20) * (x * x) + (q01 * q01 + q11 * q11 + q21 * q21) * (y * y) + (q02 * q02 + q12 * q12 + q22 * q22) * (z * z)
      + 2 * (q00 * q01 + q10 * q11 + q20 * q21) * (x * y) + 2 * (q00 * q02 + q10 * q12 + q20 * q22) * (x * z) + 2 * (q01 * q02 + q11 * q12 + q21 * q22) * (y * z)); [ring|].
    rewrite C00, C11, C22, C01, C02, C12. ring. }
  rewrite <- T at 1. unfold nv at 1 2. eapply Rle_trans; [apply n3_diff|].
  assert (S := n3_sum (vx d) (vy d) (vz d)). fold D in S. assert (DP : 0 <= D) by apply n3_pos.
  assert (X : forall r, (r < 3)%nat -> Rabs (apply_vector m d r - t r) <= a * (1.7321 * D)).
  { intros r Hr. unfold apply_vector, t.
    replace (ent m r 0 * vx d + ent m r 1 * vy d + ent m r 2 * vz d - (q r 0%nat * vx d + q r 1%nat * vy d + q r 2%nat * vz d))
      with ((ent m r 0 - q r 0%nat) * vx d + (ent m r 1 - q r 1%nat) * vy d + (ent m r 2 - q r 2%nat) * vz d) by ring.
    eapply Rle_trans; [apply Rabs_triang|]. eapply Rle_trans; [apply Rplus_le_compat_r, Rabs_triang|]. rewrite !Rabs_mult.
    pose proof (E r 0 Hr ltac:(lia))%nat. pose proof (E r 1 Hr ltac:(lia))%nat. pose proof (E r 2 Hr ltac:(lia))%nat.
    pose proof (Rabs_pos (vx d)). pose proof (Rabs_pos (vy d)). pose proof (Rabs_pos (vz d)). nra. }
  eapply Rle_trans; [apply (n3_box _ _ _ (a * (1.7321 * D))); apply X; lia|]. nra.
Qed.

Section Skin.
  Context (a : R) (ms : list (mat4 f32)) (n : nat).
  Hypothesis A0 : 0 <= a.
  Hypothesis RM : rigid_mats a ms.

  Lemma mat_real k d : Rabs (nv (apply_vector (matrix (map real_mat ms) k) d) - n3 (vx d) (vy d) (vz d)) <= 4 * a * n3 (vx d) (vy d) (vz d).
  Proof using A0 RM.
    destruct (le_lt_dec (length ms) k) as [L|L].
    - unfold matrix. rewrite nth_overflow by (rewrite map_length; exact L).
      apply (near_turn _ (fun i j => if Nat.eqb i j then 1 else 0) a d A0).
      + split; [|unfold det3; cbn; ring]. intros i j Hi Hj. unfold sum3. destruct i as [|[|[|i]]], j as [|[|[|j]]]; try lia; cbn; ring.
      + intros r c Hr Hc. destruct r as [|[|[|r]]], c as [|[|[|c]]]; try lia; cbn; match goal with |- Rabs ?x <= _ => replace x with 0 by ring end; rewrite Rabs_R0; exact A0.
    - destruct (nth_error ms k) as [m|] eqn:E; [|apply nth_error_None in E; lia].
      assert (EM : matrix (map real_mat ms) k = real_mat m).
      { unfold matrix. apply nth_error_nth. rewrite nth_error_map, E. reflexivity. }
      rewrite EM. destruct (RM m (nth_error_In _ _ E)) as (q & Q & B). apply (near_turn _ q a d A0 Q).
      intros r c Hr Hc. specialize (B r c Hr Hc). destruct c as [|[|[|c]]]; try lia; (destruct r as [|[|[|r]]]; try lia); exact B.
  Qed.

  (** The images of two alike vertices differ by the blend of the turned difference. *)
  Lemma blend_gap indices w p q r :
    rsum n (fun j => w j * apply_point (matrix (map real_mat ms) (indices j)) p r) - rsum n (fun j => w j * apply_point (matrix (map real_mat ms) (indices j)) q r) =
    rsum n (fun j => w j * apply_vector (matrix (map real_mat ms) (indices j)) (minus3 p q) r).
  Proof using.
    induction n as [|k IH]; cbn [rsum]; [ring|].
    transitivity (rsum k (fun j => w j * apply_point (matrix (map real_mat ms) (indices j)) p r) - rsum k (fun j => w j * apply_point (matrix (map real_mat ms) (indices j)) q r)
      + w k * (apply_point (matrix (map real_mat ms) (indices k)) p r - apply_point (matrix (map real_mat ms) (indices k)) q r)); [ring|].
    rewrite IH. unfold apply_point, apply_vector, minus3. cbn [vx vy vz]. ring.
  Qed.
  Lemma blend_size indices w d : (forall j, (j < n)%nat -> 0 <= w j) -> rsum n w <= 1 ->
    nv (fun r => rsum n (fun j => w j * apply_vector (matrix (map real_mat ms) (indices j)) d r)) <= (1 + 4 * a) * n3 (vx d) (vy d) (vz d).
  Proof using A0 RM.
    intros W S. assert (DP := n3_pos (vx d) (vy d) (vz d)).
    eapply Rle_trans; [apply (convex n w (fun j => apply_vector (matrix (map real_mat ms) (indices j)) d) ((1 + 4 * a) * n3 (vx d) (vy d) (vz d)) W)|].
    - intros j _. pose proof (mat_real (indices j) d) as H. apply Rabs_le_inv in H. lra.
    - assert (0 <= (1 + 4 * a) * n3 (vx d) (vy d) (vz d)) by nra.
      rewrite <- (Rmult_1_l ((1 + 4 * a) * n3 (vx d) (vy d) (vz d))) at 2. apply Rmult_le_compat_r; assumption.
  Qed.
End Skin.

(** The weights with the one that is not stored. *)
Lemma weights_ok v n ws i : (i < v)%nat -> (n <> 1%nat -> proper_weights v n ws) ->
  (forall j, (j < n)%nat -> 0 <= weight n (map (fun x : f32 => B2R x) ws) i j) /\ rsum n (weight n (map (fun x : f32 => B2R x) ws) i) <= 1.
Proof.
  intros Hi P.
  assert (NW : forall k, nth k (map (fun x : f32 => B2R x) ws) 0 = B2R (nth k ws nzero)).
  { intros k. change 0 with (B2R (nzero : f32)). apply (map_nth (fun x : f32 => B2R x)). }
  destruct n as [|n]; [split; [intros; lia|cbn; lra]|].
  assert (ALL : (forall k, (k < n)%nat -> 0 <= B2R (nth (i * n + k) ws nzero)) /\ rsum n (fun k => B2R (nth (i * n + k) ws nzero)) <= 1).
  { destruct n as [|n]; [split; [intros; lia|cbn; lra]|]. destruct (P ltac:(lia) i Hi) as (H1 & H2).
    replace (S (S n) - 1)%nat with (S n) in * by lia. split; [intros k Hk; apply H1, Hk|exact H2]. }
  destruct ALL as (W & SS). unfold weight. replace (S n - 1)%nat with n by lia.
  assert (E : rsum n (fun k => nth (i * n + k) (map (fun x : f32 => B2R x) ws) 0) = rsum n (fun k => B2R (nth (i * n + k) ws nzero))) by (apply rsum_ext; intros; apply NW).
  split.
  - intros j Hj. destruct (Nat.eqb_spec j n) as [->|J]; [rewrite E; lra|]. rewrite NW. apply W. lia.
  - cbn [rsum]. rewrite Nat.eqb_refl, E.
    rewrite (rsum_ext n _ (fun k => B2R (nth (i * n + k) ws nzero))); [lra|]. intros k Hk. destruct (Nat.eqb_spec k n); [lia|apply NW].
Qed.
Lemma small_of_proper v n ws : proper_weights v n ws -> small_weights v n ws.
Proof.
  intros P i Hi. destruct (P i Hi) as (H1 & H2). split; [intros k Hk; apply H1, Hk|].
  rewrite (rsum_ext (n - 1) _ (fun k => B2R (nth (i * (n - 1) + k) ws nzero))); [lra|]. intros k Hk. apply Rabs_pos_eq, H1, Hk.
Qed.
(** From three coordinates within [e] to the length. *)
Lemma box_size (f g : nat -> R) e : (forall r, (r < 3)%nat -> Rabs (f r - g r) <= e) -> Rabs (nv f - nv g) <= 2 * e.
Proof.
  intros H. unfold nv. eapply Rle_trans; [apply n3_diff|]. pose proof (H 0%nat ltac:(lia)) as H0. pose proof (Rabs_pos (f 0%nat - g 0%nat)).
  eapply Rle_trans; [apply (n3_box _ _ _ e); apply H; lia|]. lra.
Qed.
Lemma size_nv p : size p = nv (fun r => B2R (coord32 p r)). Proof. reflexivity. Qed.
Lemma gap_nv p q : gap p q = nv (fun r => B2R (coord32 p r) - B2R (coord32 q r)). Proof. reflexivity. Qed.

(** The hypotheses of C84, with weights that are not negative. *)
Theorem C97_no_stretch checks (j : sjob f32) o' B P a ms indices ws :
  let v := N.to_nat (sj_vertex_count j) in let n := N.to_nat (sj_influences j) in
  (sj_vertex_count j * sj_influences j < 18446744073709551616)%N -> (sj_influences j <= 4096)%N ->
  bpow radix2 (-40) <= B <= bpow radix2 40 -> bpow radix2 (-40) <= P <= bpow radix2 40 ->
  (forall l m, sj_matrices j = Some l \/ sj_it_matrices j = Some l -> In m l -> small_mat B m) ->
  (forall l p, sj_positions j = Some l \/ sj_normals j = Some l \/ sj_tangents j = Some l -> In p l -> small_vec P p) ->
  sj_matrices j = Some ms -> 0 <= a -> rigid_mats a ms ->
  sj_indices j = Some indices -> (n <> 1%nat -> sj_weights j = Some ws /\ proper_weights v n ws) ->
  skin_run checks j = SOk o' ->
  exists li lo', sj_positions j = Some li /\ so_positions o' = Some lo' /\
    forall i k, (i < v)%nat -> (k < v)%nat -> bound_alike n indices ws i k ->
      exists p q p' q', nth_error li i = Some p /\ nth_error li k = Some q /\ nth_error lo' i = Some p' /\ nth_error lo' k = Some q' /\
        let e := INR n * bpow radix2 (-19) * B * (3 * P + 1) in
        gap p' q' <= (1 + 4 * a) * gap p q + 4 * e /\
        (n = 1%nat -> (1 - 4 * a) * gap p q - 4 * e <= gap p' q').
Proof.
  intros v n HV HN HB HP HM HPos EM A0 RM EI EW RUN.
  destruct (C84_single_precision checks j o' B P HV HN HB HP HM) as (ms' & ix' & ws' & E1 & E2 & E3 & R1 & _); [|exact HPos|exact RUN|].
  { intros l Hn El. destruct (EW Hn) as (El' & PW). rewrite El in El'. injection El' as ->. apply small_of_proper, PW. }
  fold n in E3, R1. fold v in R1. cbv zeta in R1. rewrite EM in E1. injection E1 as <-. rewrite EI in E2. injection E2 as <-.
  destruct R1 as (li & lo & lo' & L1 & L2 & L3 & _ & _ & V). exists li, lo'. split; [exact L1|]. split; [exact L3|].
  intros i k Hi Hk (AJ & AW).
  destruct (V i Hi) as (p & p' & Np & Np' & Cp). destruct (V k Hk) as (q & q' & Nq & Nq' & Cq).
  exists p, q, p', q'. repeat (split; [assumption|]). cbv zeta. set (e := INR n * bpow radix2 (-19) * B * (3 * P + 1)) in *.
  assert (WW : forall x, (x < n)%nat -> weight n (map (fun x : f32 => B2R x) ws') i x = weight n (map (fun x : f32 => B2R x) ws') k x).
  { intros x Hx. destruct (Nat.eq_dec n 1) as [N1|N1].
    - rewrite N1 in *. unfold weight. assert (x = 0%nat) by lia. subst x. reflexivity.
    - assert (ws' = ws) by (destruct (EW N1) as (Q & _); specialize (E3 N1); congruence). subst ws'.
      assert (NW : forall y, nth y (map (fun x : f32 => B2R x) ws) 0 = B2R (nth y ws nzero)).
      { intros y. change 0 with (B2R (nzero : f32)). apply (map_nth (fun x : f32 => B2R x)). }
      unfold weight. destruct (Nat.eqb_spec x (n - 1)) as [->|X].
      + f_equal. apply rsum_ext. intros y Hy. rewrite !NW. apply AW, Hy.
      + rewrite !NW. apply AW. lia. }
  assert (PW : n <> 1%nat -> proper_weights v n ws').
  { intros N1. destruct (EW N1) as (Q & PW). specialize (E3 N1). assert (ws' = ws) by congruence. subst ws'. exact PW. }
  destruct (weights_ok v n ws' i Hi PW) as (W0 & W1).
  set (w := weight n (map (fun x : f32 => B2R x) ws') i) in *. set (ix := influence n indices i) in *.
  assert (Bq : forall r, blended apply_point n (map real_mat ms) indices (map (fun x : f32 => B2R x) ws') k (real_vec q) r =
                rsum n (fun x => w x * apply_point (matrix (map real_mat ms) (ix x)) (real_vec q) r)).
  { intros r. unfold blended. apply rsum_ext. intros x Hx. rewrite <- (WW x Hx). fold (w x). unfold ix, influence. rewrite (AJ x Hx). reflexivity. }
  set (d := minus3 (real_vec p) (real_vec q)).
  assert (G : gap p q = n3 (vx d) (vy d) (vz d)) by reflexivity.
  assert (D : Rabs (gap p' q' - nv (fun r => rsum n (fun x => w x * apply_vector (matrix (map real_mat ms) (ix x)) d r))) <= 2 * (2 * e)).
  { rewrite gap_nv. apply box_size. intros r Hr. destruct (Cp r Hr) as (_ & C1). destruct (Cq r Hr) as (_ & C2). rewrite Bq in C2.
    unfold d. rewrite <- blend_gap. unfold blended in C1. fold w in C1. fold ix in C1.
    apply Rabs_le_inv in C1. apply Rabs_le_inv in C2. apply Rabs_le. lra. }
  apply Rabs_le_inv in D. rewrite G. split.
  - pose proof (blend_size a ms n A0 RM ix w d W0 W1). lra.
  - intros N1. pose proof (mat_real a ms A0 RM (ix 0%nat) d) as M.
    assert (E0 : nv (fun r => rsum n (fun x => w x * apply_vector (matrix (map real_mat ms) (ix x)) d r)) = nv (apply_vector (matrix (map real_mat ms) (ix 0%nat)) d)).
    { unfold nv. assert (W00 : w 0%nat = 1). { unfold w, weight. rewrite N1. cbn. ring. }
      rewrite N1. cbn [rsum]. rewrite W00, !Rmult_1_l, !Rplus_0_l. reflexivity. }
    rewrite E0 in D. apply Rabs_le_inv in M. lra.
Qed.
Print Assumptions C97_no_stretch.

(** Normals, through the matrices they use: the inverse-transpose ones if given. *)
Theorem C97_normals_keep_their_length checks (j : sjob f32) o' B P a ms ws :
  let v := N.to_nat (sj_vertex_count j) in let n := N.to_nat (sj_influences j) in
  (sj_vertex_count j * sj_influences j < 18446744073709551616)%N -> (sj_influences j <= 4096)%N ->
  bpow radix2 (-40) <= B <= bpow radix2 40 -> bpow radix2 (-40) <= P <= bpow radix2 40 ->
  (forall l m, sj_matrices j = Some l \/ sj_it_matrices j = Some l -> In m l -> small_mat B m) ->
  (forall l p, sj_positions j = Some l \/ sj_normals j = Some l \/ sj_tangents j = Some l -> In p l -> small_vec P p) ->
  match sj_it_matrices j with Some its => Some its | None => sj_matrices j end = Some ms -> 0 <= a -> rigid_mats a ms ->
  (n <> 1%nat -> sj_weights j = Some ws /\ proper_weights v n ws) ->
  skin_run checks j = SOk o' -> forall li, sj_normals j = Some li ->
  exists lo', so_normals o' = Some lo' /\
    forall i, (i < v)%nat -> exists p p', nth_error li i = Some p /\ nth_error lo' i = Some p' /\
      let e := INR n * bpow radix2 (-19) * B * (3 * P) in
      size p' <= (1 + 4 * a) * size p + 2 * e /\ (n = 1%nat -> (1 - 4 * a) * size p - 2 * e <= size p').
Proof.
  intros v n HV HN HB HP HM HPos EM A0 RM EW RUN li ELI.
  destruct (C84_single_precision checks j o' B P HV HN HB HP HM) as (ms' & ix' & ws' & E1 & E2 & E3 & _ & R1 & _); [|exact HPos|exact RUN|].
  { intros l Hn El. destruct (EW Hn) as (El' & PW). rewrite El in El'. injection El' as ->. apply small_of_proper, PW. }
  fold n in E3, R1. fold v in R1. cbv zeta in R1. rewrite ELI in R1.
  assert (EQ : match sj_it_matrices j with Some its => its | None => ms' end = ms) by (destruct (sj_it_matrices j); congruence). rewrite EQ in R1.
  destruct R1 as (li' & lo & lo' & L1 & L2 & L3 & _ & _ & V). injection L1 as <-. exists lo'. split; [exact L3|].
  intros i Hi. destruct (V i Hi) as (p & p' & Np & Np' & Cp). exists p, p'. repeat (split; [assumption|]).
  cbv zeta. set (e := INR n * bpow radix2 (-19) * B * (3 * P)) in *.
  assert (PW : n <> 1%nat -> proper_weights v n ws').
  { intros N1. destruct (EW N1) as (Q & PW). specialize (E3 N1). assert (ws' = ws) by congruence. subst ws'. exact PW. }
  destruct (weights_ok v n ws' i Hi PW) as (W0 & W1).
  set (w := weight n (map (fun x : f32 => B2R x) ws') i) in *. set (ix := influence n ix' i) in *. set (d := real_vec p).
  assert (G : size p = n3 (vx d) (vy d) (vz d)) by reflexivity.
  assert (D : Rabs (size p' - nv (fun r => rsum n (fun x => w x * apply_vector (matrix (map real_mat ms) (ix x)) d r))) <= 2 * e).
  { rewrite size_nv. apply box_size. intros r Hr. destruct (Cp r Hr) as (_ & C1). exact C1. }
  apply Rabs_le_inv in D. rewrite G. split.
  - pose proof (blend_size a ms n A0 RM ix w d W0 W1). lra.
  - intros N1. pose proof (mat_real a ms A0 RM (ix 0%nat) d) as M.
    assert (E0 : nv (fun r => rsum n (fun x => w x * apply_vector (matrix (map real_mat ms) (ix x)) d r)) = nv (apply_vector (matrix (map real_mat ms) (ix 0%nat)) d)).
    { unfold nv. assert (W00 : w 0%nat = 1). { unfold w, weight. rewrite N1. cbn. ring. }
      rewrite N1. cbn [rsum]. rewrite W00, !Rmult_1_l, !Rplus_0_l. reflexivity. }
    rewrite E0 in D. apply Rabs_le_inv in M. lra.
Qed.
Print Assumptions C97_normals_keep_their_length.

(** ** Non-vacuity: a quarter turn and a half turn about the third axis, each with a translation, and two vertices
    that hang half on one and half on the other. *)
Definition ex97_quarter : mat4 f32 :=
  mk4 (mk4 nzero none_ nzero nzero) (mk4 (nneg none_) nzero nzero nzero) (mk4 nzero nzero none_ nzero) (mk4 none_ ntwo nzero none_).
Definition ex97_half : mat4 f32 :=
  mk4 (mk4 (nneg none_) nzero nzero nzero) (mk4 nzero (nneg none_) nzero nzero) (mk4 nzero nzero none_ nzero) (mk4 ntwo nzero none_ none_).
Definition ex97_job : sjob f32 :=
  mk_sjob 2 2 (Some [ex97_quarter; ex97_half]) None (Some [0; 1; 0; 1]%N) (Some [nhalf; nhalf])
    (Some [V3 none_ ntwo nhalf; V3 nhalf none_ none_]) (Some [V3 none_ nzero nzero; V3 nzero none_ nzero]) None
    (mk_souts (Some [V3 nzero nzero nzero; V3 nzero nzero nzero]) (Some [V3 nzero nzero nzero; V3 nzero nzero nzero]) None).
Lemma ex97_vals : Forall (fun x : f32 => is_finite x = true /\ Rabs (B2R x) <= 2) [nzero; none_; ntwo; nhalf; nneg none_].
Proof.
  destruct fin_zero as [Z1 Z2], fin_one as [O1 O2], fin_two as [T1 T2], fin_half as [H1 H2].
  assert (N1 : is_finite (nneg none_ : f32) = true) by reflexivity.
  assert (N2 : B2R (nneg none_ : f32) = -1) by (change (nneg none_ : f32) with (Bopp (none_ : f32)); rewrite B2R_Bopp, O2; reflexivity).
  repeat (apply Forall_cons; [split; [assumption|rewrite ?Z2, ?O2, ?T2, ?H2, ?N2; apply Rabs_le; lra]|]). apply Forall_nil.
Qed.
Example C97_hypotheses : let j := ex97_job in
  (sj_vertex_count j * sj_influences j < 18446744073709551616)%N /\ (sj_influences j <= 4096)%N /\
  (forall l m, sj_matrices j = Some l \/ sj_it_matrices j = Some l -> In m l -> small_mat 2 m) /\
  (forall l p, sj_positions j = Some l \/ sj_normals j = Some l \/ sj_tangents j = Some l -> In p l -> small_vec 2 p) /\
  sj_matrices j = Some [ex97_quarter; ex97_half] /\ rigid_mats 0 [ex97_quarter; ex97_half] /\
  sj_indices j = Some [0; 1; 0; 1]%N /\ sj_weights j = Some [nhalf; nhalf] /\ proper_weights 2 2 [nhalf; nhalf] /\
  bound_alike 2 [0; 1; 0; 1]%N [nhalf; nhalf] 0 1 /\
  exists o', skin_run true j = SOk o'.
Proof.
  pose proof ex97_vals as V. rewrite Forall_forall in V.
  assert (N2 : B2R (nneg none_ : f32) = -1) by (change (nneg none_ : f32) with (Bopp (none_ : f32)); rewrite B2R_Bopp, (proj2 fin_one); reflexivity).
  destruct fin_zero as [Z1 Z2], fin_one as [O1 O2], fin_half as [H1 H2].
  assert (M : forall m, m = ex97_quarter \/ m = ex97_half -> small_mat 2 m).
  { intros m Hm r c Hr Hc. apply V. destruct Hm as [->| ->];
    (destruct r as [|[|[|r]]]; [..|lia]); (destruct c as [|[|[|[|c]]]]; [..|lia]); cbn [ent lane ex97_quarter ex97_half l0 l1 l2 l3]; cbn [In]; auto 8. }
  cbv zeta. split; [reflexivity|]. split; [vm_compute; discriminate|]. split; [|split; [|split; [reflexivity|split; [|split; [reflexivity|split; [reflexivity|split; [|split]]]]]]].
  - intros l m [E|E] I; inversion E; subst l; cbn [In] in I; apply M; destruct I as [<-|[<-|[]]]; auto.
  - intros l p [E|[E|E]] I; inversion E; subst l; cbn [In] in I;
      repeat (destruct I as [<-|I]; [intros r Hr; apply V; destruct r as [|[|[|r]]]; [..|lia]; cbn [coord32 vx vy vz In]; auto 8|]); contradiction.
  - intros m I. cbn [In] in I.
    exists (fun r c => B2R (ent m r c)). split; [|intros; replace (B2R (ent m r c) - B2R (ent m r c)) with 0 by ring; rewrite Rabs_R0; lra].
    assert (ZZ : B2R (nzero : f32) = 0) by exact Z2. assert (OO : B2R (none_ : f32) = 1) by exact O2.
    destruct I as [<-|[<-|[]]]; (split;
      [intros r c Hr Hc; destruct r as [|[|[|r]]]; try lia; (destruct c as [|[|[|c]]]; try lia); unfold sum3; cbn [ent lane ex97_quarter ex97_half l0 l1 l2 l3 Nat.eqb]; rewrite ?ZZ, ?OO, ?N2; ring
      |unfold det3; cbn [ent lane ex97_quarter ex97_half l0 l1 l2 l3]; rewrite ?ZZ, ?OO, ?N2; ring]).
  - intros i Hi. destruct i as [|[|i]]; [..|lia]; (split; [intros k Hk; destruct k; [|cbn in Hk; lia]; split; [exact H1|change (0 <= B2R (nhalf : f32)); rewrite H2; lra]|
      change (0 + B2R (nhalf : f32) <= 1); rewrite H2; lra]).
  - split; intros k Hk; destruct k as [|[|k]]; try (cbn in Hk; lia); reflexivity.
  - eexists. reflexivity.
Qed.
