(** Real-number facts about math.rs. *)
From Coq Require Import Reals Lra Psatz.
From Verif Require Import Base Num NumR Math MathSpec.
Local Open Scope R_scope.

(** Reduces every operation of the model at [R] and [V4 R] to the field operations. *)
Ltac nr :=
  cbv [nadd nsub nmul ndiv nneg nabs nsqrt nmin nmax V4_arith num_arith Rnum Rarith zip4 map4 splat swz swz2 lane2 lane
       Nat.ltb Nat.leb Nat.sub flip4 flip keep4 keep l0 l1 l2 l3 qx qy qz qw vx vy vz] in *.
Ltac lits :=
  change (@num_arith R Rnum) with Rarith in *;
  rewrite ?nzero_R, ?none_R, ?ntwo_R, ?nhalf_R, ?nrecip_R in *.

Lemma lit0 : IZR 0 * powerRZ 2 0 = 0. Proof. simpl; lra. Qed.
Lemma lit1 : IZR 1 * powerRZ 2 0 = 1. Proof. simpl; lra. Qed.
Lemma lit2 : IZR 2 * powerRZ 2 0 = 2. Proof. simpl; lra. Qed.

Lemma to_aos_lane {A} (m : mat4 (V4 A)) k r c : (k < 4)%nat -> (r < 4)%nat -> (c < 4)%nat ->
  ent (lane (to_aos m) k) r c = lane (ent m r c) k.
Proof.
  intros Hk Hr Hc. destruct m as [[? ? ? ?] [? ? ? ?] [? ? ? ?] [? ? ? ?]].
  destruct k as [|[|[|[|k]]]]; try (exfalso; lia); destruct r as [|[|[|[|r]]]]; try (exfalso; lia);
    destruct c as [|[|[|[|c]]]]; try (exfalso; lia); reflexivity.
Qed.

Lemma rotate_explicit q v : rotate q v =
  V3 ((qw q * qw q + qx q * qx q - qy q * qy q - qz q * qz q) * vx v
        + 2 * (qx q * qy q - qz q * qw q) * vy v + 2 * (qx q * qz q + qy q * qw q) * vz v)
     (2 * (qx q * qy q + qz q * qw q) * vx v + (qw q * qw q - qx q * qx q + qy q * qy q - qz q * qz q) * vy v
        + 2 * (qy q * qz q - qx q * qw q) * vz v)
     (2 * (qx q * qz q - qy q * qw q) * vx v + 2 * (qy q * qz q + qx q * qw q) * vy v
        + (qw q * qw q - qx q * qx q - qy q * qy q + qz q * qz q) * vz v).
Proof.
  destruct q as [x y z w], v as [a b c]. unfold rotate, hamilton, hvec, conj, pure, cross3, dot3.
  cbn [vx vy vz qx qy qz qw]. f_equal; ring.
Qed.

Lemma from_affine_R (t s : vec3 R) (r : quat R) : from_affine t r s =
  mk4 (mk4 (vx s * (1 - 2 * (qy r * qy r + qz r * qz r))) (vx s * 2 * (qx r * qy r + qz r * qw r))
           (vx s * 2 * (qx r * qz r - qy r * qw r)) 0)
      (mk4 (vy s * 2 * (qx r * qy r - qz r * qw r)) (vy s * (1 - 2 * (qx r * qx r + qz r * qz r)))
           (vy s * (2 * (qy r * qz r + qx r * qw r))) 0)
      (mk4 (vz s * 2 * (qx r * qz r + qy r * qw r)) (vz s * 2 * (qy r * qz r - qx r * qw r))
           (vz s * (1 - 2 * (qx r * qx r + qy r * qy r))) 0)
      (mk4 (vx t) (vy t) (vz t) 1).
Proof. unfold from_affine. change (@num_arith R Rnum) with Rarith. rewrite nzero_R, none_R, ntwo_R. reflexivity. Qed.

Lemma from_affine_point (t s : vec3 R) (q : quat R) p : unitq q ->
  let m := from_affine t q s in
  V3 (apply_point m p 0) (apply_point m p 1) (apply_point m p 2) = plus3 t (rotate q (hadamard s p)) /\
  (ent m 3 0 = 0 /\ ent m 3 1 = 0 /\ ent m 3 2 = 0 /\ ent m 3 3 = 1).
Proof.
  rewrite from_affine_R, rotate_explicit.
  destruct t as [t0 t1 t2], s as [s0 s1 s2], q as [x y z w], p as [p0 p1 p2].
  unfold unitq, norm2. cbn [qx qy qz qw]. intros H. cbv zeta.
  assert (Hw : w * w = 1 - x * x - y * y - z * z) by lra. clear H.
  unfold apply_point, ent, plus3, hadamard.
  cbn [lane l0 l1 l2 l3 vx vy vz qx qy qz qw].
  split; [|repeat split; reflexivity].
  f_equal; ring [Hw].
Qed.

Lemma mat_mul_product a b : is_product a b (mat_mul a b).
Proof.
  destruct a as [[? ? ? ?] [? ? ? ?] [? ? ? ?] [? ? ? ?]], b as [[? ? ? ?] [? ? ? ?] [? ? ? ?] [? ? ? ?]].
  intros i j Hi Hj.
  destruct i as [|[|[|[|i]]]]; try (exfalso; lia); destruct j as [|[|[|[|j]]]]; try (exfalso; lia);
    unfold ent, sum4, mat_mul, mat_mul_col; nr; ring.
Qed.

(** The cofactor computation: [minors] of the model is the adjugate, and its [det] lanes all
    hold the determinant. *)
Lemma minors_adj m :
  let '(m0, m1, m2, m3, d) := mat_minors m in
  let adj := mk4 m0 m1 m2 m3 in
  (forall i, (i < 4)%nat -> lane d i = det4 m) /\
  forall i j, (i < 4)%nat -> (j < 4)%nat ->
    sum4 (fun k => ent m i k * ent adj k j) = det4 m * delta i j /\
    sum4 (fun k => ent adj i k * ent m k j) = det4 m * delta i j.
Proof.
  destruct m as [[a b c d] [e f g h] [i j k l] [m n o p]].
  unfold mat_minors, IB1, I4E. cbv zeta. nr. cbv iota.
  unfold ent, sum4, det4, det3, det2, skip, delta.
  split.
  - intros q Hq. destruct q as [|[|[|[|q]]]]; try (exfalso; lia); cbn; ring.
  - intros r s Hr Hs.
    destruct r as [|[|[|[|r]]]]; try (exfalso; lia); destruct s as [|[|[|[|s]]]]; try (exfalso; lia);
      cbn [Nat.eqb Nat.ltb Nat.leb lane l0 l1 l2 l3 ent]; cbn; split; ring.
Qed.

Lemma invert_correct m :
  (det4 m <> 0 -> is_inverse m (mat_invert m)) /\
  (det4 m = 0 -> forall i j, (i < 4)%nat -> (j < 4)%nat -> ent (mat_invert m) i j = 0).
Proof.
  pose proof (minors_adj m) as A. unfold mat_invert.
  destruct (mat_minors m) as [[[[m0 m1] m2] m3] d]. cbv zeta in A. destruct A as [D A].
  set (k := l0 (nsub (nadd (keep4 (map4 negb (eq4 d nzero)) (nrecip d)) (keep4 (map4 negb (eq4 d nzero)) (nrecip d)))
     (nmul d (nmul (keep4 (map4 negb (eq4 d nzero)) (nrecip d)) (keep4 (map4 negb (eq4 d nzero)) (nrecip d)))))).
  assert (K : k = if Reqb (det4 m) 0 then 0 else / det4 m).
  { unfold k. pose proof (D 0%nat ltac:(lia)) as D0. destruct d as [d0 d1 d2 d3]. cbn in D0. subst d0.
    change ((fun D => let t := keep (negb (neq D nzero)) (nrecip D) in (t + t - D * (t * t))%num) (det4 m)
            = if Reqb (det4 m) 0 then 0 else / det4 m).
    cbv beta zeta. lits. change (neq (det4 m) 0) with (Reqb (det4 m) 0). unfold keep. lits. cbn [nadd nsub nmul Rarith].
    destruct (Reqb_spec (det4 m) 0) as [E|E]; cbn [negb].
    - ring.
    - field. exact E. }
  assert (Ev : forall (v : V4 R) i, lane (splat k * v)%num i = k * lane v i).
  { intros v i. change (splat k * v)%num with (zip4 Rmult (splat k) v). rewrite lane_zip4, lane_splat. reflexivity. }
  assert (E : forall i j, (j < 4)%nat ->
     ent (mk4 (splat k * m0)%num (splat k * m1)%num (splat k * m2)%num (splat k * m3)%num) i j
     = k * ent (mk4 m0 m1 m2 m3) i j).
  { intros i j Hj. unfold ent. destruct j as [|[|[|[|j]]]]; try (exfalso; lia); cbn [lane l0 l1 l2 l3]; apply Ev. }
  match goal with |- context [mk4 (?a * m0)%num _ _ _] => change a with (splat k) end.
  split.
  - intros Hd i j Hi Hj. rewrite K in *. destruct (Reqb_spec (det4 m) 0) as [?|_]; [contradiction|].
    destruct (A i j Hi Hj) as [A1 A2]. unfold sum4 in *.
    split; rewrite !E by lia.
    + replace (delta i j) with (/ det4 m * (det4 m * delta i j)) by (field; exact Hd). rewrite <- A1. ring.
    + replace (delta i j) with (/ det4 m * (det4 m * delta i j)) by (field; exact Hd). rewrite <- A2. ring.
  - intros Hd i j Hi Hj. rewrite E by exact Hj. rewrite K. destruct (Reqb_spec (det4 m) 0); [ring|contradiction].
Qed.

(** ** Quaternion products and rotations *)
Lemma quat_mul_hamilton a b : q_of (quat_mul a b) = hamilton (q_of a) (q_of b).
Proof.
  destruct a as [? ? ? ?], b as [? ? ? ?]. unfold quat_mul, q_of, hamilton, hvec, cross3, dot3. nr. f_equal; ring.
Qed.
Lemma soa_mul_hamilton (a b : quat (V4 R)) k : (k < 4)%nat ->
  lane_q (q_mul a b) k = hamilton (lane_q a k) (lane_q b k).
Proof.
  intros Hk. destruct a as [[? ? ? ?] [? ? ? ?] [? ? ? ?] [? ? ? ?]], b as [[? ? ? ?] [? ? ? ?] [? ? ? ?] [? ? ? ?]].
  destruct k as [|[|[|[|k]]]]; try (exfalso; lia);
    unfold lane_q, q_mul, hamilton, hvec, cross3, dot3; nr; f_equal; ring.
Qed.
Lemma hamilton_assoc a b c : hamilton a (hamilton b c) = hamilton (hamilton a b) c.
Proof. destruct a, b, c. unfold hamilton, hvec, cross3, dot3. cbn. f_equal; ring. Qed.
Lemma hamilton_norm a b : norm2 (hamilton a b) = norm2 a * norm2 b.
Proof. destruct a, b. unfold norm2, hamilton, hvec, cross3, dot3. cbn. ring. Qed.
Lemma rotate_compose a b v : rotate (hamilton a b) v = rotate a (rotate b v).
Proof. destruct a as [a0 a1 a2 a3], b as [b0 b1 b2 b3], v as [v0 v1 v2]. rewrite !rotate_explicit. unfold hamilton, hvec, cross3, dot3. cbn [vx vy vz qx qy qz qw]. f_equal; ring. Qed.

Lemma transform_vector_rotate q v : unitq (q_of q) ->
  v3_of (quat_transform_vector q v) = rotate (q_of q) (v3_of v).
Proof.
  destruct q as [x y z w], v as [a b c d]. unfold unitq, norm2, q_of, v3_of. cbn [qx qy qz qw l0 l1 l2 l3]. intros H.
  assert (Hw : w * w = 1 - x * x - y * y - z * z) by lra. clear H.
  rewrite rotate_explicit. unfold quat_transform_vector, vec3_cross, splat_w. nr.
  f_equal; ring [Hw].
Qed.
Lemma rotate_dot q v u : unitq q -> dot3 (rotate q v) (rotate q u) = dot3 v u.
Proof.
  intros H. transitivity (norm2 q * norm2 q * dot3 v u); [|rewrite H; ring]. clear H.
  destruct q as [q0 q1 q2 q3], v as [v0 v1 v2], u as [u0 u1 u2]. rewrite !rotate_explicit. unfold dot3, norm2. cbn [vx vy vz qx qy qz qw]. ring.
Qed.

(** ** quat_from_vectors *)
Lemma quat_normalize_unit q : norm2 (q_of q) <> 0 ->
  unitq (q_of (quat_normalize q)) /\
  forall v, rotate (q_of (quat_normalize q)) v = scale3 (/ norm2 (q_of q)) (rotate (q_of q) v).
Proof.
  destruct q as [x y z w]. intros H.
  assert (P : 0 < norm2 (Q4 x y z w)).
  { unfold norm2, q_of in *. cbn in *. assert (0 <= x*x+y*y+z*z+w*w) by nra. lra. }
  set (n := norm2 (Q4 x y z w)) in *.
  assert (En : forall k, lane (quat_normalize (mk4 x y z w)) k = lane (mk4 x y z w) k * / sqrt n).
  { intros k. rewrite <- (nrecip_R (sqrt n)).
    destruct k as [|[|[|k]]]; reflexivity. }
  set (k := / sqrt n) in *.
  assert (Hk : k * k = / n).
  { unfold k. rewrite <- Rinv_mult. rewrite sqrt_sqrt by lra. reflexivity. }
  assert (E : q_of (quat_normalize (mk4 x y z w)) = Q4 (x * k) (y * k) (z * k) (w * k)).
  { unfold q_of. pose proof (En 0%nat) as E0. pose proof (En 1%nat) as E1. pose proof (En 2%nat) as E2. pose proof (En 3%nat) as E3.
    cbn [lane] in *. rewrite E0, E1, E2, E3. reflexivity. }
  rewrite E. split.
  - unfold unitq. transitivity (k * k * n). 
    + unfold n, norm2. cbn. ring.
    + rewrite Hk. field. lra.
  - intros v. change (norm2 (q_of (mk4 x y z w))) with n. rewrite <- Hk.
    destruct v as [v0 v1 v2]. rewrite !rotate_explicit. unfold scale3, q_of. cbn [vx vy vz qx qy qz qw l0 l1 l2 l3]. f_equal; ring.
Qed.

(** The threshold 1.0e-6f32. *)
Definition TH : R := 8796093 / 2 ^ 43.
Lemma TH_eq : n1em6 = TH.
Proof. unfold n1em6, TH. cbn [nlit Rarith num_arith Rnum]. unfold powerRZ. simpl. lra. Qed.
Lemma TH_bound : 9 / 10000000 < TH < 11 / 10000000.
Proof. unfold TH. simpl. lra. Qed.

Section FromVectors.
  Variables from to : V4 R.
  Let a := v3_of from.
  Let b := v3_of to.
  Let nn := sqrt (dot3 a a * dot3 b b).

  Lemma dot_s_l0 u v : l0 (vec3_dot_s u v) = dot3 (v3_of u) (v3_of v).
  Proof. destruct u, v. reflexivity. Qed.
  Lemma nn_l0 : l0 (nsqrt (vec3_length2_s from * vec3_length2_s to)%num) = nn.
  Proof. unfold nn, a, b. rewrite <- !dot_s_l0. reflexivity. Qed.
  Lemma qfv_eq : quat_from_vectors from to =
    if Rltb nn TH then QUAT_UNIT
    else quat_normalize
      (if Rltb (nn + dot3 a b) (TH * nn)
       then if Rltb (Rabs (vz a)) (Rabs (vx a)) then mk4 (- vy a) (vx a) 0 0 else mk4 0 (- vz a) (vy a) 0
       else mk4 (vx (cross3 a b)) (vy (cross3 a b)) (vz (cross3 a b)) (nn + dot3 a b)).
  Proof.
    unfold quat_from_vectors. cbv zeta. change (@num_arith R Rnum) with Rarith. rewrite !nn_l0. rewrite TH_eq.
    change (nlt nn TH) with (Rltb nn TH). destruct (Rltb nn TH); [reflexivity|].
    assert (Er : l0 (nsqrt (vec3_length2_s from * vec3_length2_s to) + vec3_dot_s from to)%num = nn + dot3 a b).
    { rewrite <- nn_l0. unfold a, b. rewrite <- dot_s_l0. reflexivity. }
    rewrite Er. change (nlt (nn + dot3 a b) (TH * nn)%num) with (Rltb (nn + dot3 a b) (TH * nn)).
    destruct (Rltb (nn + dot3 a b) (TH * nn)).
    - change (nlt (nabs (l2 from)) (nabs (l0 from))) with (Rltb (Rabs (vz a)) (Rabs (vx a))). lits. reflexivity.
    - f_equal. unfold set_w, swz2, lane2. cbn [Nat.ltb Nat.leb Nat.sub lane]. rewrite Er.
      unfold a, b. destruct from, to. unfold vec3_cross, cross3, v3_of. nr. f_equal; ring.
  Qed.

  Hypothesis Hnn : TH <= nn.
  Lemma nn_pos : 0 < nn. Proof. pose proof TH_bound. lra. Qed.
  Lemma nn_sq : nn * nn = dot3 a a * dot3 b b.
  Proof.
    unfold nn. apply sqrt_sqrt. apply Rmult_le_pos; unfold dot3; nra.
  Qed.
  Lemma dot_nonneg u : 0 <= dot3 u u. Proof. unfold dot3. nra. Qed.
  Lemma aa_pos : 0 < dot3 a a /\ 0 < dot3 b b.
  Proof.
    pose proof nn_pos. pose proof nn_sq. pose proof (dot_nonneg a). pose proof (dot_nonneg b). split.
    - destruct (Req_dec (dot3 a a) 0) as [E|E]; [rewrite E in *; nra|lra].
    - destruct (Req_dec (dot3 b b) 0) as [E|E]; [rewrite E in *; nra|lra].
  Qed.
  Lemma nn_len : nn = len3 a * len3 b.
  Proof. unfold nn, len3. apply sqrt_mult; apply dot_nonneg. Qed.
  Lemma len_sq u : len3 u * len3 u = dot3 u u.
  Proof. unfold len3. apply sqrt_sqrt, dot_nonneg. Qed.
  Lemma len_pos : 0 < len3 a /\ 0 < len3 b.
  Proof. destruct aa_pos. split; apply sqrt_lt_R0; assumption. Qed.

  (** Cauchy-Schwarz *)
  Lemma lagrange : dot3 a b * dot3 a b + dot3 (cross3 a b) (cross3 a b) = nn * nn.
  Proof. rewrite nn_sq. unfold dot3, cross3. cbn. ring. Qed.
  Lemma dot_ge : - nn <= dot3 a b.
  Proof.
    pose proof lagrange. pose proof (dot_nonneg (cross3 a b)). pose proof nn_pos.
    assert (dot3 a b * dot3 a b <= nn * nn) by lra. nra.
  Qed.

  Lemma main_branch : TH * nn <= nn + dot3 a b ->
    let q := mk4 (vx (cross3 a b)) (vy (cross3 a b)) (vz (cross3 a b)) (nn + dot3 a b) in
    norm2 (q_of q) <> 0 /\
    scale3 (/ norm2 (q_of q)) (rotate (q_of q) a) = scale3 (len3 a / len3 b) b.
  Proof.
    intros Hr. cbv zeta. set (q := Q4 (vx (cross3 a b)) (vy (cross3 a b)) (vz (cross3 a b)) (nn + dot3 a b)).
    change (q_of _) with q. pose proof nn_pos as Np. pose proof TH_bound as T.
    assert (Rp : 0 < nn + dot3 a b) by nra.
    assert (N : norm2 q = 2 * nn * (nn + dot3 a b)).
    { transitivity (dot3 (cross3 a b) (cross3 a b) + (nn + dot3 a b) * (nn + dot3 a b)); [reflexivity|].
      pose proof lagrange. nra. }
    rewrite N. split; [nra|].
    assert (R : rotate q a = scale3 (2 * (nn + dot3 a b) * dot3 a a) b).
    { rewrite rotate_explicit. unfold q, scale3. cbn [qx qy qz qw].
      pose proof nn_sq as Nq. set (n := nn) in *. clearbody n. clear - Nq.
      unfold a, b in *. destruct from as [a0 a1 a2 a3], to as [b0 b1 b2 b3].
      unfold v3_of, dot3, cross3 in *. cbn [vx vy vz l0 l1 l2 l3] in *.
      f_equal; ring [Nq]. }
    rewrite R. destruct len_pos as [La Lb]. rewrite nn_len in *.
    rewrite <- (len_sq a). unfold scale3. cbn [vx vy vz].
    f_equal; field; split; nra.
  Qed.

  Lemma opposite_branch (q : V4 R) :
    q = (if Rltb (Rabs (vz a)) (Rabs (vx a)) then mk4 (- vy a) (vx a) 0 0 else mk4 0 (- vz a) (vy a) 0) ->
    norm2 (q_of q) <> 0 /\ scale3 (/ norm2 (q_of q)) (rotate (q_of q) a) = neg3 a.
  Proof.
    intros Eq. destruct aa_pos as [Ap _]. destruct a as [x y z]. unfold dot3 in Ap. cbn [vx vy vz] in *.
    assert (N : norm2 (q_of q) <> 0 /\ rotate (q_of q) (V3 x y z) = scale3 (- norm2 (q_of q)) (V3 x y z)).
    { subst q. destruct (Rltb_spec (Rabs z) (Rabs x)) as [L|L].
      - unfold q_of, norm2, scale3. rewrite rotate_explicit. cbn [qx qy qz qw l0 l1 l2 l3 vx vy vz]. split.
        + assert (x <> 0). { intros ->. rewrite Rabs_R0 in L. pose proof (Rabs_pos z). lra. } nra.
        + f_equal; ring.
      - unfold q_of, norm2, scale3. rewrite rotate_explicit. cbn [qx qy qz qw l0 l1 l2 l3 vx vy vz]. split.
        + intros H. assert (z = 0 /\ y = 0) by nra. destruct H0 as [-> ->].
          rewrite Rabs_R0 in L. assert (x <> 0) by nra. pose proof (Rabs_pos_lt x H0). lra.
        + f_equal; ring. }
    destruct N as [N E]. split; [exact N|]. rewrite E. unfold neg3, scale3. cbn [vx vy vz].
    f_equal; field; exact N.
  Qed.
End FromVectors.
