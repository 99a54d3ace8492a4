(** One row of a matrix product, for near-rigid matrices. *)
From Coq Require Import Reals Lra Lia Psatz.
From Flocq Require Import Core.Core IEEE754.BinarySingleNaN.
From Verif Require Import Base Num NumF32 Math KeysSpec F32Facts F32Err InterpF32 NormF32 BlendF32 BlendF32Props RigidSpec RigidF32.
Local Open Scope R_scope.

Lemma entry_mul (m o : mat4 f32) r c : (r < 4)%nat -> (c < 4)%nat ->
  entry (mat_mul m o) r c =
  nadd (nadd (nmul (entry o 1 c) (entry m r 1)) (nmul (entry o 0 c) (entry m r 0)))
       (nadd (nmul (entry o 3 c) (entry m r 3)) (nmul (entry o 2 c) (entry m r 2))).
Proof.
  intros Hr Hc. destruct r as [|[|[|[|r]]]]; [..|lia]; (destruct c as [|[|[|[|c]]]]; [..|lia]); reflexivity.
Qed.

Lemma dot4_err o0 o1 o2 o3 m0 m1 m2 m3 b0 b1 b2 b3 a0 a1 a2 a3 S :
  fin o0 b0 -> fin o1 b1 -> fin o2 b2 -> fin o3 b3 -> fin m0 a0 -> fin m1 a1 -> fin m2 a2 -> fin m3 a3 ->
  Rabs (b0 * a0) + Rabs (b1 * a1) + Rabs (b2 * a2) + Rabs (b3 * a3) <= S -> S <= p2 100 ->
  exists r, fin (nadd (nadd (nmul o1 m1) (nmul o0 m0)) (nadd (nmul o3 m3) (nmul o2 m2))) r /\
    Rabs (r - (b0 * a0 + b1 * a1 + b2 * a2 + b3 * a3)) <= 3.1 * eps * S + 5 * tiny.
Proof.
  intros O0 O1 O2 O3 M0 M1 M2 M3 HS HB.
  pose proof (Rabs_pos (b0 * a0)) as P0. pose proof (Rabs_pos (b1 * a1)) as P1. pose proof (Rabs_pos (b2 * a2)) as P2. pose proof (Rabs_pos (b3 * a3)) as P3.
  assert (HG : 4 * p2 100 <= HUGE).
  { assert (E : p2 102 = 4 * p2 100) by (change 102%Z with (2 + 100)%Z; rewrite bpow_plus; reflexivity).
    rewrite <- E. apply bpow_le. lia. }
  pose proof (p2_pos 100) as PP. pose proof tiny_eps as TE.
  assert (P1' : 1 <= p2 100) by (change 1 with (bpow radix2 0); apply bpow_le; lia).
  destruct (err_mul _ _ _ _ O0 M0 ltac:(lra)) as (p0 & F0 & E0). destruct (err_mul _ _ _ _ O1 M1 ltac:(lra)) as (p1 & F1 & E1).
  destruct (err_mul _ _ _ _ O2 M2 ltac:(lra)) as (p2' & F2 & E2). destruct (err_mul _ _ _ _ O3 M3 ltac:(lra)) as (p3 & F3 & E3).
  assert (BB : forall p v, Rabs (p - v) <= eps * Rabs v + tiny -> Rabs p <= 1.01 * Rabs v + 1).
  { intros p v H. replace p with (v + (p - v)) by ring. eapply Rle_trans; [apply Rabs_triang|]. pose proof (Rabs_pos v). unfold eps in *. lra. }
  pose proof (BB _ _ E0) as B0. pose proof (BB _ _ E1) as B1. pose proof (BB _ _ E2) as B2. pose proof (BB _ _ E3) as B3.
  destruct (err_add _ _ _ _ (b1 * a1) (b0 * a0) (Rabs (b1 * a1)) (Rabs (b0 * a0)) eps tiny tiny F1 F0) as (q1 & G1 & H1); auto;
    try (eapply Rle_trans; [apply Rabs_triang|]; lra); try lra; try (unfold eps; lra); try (unfold eps in *; lra).
  destruct (err_add _ _ _ _ (b3 * a3) (b2 * a2) (Rabs (b3 * a3)) (Rabs (b2 * a2)) eps tiny tiny F3 F2) as (q2 & G2 & H2); auto;
    try (eapply Rle_trans; [apply Rabs_triang|]; lra); try lra; try (unfold eps; lra); try (unfold eps in *; lra).
  assert (Q1 : Rabs (b1 * a1 + b0 * a0) <= Rabs (b1 * a1) + Rabs (b0 * a0)) by apply Rabs_triang.
  assert (Q2 : Rabs (b3 * a3 + b2 * a2) <= Rabs (b3 * a3) + Rabs (b2 * a2)) by apply Rabs_triang.
  assert (C1 : Rabs q1 <= 1.01 * (Rabs (b1 * a1) + Rabs (b0 * a0)) + 0.1).
  { replace q1 with ((b1 * a1 + b0 * a0) + (q1 - (b1 * a1 + b0 * a0))) by ring. eapply Rle_trans; [apply Rabs_triang|]. unfold eps in *. lra. }
  assert (C2 : Rabs q2 <= 1.01 * (Rabs (b3 * a3) + Rabs (b2 * a2)) + 0.1).
  { replace q2 with ((b3 * a3 + b2 * a2) + (q2 - (b3 * a3 + b2 * a2))) by ring. eapply Rle_trans; [apply Rabs_triang|]. unfold eps in *. lra. }
  destruct (err_add _ _ _ _ (b1 * a1 + b0 * a0) (b3 * a3 + b2 * a2) (Rabs (b1 * a1) + Rabs (b0 * a0)) (Rabs (b3 * a3) + Rabs (b2 * a2))
    (eps + 1.001 * eps) (1.001 * (tiny + tiny)) (1.001 * (tiny + tiny)) G1 G2) as (r & G & H); auto;
    try (eapply Rle_trans; [apply Rabs_triang|]; lra); try lra; try (unfold eps; lra).
  exists r. split; [exact G|].
  replace (b0 * a0 + b1 * a1 + b2 * a2 + b3 * a3) with (b1 * a1 + b0 * a0 + (b3 * a3 + b2 * a2)) by ring.
  eapply Rle_trans; [exact H|]. unfold eps in *. lra.
Qed.

(** ** Length of a vector *)
Definition n3 (x y z : R) : R := sqrt (x * x + y * y + z * z).
Lemma n3_pos x y z : 0 <= n3 x y z. Proof. apply sqrt_pos. Qed.
Lemma n3_sq x y z : n3 x y z * n3 x y z = x * x + y * y + z * z.
Proof. apply sqrt_sqrt. nra. Qed.
Lemma n3_le x y z b : 0 <= b -> x * x + y * y + z * z <= b * b -> n3 x y z <= b.
Proof. intros Hb H. unfold n3. rewrite <- (sqrt_square b) by exact Hb. apply sqrt_le_1_alt, H. Qed.
Lemma n3_cs x y z x' y' z' : Rabs (x * x' + y * y' + z * z') <= n3 x y z * n3 x' y' z'.
Proof.
  apply Rsqr_incr_0_var; [|apply Rmult_le_pos; apply n3_pos].
  rewrite <- Rsqr_abs. unfold Rsqr.
  replace (n3 x y z * n3 x' y' z' * (n3 x y z * n3 x' y' z')) with ((n3 x y z * n3 x y z) * (n3 x' y' z' * n3 x' y' z')) by ring.
  rewrite !n3_sq.
  pose proof (Rle_0_sqr (x * y' - y * x')). pose proof (Rle_0_sqr (x * z' - z * x')). pose proof (Rle_0_sqr (y * z' - z * y')). unfold Rsqr in *. lra.
Qed.
Lemma n3_triang x y z x' y' z' : n3 (x + x') (y + y') (z + z') <= n3 x y z + n3 x' y' z'.
Proof.
  pose proof (n3_pos x y z). pose proof (n3_pos x' y' z'). apply n3_le; [lra|].
  pose proof (n3_cs x y z x' y' z') as C. apply Rabs_le_inv in C.
  pose proof (n3_sq x y z). pose proof (n3_sq x' y' z').
  replace ((n3 x y z + n3 x' y' z') * (n3 x y z + n3 x' y' z')) with (n3 x y z * n3 x y z + n3 x' y' z' * n3 x' y' z' + 2 * (n3 x y z * n3 x' y' z')) by ring.
  lra.
Qed.
Lemma n3_entry x y z : Rabs x <= n3 x y z /\ Rabs y <= n3 x y z /\ Rabs z <= n3 x y z.
Proof.
  assert (H : forall a, a * a <= x * x + y * y + z * z -> Rabs a <= n3 x y z).
  { intros a Ha. rewrite <- sqrt_Rsqr_abs. apply sqrt_le_1_alt. unfold Rsqr. exact Ha. }
  repeat split; apply H; nra.
Qed.
Lemma n3_box x y z b : Rabs x <= b -> Rabs y <= b -> Rabs z <= b -> n3 x y z <= 1.7321 * b.
Proof.
  intros H1 H2 H3. assert (Hb : 0 <= b) by (pose proof (Rabs_pos x); lra).
  assert (Q : forall a, Rabs a <= b -> a * a <= b * b) by (intros a Ha; apply Rabs_le_inv in Ha; nra).
  apply n3_le; [lra|]. pose proof (Q _ H1). pose proof (Q _ H2). pose proof (Q _ H3). nra.
Qed.
Lemma n3_sum x y z : Rabs x + Rabs y + Rabs z <= 1.7321 * n3 x y z.
Proof.
  pose proof (n3_cs (Rabs x) (Rabs y) (Rabs z) 1 1 1) as C.
  assert (E : n3 (Rabs x) (Rabs y) (Rabs z) = n3 x y z).
  { unfold n3. f_equal. rewrite <- !Rabs_mult, !Rabs_pos_eq by nra. reflexivity. }
  assert (L : n3 1 1 1 <= 1.7321) by (apply n3_le; lra).
  pose proof (n3_pos x y z). apply Rabs_le_inv in C. rewrite E in C. nra.
Qed.

(** ** One step down a chain, for one row *)
Definition row_inv (e len D : R) (m : mat4 f32) (r : nat) (u0 u1 u2 v : R) : Prop :=
  exists a0 a1 a2 p, fin (entry m r 0) a0 /\ fin (entry m r 1) a1 /\ fin (entry m r 2) a2 /\ fin (entry m r 3) p /\
    n3 (a0 - u0) (a1 - u1) (a2 - u2) <= 16 * D * e /\ Rabs (p - v) <= 10 * (D * D) * e * len /\
    u0 * u0 + u1 * u1 + u2 * u2 = 1 /\ Rabs v <= D * len.
Lemma rotation_rows x y z w : x * x + y * y + z * z + w * w <> 0 -> is_rotation (rotation x y z w).
Proof.
  intros N. split.
  - intros i j Hi Hj. unfold sum3.
    destruct i as [|[|[|i]]]; [..|lia]; (destruct j as [|[|[|j]]]; [..|lia]); cbn [rotation Nat.eqb]; cbv zeta; field; exact N.
  - unfold det3. cbn [rotation]. cbv zeta. field. exact N.
Qed.
Lemma rotation_cols x y z w : x * x + y * y + z * z + w * w <> 0 ->
  forall i j, (i < 3)%nat -> (j < 3)%nat -> sum3 (fun k => rotation x y z w k i * rotation x y z w k j) = if Nat.eqb i j then 1 else 0.
Proof.
  intros N i j Hi Hj. unfold sum3.
  destruct i as [|[|[|i]]]; [..|lia]; (destruct j as [|[|[|j]]]; [..|lia]); cbn [rotation Nat.eqb]; cbv zeta; field; exact N.
Qed.
(** A row times a rotation keeps its length. *)
Lemma rotate_norm q u0 u1 u2 : is_rotation q ->
  n3 (u0 * q 0%nat 0%nat + u1 * q 1%nat 0%nat + u2 * q 2%nat 0%nat) (u0 * q 0%nat 1%nat + u1 * q 1%nat 1%nat + u2 * q 2%nat 1%nat)
     (u0 * q 0%nat 2%nat + u1 * q 1%nat 2%nat + u2 * q 2%nat 2%nat) = n3 u0 u1 u2.
Proof.
  intros [H _]. unfold n3. f_equal. unfold sum3 in H.
  pose proof (H 0 0 ltac:(lia) ltac:(lia))%nat as H00. pose proof (H 0 1 ltac:(lia) ltac:(lia))%nat as H01. pose proof (H 0 2 ltac:(lia) ltac:(lia))%nat as H02.
  pose proof (H 1 1 ltac:(lia) ltac:(lia))%nat as H11. pose proof (H 1 2 ltac:(lia) ltac:(lia))%nat as H12. pose proof (H 2 2 ltac:(lia) ltac:(lia))%nat as H22.
  cbn [Nat.eqb] in *. clear H.
  set (a := q 0%nat 0%nat) in *. set (b := q 0%nat 1%nat) in *. set (c := q 0%nat 2%nat) in *.
  set (a' := q 1%nat 0%nat) in *. set (b' := q 1%nat 1%nat) in *. set (c' := q 1%nat 2%nat) in *.
  set (a'' := q 2%nat 0%nat) in *. set (b'' := q 2%nat 1%nat) in *. set (c'' := q 2%nat 2%nat) in *.
  transitivity (u0 * u0 * (a * a + b * b + c * c) + u1 * u1 * (a' * a' + b' * b' + c' * c') + u2 * u2 * (a'' * a'' + b'' * b'' + c'' * c'')
    + 2 * (u0 * u1) * (a * a' + b * b' + c * c') + 2 * (u0 * u2) * (a * a'' + b * b'' + c * c'') + 2 * (u1 * u2) * (a' * a'' + b' * b'' + c' * c'')); [ring|].
  rewrite H00, H01, H02, H11, H12, H22. ring.
Qed.

Section Step.
  Variables (e len D : R) (m : mat4 f32) (t : transform f32) (r : nat) (u0 u1 u2 v : R).
  Hypotheses (He : / 1048576 <= e) (HD : 0 <= D) (HDe : D * e <= / 128) (He1 : e <= / 128) (HL : p2 (-60) <= len <= p2 60) (HD1 : D <= 10000000).
  Hypotheses (Hr : (r < 3)%nat) (HT : near_rigid e len t) (HI : row_inv e len D m r u0 u1 u2 v).
  Notation q := (turn_of (joint_motion t)).
  Notation mv := (move_of (joint_motion t)).
  Let w0 := u0 * q 0%nat 0%nat + u1 * q 1%nat 0%nat + u2 * q 2%nat 0%nat.
  Let w1 := u0 * q 0%nat 1%nat + u1 * q 1%nat 1%nat + u2 * q 2%nat 1%nat.
  Let w2 := u0 * q 0%nat 2%nat + u1 * q 1%nat 2%nat + u2 * q 2%nat 2%nat.
  Let v' := u0 * mv 0%nat + u1 * mv 1%nat + u2 * mv 2%nat + v.

  Lemma q_rot : is_rotation q.
  Proof using HT He1.
    destruct HT as (_ & _ & _ & _ & Hn & _). apply Rabs_le_inv in Hn. unfold sumsq in Hn.
    cbn [joint_motion turn_of]. apply rotation_rows. lra.
  Qed.
  Lemma col_zero c : (c < 3)%nat -> fin (entry (matrix_of t) 3 c) 0.
  Proof using. clear Hr. intros Hc. destruct c as [|[|[|c]]]; [..|lia]; apply fin_zero. Qed.
  Lemma col_move c : (c < 3)%nat -> fin (entry (matrix_of t) c 3) (mv c).
  Proof using HT.
    clear Hr. destruct HT as ((F0 & F1 & F2) & _). intros Hc. destruct c as [|[|[|c]]]; [..|lia]; (split; [assumption|reflexivity]).
  Qed.

  Lemma row_entry a0 a1 a2 p c : fin (entry m r 0) a0 -> fin (entry m r 1) a1 -> fin (entry m r 2) a2 -> fin (entry m r 3) p ->
    n3 a0 a1 a2 <= 1.125 -> (c < 3)%nat ->
    exists x, fin (entry (mat_mul m (matrix_of t)) r c) x /\
      Rabs (x - (a0 * q 0%nat c + a1 * q 1%nat c + a2 * q 2%nat c)) <= 8.7 * e.
  Proof using He He1 Hr HT.
    intros A0 A1 A2 P HA Hc. rewrite entry_mul by lia.
    assert (E' : / 1048576 <= e <= / 100) by lra.
    destruct (matrix_entry e len t 0 c E' HT ltac:(lia) Hc) as (b0 & F0 & B0).
    destruct (matrix_entry e len t 1 c E' HT ltac:(lia) Hc) as (b1 & F1 & B1).
    destruct (matrix_entry e len t 2 c E' HT ltac:(lia) Hc) as (b2 & F2 & B2).
    pose proof (n3_sum a0 a1 a2) as SA. pose proof (n3_entry a0 a1 a2) as (NA0 & NA1 & NA2).
    assert (Q : forall k, (k < 3)%nat -> Rabs (q k c) <= 1).
    { intros k Hk. destruct q_rot as [QR _]. specialize (QR k k Hk Hk). rewrite Nat.eqb_refl in QR. unfold sum3 in QR.
      apply Rabs_le. destruct c as [|[|[|c]]]; [..|lia]; split; nra. }
    assert (BB : forall k b, (k < 3)%nat -> Rabs (b - q k c) <= 4.2 * e -> Rabs b <= 1.04).
    { intros k b Hk H. replace b with (q k c + (b - q k c)) by ring. eapply Rle_trans; [apply Rabs_triang|]. pose proof (Q k Hk). lra. }
    assert (M : forall b a, Rabs b <= 1.04 -> Rabs (b * a) <= 1.04 * Rabs a).
    { intros b a H. rewrite Rabs_mult. apply Rmult_le_compat_r; [apply Rabs_pos|exact H]. }
    pose proof (M b0 a0 (BB 0%nat b0 ltac:(lia) B0)) as M0. pose proof (M b1 a1 (BB 1%nat b1 ltac:(lia) B1)) as M1. pose proof (M b2 a2 (BB 2%nat b2 ltac:(lia) B2)) as M2.
    assert (Z3 : Rabs (0 * p) = 0) by (rewrite Rmult_0_l; apply Rabs_R0).
    assert (PB : 3 <= p2 100) by (apply Rle_trans with (p2 2); [simpl; lra|apply bpow_le; lia]).
    destruct (dot4_err _ _ _ _ _ _ _ _ _ _ _ _ _ _ _ _ 2.1 F0 F1 F2 (col_zero c Hc) A0 A1 A2 P) as (x & Fx & Ex); [lra|lra|].
    exists x. split; [exact Fx|].
    assert (DD : forall b k a, Rabs (b - q k c) <= 4.2 * e -> Rabs (b * a - a * q k c) <= 4.2 * e * Rabs a).
    { intros b k a H. replace (b * a - a * q k c) with ((b - q k c) * a) by ring. rewrite Rabs_mult. apply Rmult_le_compat_r; [apply Rabs_pos|exact H]. }
    pose proof (DD _ _ a0 B0) as D0. pose proof (DD _ _ a1 B1) as D1. pose proof (DD _ _ a2 B2) as D2.
    assert (DS : 4.2 * e * Rabs a0 + 4.2 * e * Rabs a1 + 4.2 * e * Rabs a2 <= 4.2 * e * (1.7321 * 1.125)).
    { rewrite <- !Rmult_plus_distr_l. apply Rmult_le_compat_l; lra. }
    apply Rabs_le_inv in D0. apply Rabs_le_inv in D1. apply Rabs_le_inv in D2. apply Rabs_le_inv in Ex. pose proof tiny_eps as TE.
    apply Rabs_le. unfold eps in *. lra.
  Qed.

  Lemma row_step : row_inv e len (D + 1) (mat_mul m (matrix_of t)) r w0 w1 w2 v'.
  Proof using He He1 Hr HT HI HD HDe HL HD1.
    destruct HI as (a0 & a1 & a2 & p & A0 & A1 & A2 & P & HA & HP & HU & HV).
    assert (NU : n3 u0 u1 u2 = 1) by (unfold n3; rewrite HU; apply sqrt_1).
    assert (NA : n3 a0 a1 a2 <= 1.125).
    { replace a0 with (u0 + (a0 - u0)) by ring. replace a1 with (u1 + (a1 - u1)) by ring. replace a2 with (u2 + (a2 - u2)) by ring.
      eapply Rle_trans; [apply n3_triang|]. lra. }
    destruct (row_entry a0 a1 a2 p 0 A0 A1 A2 P NA ltac:(lia)) as (x0 & X0 & E0).
    destruct (row_entry a0 a1 a2 p 1 A0 A1 A2 P NA ltac:(lia)) as (x1 & X1 & E1).
    destruct (row_entry a0 a1 a2 p 2 A0 A1 A2 P NA ltac:(lia)) as (x2 & X2 & E2).
    pose proof q_rot as QR.
    assert (LP : 0 < len) by (pose proof (p2_pos (-60)); lra).
    assert (NT : n3 (mv 0%nat) (mv 1%nat) (mv 2%nat) <= len) by (apply n3_le; [lra|]; apply HT).
    (* the position *)
    assert (HX : exists x3, fin (entry (mat_mul m (matrix_of t)) r 3) x3 /\ Rabs (x3 - v') <= 10 * ((D + 1) * (D + 1)) * e * len).
    { rewrite entry_mul by lia.
      pose proof (n3_cs (Rabs (mv 0%nat)) (Rabs (mv 1%nat)) (Rabs (mv 2%nat)) (Rabs a0) (Rabs a1) (Rabs a2)) as CS.
      assert (AB : forall x y z, n3 (Rabs x) (Rabs y) (Rabs z) = n3 x y z).
      { intros x y z. unfold n3. f_equal. rewrite <- !Rabs_mult, !Rabs_pos_eq by nra. reflexivity. }
      rewrite !AB, <- !Rabs_mult in CS. apply Rabs_le_inv in CS. destruct CS as [_ CS].
      assert (CS' : n3 (mv 0%nat) (mv 1%nat) (mv 2%nat) * n3 a0 a1 a2 <= len * 1.125) by (apply Rmult_le_compat; auto using n3_pos).
      assert (EL : 0 <= e * len) by (apply Rmult_le_pos; lra).
      assert (DL : 0 <= D * len) by (apply Rmult_le_pos; lra).
      assert (DEL : D * e * len <= / 128 * len) by (apply Rmult_le_compat_r; lra).
      assert (DEL0 : 0 <= D * e * len) by (rewrite Rmult_assoc; apply Rmult_le_pos; lra).
      assert (DDEL : 10 * (D * D) * e * len <= 10 / 128 * (D * len)).
      { replace (10 * (D * D) * e * len) with (10 * (D * e * (D * len))) by ring. 
        assert (D * e * (D * len) <= / 128 * (D * len)) by (apply Rmult_le_compat_r; lra). lra. }
      assert (BP : Rabs p <= 1.08 * (D * len)).
      { replace p with (v + (p - v)) by ring. eapply Rle_trans; [apply Rabs_triang|]. lra. }
      assert (M1 : Rabs (1 * p) = Rabs p) by (rewrite Rmult_1_l; reflexivity).
      assert (BIGL : len * 1.125 + 1.08 * (D * len) <= p2 100).
      { assert (E2' : p2 100 = 1099511627776 * p2 60) by (change 100%Z with (40 + 60)%Z; rewrite bpow_plus; reflexivity).
        pose proof (p2_pos 60). assert (D * len <= 10000000 * p2 60) by (apply Rmult_le_compat; lra). lra. }
      destruct (dot4_err _ _ _ _ _ _ _ _ _ _ _ _ _ _ _ _ (len * 1.125 + 1.08 * (D * len)) (col_move 0 ltac:(lia)) (col_move 1 ltac:(lia)) (col_move 2 ltac:(lia))
        (fin_one : fin (entry (matrix_of t) 3 3) 1) A0 A1 A2 P) as (x3 & F3 & E3); [lra|exact BIGL|].
      exists x3. split; [exact F3|].
      pose proof (n3_cs (a0 - u0) (a1 - u1) (a2 - u2) (mv 0%nat) (mv 1%nat) (mv 2%nat)) as CD.
      assert (CD' : n3 (a0 - u0) (a1 - u1) (a2 - u2) * n3 (mv 0%nat) (mv 1%nat) (mv 2%nat) <= 16 * D * e * len) by (apply Rmult_le_compat; auto using n3_pos).
      assert (TL : 5 * tiny <= / 100 * (e * len)).
      { assert (T1 : tiny = p2 (-90) * p2 (-60)) by (unfold tiny; rewrite <- bpow_plus; reflexivity).
        assert (T2 : p2 (-90) <= / 1000000000000) by (apply Rle_trans with (p2 (-40)); [apply bpow_le; lia|simpl; lra]).
        pose proof (p2_pos (-60)). pose proof (p2_pos (-90)).
        assert (T3 : p2 (-90) * p2 (-60) <= / 1000000000000 * len) by (apply Rmult_le_compat; lra).
        assert (T4 : / 1048576 * len <= e * len) by (apply Rmult_le_compat_r; lra). lra. }
      assert (EP : 3.1 * eps * (len * 1.125 + 1.08 * (D * len)) <= 0.22 * (e * len) + 0.22 * (D * e * len)).
      { assert (X1' : / 1048576 * len <= e * len) by (apply Rmult_le_compat_r; lra).
        assert (X2' : / 1048576 * (D * len) <= e * (D * len)) by (apply Rmult_le_compat_r; lra).
        replace (D * e * len) with (e * (D * len)) by ring. unfold eps. lra. }
      apply Rabs_le_inv in E3. apply Rabs_le_inv in CD. apply Rabs_le_inv in HP.
      assert (VV : v' = (mv 0%nat * a0 + mv 1%nat * a1 + mv 2%nat * a2 + 1 * p)
                  - ((a0 - u0) * mv 0%nat + (a1 - u1) * mv 1%nat + (a2 - u2) * mv 2%nat) - (p - v)) by (unfold v'; ring).
      assert (GO : 10 * ((D + 1) * (D + 1)) * e * len = 10 * (D * D) * e * len + 20 * (D * e * len) + 10 * (e * len)) by ring.
      rewrite GO. apply Rabs_le. lra. }
    destruct HX as (x3 & X3 & E3).
    exists x0, x1, x2, x3. split; [exact X0|]. split; [exact X1|]. split; [exact X2|]. split; [exact X3|].
    split; [|split; [exact E3|split]].
    - set (r0 := a0 * q 0%nat 0%nat + a1 * q 1%nat 0%nat + a2 * q 2%nat 0%nat) in *.
      set (r1 := a0 * q 0%nat 1%nat + a1 * q 1%nat 1%nat + a2 * q 2%nat 1%nat) in *.
      set (r2 := a0 * q 0%nat 2%nat + a1 * q 1%nat 2%nat + a2 * q 2%nat 2%nat) in *.
      replace (x0 - w0) with ((r0 - w0) + (x0 - r0)) by ring. replace (x1 - w1) with ((r1 - w1) + (x1 - r1)) by ring.
      replace (x2 - w2) with ((r2 - w2) + (x2 - r2)) by ring.
      eapply Rle_trans; [apply n3_triang|].
      assert (N1 : n3 (r0 - w0) (r1 - w1) (r2 - w2) = n3 (a0 - u0) (a1 - u1) (a2 - u2)).
      { rewrite <- (rotate_norm q (a0 - u0) (a1 - u1) (a2 - u2) QR). unfold r0, r1, r2, w0, w1, w2. f_equal; ring. }
      pose proof (n3_box _ _ _ _ E0 E1 E2) as N2. lra.
    - pose proof (rotate_norm q u0 u1 u2 QR) as N. fold w0 w1 w2 in N. rewrite <- (n3_sq w0 w1 w2), N, NU. ring.
    - unfold v'. eapply Rle_trans; [apply Rabs_triang|].
      pose proof (n3_cs u0 u1 u2 (mv 0%nat) (mv 1%nat) (mv 2%nat)) as C. rewrite NU in C. lra.
  Qed.
End Step.
