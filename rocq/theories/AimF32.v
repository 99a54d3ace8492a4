(** The steps of aim IK in binary32: the rotation taking one vector onto another, half-angle
    quaternions, products. *)
From Coq Require Import Reals Lra Psatz.
From Flocq Require Import IEEE754.BinarySingleNaN Core.
From Verif Require Import Base Num NumF32 NumR F32Facts F32Err InterpF32 NormF32 BlendF32 Math MathSpec MathProofs BlendingSpec AdditiveSpec QuatNorm
  MotionGlam MotionF32 MotionF32Proofs Ik IkSpec IkProofs VecNorm PolyErr MatInvF32.
Local Open Scope R_scope.

Lemma nlt_dec x y a b : fin x a -> fin y b -> nlt x y = (if Rlt_dec a b then true else false).
Proof.
  intros [F <-] [G <-]. change (nlt x y) with (Bltb x y).
  rewrite Bltb_ext by (destruct x, y; try reflexivity; discriminate). rewrite !ext_finite by assumption.
  destruct (Rlt_bool_spec (B2R x) (B2R y)), (Rlt_dec (B2R x) (B2R y)); auto; lra.
Qed.
Ltac use_lt F G :=
  match type of F with fin ?x _ => match type of G with fin ?y _ =>
    match goal with |- context [if nlt ?a ?b then _ else _] => change (nlt a b) with (nlt x y) end end end; rewrite (nlt_dec _ _ _ _ F G).
Definition vq (v : V4 f32) : quat f32 := Q4 (l0 v) (l1 v) (l2 v) (l3 v).
Definition fq (v : V4 f32) (r : quat R) : Prop := finq (vq v) r.
(** Vectors of a usable size. *)
Definition sized (v : vec3 R) : Prop := / 512 <= len3 v <= 4194304.
Lemma sized_comp v : sized v -> Rabs (vx v) <= p2 22 /\ Rabs (vy v) <= p2 22 /\ Rabs (vz v) <= p2 22.
Proof. intros (_ & H). destruct (len3_comp v) as (A & B & C). replace (p2 22) with 4194304 by (simpl; lra). lra. Qed.

(** ** Dot and cross products of two vectors *)
Definition env6 {A} (o : A) (a b c x y z : A) (i : nat) : A := (match i with 0 => a | 1 => b | 2 => c | 3 => x | 4 => y | 5 => z | _ => o end)%nat.
Definition dote (a b c x y z : nat) : expr := Add (Add (Mul (Var a) (Var x)) (Mul (Var b) (Var y))) (Mul (Var c) (Var z)).
Lemma env6_fin (a b : V4 f32) u v : fin4 a u -> fin4 b v -> forall i, fin (env6 nzero (l0 a) (l1 a) (l2 a) (l0 b) (l1 b) (l2 b) i) (env6 0 (vx u) (vy u) (vz u) (vx v) (vy v) (vz v) i).
Proof. intros (A0 & A1 & A2) (B0 & B1 & B2) i. do 6 (destruct i as [|i]; [assumption|]). apply fin_zero. Qed.
Lemma env6_bound u v : sized u -> sized v -> forall i, Rabs (env6 0 (vx u) (vy u) (vz u) (vx v) (vy v) (vz v) i) <= p2 22.
Proof.
  intros Su Sv i. apply sized_comp in Su, Sv. destruct Su as (A0 & A1 & A2), Sv as (B0 & B1 & B2). do 6 (destruct i as [|i]; [assumption|]).
  cbn [env6]. rewrite Rabs_R0. apply bpow_ge_0.
Qed.
Lemma sized_prod u v : sized u -> sized v -> / 262144 <= len3 u * len3 v <= 17592186044416.
Proof. intros (A & B) (C & D). split; [replace (/ 262144) with (/ 512 * / 512) by lra|replace 17592186044416 with (4194304 * 4194304) by lra]; apply Rmult_le_compat; lra. Qed.
Lemma small_under k x : (k <= 70)%Z -> / 1048576 <= x -> p2 k * tiny <= 0.001 * eps * x.
Proof.
  intros Hk Hx. unfold tiny. rewrite <- bpow_plus. apply Rle_trans with (p2 (-80)); [apply bpow_le; lia|].
  apply Rle_trans with (0.001 * eps * / 1048576); [unfold eps; simpl; lra|]. apply Rmult_le_compat_l; [unfold eps; lra|exact Hx].
Qed.
Lemma dot_s_err (a b : V4 f32) u v : fin4 a u -> fin4 b v -> sized u -> sized v ->
  exists d, fin (l0 (vec3_dot_s a b)) d /\ Rabs (d - dot3 u v) <= 3.01 * eps * (len3 u * len3 v).
Proof.
  intros Fa Fb Su Sv. pose proof (env6_fin a b u v Fa Fb) as V. pose proof (env6_bound u v Su Sv) as B. pose proof (sized_prod u v Su Sv) as P.
  change (l0 (vec3_dot_s a b)) with (ev32 (env6 nzero (l0 a) (l1 a) (l2 a) (l0 b) (l1 b) (l2 b)) (dote 0 1 2 3 4 5)).
  set (e := env6 nzero _ _ _ _ _ _) in *. clearbody e.
  destruct (poly_err 22 e _ (dote 0 1 2 3 4 5) ltac:(lia) V B ltac:(vm_compute; reflexivity)) as (d & Fd & _ & Ed).
  exists d. split; [exact Fd|]. change (cost (dote 0 1 2 3 4 5)) with 3%Z in Ed.
  change (evR _ _) with (dot3 u v) in Ed.
  assert (A : evA (env6 0 (vx u) (vy u) (vz u) (vx v) (vy v) (vz v)) (dote 0 1 2 3 4 5) <= len3 u * len3 v).
  { cbn [evA dote env6]. rewrite <- !Rabs_mult. apply dot3_abs. }
  pose proof (small_under (under 22 (dote 0 1 2 3 4 5)) (len3 u * len3 v) ltac:(vm_compute; discriminate) ltac:(lra)) as T.
  eapply Rle_trans; [exact Ed|]. apply Rle_trans with (3 * eta * (len3 u * len3 v) + 0.001 * eps * (len3 u * len3 v)).
  { apply Rplus_le_compat; [apply Rmult_le_compat_l; [unfold eta, eps; lra|exact A]|exact T]. }
  unfold eta, eps. lra.
Qed.
Definition crosse (a b x y : nat) : expr := Sub (Mul (Var a) (Var y)) (Mul (Var x) (Var b)).
Lemma cross_err (a b : V4 f32) u v : fin4 a u -> fin4 b v -> sized u -> sized v ->
  exists c, fin4 (vec3_cross a b) c /\ Rabs (vx c - vx (cross3 u v)) <= 2.01 * eps * (len3 u * len3 v) /\
    Rabs (vy c - vy (cross3 u v)) <= 2.01 * eps * (len3 u * len3 v) /\ Rabs (vz c - vz (cross3 u v)) <= 2.01 * eps * (len3 u * len3 v).
Proof.
  intros Fa Fb Su Sv. pose proof (env6_fin a b u v Fa Fb) as V. pose proof (env6_bound u v Su Sv) as B. pose proof (sized_prod u v Su Sv) as P.
  set (e := env6 nzero (l0 a) (l1 a) (l2 a) (l0 b) (l1 b) (l2 b)) in *. set (r := env6 0 (vx u) (vy u) (vz u) (vx v) (vy v) (vz v)) in *.
  assert (X : forall i j k l, evA r (crosse i j k l) <= len3 u * len3 v -> exists d, fin (ev32 e (crosse i j k l)) d /\ Rabs (d - evR r (crosse i j k l)) <= 2.01 * eps * (len3 u * len3 v)).
  { intros i j k l A. destruct (poly_err 22 e r (crosse i j k l) ltac:(lia) V B ltac:(vm_compute; reflexivity)) as (d & Fd & _ & Ed).
    exists d. split; [exact Fd|]. change (cost (crosse i j k l)) with 2%Z in Ed.
    pose proof (small_under (under 22 (crosse i j k l)) (len3 u * len3 v) ltac:(vm_compute; discriminate) ltac:(lra)) as T.
    eapply Rle_trans; [exact Ed|]. apply Rle_trans with (2 * eta * (len3 u * len3 v) + 0.001 * eps * (len3 u * len3 v)).
    { apply Rplus_le_compat; [apply Rmult_le_compat_l; [unfold eta, eps; lra|exact A]|exact T]. }
    unfold eta, eps. lra. }
  destruct (cross3_abs u v) as (C0 & C1 & C2).
  destruct (X 1 2 4 5)%nat as (c0 & F0 & E0); [unfold r; cbn [evA crosse env6]; rewrite <- !Rabs_mult, (Rmult_comm (vy v)); exact C0|].
  destruct (X 2 0 5 3)%nat as (c1 & F1 & E1); [unfold r; cbn [evA crosse env6]; rewrite <- !Rabs_mult, (Rmult_comm (vz v)); exact C1|].
  destruct (X 0 1 3 4)%nat as (c2 & F2 & E2); [unfold r; cbn [evA crosse env6]; rewrite <- !Rabs_mult, (Rmult_comm (vx v)); exact C2|].
  exists (V3 c0 c1 c2). split; [split; [exact F0|split; [exact F1|exact F2]]|]. cbn [vx vy vz].
  assert (R0 : evR r (crosse 1 2 4 5) = vx (cross3 u v)) by (unfold r; cbn; ring). assert (R1 : evR r (crosse 2 0 5 3) = vy (cross3 u v)) by (unfold r; cbn; ring).
  assert (R2 : evR r (crosse 0 1 3 4) = vz (cross3 u v)) by (unfold r; cbn; ring). rewrite R0 in E0. rewrite R1 in E1. rewrite R2 in E2. auto.
Qed.
(** The product of the two lengths. *)
Lemma lengths_err (a b : V4 f32) u v : fin4 a u -> fin4 b v -> sized u -> sized v ->
  exists n, fin (nsqrt (nmul (l0 (vec3_length2_s a)) (l0 (vec3_length2_s b)))) n /\ Rabs (n - len3 u * len3 v) <= 4.6 * eps * (len3 u * len3 v).
Proof.
  intros Fa Fb Su Sv. pose proof (env6_fin a b u v Fa Fb) as V. pose proof (env6_bound u v Su Sv) as B. pose proof (sized_prod u v Su Sv) as P.
  set (ex := Mul (dote 0 1 2 0 1 2) (dote 3 4 5 3 4 5)).
  change (nmul (l0 (vec3_length2_s a)) (l0 (vec3_length2_s b))) with (ev32 (env6 nzero (l0 a) (l1 a) (l2 a) (l0 b) (l1 b) (l2 b)) ex).
  set (e := env6 nzero _ _ _ _ _ _) in *. clearbody e.
  destruct (poly_err 22 e _ ex ltac:(lia) V B ltac:(vm_compute; reflexivity)) as (d & Fd & _ & Ed).
  change (cost ex) with 7%Z in Ed.
  assert (N0 : 0 < len3 u * len3 v) by lra. set (N := len3 u * len3 v) in *.
  assert (SQ : forall x, Rabs x * Rabs x = x * x) by (intros x; rewrite <- Rabs_mult; apply Rabs_pos_eq; nra).
  assert (ER : evR (env6 0 (vx u) (vy u) (vz u) (vx v) (vy v) (vz v)) ex = N * N).
  { change (dot3 u u * dot3 v v = N * N). rewrite <- !len3_sq. unfold N. ring. }
  assert (EA : evA (env6 0 (vx u) (vy u) (vz u) (vx v) (vy v) (vz v)) ex = N * N).
  { rewrite <- ER. unfold ex. cbn [evA evR dote env6]. rewrite !SQ. reflexivity. }
  rewrite ER, EA in Ed.
  assert (NN : / 1048576 * / 1048576 <= N * N) by (apply Rmult_le_compat; lra).
  assert (T : p2 (under 22 ex) * tiny <= 0.001 * eps * (N * N)).
  { replace (under 22 ex) with 76%Z by (vm_compute; reflexivity). unfold tiny. rewrite <- bpow_plus.
    apply Rle_trans with (0.001 * eps * (/ 1048576 * / 1048576)); [|apply Rmult_le_compat_l; [unfold eps; lra|exact NN]]. unfold eps. simpl. lra. }
  destruct (sqrt_near _ d (N * N) 7.01 Fd ltac:(nra)) as (n & Fn & En).
  - eapply Rle_trans; [|exact NN]. simpl. lra.
  - eapply Rle_trans; [exact Ed|]. unfold eta, eps in *. lra.
  - lra.
  - rewrite sqrt_square in En by lra. exists n. split; [exact Fn|]. eapply Rle_trans; [exact En|]. apply Rmult_le_compat_r; [lra|]. unfold eps. lra.
Qed.

(** ** The rotation taking one vector onto another *)
Lemma normalize_lanes {F} {NF : Num F} (q : V4 F) :
  let n := g_normalize Sequential false (Q4 (l0 q) (l1 q) (l2 q) (l3 q)) in
  l0 (quat_normalize q) = qx n /\ l1 (quat_normalize q) = qy n /\ l2 (quat_normalize q) = qz n /\ l3 (quat_normalize q) = qw n.
Proof. destruct q as [a b c d]. repeat split. Qed.
Lemma normalize_err (q : V4 f32) a : fq q a -> boundq (p2 50) a -> p2 (-64) <= norm2 a ->
  exists r, fq (quat_normalize q) r /\ qn (qsub r (qscale (/ qn a) a)) <= 11 * eps /\ Rabs (norm2 r - 1) <= / 524288.
Proof.
  intros F B N. destruct (g_normalize_err Sequential false _ _ F B N) as (r & Fr & E). exists r. split; [|exact E].
  destruct (normalize_lanes q) as (E0 & E1 & E2 & E3). unfold fq, finq, vq. cbn [qx qy qz qw]. unfold vq in Fr. rewrite E0, E1, E2, E3. exact Fr.
Qed.
Lemma n1em6_fin : fin (n1em6 : f32) (8796093 * / 8796093022208).
Proof.
  change (@n1em6 f32 f32num) with (f32_lit 8796093 (-43)). replace (8796093 * / 8796093022208) with (IZR 8796093 * bpow radix2 (-43)) by (simpl; lra).
  apply fin_lit; lia.
Qed.
Lemma near_one_qn r k : 0 <= k <= / 1000 -> Rabs (norm2 r - 1) <= k -> Rabs (qn r - 1) <= k.
Proof.
  intros K H. apply Rabs_le_inv in H. pose proof (qn_sq r). pose proof (qn_pos r). apply Rabs_le. split; apply Rnot_lt_le; intros L; nra.
Qed.
Lemma qfv_err (from to : V4 f32) u v : fin4 from u -> fin4 to v -> sized u -> sized v ->
  exists r, fq (quat_from_vectors from to) r /\ Rabs (norm2 r - 1) <= / 524288 /\
    len3 (minus3 (rotate r u) (scale3 (len3 u / len3 v) v)) <= 0.0027 * len3 u /\
    (len3 u * len3 v / 8 <= len3 u * len3 v + dot3 u v -> len3 (minus3 (rotate r u) (scale3 (len3 u / len3 v) v)) <= 105 * eps * len3 u).
Proof.
  intros Fa Fb Su Sv. pose proof (sized_prod u v Su Sv) as P.
  destruct (lengths_err from to u v Fa Fb Su Sv) as (n & Fn & En). destruct (dot_s_err from to u v Fa Fb Su Sv) as (d & Fd & Ed).
  destruct (cross_err from to u v Fa Fb Su Sv) as (c & Fc & Ec0 & Ec1 & Ec2).
  assert (Lu : 0 < len3 u) by (destruct Su; lra). assert (Lv : 0 < len3 v) by (destruct Sv; lra).
  pose proof (dot3_le u v) as DL. apply Rabs_le_inv in DL.
  set (N := len3 u * len3 v) in *. set (D := dot3 u v) in *.
  apply Rabs_le_inv in En. apply Rabs_le_inv in Ed.
  assert (NH : 17592186044416 * 3 <= HUGE) by (apply Rle_trans with (p2 46); [simpl; lra|unfold HUGE; apply bpow_le; lia]).

  (* the real part *)
  pose proof (fin_add _ _ _ _ Fn Fd ltac:(apply Rabs_le; unfold eps in *; lra)) as Fr.
  pose proof (rnd_err (n + d)) as Er. set (w := rnd32 (n + d)) in *.
  assert (T0 : tiny <= 0.000001 * eps * N).
  { pose proof (small_under 0 N ltac:(lia) ltac:(lra)) as T. unfold tiny. apply Rle_trans with (0.000001 * eps * / 262144); [unfold eps; simpl; lra|].
    apply Rmult_le_compat_l; [unfold eps; lra|lra]. }
  assert (AB : Rabs (n + d) <= 2.000001 * N) by (apply Rabs_le; unfold eps in *; lra).
  assert (Ew : Rabs (w - (N + D)) <= 9.62 * eps * N).
  { apply Rabs_le_inv in Er. apply Rabs_le. unfold eps in *. lra. }
  (* the threshold *)
  pose proof n1em6_fin as F6. set (k6 := 8796093 * / 8796093022208) in *. assert (K6 : 0.000000999 <= k6 <= 0.000001) by (unfold k6; lra).
  assert (K6N : 0.00000099899 * N <= k6 * n <= 0.000001001 * N) by (unfold eps in *; split; nra).
  pose proof (fin_mul _ _ _ _ F6 Fn ltac:(rewrite Rabs_pos_eq; lra)) as Fk.
  pose proof (rnd_err (k6 * n)) as Ek. rewrite (Rabs_pos_eq (k6 * n)) in Ek by lra. set (h := rnd32 (k6 * n)) in *.
  assert (Hh : 0.0000009989 * N <= h <= 0.0000010011 * N) by (apply Rabs_le_inv in Ek; unfold eps in *; lra).
  (* the branches *)
  unfold quat_from_vectors. cbv zeta.
  change (l0 (nsqrt (vec3_length2_s from * vec3_length2_s to)%num)) with (nsqrt (nmul (l0 (vec3_length2_s from)) (l0 (vec3_length2_s to)))).
  change (l0 (nsqrt (vec3_length2_s from * vec3_length2_s to) + vec3_dot_s from to)%num)
    with (nadd (nsqrt (nmul (l0 (vec3_length2_s from)) (l0 (vec3_length2_s to)))) (l0 (vec3_dot_s from to))).
  rewrite (nlt_dec _ _ _ _ Fn F6). destruct (Rlt_dec n k6) as [X|_]; [exfalso; unfold eps in *; lra|].
  use_lt Fr Fk. destruct (Rlt_dec w h) as [OP|NO].
  - (* nearly opposite *)
    assert (ND : N + D <= 0.0000015746 * N) by (apply Rabs_le_inv in Ew; unfold eps in *; lra).
    set (q := if nlt (nabs (l2 from)) (nabs (l0 from)) then _ else _).
    assert (Q : exists a, fq q a /\ qw a = 0 /\ qx a * vx u + qy a * vy u + qz a * vz u = 0 /\ len3 u * len3 u / 2 <= norm2 a /\ boundq (len3 u) a).
    { destruct Fa as (F0 & F1 & F2). unfold q. pose proof (fin_abs _ _ F2) as A2. pose proof (fin_abs _ _ F0) as A0. use_lt A2 A0. pose proof (len3_sq u) as SQ.
      pose proof (len3_comp u) as (C0 & C1 & C2). pose proof fin_zero as FZ.
      assert (Z : forall x, Rabs x * Rabs x = x * x) by (intros x; rewrite <- Rabs_mult; apply Rabs_pos_eq; nra).
      pose proof (Z (vx u)) as Zx. pose proof (Z (vz u)) as Zz. pose proof (Rabs_pos (vx u)). pose proof (Rabs_pos (vz u)).
      destruct (Rlt_dec (Rabs (vz u)) (Rabs (vx u))) as [LT|GE].
      - exists (Q4 (- vy u) (vx u) 0 0). split; [split; [apply fin_neg, F1|split; [exact F0|split; exact FZ]]|]. cbn [qx qy qz qw].
        split; [reflexivity|]. split; [ring|]. split.
        + rewrite SQ. unfold norm2, dot3. cbn [qx qy qz qw]. nra.
        + unfold boundq. cbn [qx qy qz qw]. rewrite Rabs_Ropp, Rabs_R0. repeat split; auto; lra.
      - exists (Q4 0 (- vz u) (vy u) 0). split; [split; [exact FZ|split; [apply fin_neg, F2|split; [exact F1|exact FZ]]]|]. cbn [qx qy qz qw].
        split; [reflexivity|]. split; [ring|]. split.
        + rewrite SQ. unfold norm2, dot3. cbn [qx qy qz qw]. nra.
        + unfold boundq. cbn [qx qy qz qw]. rewrite Rabs_Ropp, Rabs_R0. repeat split; auto; lra. }
    destruct Q as (a & Fq & W0 & PE & Na & Ba). clearbody q.
    assert (N64 : p2 (-64) <= norm2 a).
    { eapply Rle_trans; [|exact Na]. destruct Su as (S0 & _). apply Rle_trans with (/ 512 * / 512 / 2); [simpl; lra|]. assert (/ 512 * / 512 <= len3 u * len3 u) by (apply Rmult_le_compat; lra). lra. }
    assert (B50 : boundq (p2 50) a).
    { destruct Su as (_ & S1). assert (len3 u <= p2 50) by (apply Rle_trans with (p2 22); [simpl; lra|apply bpow_le; lia]).
      destruct Ba as (B0 & B1 & B2 & B3). repeat split; lra. }
    destruct (normalize_err q a Fq B50 N64) as (r & Frr & Err & Nr). exists r. split; [exact Frr|split; [exact Nr|]].
    pose proof (p2_pos (-64)) as P64. assert (Qa : 0 < qn a) by (unfold qn; apply sqrt_lt_R0; lra).
    set (a1 := qscale (/ qn a) a) in *.
    assert (A1 : rotate a1 u = neg3 u).
    { apply half_turn.
      - unfold a1, qscale. cbn [qw]. rewrite W0. ring.
      - rewrite <- qn_sq. unfold a1. rewrite qn_unit by exact Qa. ring.
      - unfold a1, qscale. cbn [qx qy qz]. transitivity (/ qn a * (qx a * vx u + qy a * vy u + qz a * vz u)); [ring|]. rewrite PE. ring. }
    pose proof (rot_sub r a1 u) as RS. rewrite A1 in RS. unfold a1 in RS at 1. rewrite qn_unit in RS by exact Qa.
    pose proof (near_one_qn r (/ 524288) ltac:(lra) Nr) as QR. apply Rabs_le_inv in QR.
    assert (R1 : len3 (minus3 (rotate r u) (neg3 u)) <= 23 * eps * len3 u).
    { eapply Rle_trans; [exact RS|]. apply Rmult_le_compat_r; [lra|]. apply Rle_trans with (2.001 * (11 * eps)); [|unfold eps; lra].
      apply Rmult_le_compat; [lra|apply qn_pos|lra|exact Err]. }
    pose proof (opposite u v Lu Lv) as OPP. set (dd := len3 (minus3 (neg3 u) (scale3 (len3 u / len3 v) v))) in *.
    assert (DD : dd <= 0.001776 * len3 u).
    { assert (0 <= dd) by apply sqrt_pos. apply Rnot_lt_le. intros L.
      assert (X : 2 * len3 u / len3 v * (N + D) <= 2 * 0.0000015746 * (len3 u * len3 u)).
      { apply Rle_trans with (2 * len3 u / len3 v * (0.0000015746 * N)).
        - apply Rmult_le_compat_l; [|exact ND]. apply Rmult_le_pos; [lra|apply Rlt_le, Rinv_0_lt_compat, Lv].
        - unfold N. apply Req_le. field. lra. }
      fold N in OPP. fold D in OPP. assert (0.001776 * len3 u * (0.001776 * len3 u) < dd * dd) by (apply Rmult_le_0_lt_compat; nra). nra. }
    pose proof (len3_mtri (rotate r u) (neg3 u) (scale3 (len3 u / len3 v) v)) as TR. fold dd in TR.
    split; [unfold eps in *; lra|]. intros G. exfalso. lra.
  - (* not opposite *)
    assert (ND : 0.0000004254 * N <= N + D) by (apply Rabs_le_inv in Ew; unfold eps in *; lra).
    set (q := set_w _ _). set (a := Q4 (vx c) (vy c) (vz c) w).
    assert (Fq : fq q a) by (destruct Fc as (F0 & F1 & F2); exact (Logic.conj F0 (Logic.conj F1 (Logic.conj F2 Fr)))). clearbody q.
    assert (EA : qn (qsub a (onto u v)) <= 10.3 * eps * N).
    { unfold qn. rewrite <- (sqrt_square (10.3 * eps * N)) by (apply Rmult_le_pos; unfold eps; lra). apply sqrt_le_1_alt.
      assert (S : forall x y e, 0 <= e -> Rabs (x - y) <= e -> (x + -1 * y) * (x + -1 * y) <= e * e).
      { intros x y e He H. apply Rabs_le_inv in H. nra. }
      assert (EP : 0 <= eps * N) by (apply Rmult_le_pos; unfold eps; lra).
      pose proof (S _ _ (2.01 * eps * N) ltac:(lra) Ec0) as S0. pose proof (S _ _ (2.01 * eps * N) ltac:(lra) Ec1) as S1. pose proof (S _ _ (2.01 * eps * N) ltac:(lra) Ec2) as S2.
      pose proof (S _ _ (9.62 * eps * N) ltac:(lra) Ew) as S3. unfold norm2, qsub, qadd, qscale, a, onto. fold N. fold D. cbn [qx qy qz qw].
      assert (EN : 0 <= eps * N * (eps * N)) by nra. set (E2 := eps * N * (eps * N)) in *.
      replace (2.01 * eps * N * (2.01 * eps * N)) with (2.01 * 2.01 * E2) in * by (unfold E2; ring). replace (9.62 * eps * N * (9.62 * eps * N)) with (9.62 * 9.62 * E2) in * by (unfold E2; ring).
      replace (10.3 * eps * N * (10.3 * eps * N)) with (10.3 * 10.3 * E2) by (unfold E2; ring). clearbody E2. lra. }
    assert (ON : norm2 (onto u v) = 2 * N * (N + D)) by apply onto_norm. pose proof (qn_sq (onto u v)) as OS. rewrite ON in OS.
    pose proof (qn_pos (onto u v)) as OP. set (m := qn (onto u v)) in *.
    assert (M : 0.00092 * N <= m).
    { apply Rnot_lt_le. intros L. assert (m * m < 0.00092 * N * (0.00092 * N)) by (apply Rmult_le_0_lt_compat; lra). nra. }
    pose proof (qn_diff a (onto u v)) as DF. fold m in DF. apply Rabs_le_inv in DF.
    assert (Qa : 0.00091 * N <= qn a) by (unfold eps in *; lra).
    assert (N64 : p2 (-64) <= norm2 a).
    { rewrite <- qn_sq. apply Rle_trans with (0.00091 * / 262144 * (0.00091 * / 262144)); [simpl; lra|]. apply Rmult_le_compat; lra. }
    assert (MU : m <= 2 * N).
    { apply Rnot_lt_le. intros L. assert (2 * N * (2 * N) < m * m) by (apply Rmult_le_0_lt_compat; lra). nra. }
    assert (B50 : boundq (p2 50) a).
    { assert (qn a <= p2 50) by (apply Rle_trans with (3 * 17592186044416); [unfold eps in *; lra|simpl; lra]).
      destruct (qn_comp a) as (B0 & B1 & B2 & B3). repeat split; lra. }
    destruct (normalize_err q a Fq B50 N64) as (r & Frr & Err & Nr). exists r. split; [exact Frr|split; [exact Nr|]].
    set (o1 := qscale (/ m) (onto u v)).
    assert (O1 : rotate o1 u = scale3 (len3 u / len3 v) v) by (apply onto_unit; auto; fold m; lra).
    assert (OU : qn o1 = 1) by (apply qn_unit; fold m; lra).
    pose proof (unit_sub a (onto u v) ltac:(lra) ltac:(fold m; lra)) as US. fold m in US. fold o1 in US.
    pose proof (qsub_tri r (qscale (/ qn a) a) o1) as TR.
    pose proof (rot_sub r o1 u) as RS. rewrite O1, OU in RS.
    pose proof (near_one_qn r (/ 524288) ltac:(lra) Nr) as QR. apply Rabs_le_inv in QR.
    assert (G : forall z, 0 < z -> z * N <= m -> len3 (minus3 (rotate r u) (scale3 (len3 u / len3 v) v)) <= 2.000002 * (11 * eps + 20.6 * eps / z) * len3 u).
    { intros z Hz Hm. eapply Rle_trans; [exact RS|]. apply Rmult_le_compat_r; [lra|].
      apply Rmult_le_compat; [lra|apply qn_pos|lra|]. eapply Rle_trans; [exact TR|]. apply Rplus_le_compat; [exact Err|]. eapply Rle_trans; [exact US|].
      apply Rle_trans with (20.6 * eps * N / (z * N)); [|apply Req_le; field; lra].
      unfold Rdiv. apply Rmult_le_compat; [pose proof (qn_pos (qsub a (onto u v))); lra|apply Rlt_le, Rinv_0_lt_compat; lra|lra|].
      apply Rinv_le_contravar; [apply Rmult_lt_0_compat; lra|exact Hm]. }
    split.
    + eapply Rle_trans; [apply (G 0.00092 ltac:(lra) M)|]. apply Rmult_le_compat_r; [lra|]. unfold eps. lra.
    + intros HG. eapply Rle_trans; [apply (G (/ 2) ltac:(lra))|].
      * apply Rnot_lt_le. intros L. assert (m * m < / 2 * N * (/ 2 * N)) by (apply Rmult_le_0_lt_compat; lra). nra.
      * apply Rmult_le_compat_r; [lra|]. unfold eps. lra.
Qed.
