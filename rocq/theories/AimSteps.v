(** Aim IK in binary32, continued: the cosine of the plane rotation is a number in [-1, 1], the twist, the point aimed with. *)
From Coq Require Import Reals Lra Psatz.
From Flocq Require Import IEEE754.BinarySingleNaN Core.
From Verif Require Import Base Num NumF32 NumR F32Facts F32Err InterpF32 NormF32 BlendF32 Math MathSpec MathProofs BlendingSpec AdditiveSpec QuatNorm
  MotionGlam MotionF32 MotionF32Proofs Ik IkSpec IkProofs TrigF32 TrigProps VecNorm PolyErr MatInvF32 AimF32 AimParts.
Local Open Scope R_scope.

Lemma le_huge k x : (k <= 127)%Z -> x <= p2 k -> x <= HUGE.
Proof. intros H L. eapply Rle_trans; [exact L|]. unfold HUGE. apply bpow_le. exact H. Qed.

(** ** Sizes of cross products and squared lengths *)
Lemma cross_bound (a b : V4 f32) u v i j : fin4 a u -> fin4 b v -> within3 (p2 i) u -> within3 (p2 j) v -> (0 <= i <= 40)%Z -> (0 <= j <= 40)%Z ->
  exists c, fin4 (vec3_cross a b) c /\ within3 (p2 (i + j + 2)) c.
Proof.
  intros Fa Fb (A0 & A1 & A2) (B0 & B1 & B2) Hi Hj. pose proof (env6_fin a b u v Fa Fb) as V.
  set (e := env6 nzero (l0 a) (l1 a) (l2 a) (l0 b) (l1 b) (l2 b)) in *. set (r := env6 0 (vx u) (vy u) (vz u) (vx v) (vy v) (vz v)) in *.
  set (w := env6 0 (p2 i) (p2 i) (p2 i) (p2 j) (p2 j) (p2 j)).
  pose proof (p2_pos i) as Pi. pose proof (p2_pos j) as Pj.
  assert (Wb : forall n, Rabs (r n) <= w n) by (intros n; unfold r, w; do 6 (destruct n as [|n]; [assumption|]); cbn [env6]; rewrite Rabs_R0; lra).
  assert (Wp : forall n, w n <= p2 40).
  { assert (p2 i <= p2 40) by (apply bpow_le; lia). assert (p2 j <= p2 40) by (apply bpow_le; lia). pose proof (p2_pos 40).
    intros n. unfold w. do 6 (destruct n as [|n]; [assumption|]). cbn [env6]. lra. }
  assert (O : 1 <= p2 i * p2 j).
  { rewrite <- bpow_plus. change 1 with (p2 0). apply bpow_le. lia. }
  assert (X : forall m n k l, evA w (crosse m n k l) <= 2 * (p2 i * p2 j) -> exists d, fin (ev32 e (crosse m n k l)) d /\ Rabs d <= p2 (i + j + 2)).
  { intros m n k l HA. assert (Sm : small 40 (crosse m n k l) = true) by (vm_compute; reflexivity).
    destruct (poly_bound 40 e r w _ _ ltac:(lia) V Wb Wp Sm HA) as (d & Fd & Bd & Ed). exists d. split; [exact Fd|].
    change (cost (crosse m n k l)) with 2%Z in Ed.
    assert (T : p2 (under 40 (crosse m n k l)) * tiny <= 0.001) by (unfold tiny; rewrite <- bpow_plus; apply Rle_trans with (p2 (-20)); [apply bpow_le; vm_compute; discriminate|simpl; lra]).
    rewrite !bpow_plus. replace (p2 2) with 4 by (simpl; lra). apply Rabs_le_inv in Bd. apply Rabs_le_inv in Ed. unfold eta, eps in *. apply Rabs_le. lra. }
  assert (P : forall p q, 0 < p -> 0 < q -> Rabs p * Rabs q = p * q) by (intros p q Hp Hq; rewrite !Rabs_pos_eq by lra; reflexivity).
  destruct (X 1 2 4 5)%nat as (c0 & F0 & E0); [unfold w; cbn [evA crosse env6]; rewrite !Rabs_pos_eq by lra; lra|].
  destruct (X 2 0 5 3)%nat as (c1 & F1 & E1); [unfold w; cbn [evA crosse env6]; rewrite !Rabs_pos_eq by lra; lra|].
  destruct (X 0 1 3 4)%nat as (c2 & F2 & E2); [unfold w; cbn [evA crosse env6]; rewrite !Rabs_pos_eq by lra; lra|].
  exists (V3 c0 c1 c2). split; [split; [exact F0|split; [exact F1|exact F2]]|]. repeat split; assumption.
Qed.
(** Even where squares underflow, a component is at most about the square root of the computed squared length. *)
Lemma sq_under x : rnd32 (x * x) <> 0 -> x * x <= 1.51 * rnd32 (x * x).
Proof.
  intros H. assert (P : 0 <= rnd32 (x * x)) by (apply rnd_nonneg; nra).
  pose proof (rnd_err (x * x)) as E. rewrite (Rabs_pos_eq (x * x)) in E by nra. apply Rabs_le_inv in E.
  assert (L : 2 * tiny <= rnd32 (x * x)).
  { apply Rnot_lt_le. intros L. apply H. assert (Hx : x * x < 4 * tiny) by (unfold eps in *; pose proof (bpow_gt_0 radix2 (-150)); unfold tiny in *; nra).
    destruct (Rlt_dec (rnd32 (x * x)) (p2 (-149))) as [LT|GE].
    - assert (F : Rabs (rnd32 (x * x)) < p2 (-149)) by (rewrite Rabs_pos_eq; lra).
      destruct (Req_dec (rnd32 (x * x)) 0) as [Z|NZ]; [exact Z|]. exfalso.
      pose proof (rnd_fmt (x * x)) as FM. assert (HG : p2 (-149) <= Rabs (rnd32 (x * x))).
      { apply (generic_format_ge_bpow radix2 (FLT_exp (-149) 24)); [intros e; unfold FLT_exp; lia|rewrite Rabs_pos_eq; lra|].
        rewrite Rabs_pos_eq by exact P. exact FM. }
      lra.
    - exfalso. replace (p2 (-149)) with (2 * tiny) in GE by (unfold tiny; replace 2 with (p2 1) by (simpl; lra); rewrite <- bpow_plus; reflexivity). lra. }
  unfold eps in *. lra.
Qed.
Lemma len2_bound (v : V4 f32) x : fin4 v x -> within3 (p2 59) x ->
  exists d, fin (l0 (vec3_length2_s v)) d /\ 0 <= d /\ (d <> 0 -> p2 (-149) <= d <= p2 120 /\ forall c, c = vx x \/ c = vy x \/ c = vz x -> c * c <= 1.51 * d).
Proof.
  intros (F0 & F1 & F2) (B0 & B1 & B2).
  assert (S : forall c, Rabs c <= p2 59 -> 0 <= rnd32 (c * c) <= p2 118).
  { intros c Hc. split; [apply rnd_nonneg; nra|]. apply rnd_le_p2; [lia|]. change 118%Z with (59 + 59)%Z. rewrite bpow_plus. pose proof (p2_pos 59). apply Rabs_le_inv in Hc. nra. }
  assert (SQ : forall f c, fin f c -> Rabs c <= p2 59 -> fin (nmul f f) (rnd32 (c * c))).
  { intros f c Ff Hc. apply fin_mul; auto. apply (le_huge 118); [lia|]. change 118%Z with (59 + 59)%Z. rewrite bpow_plus, Rabs_mult. apply Rmult_le_compat; auto using Rabs_pos. }
  pose proof (S _ B0) as S0. pose proof (S _ B1) as S1. pose proof (S _ B2) as S2.
  set (x0 := rnd32 (vx x * vx x)) in *. set (x1 := rnd32 (vy x * vy x)) in *. set (x2 := rnd32 (vz x * vz x)) in *.
  assert (P16 : p2 119 = 2 * p2 118) by (change 119%Z with (1 + 118)%Z; rewrite bpow_plus; simpl; lra).
  assert (P18 : p2 120 = 2 * p2 119) by (change 120%Z with (1 + 119)%Z; rewrite bpow_plus; simpl; lra).
  assert (P20 : p2 120 <= p2 120) by (apply bpow_le; lia). pose proof (p2_pos 118) as P0.
  pose proof (fin_add _ _ _ _ (SQ _ _ F0 B0) (SQ _ _ F1 B1) ltac:(fold x0 x1; apply (le_huge 120); [lia|rewrite Rabs_pos_eq; lra])) as G. fold x0 x1 in G.
  set (y := rnd32 (x0 + x1)) in *.
  assert (Y : 0 <= y <= p2 119) by (split; [apply rnd_nonneg; lra|apply rnd_le_p2; [lia|lra]]).
  pose proof (fin_add _ _ _ _ G (SQ _ _ F2 B2) ltac:(fold x2; apply (le_huge 120); [lia|rewrite Rabs_pos_eq; lra])) as H. fold x2 in H.
  exists (rnd32 (y + x2)). split; [exact H|]. set (d := rnd32 (y + x2)) in *. split; [apply rnd_nonneg; lra|]. intros Nz.
  assert (FX : forall z, rnd32 (rnd32 z) = rnd32 z) by (intros z; apply round_generic; [typeclasses eauto|apply rnd_fmt]).
  assert (Dx2 : x2 <= d) by (unfold x2; rewrite <- FX; apply rnd_mono; fold x2; lra).
  assert (Dy : y <= d) by (unfold y; rewrite <- FX; apply rnd_mono; fold y; lra).
  assert (Dx0 : x0 <= y) by (unfold x0; rewrite <- FX; apply rnd_mono; fold x0; lra).
  assert (Dx1 : x1 <= y) by (unfold x1; rewrite <- FX; apply rnd_mono; fold x1; lra).
  assert (D0 : 0 <= d) by (apply rnd_nonneg; lra).
  assert (Dm : p2 (-149) <= d).
  { pose proof (rnd_fmt (y + x2)) as FM. fold d in FM. apply (generic_format_ge_bpow radix2 (FLT_exp (-149) 24)); [intros e; unfold FLT_exp; lia|lra|exact FM]. }
  split; [split; [exact Dm|apply Rle_trans with (p2 120); [apply rnd_le_p2; [lia|lra]|exact P20]]|].
  assert (K : forall c, Rabs c <= p2 59 -> rnd32 (c * c) <= d -> c * c <= 1.51 * d).
  { intros c Hc Hd. destruct (Req_dec (rnd32 (c * c)) 0) as [Z|NZ].
    - assert (c * c <= p2 (-149)); [|lra]. apply Rnot_lt_le. intros L. assert (p2 (-149) <= rnd32 (c * c)) by (apply rnd_ge_p2; [lia|lra]). pose proof (p2_pos (-149)). lra.
    - pose proof (sq_under c NZ). lra. }
  intros c [->|[->| ->]]; apply K; auto; fold x0 x1 x2; lra.
Qed.
Lemma sqrt_p2 k : sqrt (p2 (2 * k)) = p2 k.
Proof. replace (2 * k)%Z with (k + k)%Z by lia. rewrite bpow_plus. apply sqrt_square. apply bpow_ge_0. Qed.
Lemma unit_lane (f : f32) c (dd : f32) d : fin f c -> fin dd d -> p2 (-149) <= d <= p2 120 -> c * c <= 1.51 * d ->
  exists e, fin (nmul f (nrecip (nsqrt dd))) e /\ Rabs e <= p2 1.
Proof.
  intros Ff Fd Hd Hc. assert (D0 : 0 < d) by (pose proof (p2_pos (-149)); lra).
  pose proof (fin_sqrt _ _ Fd ltac:(lra)) as Fs. set (s := rnd32 (sqrt d)) in *.
  assert (Ls : p2 (-75) <= sqrt d) by (rewrite <- (sqrt_p2 (-75)); apply sqrt_le_1_alt; apply Rle_trans with (p2 (-149)); [apply bpow_le; lia|lra]).
  assert (Us : sqrt d <= p2 60) by (rewrite <- (sqrt_p2 60); apply sqrt_le_1_alt; apply Rle_trans with (p2 120); [lra|apply bpow_le; lia]).
  pose proof (p2_pos (-75)) as P75. pose proof (sqrt_sqrt d ltac:(lra)) as SS.
  assert (Es : Rabs (s - sqrt d) <= 0.0001 * sqrt d).
  { pose proof (rnd_err (sqrt d)) as E. rewrite (Rabs_pos_eq (sqrt d)) in E by lra. fold s in E.
    assert (tiny <= eps * p2 (-75)) by (unfold tiny; replace eps with (p2 (-24)) by (unfold eps; simpl; lra); rewrite <- bpow_plus; apply bpow_le; lia).
    assert (eps * p2 (-75) <= eps * sqrt d) by (apply Rmult_le_compat_l; [unfold eps; lra|exact Ls]). unfold eps in *. lra. }
  apply Rabs_le_inv in Es. assert (S0 : 0 < s) by lra.
  assert (Is : Rabs (1 / s) <= p2 76).
  { unfold Rdiv. rewrite Rmult_1_l, Rabs_pos_eq by (apply Rlt_le, Rinv_0_lt_compat, S0). replace (p2 76) with (/ p2 (-76)) by (rewrite <- bpow_opp; reflexivity).
    apply Rinv_le_contravar; [apply p2_pos|]. assert (p2 (-75) = 2 * p2 (-76)) by (change (-75)%Z with (1 + -76)%Z; rewrite bpow_plus; simpl; lra). pose proof (p2_pos (-76)). lra. }
  pose proof (fin_div _ _ _ _ fin_one Fs ltac:(lra) (le_huge 76 _ ltac:(lia) Is)) as Fr. change (ndiv none_ (nsqrt dd)) with (nrecip (nsqrt dd)) in Fr.
  set (r := rnd32 (1 / s)) in *.
  assert (Er : Rabs r <= 1.0002 * / sqrt d).
  { pose proof (rnd_err (1 / s)) as E. fold r in E.
    assert (I1 : 1 / s <= 1.00011 * / sqrt d).
    { unfold Rdiv. rewrite Rmult_1_l. apply Rle_trans with (/ (0.9999 * sqrt d)); [apply Rinv_le_contravar; lra|]. rewrite Rinv_mult. apply Rmult_le_compat_r; [apply Rlt_le, Rinv_0_lt_compat; lra|lra]. }
    assert (I0 : 0 < 1 / s) by (unfold Rdiv; rewrite Rmult_1_l; apply Rinv_0_lt_compat, S0).
    rewrite (Rabs_pos_eq (1 / s)) in E by lra.
    assert (IT : tiny <= 0.00001 * / sqrt d).
    { apply Rle_trans with (0.00001 * / p2 60); [unfold tiny; rewrite <- bpow_opp; simpl; lra|]. apply Rmult_le_compat_l; [lra|]. apply Rinv_le_contravar; lra. }
    apply Rabs_le_inv in E. apply Rabs_le. unfold eps in *. lra. }
  assert (Cc : Rabs c <= 1.229 * sqrt d).
  { apply Rnot_lt_le. intros L. assert (Rabs c * Rabs c = c * c) by (rewrite <- Rabs_mult; apply Rabs_pos_eq; nra).
    assert (1.229 * sqrt d * (1.229 * sqrt d) < Rabs c * Rabs c) by (apply Rmult_le_0_lt_compat; lra). nra. }
  assert (Bcr : Rabs (c * r) <= 1.3).
  { rewrite Rabs_mult. apply Rle_trans with (1.229 * sqrt d * (1.0002 * / sqrt d)); [apply Rmult_le_compat; auto using Rabs_pos|].
    replace (1.229 * sqrt d * (1.0002 * / sqrt d)) with (1.229 * 1.0002 * (sqrt d * / sqrt d)) by ring. rewrite Rinv_r by lra. lra. }
  exists (rnd32 (c * r)). split; [apply fin_mul; auto; apply (le_huge 1); [lia|simpl; lra]|]. apply rnd_abs_le; [lia|]. simpl. lra.
Qed.
(** The dot product of two vectors with components at most 2, clamped. *)
Lemma small_dot (a b : V4 f32) u v : fin4 a u -> fin4 b v -> within3 (p2 1) u -> within3 (p2 1) v -> exists d, fin (l0 (vec3_dot_s a b)) d.
Proof.
  intros Fa Fb (A0 & A1 & A2) (B0 & B1 & B2). pose proof (env6_fin a b u v Fa Fb) as V.
  change (l0 (vec3_dot_s a b)) with (ev32 (env6 nzero (l0 a) (l1 a) (l2 a) (l0 b) (l1 b) (l2 b)) (dote 0 1 2 3 4 5)).
  set (e := env6 nzero _ _ _ _ _ _) in *. clearbody e.
  assert (B : forall i, Rabs (env6 0 (vx u) (vy u) (vz u) (vx v) (vy v) (vz v) i) <= p2 1).
  { intros i. do 6 (destruct i as [|i]; [assumption|]). cbn [env6]. rewrite Rabs_R0. apply bpow_ge_0. }
  assert (Sm : small 1 (dote 0 1 2 3 4 5) = true) by (vm_compute; reflexivity).
  destruct (poly_err 1 e _ (dote 0 1 2 3 4 5) ltac:(lia) V B Sm) as (d & Fd & _). exists d. exact Fd.
Qed.
Lemma fin_mone : fin (nmone : f32) (-1).
Proof. change (@nmone f32 f32arith) with (f32_lit (-1) 0). replace (-1) with (IZR (-1) * bpow radix2 0) by (simpl; lra). apply fin_lit; lia. Qed.
Lemma clamp_fin (v : V4 f32) c : fin (l0 v) c -> exists d, fin (l0 (simd_clamp v nmone none_)) d /\ -1 <= d <= 1.
Proof.
  intros F. destruct v as [a b e f]. cbn [l0] in F.
  change (l0 (simd_clamp (mk4 a b e f) nmone none_)) with (let x := if nlt a nmone then nmone else a in if nlt none_ x then none_ else x).
  cbv zeta. pose proof fin_mone as FM. pose proof fin_one as F1. rewrite (nlt_dec _ _ _ _ F FM). destruct (Rlt_dec c (-1)).
  - rewrite (nlt_dec _ _ _ _ F1 FM). destruct (Rlt_dec 1 (-1)); [lra|]. exists (-1). split; [exact FM|lra].
  - rewrite (nlt_dec _ _ _ _ F1 F). destruct (Rlt_dec 1 c); [exists 1; split; [exact F1|lra]|exists c; split; [exact F|lra]].
Qed.

(** ** The up vector, turned *)
Definition env7 {A} (o : A) (a b c d x y z : A) (i : nat) : A := (match i with 0 => a | 1 => b | 2 => c | 3 => d | 4 => x | 5 => y | 6 => z | _ => o end)%nat.
Definition c1e (i j k : nat) : expr := (* lane i of w v + q x v *)
  Add (Mul (Var 3) (Var (4 + i))) (Sub (Mul (Var j) (Var (4 + k))) (Mul (Var (4 + j)) (Var k))).
Definition qtve (i j k : nat) : expr :=
  let c2 := Sub (Mul (Var j) (c1e k i j)) (Mul (c1e j k i) (Var k)) in Add (Add (Var (4 + i)) c2) c2.
Lemma qtv_ev {F} {NF : Num F} (q v : V4 F) o :
  let e := env7 o (l0 q) (l1 q) (l2 q) (l3 q) (l0 v) (l1 v) (l2 v) in
  l0 (quat_transform_vector q v) = ev e (qtve 0 1 2) /\ l1 (quat_transform_vector q v) = ev e (qtve 1 2 0) /\ l2 (quat_transform_vector q v) = ev e (qtve 2 0 1).
Proof. destruct q, v. repeat split. Qed.
Lemma turn_bound (q v : V4 f32) r u : fq q r -> qn r <= 1.01 -> fin4 v u -> within3 (p2 20) u ->
  exists c, fin4 (quat_transform_vector q v) c /\ within3 (p2 25) c.
Proof.
  intros (A0 & A1 & A2 & A3) Nr (B0 & B1 & B2) (C0 & C1 & C2). unfold vq in *. cbn [qx qy qz qw] in *.
  pose proof (qtv_ev q v nzero) as (M0 & M1 & M2). cbv zeta in *. set (e := env7 nzero _ _ _ _ _ _ _) in *.
  set (x := env7 0 (qx r) (qy r) (qz r) (qw r) (vx u) (vy u) (vz u)).
  assert (V : forall i, fin (e i) (x i)) by (intros i; do 7 (destruct i as [|i]; [assumption|]); apply fin_zero). clearbody e.
  set (w := env7 0 1.01 1.01 1.01 1.01 (p2 20) (p2 20) (p2 20)).
  destruct (qn_comp r) as (D0 & D1 & D2 & D3). assert (P20 : p2 20 = 1048576) by (simpl; lra).
  assert (Wb : forall i, Rabs (x i) <= w i) by (intros i; unfold x, w; do 7 (destruct i as [|i]; [cbn [env7]; lra|]); cbn [env7]; rewrite Rabs_R0; lra).
  assert (Wp : forall i, w i <= p2 20) by (intros i; unfold w; do 7 (destruct i as [|i]; [cbn [env7]; lra|]); cbn [env7]; lra).
  assert (X : forall i j k, small 20 (qtve i j k) = true -> cost (qtve i j k) = cost (qtve 0 1 2) -> under 20 (qtve i j k) = under 20 (qtve 0 1 2) ->
     evA w (qtve i j k) <= 20 * 1048576 -> exists d, fin (ev32 e (qtve i j k)) d /\ Rabs d <= p2 25).
  { intros i j k Sm Ce Ue HA. destruct (poly_bound 20 e x w _ _ ltac:(lia) V Wb Wp Sm HA) as (d & Fd & Bd & Ed). exists d. split; [exact Fd|].
    rewrite Ce, Ue in Ed. replace (cost (qtve 0 1 2)) with 7%Z in Ed by (vm_compute; reflexivity).
    assert (T : p2 (under 20 (qtve 0 1 2)) * tiny <= 0.001) by (unfold tiny; rewrite <- bpow_plus; apply Rle_trans with (p2 (-20)); [apply bpow_le; vm_compute; discriminate|simpl; lra]).
    replace (p2 25) with 33554432 by (simpl; lra). apply Rabs_le_inv in Bd. apply Rabs_le_inv in Ed. unfold eta, eps in *. apply Rabs_le. lra. }
  destruct (X 0 1 2)%nat as (d0 & F0 & E0); [vm_compute; reflexivity..| |].
  { unfold w. cbn [evA qtve c1e env7 Nat.add]. rewrite P20.  rewrite !Rabs_pos_eq by lra. lra. }
  destruct (X 1 2 0)%nat as (d1 & F1 & E1); [vm_compute; reflexivity..| |].
  { unfold w. cbn [evA qtve c1e env7 Nat.add]. rewrite P20.  rewrite !Rabs_pos_eq by lra. lra. }
  destruct (X 2 0 1)%nat as (d2 & F2 & E2); [vm_compute; reflexivity..| |].
  { unfold w. cbn [evA qtve c1e env7 Nat.add]. rewrite P20.  rewrite !Rabs_pos_eq by lra. lra. }
  exists (V3 d0 d1 d2). split; [|repeat split; assumption]. unfold fin4. cbn [vx vy vz]. rewrite M0, M1, M2. auto.
Qed.
