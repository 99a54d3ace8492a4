(** Bending a chain at its mid joint: what errors in the angles, in the axis and in the joints' frames do to the distance between its ends. *)
From Coq Require Import ZArith Lia Reals Lra Psatz.
From Flocq Require Import IEEE754.BinarySingleNaN Core.
From Verif Require Import Base Num NumF32 NumR F32Facts F32Err InterpF32 NormF32 BlendF32 BlendF32Proofs Math MathSpec MathProofs MotionF32 MotionF32Proofs QuatNorm
  Ik IkSpec IkProofs PolyErr MatInvF32 VecNorm TrigF32 TrigProps AimF32 AimParts AimSteps MatSimF32 TwoBoneCos.
Local Open Scope R_scope.

(** ** Frames that are similarities up to [kap] keep dot products, up to a factor *)
Lemma lin_dot m s x y : affine m -> 0 < s -> (forall i j, (i < 3)%nat -> (j < 3)%nat -> Rabs (cols m i j - (if Nat.eqb i j then s * s else 0)) <= kap * (s * s)) ->
  Rabs (dot3 (lin m x) (lin m y) - s * s * dot3 x y) <= 3.001 * kap * (s * s * (len3 x * len3 y)).
Proof.
  intros AF S0 CO.
  assert (E : dot3 (lin m x) (lin m y) - s * s * dot3 x y =
    ((cols m 0 0 - s * s) * (vx x * vx y) + cols m 0 1 * (vx x * vy y) + cols m 0 2 * (vx x * vz y)) +
    (cols m 1 0 * (vy x * vx y) + (cols m 1 1 - s * s) * (vy x * vy y) + cols m 1 2 * (vy x * vz y)) +
    (cols m 2 0 * (vz x * vx y) + cols m 2 1 * (vz x * vy y) + (cols m 2 2 - s * s) * (vz x * vz y))).
  { clear. destruct m as [[a0 a1 a2 a3] [b0 b1 b2 b3] [c0 c1 c2 c3] [d0 d1 d2 d3]], x as [x0 x1 x2], y as [y0 y1 y2]. unfold cols, ent, dot3, lin, minus3, pt, apply_point, origin, v3_of, ent. cbn. ring. }
  rewrite E. clear E.
  assert (C : forall i j, (i < 3)%nat -> (j < 3)%nat -> i <> j -> Rabs (cols m i j) <= kap * (s * s)).
  { intros i j Hi Hj N. pose proof (CO i j Hi Hj) as Q. destruct (Nat.eqb_spec i j); [contradiction|]. rewrite Rminus_0_r in Q. exact Q. }
  assert (D : forall i, (i < 3)%nat -> Rabs (cols m i i - s * s) <= kap * (s * s)) by (intros i Hi; pose proof (CO i i Hi Hi) as Q; rewrite Nat.eqb_refl in Q; exact Q).
  set (k := kap * (s * s)) in *.
  assert (X : forall g p q, Rabs g <= k -> Rabs (g * (p * q)) <= k * (Rabs p * Rabs q)).
  { intros g p q H. rewrite !Rabs_mult. apply Rmult_le_compat_r; [apply Rmult_le_pos; apply Rabs_pos|exact H]. }
  assert (T : forall p q r, Rabs (p + q + r) <= Rabs p + Rabs q + Rabs r) by (intros p q r; pose proof (Rabs_triang (p + q) r); pose proof (Rabs_triang p q); lra).
  eapply Rle_trans; [apply T|]. eapply Rle_trans; [apply Rplus_le_compat; [apply Rplus_le_compat|]; apply T|].
  pose proof (X _ (vx x) (vx y) (D 0 ltac:(lia))%nat). pose proof (X _ (vx x) (vy y) (C 0 1 ltac:(lia) ltac:(lia) ltac:(lia))%nat). pose proof (X _ (vx x) (vz y) (C 0 2 ltac:(lia) ltac:(lia) ltac:(lia))%nat).
  pose proof (X _ (vy x) (vx y) (C 1 0 ltac:(lia) ltac:(lia) ltac:(lia))%nat). pose proof (X _ (vy x) (vy y) (D 1 ltac:(lia))%nat). pose proof (X _ (vy x) (vz y) (C 1 2 ltac:(lia) ltac:(lia) ltac:(lia))%nat).
  pose proof (X _ (vz x) (vx y) (C 2 0 ltac:(lia) ltac:(lia) ltac:(lia))%nat). pose proof (X _ (vz x) (vy y) (C 2 1 ltac:(lia) ltac:(lia) ltac:(lia))%nat). pose proof (X _ (vz x) (vz y) (D 2 ltac:(lia))%nat).
  assert (SUM : forall z, 0 <= Rabs (vx z) + Rabs (vy z) + Rabs (vz z) <= 1.7321 * len3 z).
  { intros z. pose proof (Rabs_pos (vx z)). pose proof (Rabs_pos (vy z)). pose proof (Rabs_pos (vz z)). split; [lra|].
    apply Rsqr_incr_0_var; [|pose proof (len3_nn z); lra]. unfold Rsqr. replace (1.7321 * len3 z * (1.7321 * len3 z)) with (1.7321 * 1.7321 * (len3 z * len3 z)) by ring. rewrite len3_sq. unfold dot3.
    rewrite <- (Rabs_pos_eq (vx z * vx z)), <- (Rabs_pos_eq (vy z * vy z)), <- (Rabs_pos_eq (vz z * vz z)), !Rabs_mult by nra.
    set (p := Rabs (vx z)) in *. set (q := Rabs (vy z)) in *. set (r := Rabs (vz z)) in *. clearbody p q r. pose proof (Rle_0_sqr (p - q)). pose proof (Rle_0_sqr (p - r)). pose proof (Rle_0_sqr (q - r)). unfold Rsqr in *. pose proof (Rmult_le_pos p p). pose proof (Rmult_le_pos q q). pose proof (Rmult_le_pos r r). lra. }
  pose proof (SUM x) as Sx. pose proof (SUM y) as Sy.
  assert (P : (Rabs (vx x) + Rabs (vy x) + Rabs (vz x)) * (Rabs (vx y) + Rabs (vy y) + Rabs (vz y)) <= 1.7321 * len3 x * (1.7321 * len3 y)) by (apply Rmult_le_compat; lra).
  assert (K0 : 0 <= k) by (unfold k, kap; apply Rmult_le_pos; [lra|nra]).
  apply Rle_trans with (k * ((Rabs (vx x) + Rabs (vy x) + Rabs (vz x)) * (Rabs (vx y) + Rabs (vy y) + Rabs (vz y)))); [lra|].
  apply Rle_trans with (k * (1.7321 * len3 x * (1.7321 * len3 y))); [apply Rmult_le_compat_l; assumption|].
  replace (3.001 * kap * (s * s * (len3 x * len3 y))) with (k * (3.001 * (len3 x * len3 y))) by (unfold k; ring). apply Rmult_le_compat_l; [exact K0|].
  pose proof (Rmult_le_pos _ _ (len3_nn x) (len3_nn y)). lra.
Qed.
(** A map of vectors that scales dot products by [g], up to [k]. *)
Definition keeps (L : vec3 R -> vec3 R) (g k : R) : Prop := forall x y, Rabs (dot3 (L x) (L y) - g * dot3 x y) <= k * (g * (len3 x * len3 y)).
Lemma two_frames m1 m2 s1 s2 (L : vec3 R -> vec3 R) : affine m1 -> affine m2 -> 0 < s1 -> 0 < s2 ->
  (forall i j, (i < 3)%nat -> (j < 3)%nat -> Rabs (cols m1 i j - (if Nat.eqb i j then s1 * s1 else 0)) <= kap * (s1 * s1)) ->
  (forall i j, (i < 3)%nat -> (j < 3)%nat -> Rabs (cols m2 i j - (if Nat.eqb i j then s2 * s2 else 0)) <= kap * (s2 * s2)) ->
  (forall x, lin m1 (L x) = lin m2 x) -> keeps L (s2 / s1 * (s2 / s1)) (6.01 * kap).
Proof.
  intros A1 A2 P1 P2 C1 C2 HL x y.
  assert (LEN : forall z, s1 * len3 (L z) <= 1.0001 * (s2 * len3 z)).
  { intros z. pose proof (lin_len m1 s1 P1 C1 (L z)) as Q1. pose proof (lin_len m2 s2 P2 C2 z) as Q2. rewrite HL in Q1. apply Rabs_le_inv in Q1, Q2. unfold kap in *. lra. }
  pose proof (lin_dot m1 s1 (L x) (L y) A1 P1 C1) as D1. pose proof (lin_dot m2 s2 x y A2 P2 C2) as D2. rewrite !HL in D1.
  pose proof (len3_nn x) as X0. pose proof (len3_nn y) as Y0. pose proof (len3_nn (L x)) as X1. pose proof (len3_nn (L y)) as Y1.
  assert (B : s1 * s1 * (len3 (L x) * len3 (L y)) <= 1.0003 * (s2 * s2 * (len3 x * len3 y))).
  { replace (s1 * s1 * (len3 (L x) * len3 (L y))) with (s1 * len3 (L x) * (s1 * len3 (L y))) by ring.
    apply Rle_trans with (1.0001 * (s2 * len3 x) * (1.0001 * (s2 * len3 y))); [apply Rmult_le_compat; auto; apply Rmult_le_pos; lra|].
    assert (0 <= s2 * s2 * (len3 x * len3 y)) by (repeat apply Rmult_le_pos; lra). lra. }
  set (d1 := dot3 (L x) (L y)) in *. set (d2 := dot3 x y) in *. set (dm := dot3 (lin m2 x) (lin m2 y)) in *. set (xy := len3 x * len3 y) in *.
  assert (S1 : 0 < s1 * s1) by (apply Rmult_lt_0_compat; lra).
  assert (Z : Rabs (s1 * s1 * d1 - s2 * s2 * d2) <= 6.01 * kap * (s2 * s2 * xy)).
  { apply Rabs_le_inv in D1, D2. assert (3.001 * kap * (s1 * s1 * (len3 (L x) * len3 (L y))) <= 3.001 * kap * (1.0003 * (s2 * s2 * xy))) by (apply Rmult_le_compat_l; [unfold kap; lra|exact B]).
    assert (0 <= kap * (s2 * s2 * xy)) by (unfold xy, kap; repeat apply Rmult_le_pos; lra). apply Rabs_le. lra. }
  apply Rmult_le_reg_l with (s1 * s1); [exact S1|]. rewrite <- (Rabs_pos_eq (s1 * s1)) at 1 by lra. rewrite <- Rabs_mult.
  replace (s1 * s1 * (d1 - s2 / s1 * (s2 / s1) * d2)) with (s1 * s1 * d1 - s2 * s2 * d2) by (field; lra).
  replace (s1 * s1 * (6.01 * kap * (s2 / s1 * (s2 / s1) * xy))) with (6.01 * kap * (s2 * s2 * xy)) by (field; lra). exact Z.
Qed.
Lemma keeps_weaken L g k k' : 0 <= g -> k <= k' -> keeps L g k -> keeps L g k'.
Proof.
  intros Hg Hk H x y. eapply Rle_trans; [apply H|]. apply Rmult_le_compat_r; [|exact Hk]. apply Rmult_le_pos; [exact Hg|]. apply Rmult_le_pos; apply len3_nn.
Qed.

(** ** The distance between the ends of two bones whose angle has cosine [clampR (-1) 1 (bones_cos a b r)] *)
Lemma reach_cos a b r : 0 < a -> 0 < b -> 0 <= r -> let D := clampR (Rabs (a - b)) (a + b) r in
  D * D = a * a + b * b - 2 * (a * b) * clampR (-1) 1 (bones_cos a b r).
Proof.
  intros Ha Hb Hr D. assert (M : 0 < 2 * (a * b)) by (assert (0 < a * b) by (apply Rmult_lt_0_compat; assumption); lra).
  assert (E : a * a + b * b - r * r = 2 * (a * b) * bones_cos a b r) by (unfold bones_cos; field; lra). set (c := bones_cos a b r) in *. clearbody c.
  assert (AB : Rabs (a - b) * Rabs (a - b) = (a - b) * (a - b)) by (rewrite <- Rabs_mult; apply Rabs_pos_eq, Rle_0_sqr).
  pose proof (Rabs_pos (a - b)) as A0. set (x := Rabs (a - b)) in *. assert (AL : x <= a + b) by (unfold x; apply Rabs_le; lra). clearbody x.
  unfold D, clampR. destruct (Rle_or_lt (a + b) r) as [H|H].
  - assert ((a + b) * (a + b) <= r * r) by (apply Rmult_le_compat; lra). assert (c <= -1) by (apply Rmult_le_reg_l with (2 * (a * b)); lra).
    rewrite (Rmin_left _ _ H), (Rmax_right _ _ AL), (Rmin_right 1 c), (Rmax_left (-1) c) by lra. ring.
  - rewrite (Rmin_right (a + b) r) by lra. destruct (Rle_or_lt r x) as [H'|H'].
    + assert (r * r <= x * x) by (apply Rmult_le_compat; lra). assert (1 <= c) by (apply Rmult_le_reg_l with (2 * (a * b)); lra).
      rewrite (Rmax_left _ _ H'), (Rmin_left 1 c), (Rmax_right (-1) 1) by lra. lra.
    + assert (x * x <= r * r) by (apply Rmult_le_compat; lra). assert (r * r <= (a + b) * (a + b)) by (apply Rmult_le_compat; lra).
      assert (-1 <= c) by (apply Rmult_le_reg_l with (2 * (a * b)); lra). assert (c <= 1) by (apply Rmult_le_reg_l with (2 * (a * b)); lra).
      rewrite (Rmax_right x r), (Rmin_right 1 c), (Rmax_right (-1) c) by lra. lra.
Qed.

(** ** Bending *)
Lemma turn_dot n s c u v : dot3 u (rotate (qaxis n s c) v) =
  (c * c - s * s * dot3 n n) * dot3 u v + 2 * (s * s) * (dot3 n u * dot3 n v) + 2 * (s * c) * dot3 u (cross3 n v).
Proof. destruct n as [x y z], u as [u0 u1 u2], v as [v0 v1 v2]. unfold rotate, qaxis, hamilton, conj, dot3, cross3, scale3, plus3, minus3. cbn. ring. Qed.
Lemma gram u v n : dot3 u (cross3 n v) * dot3 u (cross3 n v) =
  dot3 n n * (dot3 u u * dot3 v v - dot3 u v * dot3 u v) + 2 * (dot3 u v * (dot3 n u * dot3 n v)) - dot3 u u * (dot3 n v * dot3 n v) - dot3 v v * (dot3 n u * dot3 n u).
Proof. destruct n as [x y z], u as [u0 u1 u2], v as [v0 v1 v2]. unfold dot3, cross3. cbn. ring. Qed.
(** Cosine [p] and sine [q] of the bend, up to [w]; [i] an angle whose cosine is [- p] up to [d] and whose sine has the sign of [q]. *)
Lemma bend_core p q w d b i ph de d0 : Rabs (1 - p * p - q * q) <= w -> Rabs p <= 1 -> Rabs (cos i + p) <= d -> 0 <= sin i * q -> 0 < b -> b <= Rabs q -> Rabs q <= 1.001 ->
  Rabs (de - (ph - i)) <= d0 -> w <= / 1000 ->
  Rabs (p * cos de + q * sin de + cos ph) <= w + 1.001 * (d + (2 * d + w) / b) + 2.001 * d0.
Proof.
  intros HW Hp HC HS Hb HB Hq HD W1.
  assert (d0' : 0 <= d) by (eapply Rle_trans; [apply Rabs_pos|exact HC]). assert (W0 : 0 <= w) by (eapply Rle_trans; [apply Rabs_pos|exact HW]).
  set (e1 := cos i + p) in *. set (e2 := sin i - q).
  assert (U : sin i * sin i + cos i * cos i = 1) by (pose proof (sin2_cos2 i) as Q; unfold Rsqr in Q; lra).
  assert (CB : Rabs (cos i) <= 1) by (pose proof (COS_bound i); apply Rabs_le; lra).
  assert (E2 : Rabs e2 <= (2 * d + w) / b).
  { apply Rmult_le_reg_r with b; [exact Hb|]. replace ((2 * d + w) / b * b) with (2 * d + w) by (field; lra).
    apply Rle_trans with (Rabs e2 * Rabs (sin i + q)).
    - apply Rmult_le_compat_l; [apply Rabs_pos|]. eapply Rle_trans; [exact HB|]. 
      destruct (Rle_or_lt 0 q) as [Q|Q].
      + destruct (Rle_or_lt 0 (sin i)) as [S|S]; [rewrite !Rabs_pos_eq; lra|]. assert (q = 0) by nra. subst q. rewrite Rabs_R0 in HB. lra.
      + destruct (Rle_or_lt (sin i) 0) as [S|S]; [rewrite !Rabs_left1; lra|]. nra.
    - rewrite <- Rabs_mult. unfold e2. replace ((sin i - q) * (sin i + q)) with ((1 - p * p - q * q) - (cos i + p) * (cos i - p)) by lra.
      assert (Rabs ((cos i + p) * (cos i - p)) <= d * 2).
      { rewrite Rabs_mult. apply Rmult_le_compat; auto using Rabs_pos. apply Rabs_le_inv in CB, Hp. apply Rabs_le. lra. }
      fold e1 in H |- *. apply Rabs_le_inv in H, HW. apply Rabs_le. lra. }
  pose proof (sin_lip de (ph - i)) as L2. pose proof (cos_lip de (ph - i)) as L1.
  assert (L1' : Rabs (cos de - cos (ph - i)) <= Rabs (de - (ph - i)) * 1) by (eapply Rle_trans; [exact L1|]; apply Rmult_le_compat_l; [apply Rabs_pos|apply Rabs_le, SIN_bound]). clear L1.
  set (x := ph - i) in *. 
  assert (M : forall s t r, Rabs s <= 1 -> Rabs t <= r -> Rabs (s * t) <= r).
  { intros s t r Hs Ht. rewrite Rabs_mult. pose proof (Rabs_pos s). pose proof (Rabs_pos t). nra. }
  pose proof (M p (cos de - cos x) d0 Hp ltac:(lra)) as T1. assert (T2 : Rabs (q * (sin de - sin x)) <= 1.001 * d0) by (rewrite Rabs_mult; apply Rmult_le_compat; auto using Rabs_pos; lra).
  assert (ID : p * cos x + q * sin x + cos ph = cos ph * (1 - p * p - q * q) + e1 * (p * cos ph + q * sin ph) + e2 * (p * sin ph - q * cos ph)).
  { unfold x, e1, e2. rewrite cos_minus, sin_minus. ring. }
  (* a unit vector against one of length at most 1 *)
  assert (PH : sin ph * sin ph + cos ph * cos ph = 1) by (pose proof (sin2_cos2 ph) as Q; unfold Rsqr in Q; lra).
  assert (CB2 : Rabs (cos ph) <= 1) by (pose proof (COS_bound ph); apply Rabs_le; lra).
  pose proof (M (cos ph) (1 - p * p - q * q) w CB2 HW) as T3.
  assert (UN : (p * cos ph + q * sin ph) * (p * cos ph + q * sin ph) + (p * sin ph - q * cos ph) * (p * sin ph - q * cos ph) = p * p + q * q).
  { transitivity ((p * p + q * q) * (sin ph * sin ph + cos ph * cos ph)); [ring|rewrite PH; ring]. }
  set (y1 := p * cos ph + q * sin ph) in *. set (y2 := p * sin ph - q * cos ph) in *.
  assert (T4 : Rabs (e1 * y1 + e2 * y2) <= 1.001 * (d + (2 * d + w) / b)).
  { assert (Y : forall y z, y * y + z * z = p * p + q * q -> Rabs y <= 1.001).
    { intros y z Hyz. apply Rabs_le. apply Rabs_le_inv in HW. pose proof (Rle_0_sqr z). unfold Rsqr in *. split; apply Rnot_lt_le; intros C; [assert (1.001 * 1.001 <= (- y) * (- y)) by (apply Rmult_le_compat; lra)|assert (1.001 * 1.001 <= y * y) by (apply Rmult_le_compat; lra)]; lra. }
    assert (Z : forall e y r, Rabs e <= r -> Rabs y <= 1.001 -> Rabs (e * y) <= r * 1.001) by (intros e y r Hr Hy; rewrite Rabs_mult; apply Rmult_le_compat; auto using Rabs_pos).
    pose proof (Z e1 y1 d HC (Y y1 y2 UN)) as Z1. pose proof (Z e2 y2 _ E2 (Y y2 y1 ltac:(lra))) as Z2. apply Rabs_le_inv in Z1, Z2. apply Rabs_le. lra. }
  replace (p * cos de + q * sin de + cos ph) with (p * (cos de - cos x) + q * (sin de - sin x) + (p * cos x + q * sin x + cos ph)) by ring. rewrite ID.
  apply Rabs_le_inv in T1, T2, T3, T4. apply Rabs_le. lra.
Qed.

(** The chain [u], [v] in the mid joint's space; [L] takes it to the start joint's space.  [n] is the axis the mid joint bends
    about, [i] the measured angle between the bones, [ph] the one to give them, [w] the far bone once turned. *)
Record bending (e be : R) (L : vec3 R -> vec3 R) (g : R) (u v n : vec3 R) : Prop := mk_bending {
  bd_e : unit_of e; bd_L : keeps L g (3.01 * e); bd_g : 0 < g; bd_u : 0 < len3 u; bd_v : 0 < len3 v;
  bd_n : Rabs (dot3 n n - 1) <= e / 16; bd_nu : Rabs (dot3 n u) <= e * len3 u; bd_nv : Rabs (dot3 n v) <= e * len3 v;
  bd_be : 0 < be; bd_bent : be * (len3 u * len3 v) <= Rabs (dot3 u (cross3 n v)) }.
Section Bend.
  Context (e be : R) (L : vec3 R -> vec3 R) (g : R) (u v n : vec3 R) (G : bending e be L g u v n).
  Let a := len3 (L u). Let b := len3 (L v). Let c := len3 (plus3 (L u) (L v)). Let U := len3 u. Let V := len3 v.
  Let p := dot3 u v / (U * V). Let q := dot3 u (cross3 n v) / (U * V).
  Lemma bend_unit : Rabs (1 - p * p - q * q) <= 0.07 * e /\ Rabs p <= 1 /\ Rabs q <= 1.001 /\ be <= Rabs q /\ dot3 u v = p * (U * V) /\ dot3 u (cross3 n v) = q * (U * V).
  Proof using G.
    destruct G as [He HL Hg Hu Hv Hn Hnu Hnv Hb HB]. fold U in Hu, Hnu, HB. fold V in Hv, Hnv, HB. unfold unit_of in He.
    assert (UV : 0 < U * V) by (apply Rmult_lt_0_compat; assumption).
    assert (Ep : dot3 u v = p * (U * V)) by (unfold p; field; lra). assert (Eq : dot3 u (cross3 n v) = q * (U * V)) by (unfold q; field; lra).
    assert (N1 : exists x, dot3 n u = x * U /\ Rabs x <= e). { exists (dot3 n u / U). split; [field; lra|]. unfold Rdiv. rewrite Rabs_mult, (Rabs_pos_eq (/ U)) by (apply Rlt_le, Rinv_0_lt_compat; lra). apply Rmult_le_reg_r with U; [lra|]. rewrite Rmult_assoc, Rinv_l; lra. }
    assert (N2 : exists x, dot3 n v = x * V /\ Rabs x <= e). { exists (dot3 n v / V). split; [field; lra|]. unfold Rdiv. rewrite Rabs_mult, (Rabs_pos_eq (/ V)) by (apply Rlt_le, Rinv_0_lt_compat; lra). apply Rmult_le_reg_r with V; [lra|]. rewrite Rmult_assoc, Rinv_l; lra. }
    destruct N1 as (x & Ex & Bx), N2 as (y & Ey & By).
    pose proof (gram u v n) as GR. rewrite Ep, Eq, Ex, Ey, <- !len3_sq in GR. fold U V in GR. set (nn := dot3 n n) in *. 
    assert (GR' : q * q = nn * (1 - p * p) + 2 * (p * (x * y)) - y * y - x * x).
    { apply Rmult_eq_reg_r with (U * V * (U * V)); [|apply Rgt_not_eq; apply Rmult_lt_0_compat; assumption]. rewrite len3_sq in GR. fold nn in GR. lra. }
    assert (P1 : Rabs p <= 1).
    { unfold p, Rdiv. rewrite Rabs_mult, (Rabs_pos_eq (/ (U * V))) by (apply Rlt_le, Rinv_0_lt_compat; lra). apply Rmult_le_reg_r with (U * V); [lra|]. rewrite Rmult_assoc, Rinv_l by lra. pose proof (dot3_le u v) as Q. fold U V in Q. lra. }
    assert (XY : forall s t, Rabs s <= e -> Rabs t <= e -> Rabs (s * t) <= / 2048 * e) by (intros s t Hs Ht; rewrite Rabs_mult; apply Rle_trans with (e * e); [apply Rmult_le_compat; auto using Rabs_pos|apply Rmult_le_compat_r; lra]).
    pose proof (XY x y Bx By) as B1. pose proof (XY x x Bx Bx) as B2. pose proof (XY y y By By) as B3.
    assert (B4 : Rabs (p * (x * y)) <= / 2048 * e) by (rewrite Rabs_mult; apply Rle_trans with (1 * (/ 2048 * e)); [apply Rmult_le_compat; auto using Rabs_pos|lra]).
    assert (PP : 0 <= p * p <= 1) by (apply Rabs_le_inv in P1; split; [apply Rle_0_sqr|nra]).
    assert (B5 : Rabs ((nn - 1) * (1 - p * p)) <= e / 16) by (rewrite Rabs_mult, (Rabs_pos_eq (1 - p * p)) by lra; apply Rle_trans with (e / 16 * 1); [apply Rmult_le_compat; auto using Rabs_pos; lra|lra]).
    assert (W : Rabs (1 - p * p - q * q) <= 0.07 * e) by (rewrite GR'; apply Rabs_le_inv in B2, B3, B4, B5; apply Rabs_le; lra).
    split; [exact W|]. split; [exact P1|]. split; [|split; [|split; [exact Ep|exact Eq]]].
    - assert (q * q <= 1.001) by (apply Rabs_le_inv in W; lra). pose proof (Rabs_pos q). assert (Rabs q * Rabs q = q * q) by (rewrite <- Rabs_mult; apply Rabs_pos_eq, Rle_0_sqr). apply Rnot_lt_le. intros Z. assert (1.001 * 1.001 <= Rabs q * Rabs q) by (apply Rmult_le_compat; lra). lra.
    - apply Rmult_le_reg_r with (U * V); [lra|]. eapply Rle_trans; [exact HB|]. rewrite Eq, Rabs_mult, (Rabs_pos_eq (U * V)) by lra. lra.
  Qed.
  Lemma bend_ab : let K := g * (U * V) in 0 < K /\ 0 < a /\ 0 < b /\ Rabs (a * b - K) <= 3.01 * e * K /\ Rabs (dot3 (L u) (L v) - K * p) <= 3.01 * e * K /\
    Rabs (a * a - g * (U * U)) <= 3.01 * e * (g * (U * U)) /\ Rabs (b * b - g * (V * V)) <= 3.01 * e * (g * (V * V)).
  Proof using G.
    intros K. destruct bend_unit as (_ & _ & _ & _ & Ep & _). destruct G as [He HL Hg Hu Hv _ _ _ _ _]. fold U in Hu. fold V in Hv. unfold unit_of in He.
    assert (UV : 0 < U * V) by (apply Rmult_lt_0_compat; assumption). assert (K0 : 0 < K) by (apply Rmult_lt_0_compat; assumption).
    pose proof (HL u u) as A. pose proof (HL v v) as B. pose proof (HL u v) as C. rewrite <- !len3_sq in A, B. fold a b U V in A, B, C. rewrite Ep in C. replace (g * (p * (U * V))) with (K * p) in C by (unfold K; ring). fold K in C.
    assert (UU : 0 < g * (U * U)) by (repeat apply Rmult_lt_0_compat; lra). assert (VV : 0 < g * (V * V)) by (repeat apply Rmult_lt_0_compat; lra).
    set (X := g * (U * U)) in *. set (Y := g * (V * V)) in *. assert (XY : X * Y = K * K) by (unfold X, Y, K; ring).
    pose proof (len3_nn (L u)) as a0. pose proof (len3_nn (L v)) as b0. fold a in a0. fold b in b0.
    assert (eX : 0 < e * X <= / 2048 * X) by (split; [apply Rmult_lt_0_compat; lra|apply Rmult_le_compat_r; lra]). assert (eY : 0 < e * Y <= / 2048 * Y) by (split; [apply Rmult_lt_0_compat; lra|apply Rmult_le_compat_r; lra]). assert (eK : 0 < e * K <= / 2048 * K) by (split; [apply Rmult_lt_0_compat; lra|apply Rmult_le_compat_r; lra]).
    apply Rabs_le_inv in A, B.
    assert (a1 : 0 < a) by (destruct a0 as [|Z]; [assumption|]; rewrite <- Z in A; lra). assert (b1 : 0 < b) by (destruct b0 as [|Z]; [assumption|]; rewrite <- Z in B; lra).
    split; [exact K0|]. split; [exact a1|]. split; [exact b1|]. split; [|split; [exact C|split; apply Rabs_le; assumption]].
    assert (ab : 0 < a * b) by (apply Rmult_lt_0_compat; assumption).
    set (k := 3.01 * e) in *. assert (k0 : 0 < k < 0.01) by (unfold k; lra).
    assert (H1 : (a * b) * (a * b) <= (K + k * K) * (K + k * K)).
    { replace (a * b * (a * b)) with (a * a * (b * b)) by ring. apply Rle_trans with ((X + k * X) * (Y + k * Y)); [apply Rmult_le_compat; try nra; lra|]. replace ((X + k * X) * (Y + k * Y)) with (X * Y * ((1 + k) * (1 + k))) by ring. rewrite XY. lra. }
    assert (H2 : (K - k * K) * (K - k * K) <= (a * b) * (a * b)).
    { replace (a * b * (a * b)) with (a * a * (b * b)) by ring. apply Rle_trans with ((X - k * X) * (Y - k * Y)); [|apply Rmult_le_compat; try nra; lra]. replace ((X - k * X) * (Y - k * Y)) with (X * Y * ((1 - k) * (1 - k))) by ring. rewrite XY. lra. }
    assert (kK : 0 < k * K <= 0.01 * K) by (split; [apply Rmult_lt_0_compat; lra|apply Rmult_le_compat_r; lra]).
    apply Rabs_le. split; apply Rnot_lt_le; intros Z.
    - assert (a * b * (a * b) < (K - k * K) * (K - k * K)); [|lra]. apply Rmult_le_0_lt_compat; lra.
    - assert ((K + k * K) * (K + k * K) < a * b * (a * b)); [|lra]. apply Rmult_le_0_lt_compat; lra.
  Qed.
  (** The law of cosines, in the start joint's space, gives the angle in the mid joint's space. *)
  Lemma bend_measure : clampR (-1) 1 (bones_cos a b c) = bones_cos a b c /\ Rabs (bones_cos a b c + p) <= 6.1 * e.
  Proof using G.
    destruct bend_ab as (K0 & a0 & b0 & EK & EC & _ & _). destruct bend_unit as (_ & P1 & _). destruct G as [He _ _ _ _ _ _ _ _ _]. unfold unit_of in He.
    set (K := g * (U * V)) in *. assert (ab : 0 < a * b) by (apply Rmult_lt_0_compat; assumption).
    assert (E : bones_cos a b c = - dot3 (L u) (L v) / (a * b)).
    { unfold bones_cos. unfold a at 1 2, b at 1 2, c. rewrite !len3_sq. unfold Rdiv. rewrite Rinv_mult. apply Rmult_eq_reg_r with (2 * (a * b)); [|lra]. fold a b. unfold dot3, plus3. cbn [vx vy vz]. field. lra. }
    rewrite E. pose proof (dot3_le (L u) (L v)) as CS. fold a b in CS. set (dd := dot3 (L u) (L v)) in *. split.
    - apply clampR_id. apply Rabs_le_inv in CS. split; apply Rmult_le_reg_r with (a * b); try assumption; unfold Rdiv; rewrite Rmult_assoc, Rinv_l by lra; lra.
    - replace (- dd / (a * b) + p) with ((p * (a * b) - dd) / (a * b)) by (field; lra). unfold Rdiv. rewrite Rabs_mult, (Rabs_pos_eq (/ (a * b))) by (apply Rlt_le, Rinv_0_lt_compat; lra).
      apply Rmult_le_reg_r with (a * b); [lra|]. rewrite Rmult_assoc, Rinv_l, Rmult_1_r by lra.
      assert (X : Rabs (p * (a * b - K)) <= 3.01 * e * K) by (rewrite Rabs_mult; apply Rle_trans with (1 * (3.01 * e * K)); [apply Rmult_le_compat; auto using Rabs_pos|lra]).
      apply Rle_trans with (6.02 * e * K); [replace (p * (a * b) - dd) with (p * (a * b - K) - (dd - K * p)) by ring; apply Rabs_le_inv in X, EC; apply Rabs_le; lra|].
      apply Rabs_le_inv in EK. assert (eK : 0 < e * K <= / 2048 * K) by (split; [apply Rmult_lt_0_compat; lra|apply Rmult_le_compat_r; lra]).
      replace (6.1 * e * (a * b)) with (e * (6.1 * (a * b))) by ring. replace (6.02 * e * K) with (e * (6.02 * K)) by ring. apply Rmult_le_compat_l; lra.
  Qed.
  Lemma bend_reach i ph de sh ch w tau : be <= 1 -> a <= 4 * b -> b <= 4 * a -> 0 <= tau ->
    Rabs (cos i - clampR (-1) 1 (bones_cos a b c)) <= 15.02 * e -> 0 <= sin i * dot3 u (cross3 n v) -> Rabs (cos ph - clampR (-1) 1 (bones_cos a b tau)) <= 15.02 * e ->
    Rabs (de - (ph - i)) <= 0.05 * e -> sh = sin (de / 2) -> ch = cos (de / 2) ->
    len3 (minus3 w (rotate (qaxis n sh ch) v)) <= 0.04 * e * V -> let D := clampR (Rabs (a - b)) (a + b) tau in
    Rabs (dot3 (plus3 (L u) (L w)) (plus3 (L u) (L w)) - D * D) <= 200 * (e / be) * (a * b).
  Proof using G.
    intros B1 R1 R2 T0 HI HS HP HD -> -> HW D. destruct bend_measure as (CM & EM). destruct bend_ab as (K0 & a0 & b0 & EK & EC & EA & EB).
    destruct bend_unit as (W & P1 & Q1 & QB & Ep & Eq). destruct G as [He HL Hg Hu Hv Hn Hnu Hnv Hb HB]. pose proof He as He'. unfold unit_of in He'. fold U in Hu, Hnu. fold V in Hv, Hnv.
    rewrite CM in HI. set (K := g * (U * V)) in *. assert (UV : 0 < U * V) by (apply Rmult_lt_0_compat; assumption).
    assert (eK : 0 < e * K <= / 2048 * K) by (split; [apply Rmult_lt_0_compat; lra|apply Rmult_le_compat_r; lra]).
    assert (CI : Rabs (cos i + p) <= 21.12 * e) by (apply Rabs_le_inv in HI, EM; apply Rabs_le; lra).
    assert (SI : 0 <= sin i * q). { rewrite Eq in HS. apply Rmult_le_reg_r with (U * V); lra. }
    pose proof (bend_core p q (0.07 * e) (21.12 * e) be i ph de (0.05 * e) W P1 CI SI Hb QB Q1 HD ltac:(lra)) as CORE.
    set (I := e / be) in *. assert (Ie : e <= I) by (unfold I; apply Rmult_le_reg_r with be; [lra|]; unfold Rdiv; rewrite Rmult_assoc, Rinv_l by lra; rewrite Rmult_1_r; apply Rle_trans with (e * 1); [apply Rmult_le_compat_l; lra|lra]).
    replace ((2 * (21.12 * e) + 0.07 * e) / be) with (42.31 * I) in CORE by (unfold I, Rdiv; lra).
    clearbody I. idtac. assert (CORE' : Rabs (p * cos de + q * sin de + cos ph) <= 63.7 * I). { eapply Rle_trans; [exact CORE|]. clear CORE. clear -Ie He'. lra. } clear CORE.
    (* the turned bone *)
    set (sh := sin (de / 2)) in *. set (ch := cos (de / 2)) in *. set (w0 := rotate (qaxis n sh ch) v) in *.
    assert (SC : sh * sh + ch * ch = 1) by (pose proof (sin2_cos2 (de / 2)) as Q; unfold Rsqr in Q; exact Q).
    assert (CD : cos de = ch * ch - sh * sh) by (replace de with (2 * (de / 2)) by field; apply cos_2a). assert (SD : sin de = 2 * (sh * ch)) by (replace de with (2 * (de / 2)) by field; rewrite sin_2a; fold sh ch; ring).
    assert (S1 : 0 <= sh * sh <= 1) by (split; [apply Rle_0_sqr|pose proof (Rle_0_sqr ch); unfold Rsqr in *; lra]).
    assert (D0 : Rabs (dot3 u w0 - (p * cos de + q * sin de) * (U * V)) <= 0.065 * e * (U * V)).
    { unfold w0. rewrite turn_dot, Ep, Eq, CD, SD. set (nn := dot3 n n) in *.
      replace (_ - _) with (sh * sh * ((1 - nn) * p) * (U * V) + 2 * (sh * sh) * (dot3 n u * dot3 n v)) by ring.
      assert (A1 : Rabs (dot3 n u * dot3 n v) <= / 2048 * e * (U * V)).
      { rewrite Rabs_mult. apply Rle_trans with (e * U * (e * V)); [apply Rmult_le_compat; auto using Rabs_pos|]. replace (e * U * (e * V)) with (e * (e * (U * V))) by ring. rewrite Rmult_assoc. apply Rmult_le_compat_r; [|lra]. apply Rmult_le_pos; lra. }
      assert (A2 : Rabs ((1 - nn) * p) <= e / 16) by (rewrite Rabs_mult, Rabs_minus_sym; apply Rle_trans with (e / 16 * 1); [apply Rmult_le_compat; auto using Rabs_pos|lra]).
      eapply Rle_trans; [apply Rabs_triang|]. rewrite (Rabs_mult _ (U * V)), (Rabs_mult (sh * sh)), (Rabs_mult (2 * (sh * sh))), (Rabs_pos_eq (U * V)), (Rabs_pos_eq (sh * sh)), (Rabs_pos_eq (2 * (sh * sh))) by lra.
      assert (sh * sh * Rabs ((1 - nn) * p) * (U * V) <= e / 16 * (U * V)) by (apply Rmult_le_compat_r; [lra|]; apply Rle_trans with (1 * (e / 16)); [apply Rmult_le_compat; auto using Rabs_pos; lra|lra]).
      assert (2 * (sh * sh) * Rabs (dot3 n u * dot3 n v) <= 2 * (/ 2048 * e * (U * V))) by (apply Rmult_le_compat; auto using Rabs_pos; lra).
      assert (0 < e * (U * V)) by (apply Rmult_lt_0_compat; lra). lra. }
    assert (LW0 : Rabs (len3 w0 - V) <= e / 16 * V).
    { unfold w0. rewrite rot_len, qaxis_norm. fold V. replace (_ - V) with (sh * sh * (dot3 n n - 1) * V) by (replace (ch * ch) with (1 - sh * sh) by lra; ring).
      rewrite !Rabs_mult, (Rabs_pos_eq V) by lra. apply Rmult_le_compat_r; [lra|]. rewrite <- Rabs_mult, (Rabs_pos_eq (sh * sh)) by lra. apply Rle_trans with (1 * (e / 16)); [apply Rmult_le_compat; auto using Rabs_pos; lra|lra]. }
    assert (eV : 0 < e * V <= / 2048 * V) by (split; [apply Rmult_lt_0_compat; lra|apply Rmult_le_compat_r; lra]).
    assert (LW : Rabs (len3 w - V) <= 0.103 * e * V) by (pose proof (len3_diff w w0) as Q; apply Rabs_le_inv in Q, LW0; apply Rabs_le; lra).
    assert (D1 : Rabs (dot3 u w - dot3 u w0) <= 0.04 * e * (U * V)).
    { replace (dot3 u w - dot3 u w0) with (dot3 u (minus3 w w0)) by (unfold dot3, minus3; cbn [vx vy vz]; ring). eapply Rle_trans; [apply dot3_le|]. fold U. replace (0.04 * e * (U * V)) with (U * (0.04 * e * V)) by ring. apply Rmult_le_compat_l; lra. }
    assert (D2 : Rabs (dot3 u w + cos ph * (U * V)) <= 63.9 * I * (U * V)).
    { assert (X : Rabs ((p * cos de + q * sin de + cos ph) * (U * V)) <= 63.7 * I * (U * V)) by (rewrite Rabs_mult, (Rabs_pos_eq (U * V)) by lra; apply Rmult_le_compat_r; lra).
      assert (e * (U * V) <= I * (U * V)) by (apply Rmult_le_compat_r; lra). assert (0 < e * (U * V)) by (apply Rmult_lt_0_compat; lra). apply Rabs_le_inv in X, D0, D1. apply Rabs_le. lra. }
    assert (D3 : Rabs (g * dot3 u w + cos ph * K) <= 63.9 * I * K).
    { replace (g * dot3 u w + cos ph * K) with (g * (dot3 u w + cos ph * (U * V))) by (unfold K; ring). rewrite Rabs_mult, (Rabs_pos_eq g) by lra. replace (63.9 * I * K) with (g * (63.9 * I * (U * V))) by (unfold K; ring). apply Rmult_le_compat_l; lra. }
    set (lw := len3 w) in *. assert (LWb : 0.999 * V <= lw <= 1.001 * V) by (apply Rabs_le_inv in LW; lra).
    assert (D4 : Rabs (dot3 (L u) (L w) - g * dot3 u w) <= 3.02 * e * K).
    { eapply Rle_trans; [apply HL|]. fold U lw. apply Rle_trans with (3.01 * e * (1.001 * K)); [apply Rmult_le_compat_l; [lra|]|lra]. unfold K. replace (1.001 * (g * (U * V))) with (g * (U * (1.001 * V))) by ring. repeat apply Rmult_le_compat_l; lra. }
    assert (CP : Rabs (cos ph) <= 1) by (pose proof (COS_bound ph); apply Rabs_le; lra).
    assert (D5 : Rabs (cos ph * (a * b - K)) <= 3.01 * e * K) by (rewrite Rabs_mult; apply Rle_trans with (1 * (3.01 * e * K)); [apply Rmult_le_compat; auto using Rabs_pos|lra]).
    assert (eI : e * K <= I * K) by (apply Rmult_le_compat_r; lra).
    assert (ab : 0 < a * b) by (apply Rmult_lt_0_compat; assumption).
    assert (Kab : K <= 1.0015 * (a * b)) by (apply Rabs_le_inv in EK; lra).
    assert (D6 : Rabs (dot3 (L u) (L w) + a * b * cos ph) <= 70.1 * I * (a * b)).
    { apply Rle_trans with (69.95 * I * K); [apply Rabs_le_inv in D3, D4, D5; apply Rabs_le; lra|]. replace (69.95 * I * K) with (I * (69.95 * K)) by ring. replace (70.1 * I * (a * b)) with (I * (70.1 * (a * b))) by ring. apply Rmult_le_compat_l; lra. }
    set (X := g * (V * V)) in *. assert (X0 : 0 < X) by (unfold X; repeat apply Rmult_lt_0_compat; lra). assert (eX : 0 < e * X <= / 2048 * X) by (split; [apply Rmult_lt_0_compat; lra|apply Rmult_le_compat_r; lra]).
    assert (D7 : Rabs (dot3 (L w) (L w) - b * b) <= 25.1 * e * (a * b)).
    { pose proof (HL w w) as Q. rewrite <- (len3_sq w) in Q. fold lw in Q.
      assert (Y : Rabs (g * (lw * lw) - X) <= 0.21 * e * X).
      { unfold X. replace (g * (lw * lw) - g * (V * V)) with (g * ((lw - V) * (lw + V))) by ring. rewrite Rabs_mult, (Rabs_pos_eq g), Rabs_mult, (Rabs_pos_eq (lw + V)) by lra.
        replace (0.21 * e * (g * (V * V))) with (g * (0.21 * e * V * V)) by ring. apply Rmult_le_compat_l; [lra|]. apply Rle_trans with (0.103 * e * V * (2.001 * V)); [apply Rmult_le_compat; auto using Rabs_pos; lra|].
        assert (0 < e * V * V) by (apply Rmult_lt_0_compat; lra). lra. }
      apply Rabs_le_inv in Y. assert (Q' : 3.01 * e * (g * (lw * lw)) <= 3.01 * e * (1.001 * X)) by (apply Rmult_le_compat_l; lra).
      apply Rabs_le_inv in Q, EB. assert (Z : Rabs (dot3 (L w) (L w) - b * b) <= 6.25 * e * X) by (apply Rabs_le; lra).
      eapply Rle_trans; [exact Z|]. assert (X <= 1.002 * (b * b)) by lra. assert (b * b <= 4 * a * b) by (apply Rmult_le_compat_r; lra).
      replace (6.25 * e * X) with (e * (6.25 * X)) by ring. replace (25.1 * e * (a * b)) with (e * (25.1 * (a * b))) by ring. apply Rmult_le_compat_l; lra. }
    unfold D. rewrite reach_cos by assumption. set (cc := clampR (-1) 1 (bones_cos a b tau)) in *.
    assert (D8 : Rabs (a * b * (cos ph - cc)) <= 15.02 * e * (a * b)) by (rewrite Rabs_mult, (Rabs_pos_eq (a * b)) by lra; rewrite Rmult_comm; apply Rmult_le_compat_r; lra).
    assert (SS : dot3 (plus3 (L u) (L w)) (plus3 (L u) (L w)) = a * a + 2 * dot3 (L u) (L w) + dot3 (L w) (L w)) by (unfold a; rewrite len3_sq; unfold dot3, plus3; cbn [vx vy vz]; ring).
    rewrite SS. assert (eI2 : e * (a * b) <= I * (a * b)) by (apply Rmult_le_compat_r; lra). assert (0 < e * (a * b)) by (apply Rmult_lt_0_compat; lra).
    apply Rabs_le_inv in D6, D7, D8. apply Rabs_le. lra.
  Qed.
End Bend.
