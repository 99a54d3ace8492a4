(** Single-precision blending: rounding errors of one pass. *)
From Coq Require Import Reals Lra Psatz.
From Flocq Require Import IEEE754.BinarySingleNaN Core Relative.
From Verif Require Import Base Num NumF32 F32Facts F32Err InterpF32 NormF32 Math Keys KeysSpec Skeleton Blending BlendingProofs BlendingSpec
  BlendLane.
Local Open Scope R_scope.

(** ** Bounds that do not grow with the number of additions *)
Lemma fmt_p2 k : (-149 <= k)%Z -> fmt (p2 k).
Proof. intros H. apply generic_format_bpow. unfold SpecFloat.fexp, SpecFloat.emin. lia. Qed.
Lemma rnd_mono x y : x <= y -> rnd32 x <= rnd32 y.
Proof. apply round_le; [apply fexp_correct; reflexivity|apply valid_rnd_N]. Qed.
Lemma rnd_opp x : rnd32 (- x) = - rnd32 x.
Proof. apply round_NE_opp. Qed.
Lemma rnd_abs_le k x : (-149 <= k)%Z -> Rabs x <= p2 k -> Rabs (rnd32 x) <= p2 k.
Proof.
  intros Hk H. apply Rabs_le_inv in H. apply Rabs_le. rewrite <- (fmt_rnd (p2 k) (fmt_p2 k Hk)). rewrite <- rnd_opp.
  split; apply rnd_mono; lra.
Qed.
Lemma rnd_le_p2 k x : (-149 <= k)%Z -> x <= p2 k -> rnd32 x <= p2 k.
Proof. intros Hk H. rewrite <- (fmt_rnd (p2 k) (fmt_p2 k Hk)). apply rnd_mono, H. Qed.
Lemma rnd_ge_p2 k x : (-149 <= k)%Z -> p2 k <= x -> p2 k <= rnd32 x.
Proof. intros Hk H. rewrite <- (fmt_rnd (p2 k) (fmt_p2 k Hk)). apply rnd_mono, H. Qed.
Lemma rnd_nonneg x : 0 <= x -> 0 <= rnd32 x.
Proof. intros H. rewrite <- (round_0 radix2 (FLT_exp (-149) 24) ZnearestE). apply rnd_mono, H. Qed.

Lemma absorb_up k v : (-100 <= k)%Z -> v <= p2 (k + 26) + p2 k -> rnd32 v <= p2 (k + 26).
Proof.
  intros Hk H. apply round_N_le_midp; [apply fexp_correct; reflexivity|apply fmt_p2; lia|].
  rewrite succ_eq_pos by (apply Rlt_le, p2_pos). rewrite ulp_bpow.
  replace (SpecFloat.fexp 24 128 (k + 26 + 1)) with (3 + k)%Z by (unfold SpecFloat.fexp, SpecFloat.emin; lia).
  rewrite (p2_shift 3 k 8) by (simpl; lra). pose proof (p2_pos k). lra.
Qed.
(** A sum of terms of magnitude at most 2^k never exceeds 2^(k+26), however long. *)
Lemma absorb k s t : (-100 <= k)%Z -> Rabs s <= p2 (k + 26) -> Rabs t <= p2 k -> Rabs (rnd32 (s + t)) <= p2 (k + 26).
Proof.
  intros Hk Hs Ht. apply Rabs_le_inv in Hs. apply Rabs_le_inv in Ht. apply Rabs_le. split.
  - pose proof (absorb_up k (- (s + t)) Hk ltac:(lra)) as A. rewrite rnd_opp in A. lra.
  - apply absorb_up; [exact Hk|lra].
Qed.

(** ** One operation with error bounds *)
Lemma err_mul x y a b : fin x a -> fin y b -> Rabs (a * b) <= HUGE ->
  exists p, fin (nmul x y) p /\ Rabs (p - a * b) <= eps * Rabs (a * b) + tiny.
Proof. intros Fx Fy H. exists (rnd32 (a * b)). split; [apply fin_mul; assumption|apply rnd_err]. Qed.
Lemma err_add x y p q v v' A A' k t t' : fin x p -> fin y q -> Rabs (p + q) <= HUGE ->
  Rabs v <= A -> Rabs v' <= A' -> 0 <= k <= / 1000 -> 0 <= t -> 0 <= t' ->
  Rabs (p - v) <= k * A + t -> Rabs (q - v') <= k * A' + t' ->
  exists r, fin (nadd x y) r /\ Rabs (r - (v + v')) <= (k + 1.001 * eps) * (A + A') + 1.001 * (t + t').
Proof.
  intros Fx Fy H HA HA' Hk Ht Ht' E1 E2. exists (rnd32 (p + q)). split; [apply fin_add; assumption|].
  destruct (rnd_add_rel p q (fin_fmt _ _ Fx) (fin_fmt _ _ Fy)) as (e & He & ->). apply eps_inv in He. rewrite eps_val.
  apply Rabs_le_inv in E1. apply Rabs_le_inv in E2. apply Rabs_le_inv in HA. apply Rabs_le_inv in HA'.
  assert (B : Rabs (p + q) <= (1 + k) * (A + A') + (t + t')) by (apply Rabs_le; lra).
  assert (C : Rabs ((p + q) * e) <= ((1 + k) * (A + A') + (t + t')) * / 16777216).
  { rewrite Rabs_mult. apply Rmult_le_compat; try apply Rabs_pos; [exact B|apply Rabs_le; lra]. }
  apply Rabs_le_inv in C.
  assert (D : k * (A + A') <= / 1000 * (A + A')) by (apply Rmult_le_compat_r; lra).
  apply Rabs_le. lra.
Qed.

(** ** The rotation of a pass *)
Definition finq (q : quat f32) (r : quat R) : Prop := fin (qx q) (qx r) /\ fin (qy q) (qy r) /\ fin (qz q) (qz r) /\ fin (qw q) (qw r).
Definition boundq (b : R) (r : quat R) : Prop := Rabs (qx r) <= b /\ Rabs (qy r) <= b /\ Rabs (qz r) <= b /\ Rabs (qw r) <= b.
Definition nq (r : quat R) : R := qx r * qx r + qy r * qy r + qz r * qz r + qw r * qw r.
Definition absdot (s q : quat R) : R := Rabs (qx s * qx q) + Rabs (qy s * qy q) + Rabs (qz s * qz q) + Rabs (qw s * qw q).
Definition rdot (s q : quat R) : R := qx s * qx q + qy s * qy q + qz s * qz q + qw s * qw q.

Lemma mul_bound a b : Rabs a <= p2 47 -> Rabs b <= 2 -> Rabs (a * b) <= p2 48.
Proof.
  intros Ha Hb. rewrite Rabs_mult, (Rmult_comm (Rabs a)). change 48%Z with (1 + 47)%Z. rewrite (p2_shift 1 47 2) by (simpl; lra).
  apply Rmult_le_compat; auto; apply Rabs_pos.
Qed.
Lemma dot_err s q a b : finq s a -> finq q b -> boundq (p2 47) a -> boundq 2 b ->
  exists d, fin (q_dot s q) d /\ Rabs (d - rdot a b) <= 4.1 * eps * absdot a b + 5 * tiny.
Proof.
  intros (F0 & F1 & F2 & F3) (G0 & G1 & G2 & G3) (A0 & A1 & A2 & A3) (B0 & B1 & B2 & B3).
  pose proof (mul_bound _ _ A0 B0) as M0. pose proof (mul_bound _ _ A1 B1) as M1.
  pose proof (mul_bound _ _ A2 B2) as M2. pose proof (mul_bound _ _ A3 B3) as M3.
  destruct (err_mul _ _ _ _ F0 G0) as (m0 & H0 & E0); [apply (p2_le_HUGE 48); [lia|exact M0]|].
  destruct (err_mul _ _ _ _ F1 G1) as (m1 & H1 & E1); [apply (p2_le_HUGE 48); [lia|exact M1]|].
  destruct (err_mul _ _ _ _ F2 G2) as (m2 & H2 & E2); [apply (p2_le_HUGE 48); [lia|exact M2]|].
  destruct (err_mul _ _ _ _ F3 G3) as (m3 & H3 & E3); [apply (p2_le_HUGE 48); [lia|exact M3]|].
  unfold q_dot, rdot, absdot. pose proof tiny_pos as TP. pose proof tiny_eps as TE.
  assert (HB : forall v, Rabs v <= 8 * p2 48 -> Rabs v <= HUGE).
  { intros v Hv. apply (p2_le_HUGE 51); [lia|]. change 51%Z with (3 + 48)%Z. rewrite (p2_shift 3 48 8) by (simpl; lra). exact Hv. }
  assert (P48 : 1 <= p2 48) by (apply Rle_trans with (p2 0); [apply Req_le; reflexivity|apply bpow_le; discriminate]).
  set (v0 := qx a * qx b) in *. set (v1 := qy a * qy b) in *. set (v2 := qz a * qz b) in *. set (v3 := qw a * qw b) in *.
  set (M := p2 48) in *. clearbody v0 v1 v2 v3 M.
  pose proof (Rabs_pos v0). pose proof (Rabs_pos v1). pose proof (Rabs_pos v2). pose proof (Rabs_pos v3).
  assert (K : eps <= / 16777216) by (rewrite eps_val; lra). assert (K0 : 0 < eps) by (rewrite eps_val; lra).
  assert (W : forall m v, Rabs (m - v) <= eps * Rabs v + tiny -> Rabs v <= M -> Rabs m <= 1.5 * M).
  { intros m v E B. unfold eps in *. apply Rabs_le_inv in E. apply Rabs_le_inv in B. apply Rabs_le.
    assert (Rabs v <= M) by (apply Rabs_le; lra). lra. }
  pose proof (W _ _ E0 M0) as W0. pose proof (W _ _ E1 M1) as W1. pose proof (W _ _ E2 M2) as W2. pose proof (W _ _ E3 M3) as W3.
  assert (TR : forall x y, Rabs (x + y) <= Rabs x + Rabs y) by apply Rabs_triang.
  destruct (err_add _ _ m0 m1 v0 v1 (Rabs v0) (Rabs v1) eps tiny tiny H0 H1) as (s1 & S1 & T1); try assumption; try (unfold eps in *; lra).
  { apply HB. eapply Rle_trans; [apply TR|]. lra. }
  assert (Y1 : Rabs s1 <= 4 * M).
  { unfold eps in *. pose proof (TR v0 v1). pose proof (TR (s1 - (v0 + v1)) (v0 + v1)).
    replace (s1 - (v0 + v1) + (v0 + v1)) with s1 in * by ring. lra. }
  destruct (err_add _ _ s1 m2 (v0 + v1) v2 (Rabs v0 + Rabs v1) (Rabs v2) (eps + 1.001 * eps) (1.001 * (tiny + tiny)) tiny S1 H2) as (s2 & S2 & T2);
    try assumption; try (unfold eps in *; lra).
  { apply HB. eapply Rle_trans; [apply TR|]. lra. }
  { apply TR. }
  assert (Y2 : Rabs s2 <= 6 * M).
  { unfold eps in *. pose proof (TR v0 v1). pose proof (TR (v0 + v1) v2). pose proof (TR (s2 - (v0 + v1 + v2)) (v0 + v1 + v2)).
    replace (s2 - (v0 + v1 + v2) + (v0 + v1 + v2)) with s2 in * by ring. lra. }
  destruct (err_add _ _ s2 m3 (v0 + v1 + v2) v3 (Rabs v0 + Rabs v1 + Rabs v2) (Rabs v3) (eps + 1.001 * eps + 1.001 * eps)
     (1.001 * (1.001 * (tiny + tiny) + tiny)) tiny S2 H3) as (s3 & S3 & T3);
    try assumption; try (unfold eps in *; lra).
  { apply HB. eapply Rle_trans; [apply TR|]. lra. }
  { eapply Rle_trans; [apply TR|]. pose proof (TR v0 v1). lra. }
  exists s3. split; [exact S3|]. eapply Rle_trans; [exact T3|]. unfold eps in *. lra.
Qed.

(** Component by component, a pass adds the term with the sign chosen for the whole quaternion. *)
Lemma comp_pass s q w a b W (sg : bool) : fin s a -> fin q b -> fin w W -> Rabs a <= p2 47 -> Rabs b <= 2 -> 0 <= W <= p2 20 ->
  exists o d e, fin (nadd s (nmul (flip sg q) w)) o /\ Rabs o <= p2 47 /\ (W = 0 -> o = a) /\
    o = (a + ((if sg then - b else b) * W + d)) * (1 + e) /\ Rabs d <= eps * (Rabs b * W) + tiny /\ Rabs e <= eps.
Proof.
  intros Fs Fq Fw Ba Bb HW.
  assert (Ff : fin (flip sg q) (if sg then - b else b)) by (destruct sg; [apply fin_neg|]; exact Fq).
  set (m := if sg then - b else b) in *.
  assert (Am : Rabs m = Rabs b) by (unfold m; destruct sg; [apply Rabs_Ropp|reflexivity]). clearbody m.
  assert (AW : Rabs (m * W) <= p2 21).
  { rewrite Rabs_mult, Am, (Rabs_pos_eq W) by lra. change 21%Z with (1 + 20)%Z. rewrite (p2_shift 1 20 2) by (simpl; lra).
    apply Rmult_le_compat; try lra. apply Rabs_pos. }
  pose proof (rnd_abs_le 21 _ ltac:(lia) AW) as AR.
  pose proof (fin_mul _ _ _ _ Ff Fw (p2_le_HUGE 21 _ ltac:(lia) AW)) as Ft.
  assert (AS : Rabs (a + rnd32 (m * W)) <= HUGE).
  { apply (p2_le_HUGE 48); [lia|]. eapply Rle_trans; [apply Rabs_triang|].
    replace (p2 48) with (p2 47 + p2 47) by (change 48%Z with (1 + 47)%Z; rewrite (p2_shift 1 47 2) by (simpl; lra); lra).
    apply Rplus_le_compat; [exact Ba|]. eapply Rle_trans; [exact AR|]. apply bpow_le. lia. }
  pose proof (fin_add _ _ _ _ Fs Ft AS) as Fo.
  destruct (rnd_add_rel a (rnd32 (m * W)) (fin_fmt _ _ Fs) (rnd_fmt _)) as (e & He & E).
  exists (rnd32 (a + rnd32 (m * W))), (rnd32 (m * W) - m * W), e. split; [exact Fo|]. split; [|split; [|split; [|split]]].
  - apply (absorb 21); [lia|exact Ba|exact AR].
  - intros ->. rewrite Rmult_0_r. replace (rnd32 0) with 0 by (symmetry; apply round_0; apply valid_rnd_N).
    rewrite Rplus_0_r. apply fmt_rnd. eapply fin_fmt, Fs.
  - rewrite E. f_equal. ring.
  - replace (Rabs b * W) with (Rabs (m * W)) by (rewrite Rabs_mult, Am, (Rabs_pos_eq W) by lra; reflexivity). apply rnd_err.
  - exact He.
Qed.

(** (u + d)^2 (1 + e)^2 is not much less than u^2. *)
Lemma sq_lower u d e : Rabs e <= eps -> 0.98 * (u * u) - 100 * (d * d) <= ((u + d) * (1 + e)) * ((u + d) * (1 + e)).
Proof.
  intros He. apply eps_inv in He.
  replace ((u + d) * (1 + e) * ((u + d) * (1 + e))) with (((u + d) * (u + d)) * ((1 + e) * (1 + e))) by ring.
  apply Rle_trans with (((u + d) * (u + d)) * 0.999).
  - assert (0 <= (0.1 * u + 10 * d) * (0.1 * u + 10 * d)) by apply Rle_0_sqr. nra.
  - apply Rmult_le_compat_l; [apply Rle_0_sqr|]. pose proof (Rle_0_sqr e). unfold Rsqr in *. lra.
Qed.
Lemma d_small b W d : 0 <= W -> Rabs d <= eps * (Rabs b * W) + tiny -> d * d <= / 1000000 * (b * b * (W * W)) + tiny.
Proof.
  intros HW H. pose proof tiny_small as TP. pose proof (Rabs_pos b) as Pb. pose proof (Rabs_pos d) as Pd.
  replace (d * d) with (Rabs d * Rabs d) by (rewrite <- Rabs_mult, Rabs_pos_eq by nra; reflexivity).
  replace (b * b) with (Rabs b * Rabs b) by (rewrite <- Rabs_mult, Rabs_pos_eq by nra; reflexivity).
  set (D := Rabs d) in *. set (B := Rabs b) in *. clearbody D B. unfold eps in H.
  assert (T : tiny * tiny <= / 4 * tiny) by (apply Rmult_le_compat_r; [lra|]; assert (/ 2 ^ 100 <= / 4) by (apply Rinv_le; simpl; lra); lra).
  set (X := B * W) in *. assert (0 <= X) by (unfold X; apply Rmult_le_pos; assumption).
  replace (B * B * (W * W)) with (X * X) by (unfold X; ring). clearbody X.
  apply Rle_trans with ((/ 16777216 * X + tiny) * (/ 16777216 * X + tiny)).
  - apply Rmult_le_compat; lra.
  - assert (0 <= (/ 16777216 * X - tiny) * (/ 16777216 * X - tiny)) by apply Rle_0_sqr. nra.
Qed.
Lemma amgm x y : Rabs (x * y) <= / 2 * (x * x + y * y).
Proof. pose proof (Rle_0_sqr (x + y)). pose proof (Rle_0_sqr (x - y)). unfold Rsqr in *. apply Rabs_le. split; lra. Qed.
Lemma absdot_le a b W : 0 <= W -> W * absdot a b <= / 2 * (nq a + nq b * (W * W)).
Proof.
  intros HW. unfold absdot, nq.
  assert (G : forall x y, W * Rabs (x * y) <= / 2 * (x * x + y * y * (W * W))).
  { intros x y. replace (W * Rabs (x * y)) with (Rabs (x * (y * W))).
    - eapply Rle_trans; [apply amgm|]. lra.
    - replace (x * (y * W)) with (W * (x * y)) by ring. rewrite Rabs_mult, (Rabs_pos_eq W) by exact HW. reflexivity. }
  pose proof (G (qx a) (qx b)). pose proof (G (qy a) (qy b)). pose proof (G (qz a) (qz b)). pose proof (G (qw a) (qw b)). lra.
Qed.
Lemma nlt0_sign d r : fin d r -> nlt d nzero = (if Rlt_dec r 0 then true else false).
Proof.
  intros [F <-]. change (nlt d nzero) with (Bltb d (nzero : f32)).
  rewrite Bltb_ext by (destruct d; try reflexivity; discriminate). rewrite zero_ext, ext_finite by exact F.
  destruct (Rlt_bool_spec (B2R d) 0), (Rlt_dec (B2R d) 0); auto; lra.
Qed.

(** A pass keeps the rotation sum bounded, leaves it alone when the weight is 0, and never makes it
    shorter than the old sum or the new term by more than a few percent. *)
Lemma rot_pass s q w a b W : finq s a -> finq q b -> fin w W -> boundq (p2 47) a -> boundq 2 b -> 0.99 <= nq b <= 1.01 -> 0 <= W <= p2 20 ->
  exists o, finq (g_rot s q w) o /\ boundq (p2 47) o /\ (W = 0 -> o = a) /\
    (p2 (-62) <= nq a + W * W -> 0.9 * (nq a + W * W) <= nq o).
Proof.
  intros Fs Fq Fw Ba Bb Nb HW.
  destruct (dot_err s q a b Fs Fq Ba Bb) as (D & FD & ED).
  unfold g_rot.
  match goal with |- context [g_flip ?x q] => replace x with (if Rlt_dec D 0 then true else false) by (symmetry; exact (nlt0_sign _ _ FD)) end. set (sg := if Rlt_dec D 0 then true else false).
  destruct Fs as (F0 & F1 & F2 & F3). destruct Fq as (G0 & G1 & G2 & G3).
  destruct Ba as (A0 & A1 & A2 & A3). destruct Bb as (B0 & B1 & B2 & B3).
  destruct (comp_pass _ _ _ _ _ _ sg F0 G0 Fw A0 B0 HW) as (o0 & d0 & e0 & H0 & P0 & Z0 & E0 & K0 & L0).
  destruct (comp_pass _ _ _ _ _ _ sg F1 G1 Fw A1 B1 HW) as (o1 & d1 & e1 & H1 & P1 & Z1 & E1 & K1 & L1).
  destruct (comp_pass _ _ _ _ _ _ sg F2 G2 Fw A2 B2 HW) as (o2 & d2 & e2 & H2 & P2 & Z2 & E2 & K2 & L2).
  destruct (comp_pass _ _ _ _ _ _ sg F3 G3 Fw A3 B3 HW) as (o3 & d3 & e3 & H3 & P3 & Z3 & E3 & K3 & L3).
  exists (Q4 o0 o1 o2 o3). split; [|split; [|split]].
  - repeat split; cbn; try apply H0; try apply H1; try apply H2; apply H3.
  - repeat split; cbn; assumption.
  - intros HZ. rewrite (Z0 HZ), (Z1 HZ), (Z2 HZ), (Z3 HZ). destruct a; reflexivity.
  - intros HN. unfold nq at 2. cbn [qx qy qz qw]. 
    set (m x := if sg then - x else x).
    assert (LB : forall u c d e o, o = (u + (m c * W + d)) * (1 + e) -> Rabs d <= eps * (Rabs c * W) + tiny -> Rabs e <= eps ->
       0.98 * ((u + m c * W) * (u + m c * W)) - (/ 10000 * (c * c * (W * W)) + 100 * tiny) <= o * o).
    { intros u c d e o -> Hd He. pose proof (sq_lower (u + m c * W) d e He) as Q. pose proof (d_small c W d ltac:(lra) Hd) as Q2.
      replace (u + (m c * W + d)) with (u + m c * W + d) by ring. lra. }
    pose proof (LB _ _ _ _ _ E0 K0 L0) as Q0. pose proof (LB _ _ _ _ _ E1 K1 L1) as Q1.
    pose proof (LB _ _ _ _ _ E2 K2 L2) as Q2. pose proof (LB _ _ _ _ _ E3 K3 L3) as Q3.
    pose proof (absdot_le a b W ltac:(lra)) as AD.
    assert (SG : - (4.1 * eps * absdot a b + 5 * tiny) <= (if sg then - rdot a b else rdot a b)).
    { apply Rabs_le_inv in ED. unfold sg. destruct (Rlt_dec D 0); lra. }
    assert (EX : (qx a + m (qx b) * W) * (qx a + m (qx b) * W) + (qy a + m (qy b) * W) * (qy a + m (qy b) * W) +
                 (qz a + m (qz b) * W) * (qz a + m (qz b) * W) + (qw a + m (qw b) * W) * (qw a + m (qw b) * W)
               = nq a + nq b * (W * W) + 2 * W * (if sg then - rdot a b else rdot a b)).
    { unfold m, nq, rdot. destruct sg; ring. }
    set (dd := if sg then - rdot a b else rdot a b) in *.
    assert (WD : - (W * (4.1 * eps * absdot a b + 5 * tiny)) <= W * dd).
    { rewrite <- Ropp_mult_distr_r_reverse. apply Rmult_le_compat_l; [lra|exact SG]. }
    assert (NB : nq b * (W * W) = qx b * qx b * (W * W) + qy b * qy b * (W * W) + qz b * qz b * (W * W) + qw b * qw b * (W * W))
      by (unfold nq; ring).
    assert (TW : W * tiny <= / 100000 * (nq a + W * W)).
    { apply Rle_trans with (p2 20 * tiny); [apply Rmult_le_compat_r; [apply Rlt_le, tiny_pos|lra]|].
      apply Rle_trans with (p2 (-20) * p2 (-62)).
      - unfold tiny. rewrite <- !bpow_plus. apply bpow_le. lia.
      - apply Rmult_le_compat; try (apply Rlt_le, p2_pos); [simpl; lra|exact HN]. }
    assert (T1 : tiny <= / 100000 * (nq a + W * W)).
    { apply Rle_trans with (p2 (-20) * p2 (-62)).
      - unfold tiny. rewrite <- !bpow_plus. apply bpow_le. lia.
      - apply Rmult_le_compat; try (apply Rlt_le, p2_pos); [simpl; lra|exact HN]. }
    assert (NW : 0.99 * (W * W) <= nq b * (W * W) <= 1.01 * (W * W)) by (clear - Nb; pose proof (Rle_0_sqr W); unfold Rsqr in *; split; apply Rmult_le_compat_r; lra).
    assert (Na : 0 <= nq a) by (clear; unfold nq; nra).
    assert (WW : 0 <= W * W) by apply Rle_0_sqr.
    set (X := nq b * (W * W)) in *. set (Y := W * W) in *. set (Wd := W * dd) in *.
    set (WA := W * absdot a b) in *. replace (W * (4.1 * eps * absdot a b + 5 * tiny)) with (4.1 * eps * WA + 5 * (W * tiny)) in WD by (unfold WA; ring).
    replace (2 * W * dd) with (2 * Wd) in EX by (unfold Wd; ring).
    set (WT := W * tiny) in *. unfold eps in *.
    clearbody WA WT Wd X Y. lra.
Qed.

(** The first pass. *)
Lemma comp_first q w b W : fin q b -> fin w W -> Rabs b <= 2 -> 0 <= W <= p2 20 ->
  exists o d, fin (nmul q w) o /\ Rabs o <= p2 47 /\ o = (0 + (b * W + d)) * (1 + 0) /\ Rabs d <= eps * (Rabs b * W) + tiny.
Proof.
  intros Fq Fw Bb HW.
  assert (AW : Rabs (b * W) <= p2 21).
  { rewrite Rabs_mult, (Rabs_pos_eq W) by lra. change 21%Z with (1 + 20)%Z. rewrite (p2_shift 1 20 2) by (simpl; lra).
    apply Rmult_le_compat; try lra. apply Rabs_pos. }
  exists (rnd32 (b * W)), (rnd32 (b * W) - b * W). split; [apply fin_mul; auto; apply (p2_le_HUGE 21); [lia|exact AW]|].
  split; [|split].
  - eapply Rle_trans; [apply (rnd_abs_le 21); [lia|exact AW]|]. apply bpow_le. lia.
  - ring.
  - replace (Rabs b * W) with (Rabs (b * W)) by (rewrite Rabs_mult, (Rabs_pos_eq W) by lra; reflexivity). apply rnd_err.
Qed.
Lemma rot_first q w b W : finq q b -> fin w W -> boundq 2 b -> 0.99 <= nq b <= 1.01 -> 0 <= W <= p2 20 ->
  exists o, finq (q_mul_num q w) o /\ boundq (p2 47) o /\ (p2 (-62) <= W * W -> 0.9 * (W * W) <= nq o).
Proof.
  intros Fq Fw Bb Nb HW.
  destruct Fq as (G0 & G1 & G2 & G3). destruct Bb as (B0 & B1 & B2 & B3).
  destruct (comp_first _ _ _ _ G0 Fw B0 HW) as (o0 & d0 & H0 & P0 & E0 & K0).
  destruct (comp_first _ _ _ _ G1 Fw B1 HW) as (o1 & d1 & H1 & P1 & E1 & K1).
  destruct (comp_first _ _ _ _ G2 Fw B2 HW) as (o2 & d2 & H2 & P2 & E2 & K2).
  destruct (comp_first _ _ _ _ G3 Fw B3 HW) as (o3 & d3 & H3 & P3 & E3 & K3).
  exists (Q4 o0 o1 o2 o3). split; [|split].
  - repeat split; cbn; try apply H0; try apply H1; try apply H2; apply H3.
  - repeat split; cbn; assumption.
  - intros HN. unfold nq. cbn [qx qy qz qw].
    assert (LB : forall c d o, o = (0 + (c * W + d)) * (1 + 0) -> Rabs d <= eps * (Rabs c * W) + tiny ->
       0.98 * ((c * W) * (c * W)) - (/ 10000 * (c * c * (W * W)) + 100 * tiny) <= o * o).
    { intros c d o -> Hd. pose proof (sq_lower (c * W) d 0 ltac:(rewrite Rabs_R0; unfold eps; lra)) as Q. pose proof (d_small c W d ltac:(lra) Hd) as Q2.
      replace (0 + (c * W + d)) with (c * W + d) by ring. lra. }
    pose proof (LB _ _ _ E0 K0) as Q0. pose proof (LB _ _ _ E1 K1) as Q1.
    pose proof (LB _ _ _ E2 K2) as Q2. pose proof (LB _ _ _ E3 K3) as Q3.
    assert (T1 : tiny <= / 100000 * (W * W)).
    { apply Rle_trans with (p2 (-20) * p2 (-62)).
      - unfold tiny. rewrite <- !bpow_plus. apply bpow_le. lia.
      - apply Rmult_le_compat; try (apply Rlt_le, p2_pos); [simpl; lra|exact HN]. }
    assert (EX : qx b * W * (qx b * W) + qy b * W * (qy b * W) + qz b * W * (qz b * W) + qw b * W * (qw b * W) = nq b * (W * W)) by (unfold nq; ring).
    assert (EY : qx b * qx b * (W * W) + qy b * qy b * (W * W) + qz b * qz b * (W * W) + qw b * qw b * (W * W) = nq b * (W * W)) by (unfold nq; ring).
    assert (NW : 0.99 * (W * W) <= nq b * (W * W) <= 1.01 * (W * W)) by (clear - Nb; pose proof (Rle_0_sqr W); unfold Rsqr in *; split; apply Rmult_le_compat_r; lra).
    lra.
Qed.
