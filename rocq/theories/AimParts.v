(** The remaining steps of aim IK in binary32: products of quaternions, axes, half-angle quaternions, the cosine of the
    plane rotation, and weighting. *)
From Coq Require Import Reals Lra Psatz.
From Flocq Require Import IEEE754.BinarySingleNaN Core.
From Verif Require Import Base Num NumF32 NumR F32Facts F32Err InterpF32 NormF32 BlendF32 Math MathSpec MathProofs BlendingSpec AdditiveSpec QuatNorm
  MotionGlam MotionF32 MotionF32Proofs Ik IkSpec IkProofs VecNorm PolyErr MatInvF32 AimF32.
Local Open Scope R_scope.

(** ** Products *)
Lemma cauchy4 a b c d x y z w : Rabs a * Rabs x + Rabs b * Rabs y + (Rabs c * Rabs z + Rabs d * Rabs w) <= qn (Q4 a b c d) * qn (Q4 x y z w).
Proof.
  assert (Z : forall t, Rabs t * Rabs t = t * t) by (intros t; rewrite <- Rabs_mult; apply Rabs_pos_eq; nra).
  pose proof (qdot_le (Q4 (Rabs a) (Rabs b) (Rabs c) (Rabs d)) (Q4 (Rabs x) (Rabs y) (Rabs z) (Rabs w))) as H.
  assert (E : forall p q r s, qn (Q4 (Rabs p) (Rabs q) (Rabs r) (Rabs s)) = qn (Q4 p q r s)).
  { intros. unfold qn, norm2. cbn [qx qy qz qw]. rewrite !Z. reflexivity. }
  rewrite !E in H. eapply Rle_trans; [|exact H]. eapply Rle_trans; [|apply Rle_abs]. unfold qdot. cbn [qx qy qz qw]. lra.
Qed.
Definition env8 {A} (o : A) (a b c d x y z w : A) (i : nat) : A :=
  (match i with 0 => a | 1 => b | 2 => c | 3 => d | 4 => x | 5 => y | 6 => z | 7 => w | _ => o end)%nat.
Definition mule (a x b y c z d w : nat) : expr :=
  Add (Add (Mul (Var a) (Var x)) (Mul (Var b) (Var y))) (Sub (Mul (Var c) (Var z)) (Mul (Var d) (Var w))).
Lemma mul_ev {F} {NF : Num F} (a b : V4 F) o :
  let v := env8 o (l0 a) (l1 a) (l2 a) (l3 a) (l0 b) (l1 b) (l2 b) (l3 b) in
  l0 (quat_mul a b) = ev v (mule 1 6 3 4 0 7 2 5) /\ l1 (quat_mul a b) = ev v (mule 2 4 3 5 1 7 0 6) /\
  l2 (quat_mul a b) = ev v (mule 0 5 3 6 2 7 1 4) /\ l3 (quat_mul a b) = ev v (Neg (mule 1 5 2 6 0 4 3 7)).
Proof. destruct a, b. repeat split. Qed.
Lemma mul_err (a b : V4 f32) A B : fq a A -> fq b B -> qn A <= 1.01 -> qn B <= 1.01 ->
  exists r, fq (quat_mul a b) r /\ qn (qsub r (hamilton A B)) <= 6.2 * eps.
Proof.
  intros (A0 & A1 & A2 & A3) (B0 & B1 & B2 & B3) NA NB. unfold vq in *. cbn [qx qy qz qw] in *.
  pose proof (mul_ev a b nzero) as (M0 & M1 & M2 & M3). cbv zeta in *. set (v := env8 nzero _ _ _ _ _ _ _ _) in *.
  set (r := env8 0 (qx A) (qy A) (qz A) (qw A) (qx B) (qy B) (qz B) (qw B)).
  assert (V : forall i, fin (v i) (r i)) by (intros i; do 8 (destruct i as [|i]; [assumption|]); apply fin_zero). clearbody v.
  assert (Bd : forall i, Rabs (r i) <= p2 1).
  { destruct (qn_comp A) as (C0 & C1 & C2 & C3). destruct (qn_comp B) as (D0 & D1 & D2 & D3). replace (p2 1) with 2 by (simpl; lra).
    intros i. unfold r. do 8 (destruct i as [|i]; [cbn [env8]; lra|]). cbn [env8]. rewrite Rabs_R0. lra. }
  pose proof (qn_pos A) as PA. pose proof (qn_pos B) as PB.
  assert (NN : qn A * qn B <= 1.0201) by (replace 1.0201 with (1.01 * 1.01) by lra; apply Rmult_le_compat; lra).
  assert (X : forall e, small 1 e = true -> cost e = 3%Z -> (under 1 e <= 70)%Z -> evA r e <= qn A * qn B -> exists d, fin (ev32 v e) d /\ Rabs (d - evR r e) <= 3.1 * eps).
  { intros e Sm Ce Ue HA. destruct (poly_err 1 v r e ltac:(lia) V Bd Sm) as (d & Fd & _ & Ed). exists d. split; [exact Fd|].
    rewrite Ce in Ed. pose proof (small_under _ 1 Ue ltac:(lra)) as T. eapply Rle_trans; [exact Ed|].
    apply Rle_trans with (3 * eta * 1.0201 + 0.001 * eps * 1); [|unfold eta, eps; lra].
    apply Rplus_le_compat; [apply Rmult_le_compat_l; [unfold eta, eps; lra|lra]|exact T]. }
  assert (P : forall a b c d, qn (Q4 a b c d) = qn A -> forall x y z w, qn (Q4 x y z w) = qn B -> Rabs a * Rabs x + Rabs b * Rabs y + (Rabs c * Rabs z + Rabs d * Rabs w) <= qn A * qn B).
  { intros p q s t <- x y z w <-. apply cauchy4. }
  assert (U0 : exists d, fin (ev32 v (mule 1 6 3 4 0 7 2 5)) d /\ Rabs (d - evR r (mule 1 6 3 4 0 7 2 5)) <= 3.1 * eps).
  { apply X; try (vm_compute; first [reflexivity|discriminate]). unfold r. cbn [evA mule env8]. apply P; unfold qn, norm2; cbn [qx qy qz qw]; f_equal; ring. }
  assert (U1 : exists d, fin (ev32 v (mule 2 4 3 5 1 7 0 6)) d /\ Rabs (d - evR r (mule 2 4 3 5 1 7 0 6)) <= 3.1 * eps).
  { apply X; try (vm_compute; first [reflexivity|discriminate]). unfold r. cbn [evA mule env8]. apply P; unfold qn, norm2; cbn [qx qy qz qw]; f_equal; ring. }
  assert (U2 : exists d, fin (ev32 v (mule 0 5 3 6 2 7 1 4)) d /\ Rabs (d - evR r (mule 0 5 3 6 2 7 1 4)) <= 3.1 * eps).
  { apply X; try (vm_compute; first [reflexivity|discriminate]). unfold r. cbn [evA mule env8]. apply P; unfold qn, norm2; cbn [qx qy qz qw]; f_equal; ring. }
  assert (U3 : exists d, fin (ev32 v (Neg (mule 1 5 2 6 0 4 3 7))) d /\ Rabs (d - evR r (Neg (mule 1 5 2 6 0 4 3 7))) <= 3.1 * eps).
  { apply X; try (vm_compute; first [reflexivity|discriminate]). unfold r. cbn [evA mule env8]. apply P; unfold qn, norm2; cbn [qx qy qz qw]; f_equal; ring. }
  destruct U0 as (d0 & F0 & E0), U1 as (d1 & F1 & E1), U2 as (d2 & F2 & E2), U3 as (d3 & F3 & E3).
  exists (Q4 d0 d1 d2 d3). split.
  - unfold fq, finq, vq. cbn [qx qy qz qw]. rewrite M0, M1, M2, M3. auto.
  - replace (6.2 * eps) with (2 * (3.1 * eps)) by lra. apply qn_le; [unfold eps; lra| | | |].
    + replace (qx (qsub (Q4 d0 d1 d2 d3) (hamilton A B))) with (d0 - evR r (mule 1 6 3 4 0 7 2 5)); [exact E0|].
      unfold r, qsub, qadd, qscale, hamilton, hvec, cross3, dot3. cbn. ring.
    + replace (qy (qsub (Q4 d0 d1 d2 d3) (hamilton A B))) with (d1 - evR r (mule 2 4 3 5 1 7 0 6)); [exact E1|].
      unfold r, qsub, qadd, qscale, hamilton, hvec, cross3, dot3. cbn. ring.
    + replace (qz (qsub (Q4 d0 d1 d2 d3) (hamilton A B))) with (d2 - evR r (mule 0 5 3 6 2 7 1 4)); [exact E2|].
      unfold r, qsub, qadd, qscale, hamilton, hvec, cross3, dot3. cbn. ring.
    + replace (qw (qsub (Q4 d0 d1 d2 d3) (hamilton A B))) with (d3 - evR r (Neg (mule 1 5 2 6 0 4 3 7))); [exact E3|].
      unfold r, qsub, qadd, qscale, hamilton, hvec, cross3, dot3. cbn. ring.
Qed.

(** ** Rotations about a vector *)
Definition about (t : vec3 R) (b : quat R) : Prop := qn b = 1 /\ rotate b t = t.
Definition dir (t : vec3 R) : vec3 R := scale3 (/ len3 t) t.
Lemma dir_unit t : 0 < len3 t -> dot3 (dir t) (dir t) = 1.
Proof.
  intros H. pose proof (len3_sq t) as S. unfold dir. replace (dot3 (scale3 (/ len3 t) t) (scale3 (/ len3 t) t)) with (/ len3 t * / len3 t * dot3 t t) by (v3s; ring).
  rewrite <- S. field. lra.
Qed.
Lemma dir_comp t : 0 < len3 t -> Rabs (vx (dir t)) <= 1 /\ Rabs (vy (dir t)) <= 1 /\ Rabs (vz (dir t)) <= 1.
Proof.
  intros H. pose proof (dir_unit t H) as U. assert (L : len3 (dir t) = 1) by (unfold len3; rewrite U; apply sqrt_1).
  rewrite <- L. apply len3_comp.
Qed.
Lemma about_axis t s c : 0 < len3 t -> s * s + c * c = 1 -> about t (qaxis (dir t) s c).
Proof.
  intros H E. split.
  - unfold qn. rewrite qaxis_norm, (dir_unit t H). replace (s * s * 1 + c * c) with 1 by lra. apply sqrt_1.
  - replace t with (scale3 (len3 t) (dir t)) at 2 3; [apply qaxis_rotate_axis; auto using dir_unit|].
    unfold dir. rewrite scale3_scale, Rinv_r by lra. apply scale3_1.
Qed.
Lemma about_one t : about t (Q4 0 0 0 1).
Proof.
  split; [unfold qn, norm2; cbn; replace (0 * 0 + 0 * 0 + 0 * 0 + 1 * 1) with 1 by ring; apply sqrt_1|].
  rewrite rotate_explicit. destruct t. cbn. f_equal; ring.
Qed.
Lemma about_mul t a b : about t a -> about t b -> about t (hamilton a b).
Proof.
  intros (A1 & A2) (B1 & B2). split; [rewrite qn_ham, A1, B1; ring|].
  rewrite rotate_compose; [rewrite B2; exact A2|..].
  all: try (rewrite <- qn_sq; rewrite ?A1, ?B1; ring).
Qed.

(** ** The axis, normalised *)
Lemma rsqrt_err x L n : fin x L -> / 512 <= n <= 4194304 -> Rabs (L - n * n) <= 3.01 * eps * (n * n) ->
  exists s, fin (nrecip (nsqrt x)) s /\ Rabs (s - / n) <= 3.6 * eps * / n.
Proof.
  intros F Hn E. assert (N0 : 0 < n * n) by nra.
  destruct (sqrt_near x L (n * n) 3.01 F N0) as (q & Fq & Eq); [|exact E|lra|].
  { apply Rle_trans with (/ 512 * / 512); [simpl; lra|]. apply Rmult_le_compat; lra. }
  rewrite sqrt_square in Eq by lra. apply Rabs_le_inv in Eq.
  assert (Hq : 0.999999 * n <= q <= 1.000001 * n) by (unfold eps in *; lra).
  assert (I : 0 < / n) by (apply Rinv_0_lt_compat; lra).
  assert (In : / 4194304 <= / n <= 512) by (split; [apply Rinv_le_contravar; lra|rewrite <- (Rinv_inv 512); apply Rinv_le_contravar; lra]).
  assert (Q1 : Rabs (1 / q - / n) <= 2.56 * eps * / n).
  { replace (1 / q - / n) with ((n - q) / q * / n) by (field; lra). rewrite Rabs_mult, (Rabs_pos_eq (/ n)) by lra. apply Rmult_le_compat_r; [lra|].
    unfold Rdiv. rewrite Rabs_mult, (Rabs_pos_eq (/ q)) by (apply Rlt_le, Rinv_0_lt_compat; lra).
    apply Rle_trans with (2.5452 * eps * n * / (0.999999 * n)).
    - apply Rmult_le_compat; [apply Rabs_pos|apply Rlt_le, Rinv_0_lt_compat; lra|apply Rabs_le; unfold eps in *; lra|apply Rinv_le_contravar; lra].
    - replace (2.5452 * eps * n * / (0.999999 * n)) with (2.5452 / 0.999999 * eps) by (field; lra). unfold eps. lra. }
  apply Rabs_le_inv in Q1.
  assert (Q2 : Rabs (1 / q) <= 1024) by (apply Rabs_le; unfold eps in *; lra).
  exists (rnd32 (1 / q)). split.
  - change (nrecip (nsqrt x)) with (ndiv none_ (nsqrt x)). apply fin_div; [apply fin_one|exact Fq|lra|]. apply Rle_trans with (p2 10); [simpl; lra|unfold HUGE; apply bpow_le; lia].
  - pose proof (rnd_err (1 / q)) as ER. rewrite (Rabs_pos_eq (1 / q)) in ER by (unfold eps in *; lra). apply Rabs_le_inv in ER.
    assert (T : tiny <= 0.0001 * eps * / n) by (apply Rle_trans with (0.0001 * eps * / 4194304); [unfold tiny, eps; simpl; lra|apply Rmult_le_compat_l; unfold eps; lra]).
    apply Rabs_le. unfold eps in *. lra.
Qed.
Lemma axis_err (t : V4 f32) (d : f32) u L : fin4 t u -> sized u -> fin d L -> Rabs (L - len3 u * len3 u) <= 3.01 * eps * (len3 u * len3 u) ->
  let s := nrecip (nsqrt d) in
  exists a, fin (nmul (l0 t) s) (vx a) /\ fin (nmul (l1 t) s) (vy a) /\ fin (nmul (l2 t) s) (vz a) /\
    Rabs (vx a - vx (dir u)) <= 4.8 * eps /\ Rabs (vy a - vy (dir u)) <= 4.8 * eps /\ Rabs (vz a - vz (dir u)) <= 4.8 * eps.
Proof.
  intros (F0 & F1 & F2) Su Fd E s0. destruct (rsqrt_err d L (len3 u) Fd Su E) as (s & Fs & Es). fold s0 in Fs. clearbody s0.
  assert (Lu : 0 < len3 u) by (destruct Su; lra). destruct (dir_comp u Lu) as (C0 & C1 & C2). pose proof (len3_comp u) as (D0 & D1 & D2).
  assert (X : forall x v, fin x v -> Rabs (/ len3 u * v) <= 1 -> fin (nmul x s0) (rnd32 (v * s)) /\ Rabs (rnd32 (v * s) - / len3 u * v) <= 4.8 * eps).
  { intros x v Fx Hv. assert (Dv : Rabs (v * s - / len3 u * v) <= 3.6 * eps).
    { replace (v * s - / len3 u * v) with ((s - / len3 u) * v) by ring. rewrite Rabs_mult.
      apply Rle_trans with (3.6 * eps * / len3 u * Rabs v); [apply Rmult_le_compat_r; [apply Rabs_pos|exact Es]|].
      rewrite Rabs_mult, (Rabs_pos_eq (/ len3 u)) in Hv by (apply Rlt_le, Rinv_0_lt_compat, Lu).
      replace (3.6 * eps * / len3 u * Rabs v) with (3.6 * eps * (/ len3 u * Rabs v)) by ring. unfold eps. lra. }
    assert (Bv : Rabs (v * s) <= 1.00001) by (apply Rabs_le_inv in Dv; apply Rabs_le_inv in Hv; apply Rabs_le; unfold eps in *; lra).
    split; [apply fin_mul; auto; apply Rle_trans with (p2 1); [simpl; lra|unfold HUGE; apply bpow_le; lia]|].
    pose proof (rnd_err (v * s)) as ER. assert (T : tiny <= 0.0001 * eps) by (unfold tiny, eps; simpl; lra).
    apply Rabs_le_inv in Dv. apply Rabs_le_inv in ER. apply Rabs_le. unfold eps in *. lra. }
  destruct (X _ _ F0 C0) as (G0 & E0). destruct (X _ _ F1 C1) as (G1 & E1). destruct (X _ _ F2 C2) as (G2 & E2).
  exists (V3 (rnd32 (vx u * s)) (rnd32 (vy u * s)) (rnd32 (vz u * s))). cbn [vx vy vz]. auto 10.
Qed.

(** ** A quaternion from the cosine of its angle *)
Lemma sqrt_pair x y e : 0 <= x -> 0 <= y <= 1 -> Rabs (x - y) <= e * y -> 0 <= e -> Rabs (sqrt x - sqrt y) <= e.
Proof.
  intros Hx Hy H He. pose proof (sqrt_pos x) as P. pose proof (sqrt_pos y) as Q. pose proof (sqrt_sqrt x Hx) as X. pose proof (sqrt_sqrt y ltac:(lra)) as Y.
  assert (Y1 : sqrt y <= 1) by (rewrite <- sqrt_1; apply sqrt_le_1_alt; lra).
  apply Rabs_le_inv in H. set (a := sqrt x) in *. set (b := sqrt y) in *. clearbody a b. subst.
  destruct (Req_dec b 0) as [->|Nb]; [assert (a * a <= 0) by lra; assert (a = 0) by nra; subst; rewrite Rminus_0_r, Rabs_R0; lra|].
  assert (B0 : 0 < b) by lra. assert (EB : e * (b * b) <= e * b) by (apply Rmult_le_compat_l; nra).
  apply Rabs_le. split; apply Rnot_lt_le; intros Hl.
  - assert (e * b < (b - a) * b) by (apply Rmult_lt_compat_r; lra). assert (0 <= (b - a) * a) by (apply Rmult_le_pos; lra). lra.
  - assert (e * b < (a - b) * b) by (apply Rmult_lt_compat_r; lra). assert (0 <= (a - b) * a) by (apply Rmult_le_pos; lra). lra.
Qed.
Lemma fin_half : fin (nhalf : f32) (/ 2).
Proof. change (@nhalf f32 f32arith) with (f32_lit 1 (-1)). replace (/ 2) with (IZR 1 * bpow radix2 (-1)) by (simpl; lra). apply fin_lit; lia. Qed.
Lemma sqrt_unit y : 0 <= y <= 1 -> 0 <= sqrt y <= 1.
Proof. intros H. split; [apply sqrt_pos|]. rewrite <- sqrt_1. apply sqrt_le_1_alt. lra. Qed.
Lemma cos_angle_err (axis cs : V4 f32) a u c : fin4 axis a -> fin (l0 cs) c -> -1 <= c <= 1 ->
  Rabs (vx u) <= 1 -> Rabs (vy u) <= 1 -> Rabs (vz u) <= 1 ->
  Rabs (vx a - vx u) <= 4.8 * eps -> Rabs (vy a - vy u) <= 4.8 * eps -> Rabs (vz a - vz u) <= 4.8 * eps ->
  exists r s k, fq (quat_from_cos_angle axis cs) r /\ s * s + k * k = 1 /\ qn (qsub r (qaxis u s k)) <= 16 * eps.
Proof.
  intros (F0 & F1 & F2) Fc Hc U0 U1 U2 E0 E1 E2.
  assert (HH : 4 <= HUGE) by (apply Rle_trans with (p2 2); [simpl; lra|unfold HUGE; apply bpow_le; lia]).
  pose proof (fin_add _ _ _ _ fin_one Fc ltac:(apply Rabs_le; lra)) as Fx. set (x := rnd32 (1 + c)) in *.
  assert (X : 0 <= x <= 2).
  { split; [apply rnd_nonneg; lra|]. replace 2 with (p2 1) by (simpl; lra). apply rnd_le_p2; [lia|]. simpl. lra. }
  pose proof (fin_mul _ _ _ _ Fx fin_half ltac:(apply Rabs_le; lra)) as Fh. set (h := rnd32 (x * / 2)) in *.
  assert (H : 0 <= h <= 1).
  { split; [apply rnd_nonneg; lra|]. replace 1 with (p2 0) by (simpl; lra). apply rnd_le_p2; [lia|]. simpl. lra. }
  pose proof (fin_sub _ _ _ _ fin_one Fh ltac:(apply Rabs_le; lra)) as Fy. set (y := rnd32 (1 - h)) in *.
  assert (Y0 : 0 <= y) by (apply rnd_nonneg; lra).
  assert (EY : Rabs (y - (1 - h)) <= eps * (1 - h)).
  { destruct (rnd_sub_rel 1 h (fin_fmt _ _ fin_one) (fin_fmt _ _ Fh)) as (e & He & Ee). unfold y. rewrite Ee.
    replace ((1 - h) * (1 + e) - (1 - h)) with (e * (1 - h)) by ring. rewrite Rabs_mult, (Rabs_pos_eq (1 - h)) by lra. apply Rmult_le_compat_r; [lra|exact He]. }
  pose proof (fin_sqrt _ _ Fh ltac:(lra)) as Fk. pose proof (fin_sqrt _ _ Fy Y0) as Fs.
  set (k := sqrt h) in *. set (s := sqrt (1 - h)) in *.
  assert (K : 0 <= k <= 1) by (apply sqrt_unit; lra). assert (S : 0 <= s <= 1) by (apply sqrt_unit; lra).
  assert (KS : s * s + k * k = 1) by (unfold s, k; rewrite !sqrt_sqrt by lra; lra).
  assert (ES : Rabs (sqrt y - s) <= eps) by (apply sqrt_pair; [exact Y0|lra|exact EY|unfold eps; lra]).
  assert (T : tiny <= 0.001 * eps) by (unfold tiny, eps; simpl; lra).
  set (k' := rnd32 k) in *. set (s' := rnd32 (sqrt y)) in *.
  assert (EK' : Rabs (k' - k) <= 1.01 * eps).
  { pose proof (rnd_err k) as R0. rewrite (Rabs_pos_eq k) in R0 by lra. unfold k', eps in *. lra. }
  assert (ES' : Rabs (s' - s) <= 2.02 * eps).
  { pose proof (rnd_err (sqrt y)) as R0. pose proof (sqrt_pos y). rewrite (Rabs_pos_eq (sqrt y)) in R0 by assumption. fold s' in R0.
    apply Rabs_le_inv in R0. apply Rabs_le_inv in ES. apply Rabs_le. unfold eps in *. lra. }
  assert (Z : forall f v w, fin f v -> Rabs w <= 1 -> Rabs (v - w) <= 4.8 * eps -> fin (nmul f (nsqrt (nsub none_ (nmul (nadd none_ (l0 cs)) nhalf)))) (rnd32 (v * s')) /\
     Rabs (rnd32 (v * s') - s * w) <= 8 * eps).
  { intros f v w Ff Hw Hv. assert (B : Rabs (v * s' - s * w) <= 6.85 * eps).
    { replace (v * s' - s * w) with ((v - w) * s' + w * (s' - s)) by ring. eapply Rle_trans; [apply Rabs_triang|]. rewrite !Rabs_mult.
      assert (Rabs s' <= 1.001) by (apply Rabs_le_inv in ES'; apply Rabs_le; unfold eps in *; lra).
      assert (Rabs (v - w) * Rabs s' <= 4.8 * eps * 1.001) by (apply Rmult_le_compat; auto; apply Rabs_pos).
      assert (Rabs w * Rabs (s' - s) <= 1 * (2.02 * eps)) by (apply Rmult_le_compat; auto; apply Rabs_pos). unfold eps in *. lra. }
    assert (SW : Rabs (s * w) <= 1) by (rewrite Rabs_mult, (Rabs_pos_eq s) by lra; pose proof (Rabs_pos w); nra).
    assert (BV : Rabs (v * s') <= 1.001) by (apply Rabs_le_inv in B; apply Rabs_le_inv in SW; apply Rabs_le; unfold eps in *; lra).
    split; [apply fin_mul; auto; lra|]. pose proof (rnd_err (v * s')) as R0. apply Rabs_le_inv in R0. apply Rabs_le_inv in B. apply Rabs_le. unfold eps in *. lra. }
  destruct (Z _ _ _ F0 U0 E0) as (G0 & D0). destruct (Z _ _ _ F1 U1 E1) as (G1 & D1). destruct (Z _ _ _ F2 U2 E2) as (G2 & D2).
  exists (Q4 (rnd32 (vx a * s')) (rnd32 (vy a * s')) (rnd32 (vz a * s')) k'), s, k.
  split; [exact (Logic.conj G0 (Logic.conj G1 (Logic.conj G2 Fk)))|]. split; [exact KS|].
  replace (16 * eps) with (2 * (8 * eps)) by ring.
  assert (M : forall p q, Rabs (p - q) <= 8 * eps -> Rabs (p + -1 * q) <= 8 * eps) by (intros p q Hp; replace (p + -1 * q) with (p - q) by ring; exact Hp).
  apply qn_le; [unfold eps; lra| | | |]; unfold qsub, qadd, qscale, qaxis; cbn [qx qy qz qw]; apply M; auto. unfold eps in *. lra.
Qed.
