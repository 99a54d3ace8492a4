(** Motion blending in single precision: rounding errors of the operations. *)
From Coq Require Import Reals Lra Psatz.
From Flocq Require Import IEEE754.BinarySingleNaN Core Relative.
From Verif Require Import Base Num NumF32 NumR F32Facts F32Err InterpF32 NormF32 BlendF32 Math MathSpec BlendingSpec QuatNorm
  Motion MotionGlam.
Local Open Scope R_scope.

(** ** Sums of a few terms *)
(** [x] is a finite number near [v], with an error measured against [A]. *)
Definition ap (x : f32) (v A k t : R) : Prop := exists p, fin x p /\ Rabs v <= A /\ Rabs (p - v) <= k * eps * A + t * tiny.
Lemma ap_weak x v A k t k' t' : ap x v A k t -> k <= k' -> t <= t' -> ap x v A k' t'.
Proof.
  intros (p & F & B & E) Hk Ht. exists p. split; [exact F|]. split; [exact B|]. pose proof tiny_pos. pose proof (Rabs_pos v).
  eapply Rle_trans; [exact E|]. apply Rplus_le_compat; apply Rmult_le_compat_r; try lra. unfold eps. lra.
Qed.
Lemma ap_add x y v v' A A' k t t' : ap x v A k t -> ap y v' A' k t' -> 0 <= k <= 10 -> 0 <= t <= 10 -> 0 <= t' <= 10 -> A + A' <= p2 110 ->
  ap (nadd x y) (v + v') (A + A') (k + 1.001) (1.001 * (t + t')).
Proof.
  intros (p & F & B & E) (q & G & B' & E') Hk Ht Ht' H. pose proof tiny_pos as TP. pose proof tiny_small as TS.
  pose proof (Rabs_pos v). pose proof (Rabs_pos v').
  assert (T1 : tiny <= / 1000) by (assert (/ 2 ^ 100 <= / 1000) by (apply Rinv_le; simpl; lra); lra).
  assert (kA : k * eps * A <= / 1000 * A) by (apply Rmult_le_compat_r; [lra|]; unfold eps; lra).
  assert (kA' : k * eps * A' <= / 1000 * A') by (apply Rmult_le_compat_r; [lra|]; unfold eps; lra).
  assert (HH : Rabs (p + q) <= HUGE).
  { apply (p2_le_HUGE 112); [lia|]. change 112%Z with (2 + 110)%Z. rewrite (p2_shift 2 110 4) by (simpl; lra).
    assert (1 <= p2 110) by (apply Rle_trans with (p2 0); [apply Req_le; reflexivity|apply bpow_le; discriminate]).
    apply Rabs_le_inv in B. apply Rabs_le_inv in B'. apply Rabs_le_inv in E. apply Rabs_le_inv in E'. set (M := p2 110) in *. clearbody M.
    assert (t * tiny <= 10 * / 1000) by (apply Rmult_le_compat; lra). assert (t' * tiny <= 10 * / 1000) by (apply Rmult_le_compat; lra).
    apply Rabs_le. lra. }
  destruct (err_add x y p q v v' A A' (k * eps) (t * tiny) (t' * tiny) F G HH B B') as (r & Fr & Er); auto.
  { unfold eps. lra. } { apply Rmult_le_pos; lra. } { apply Rmult_le_pos; lra. }
  exists r. split; [exact Fr|]. split; [eapply Rle_trans; [apply Rabs_triang|]; lra|]. eapply Rle_trans; [exact Er|]. apply Req_le. ring.
Qed.
Lemma ap_mul x y a b : fin x a -> fin y b -> Rabs (a * b) <= p2 105 -> ap (nmul x y) (a * b) (Rabs (a * b)) 1 1.
Proof.
  intros F G H. exists (rnd32 (a * b)). split; [apply fin_mul; auto; apply (p2_le_HUGE 105); [lia|exact H]|].
  split; [lra|]. pose proof (rnd_err (a * b)). lra.
Qed.

Lemma sum4_ap o a b c d v0 v1 v2 v3 : ap a v0 (Rabs v0) 1 1 -> ap b v1 (Rabs v1) 1 1 -> ap c v2 (Rabs v2) 1 1 -> ap d v3 (Rabs v3) 1 1 ->
  Rabs v0 <= p2 105 -> Rabs v1 <= p2 105 -> Rabs v2 <= p2 105 -> Rabs v3 <= p2 105 ->
  exists s, fin (sum4 o a b c d) s /\
    Rabs (s - (v0 + v1 + v2 + v3)) <= 4.1 * eps * (Rabs v0 + Rabs v1 + Rabs v2 + Rabs v3) + 5 * tiny.
Proof.
  intros H0 H1 H2 H3 B0 B1 B2 B3.
  pose proof (Rabs_pos v0). pose proof (Rabs_pos v1). pose proof (Rabs_pos v2). pose proof (Rabs_pos v3). pose proof tiny_pos.
  assert (L : 4 * p2 105 <= p2 110).
  { change 110%Z with (5 + 105)%Z. rewrite (p2_shift 5 105 32) by (simpl; lra). pose proof (p2_pos 105). lra. }
  set (A0 := Rabs v0) in *. set (A1 := Rabs v1) in *. set (A2 := Rabs v2) in *. set (A3 := Rabs v3) in *. set (M := p2 105) in *. set (N := p2 110) in *.
  assert (E : 0 <= eps * (A0 + A1 + A2 + A3)) by (apply Rmult_le_pos; unfold eps; lra).
  destruct o; unfold sum4.
  - assert (S1 := ap_add _ _ _ _ _ _ _ _ _ H0 H1 ltac:(lra) ltac:(lra) ltac:(lra) ltac:(fold N; lra)).
    assert (S2 := ap_add _ _ _ _ _ _ _ _ _ S1 (ap_weak _ _ _ _ _ (1 + 1.001) 1 H2 ltac:(lra) ltac:(lra)) ltac:(lra) ltac:(lra) ltac:(lra) ltac:(fold N; lra)).
    destruct (ap_add _ _ _ _ _ _ _ _ _ S2 (ap_weak _ _ _ _ _ (1 + 1.001 + 1.001) 1 H3 ltac:(lra) ltac:(lra)) ltac:(lra) ltac:(lra) ltac:(lra) ltac:(fold N; lra))
      as (s & F & _ & D).
    exists s. split; [exact F|]. eapply Rle_trans; [exact D|]. lra.
  - assert (S1 := ap_add _ _ _ _ _ _ _ _ _ H0 H1 ltac:(lra) ltac:(lra) ltac:(lra) ltac:(fold N; lra)).
    assert (S2 := ap_add _ _ _ _ _ _ _ _ _ H2 H3 ltac:(lra) ltac:(lra) ltac:(lra) ltac:(fold N; lra)).
    destruct (ap_add _ _ _ _ _ _ _ _ _ S1 S2 ltac:(lra) ltac:(lra) ltac:(lra) ltac:(fold N; lra)) as (s & F & _ & D).
    exists s. split; [exact F|]. replace (v0 + v1 + v2 + v3) with (v0 + v1 + (v2 + v3)) by ring. eapply Rle_trans; [exact D|]. lra.
  - assert (S1 := ap_add _ _ _ _ _ _ _ _ _ H0 H2 ltac:(lra) ltac:(lra) ltac:(lra) ltac:(fold N; lra)).
    assert (S2 := ap_add _ _ _ _ _ _ _ _ _ H1 H3 ltac:(lra) ltac:(lra) ltac:(lra) ltac:(fold N; lra)).
    destruct (ap_add _ _ _ _ _ _ _ _ _ S1 S2 ltac:(lra) ltac:(lra) ltac:(lra) ltac:(fold N; lra)) as (s & F & _ & D).
    exists s. split; [exact F|]. replace (v0 + v1 + v2 + v3) with (v0 + v2 + (v1 + v3)) by ring. eapply Rle_trans; [exact D|]. lra.
Qed.

Lemma prod_bound x y : Rabs x <= p2 50 -> Rabs y <= p2 50 -> Rabs (x * y) <= p2 105.
Proof.
  intros Hx Hy. apply Rle_trans with (p2 (50 + 50)); [|apply bpow_le; lia]. rewrite bpow_plus, Rabs_mult. apply Rmult_le_compat; auto; apply Rabs_pos.
Qed.
Lemma g_dot_err o s q a b : finq s a -> finq q b -> boundq (p2 50) a -> boundq (p2 50) b ->
  exists d, fin (g_dot o s q) d /\ Rabs (d - rdot a b) <= 4.1 * eps * absdot a b + 5 * tiny.
Proof.
  intros (F0 & F1 & F2 & F3) (G0 & G1 & G2 & G3) (A0 & A1 & A2 & A3) (B0 & B1 & B2 & B3).
  pose proof (prod_bound _ _ A0 B0). pose proof (prod_bound _ _ A1 B1). pose proof (prod_bound _ _ A2 B2). pose proof (prod_bound _ _ A3 B3).
  apply sum4_ap; auto; apply ap_mul; auto.
Qed.

(** ** Lengths and normalisation *)
(** A square root of a number known to within a few units. *)
Lemma sqrt_near x L S k : fin x L -> 0 < S -> p2 (-64) <= S -> Rabs (L - S) <= k * eps * S -> 0 <= k <= 10 ->
  exists s, fin (nsqrt x) s /\ Rabs (s - sqrt S) <= (0.51 * k + 1.01) * eps * sqrt S.
Proof.
  intros F SP SL E Hk. set (n := sqrt S). assert (Nn : n * n = S) by (apply sqrt_sqrt; lra).
  assert (Np : 0 < n) by (apply sqrt_lt_R0; exact SP).
  assert (NL : p2 (-32) <= n).
  { unfold n. rewrite <- (sqrt_square (p2 (-32))) by (apply Rlt_le, p2_pos).
    apply sqrt_le_1; [pose proof (p2_pos (-32)); nra|lra|]. rewrite <- bpow_plus. exact SL. }
  assert (TN : tiny <= / 1000000 * eps * n).
  { apply Rle_trans with (p2 (-20) * p2 (-24) * p2 (-32)); [rewrite <- !bpow_plus; apply bpow_le; lia|].
    replace (p2 (-24)) with eps by (unfold eps; simpl; lra). apply Rmult_le_compat; [|apply Rlt_le, p2_pos| |exact NL].
    - apply Rmult_le_pos; [apply Rlt_le, p2_pos|unfold eps; lra].
    - apply Rmult_le_compat_r; [unfold eps; lra|simpl; lra]. }
  apply Rabs_le_inv in E. unfold eps in *. set (h := k * / 16777216) in *. assert (Hh : 0 <= h <= / 1000000) by (unfold h; lra).
  assert (L0 : 0 <= L) by nra.
  assert (R1 : n * (1 - 0.505 * h) <= sqrt L <= n * (1 + 0.505 * h)).
  { split.
    - rewrite <- (sqrt_square (n * (1 - 0.505 * h))) by nra. apply sqrt_le_1; [nra|lra|].
      replace (n * (1 - 0.505 * h) * (n * (1 - 0.505 * h))) with (S * ((1 - 0.505 * h) * (1 - 0.505 * h))) by (rewrite <- Nn; ring).
      apply Rle_trans with (S * (1 - h)); [apply Rmult_le_compat_l; nra|lra].
    - rewrite <- (sqrt_square (n * (1 + 0.505 * h))) by nra. apply sqrt_le_1; [lra|nra|].
      replace (n * (1 + 0.505 * h) * (n * (1 + 0.505 * h))) with (S * ((1 + 0.505 * h) * (1 + 0.505 * h))) by (rewrite <- Nn; ring).
      apply Rle_trans with (S * (1 + h)); [lra|apply Rmult_le_compat_l; nra]. }
  exists (rnd32 (sqrt L)). split; [apply fin_sqrt; assumption|].
  destruct (rnd_rel (sqrt L)) as (e & t & He & Ht & ->). apply eps_inv in He. apply Rabs_le_inv in Ht. set (q := sqrt L) in *. clearbody q n.
  assert (q * - / 16777216 <= q * e <= q * / 16777216) by (assert (0 <= q) by nra; split; apply Rmult_le_compat_l; lra).
  assert (0 <= n * h <= / 1000000 * n) by nra.
  replace ((0.51 * k + 1.01) * / 16777216 * n) with (0.51 * (n * h) + 1.01 * / 16777216 * n) by (unfold h; ring).
  apply Rabs_le. split; nra.
Qed.

Definition fin3 (v : vec3 f32) (r : vec3 R) : Prop := fin (vx v) (vx r) /\ fin (vy v) (vy r) /\ fin (vz v) (vz r).
Definition bound3 (b : R) (r : vec3 R) : Prop := Rabs (vx r) <= b /\ Rabs (vy r) <= b /\ Rabs (vz r) <= b.
Lemma abs_sq x : Rabs (x * x) = x * x. Proof. apply Rabs_pos_eq. nra. Qed.

Lemma v3_len_err v r : fin3 v r -> bound3 (p2 50) r -> p2 (-32) <= len3 r ->
  exists s, fin (v3_len v) s /\ Rabs (s - len3 r) <= 2.7 * eps * len3 r.
Proof.
  intros (F0 & F1 & F2) (A0 & A1 & A2) HL.
  pose proof (prod_bound _ _ A0 A0) as P0. pose proof (prod_bound _ _ A1 A1) as P1. pose proof (prod_bound _ _ A2 A2) as P2.
  pose proof (ap_mul _ _ _ _ F0 F0 P0) as H0. pose proof (ap_mul _ _ _ _ F1 F1 P1) as H1. pose proof (ap_mul _ _ _ _ F2 F2 P2) as H2.
  rewrite abs_sq in *.
  assert (L : 4 * p2 105 <= p2 110).
  { change 110%Z with (5 + 105)%Z. rewrite (p2_shift 5 105 32) by (simpl; lra). pose proof (p2_pos 105). lra. }
  set (M := p2 105) in *. set (N := p2 110) in *.
  assert (Z0 : 0 <= vx r * vx r) by nra. assert (Z1 : 0 <= vy r * vy r) by nra. assert (Z2 : 0 <= vz r * vz r) by nra.
  assert (S1 := ap_add _ _ _ _ _ _ _ _ _ H0 H1 ltac:(lra) ltac:(lra) ltac:(lra) ltac:(fold N; lra)).
  destruct (ap_add _ _ _ _ _ _ _ _ _ S1 (ap_weak _ _ _ _ _ (1 + 1.001) 1 H2 ltac:(lra) ltac:(lra)) ltac:(lra) ltac:(lra) ltac:(lra) ltac:(fold N; lra))
    as (s & F & _ & D).
  pose proof (p2_pos (-32)) as P32. assert (NN : len3 r * len3 r = dot3 r r) by (apply sqrt_sqrt; unfold dot3; lra).
  assert (SL : p2 (-64) <= dot3 r r) by (rewrite <- NN; change (-64)%Z with (-32 + -32)%Z; rewrite bpow_plus; apply Rmult_le_compat; lra).
  assert (TS : tiny <= / 1000 * eps * dot3 r r).
  { apply Rle_trans with (p2 (-20) * p2 (-24) * p2 (-64)); [rewrite <- !bpow_plus; apply bpow_le; lia|].
    replace (p2 (-24)) with eps by (unfold eps; simpl; lra). apply Rmult_le_compat; [|apply Rlt_le, p2_pos| |exact SL].
    - apply Rmult_le_pos; [apply Rlt_le, p2_pos|unfold eps; lra].
    - apply Rmult_le_compat_r; [unfold eps; lra|simpl; lra]. }
  fold (dot3 r r) in D. pose proof (p2_pos (-64)) as P64.
  destruct (sqrt_near _ _ (dot3 r r) 3.1 F ltac:(lra) SL) as (q & Fq & Eq); [|lra|].
  { eapply Rle_trans; [exact D|]. unfold eps, dot3 in *. lra. }
  exists q. split; [exact Fq|]. eapply Rle_trans; [exact Eq|]. change (sqrt (dot3 r r)) with (len3 r). apply Rmult_le_compat_r; [lra|]. unfold eps. lra.
Qed.
(** The zero vector has length exactly 0. *)
Lemma v3_len_0 v : fin3 v (V3 0 0 0) -> fin (v3_len v) 0.
Proof.
  intros (F0 & F1 & F2). cbn in F0, F1, F2. unfold v3_len, v3_len2.
  assert (Z : rnd32 0 = 0) by (apply round_0; apply valid_rnd_N).
  assert (H : Rabs 0 <= HUGE) by (rewrite Rabs_R0; pose proof HUGE_big; lra).
  assert (M : forall x, fin x 0 -> fin (nmul x x) 0) by (intros x Fx; pose proof (fin_mul x x 0 0 Fx Fx) as G; rewrite Rmult_0_l, Z in G; auto).
  assert (A : forall x y, fin x 0 -> fin y 0 -> fin (nadd x y) 0) by (intros x y Fx Fy; pose proof (fin_add x y 0 0 Fx Fy) as G; rewrite Rplus_0_l, Z in G; auto).
  pose proof (fin_sqrt _ 0 (A _ _ (A _ _ (M _ F0) (M _ F1)) (M _ F2)) (Rle_refl 0)) as G. rewrite sqrt_0, Z in G. exact G.
Qed.

Lemma over_err div len s n u r : fin len s -> fin u r -> p2 (-32) <= n <= p2 51 -> Rabs (s - n) <= 3.2 * eps * n -> Rabs r <= n ->
  exists v, fin (over div len u) v /\ Rabs (v - r / n) <= 5.5 * eps.
Proof.
  intros Fl Fu Hn E Hr. pose proof (p2_pos (-32)) as P32. apply Rabs_le_inv in E. unfold eps in *.
  assert (Sp : 0 < s) by lra. assert (Ip : 0 < / n) by (apply Rinv_0_lt_compat; lra). pose proof tiny_eps as TE. rewrite eps_val in TE.
  assert (Q : -1 <= r / n <= 1).
  { apply Rabs_le_inv in Hr. split; (apply Rmult_le_reg_r with n; [lra|]); unfold Rdiv; rewrite Rmult_assoc, Rinv_l by lra; lra. }
  assert (Is : / n * (1 - 3.21 * / 16777216) <= / s <= / n * (1 + 3.21 * / 16777216)).
  { split.
    - apply Rmult_le_reg_r with (s * n); [nra|]. replace (/ s * (s * n)) with n by (field; lra).
      replace (/ n * (1 - 3.21 * / 16777216) * (s * n)) with ((1 - 3.21 * / 16777216) * s) by (field; lra). lra.
    - apply Rmult_le_reg_r with (s * n); [nra|]. replace (/ s * (s * n)) with n by (field; lra).
      replace (/ n * (1 + 3.21 * / 16777216) * (s * n)) with ((1 + 3.21 * / 16777216) * s) by (field; lra). lra. }
  assert (K : forall i, / n * (1 - 4.3 * / 16777216) <= i <= / n * (1 + 4.3 * / 16777216) -> Rabs (r * i) <= HUGE /\ Rabs (rnd32 (r * i) - r / n) <= 5.5 * / 16777216).
  { intros i Bi. assert (P : Rabs (r * i - r / n) <= 4.3 * / 16777216).
    { replace (r * i - r / n) with (r / n * (n * i - 1)) by (field; lra).
      assert (G : - (4.3 * / 16777216) <= n * i - 1 <= 4.3 * / 16777216).
      { assert (EE : n * / n = 1) by (apply Rinv_r; lra).
        assert (G : n * (/ n * (1 - 4.3 * / 16777216)) <= n * i <= n * (/ n * (1 + 4.3 * / 16777216))) by (split; apply Rmult_le_compat_l; lra).
        rewrite <- !Rmult_assoc, EE in G. lra. }
      set (g := n * i - 1) in *. set (q := r / n) in *. clearbody g q. clear - G Q. apply Rabs_le. split; nra. }
    apply Rabs_le_inv in P. set (p := r * i) in *. set (q := r / n) in *.
    assert (PB : Rabs p <= 1.001) by (apply Rabs_le; lra).
    split; [pose proof HUGE_big; lra|].
    destruct (rnd_rel p) as (e & t & He & Ht & ->). apply eps_inv in He. apply Rabs_le_inv in Ht.
    assert (PE : Rabs (p * e) <= 1.001 * / 16777216).
    { rewrite Rabs_mult. apply Rmult_le_compat; try apply Rabs_pos; [exact PB|]. apply Rabs_le. lra. }
    apply Rabs_le_inv in PE. clearbody p q. clear - P PE Ht TE. apply Rabs_le. lra. }
  destruct div; unfold over.
  - destruct (K (/ s)) as [H1 H2]; [split; [eapply Rle_trans; [|apply Is]|eapply Rle_trans; [apply Is|]]; apply Rmult_le_compat_l; lra|].
    exists (rnd32 (r / s)). split; [apply fin_div; auto; lra|exact H2].
  - assert (IL : p2 (-52) <= / s).
    { apply Rle_trans with (/ n * / 2); [|apply Rle_trans with (/ n * (1 - 3.21 * / 16777216)); [apply Rmult_le_compat_l; lra|apply Is]].
      change (-52)%Z with (-51 + -1)%Z. rewrite bpow_plus. apply Rmult_le_compat; try (apply Rlt_le, p2_pos); [|simpl; lra].
      change (-51)%Z with (Z.opp 51). rewrite bpow_opp. apply Rinv_le; lra. }
    assert (IH : / s <= p2 33).
    { apply Rle_trans with (/ n * 2); [apply Rle_trans with (/ n * (1 + 3.21 * / 16777216)); [apply Is|apply Rmult_le_compat_l; lra]|].
      change 33%Z with (32 + 1)%Z. rewrite bpow_plus. apply Rmult_le_compat; try lra; [|simpl; lra].
      replace (p2 32) with (/ p2 (-32)) by (rewrite <- bpow_opp; reflexivity). apply Rinv_le; lra. }
    assert (HR : Rabs (1 / s) <= HUGE).
    { unfold Rdiv. rewrite Rmult_1_l. apply (p2_le_HUGE 33); [lia|]. rewrite Rabs_pos_eq; [exact IH|]. apply Rlt_le, Rinv_0_lt_compat, Sp. }
    pose proof (fin_div none_ len 1 s fin_one Fl ltac:(lra) HR) as FI. unfold Rdiv in FI. rewrite Rmult_1_l in FI.
    assert (TI : tiny <= / 1000000 * / 16777216 * / s).
    { apply Rle_trans with (p2 (-20) * p2 (-24) * p2 (-52)); [rewrite <- !bpow_plus; apply bpow_le; lia|].
      apply Rmult_le_compat; try (apply Rlt_le, p2_pos); [apply Rmult_le_pos; apply Rlt_le, p2_pos| |exact IL].
      replace (p2 (-24)) with (/ 16777216) by (simpl; lra). apply Rmult_le_compat_r; [lra|simpl; lra]. }
    destruct (K (rnd32 (/ s))) as [H1 H2].
    { destruct (rnd_rel (/ s)) as (e & t & He & Ht & ->). apply eps_inv in He. apply Rabs_le_inv in Ht. set (i := / s) in *. set (m := / n) in *.
      clearbody i m. assert (i * - / 16777216 <= i * e <= i * / 16777216) by (assert (0 <= i) by lra; split; apply Rmult_le_compat_l; lra).
      split; lra. }
    exists (rnd32 (r * rnd32 (/ s))). split; [apply fin_mul; auto|exact H2].
Qed.

Lemma sq_le_b x b : 0 <= b -> Rabs x <= b -> x * x <= b * b.
Proof. intros Hb H. apply Rabs_le_inv in H. nra. Qed.
Lemma g_normalize_err o div q a : finq q a -> boundq (p2 50) a -> p2 (-64) <= norm2 a ->
  exists r, finq (g_normalize o div q) r /\ qn (qsub r (qscale (/ qn a) a)) <= 11 * eps /\ Rabs (norm2 r - 1) <= / 524288.
Proof.
  intros Fq Ba HS. destruct (g_dot_err o q q a a Fq Fq Ba Ba) as (L & FL & EL).
  assert (E1 : rdot a a = norm2 a) by reflexivity.
  assert (E2 : absdot a a = norm2 a) by (unfold absdot, norm2; rewrite !abs_sq; reflexivity).
  rewrite E1, E2 in EL. pose proof (p2_pos (-64)) as P64.
  assert (TS : tiny <= / 1000 * eps * norm2 a).
  { apply Rle_trans with (p2 (-20) * p2 (-24) * p2 (-64)); [rewrite <- !bpow_plus; apply bpow_le; lia|].
    replace (p2 (-24)) with eps by (unfold eps; simpl; lra). apply Rmult_le_compat; [|apply Rlt_le, p2_pos| |exact HS].
    - apply Rmult_le_pos; [apply Rlt_le, p2_pos|unfold eps; lra].
    - apply Rmult_le_compat_r; [unfold eps; lra|simpl; lra]. }
  destruct (sqrt_near _ _ (norm2 a) 4.2 FL ltac:(lra) HS) as (s & Fs & Es); [eapply Rle_trans; [exact EL|]; unfold eps in *; lra|lra|].
  change (sqrt (norm2 a)) with (qn a) in Es. pose proof (qn_sq a) as SQ. pose proof (qn_pos a) as QP.
  assert (NL : p2 (-32) <= qn a).
  { unfold qn. rewrite <- (sqrt_square (p2 (-32))) by (apply Rlt_le, p2_pos).
    apply sqrt_le_1; [pose proof (p2_pos (-32)); nra|lra|]. rewrite <- bpow_plus. exact HS. }
  assert (NH : qn a <= p2 51).
  { change 51%Z with (1 + 50)%Z. rewrite (p2_shift 1 50 2) by (simpl; lra). destruct Ba as (B0 & B1 & B2 & B3). apply qn_le; auto. apply Rlt_le, p2_pos. }
  assert (Es' : Rabs (s - qn a) <= 3.2 * eps * qn a) by (eapply Rle_trans; [exact Es|]; apply Rmult_le_compat_r; [exact QP|]; unfold eps; lra).
  destruct (qn_comp a) as (C0 & C1 & C2 & C3). destruct Fq as (F0 & F1 & F2 & F3). pose proof (p2_pos (-32)) as P32.
  destruct (over_err div _ s (qn a) _ _ Fs F0 (Logic.conj NL NH) Es' C0) as (r0 & G0 & D0).
  destruct (over_err div _ s (qn a) _ _ Fs F1 (Logic.conj NL NH) Es' C1) as (r1 & G1 & D1).
  destruct (over_err div _ s (qn a) _ _ Fs F2 (Logic.conj NL NH) Es' C2) as (r2 & G2 & D2).
  destruct (over_err div _ s (qn a) _ _ Fs F3 (Logic.conj NL NH) Es' C3) as (r3 & G3 & D3).
  assert (QD : qn (qsub (Q4 r0 r1 r2 r3) (qscale (/ qn a) a)) <= 11 * eps).
  { replace (11 * eps) with (2 * (5.5 * eps)) by (unfold eps; lra). apply qn_le; [unfold eps; lra| | | |]; unfold qsub, qadd, qscale; cbn [qx qy qz qw];
      [replace (r0 + _) with (r0 - qx a / qn a) by (field; lra)|replace (r1 + _) with (r1 - qy a / qn a) by (field; lra)
      |replace (r2 + _) with (r2 - qz a / qn a) by (field; lra)|replace (r3 + _) with (r3 - qw a / qn a) by (field; lra)]; assumption. }
  exists (Q4 r0 r1 r2 r3). split; [split; [|split; [|split]]; assumption|]. split; [exact QD|].
  assert (U : qn (qscale (/ qn a) a) = 1).
  { rewrite qn_scale, Rabs_pos_eq by (apply Rlt_le, Rinv_0_lt_compat; lra). apply Rinv_l. lra. }
  pose proof (qn_diff (Q4 r0 r1 r2 r3) (qscale (/ qn a) a)) as DD. rewrite U in DD.
  assert (DD' : Rabs (qn (Q4 r0 r1 r2 r3) - 1) <= 11 * eps) by lra. apply Rabs_le_inv in DD'. rewrite <- qn_sq. unfold eps in DD'.
  set (m := qn (Q4 r0 r1 r2 r3)) in *. clearbody m. clear - DD'. apply Rabs_le. split; nra.
Qed.
