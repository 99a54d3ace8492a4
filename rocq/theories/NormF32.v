(** Normalising four binary32 components of any reasonable size: the length may be anything from
    2^-32 to 2^51. *)
From Coq Require Import Reals Lra Psatz.
From Flocq Require Import IEEE754.BinarySingleNaN Core Relative.
From Verif Require Import Base Num NumF32 F32Facts F32Err InterpF32.
Local Open Scope R_scope.

Notation p2 k := (bpow radix2 k).
Lemma p2_pos k : 0 < p2 k. Proof. apply bpow_gt_0. Qed.
Lemma p2_le_HUGE k x : (k <= 127)%Z -> Rabs x <= p2 k -> Rabs x <= HUGE.
Proof. intros Hk H. eapply Rle_trans; [exact H|]. apply bpow_le. exact Hk. Qed.
Lemma p2_shift k j c : p2 k = c -> p2 (k + j) = c * p2 j.
Proof. intros <-. apply bpow_plus. Qed.
Lemma sq_le x k : Rabs x <= p2 k -> x * x <= p2 (k + k).
Proof.
  intros H. rewrite bpow_plus. rewrite <- (Rabs_pos_eq (x * x)) by nra. rewrite Rabs_mult.
  apply Rmult_le_compat; auto; apply Rabs_pos.
Qed.

Section Normalize.
  Variables (x y z w : f32) (a b c d : R).
  Hypotheses (Fx : fin x a) (Fy : fin y b) (Fz : fin z c) (Fw : fin w d).
  Hypotheses (Ba : Rabs a <= p2 50) (Bb : Rabs b <= p2 50) (Bc : Rabs c <= p2 50) (Bd : Rabs d <= p2 50).
  Let S := a * a + b * b + c * c + d * d.
  Hypothesis HS : p2 (-64) <= S.
  Let n := sqrt S.

  Lemma Spos : 0 < S. Proof using HS. pose proof (p2_pos (-64)). lra. Qed.
  Lemma tiny_S : tiny <= / 1000000 * eps * S.
  Proof using HS.
    clear - HS. apply Rle_trans with (p2 (-20) * p2 (-24) * p2 (-64)).
    - rewrite <- !bpow_plus. apply bpow_le. lia.
    - replace (p2 (-24)) with eps by (unfold eps; simpl; lra). pose proof (p2_pos (-64)).
      assert (p2 (-20) <= / 1000000) by (simpl; lra). pose proof (p2_pos (-20)).
      assert (p2 (-20) * eps <= / 1000000 * eps) by (apply Rmult_le_compat_r; [unfold eps; lra|assumption]).
      assert (0 <= p2 (-20) * eps) by (unfold eps; lra).
      apply Rmult_le_compat; lra.
  Qed.
  Lemma sq_rel2 u r : fin u r -> Rabs r <= p2 50 -> exists q, fin (nmul u u) q /\
    r * r * (1 - 1.001 * eps) - tiny <= q <= r * r * (1 + 1.001 * eps) + tiny.
  Proof using.
    clear. intros F B. destruct (rnd_rel (r * r)) as (e & t & He & Ht & E).
    exists (rnd32 (r * r)). split.
    - apply fin_mul; auto. apply (p2_le_HUGE 100); [lia|]. rewrite Rabs_pos_eq by nra. apply (sq_le r 50 B).
    - rewrite E. assert (P : 0 <= r * r) by nra. set (q := r * r) in *.
      apply eps_inv in He. apply Rabs_le_inv in Ht. clearbody q. rewrite eps_val.
      assert (q * - / 16777216 <= q * e) by (apply Rmult_le_compat_l; lra).
      assert (q * e <= q * / 16777216) by (apply Rmult_le_compat_l; lra). lra.
  Qed.
  Lemma add_rel2 u u' q q' v v' k t t' : fin u q -> fin u' q' -> 0 <= v -> 0 <= v' -> v + v' <= p2 103 -> 0 <= k <= / 10000000 * 5 ->
    0 <= t <= 10 * tiny -> 0 <= t' <= 10 * tiny ->
    v * (1 - k) - t <= q <= v * (1 + k) + t -> v' * (1 - k) - t' <= q' <= v' * (1 + k) + t' ->
    exists s, fin (nadd u u') s /\
      (v + v') * (1 - (k + 1.001 * eps)) - 1.001 * (t + t') <= s <= (v + v') * (1 + (k + 1.001 * eps)) + 1.001 * (t + t').
  Proof using.
    clear. intros F F' V V' VV K T T' H H'. pose proof (rel_plus _ _ _ _ _ _ _ H H') as P.
    destruct (rnd_add_rel q q' (fin_fmt _ _ F) (fin_fmt _ _ F')) as (e & He & E).
    exists (rnd32 (q + q')). pose proof tiny_eps as TE. rewrite eps_val in TE. split.
    - apply fin_add; auto. apply (p2_le_HUGE 105); [lia|].
      replace (p2 105) with (4 * p2 103) by (symmetry; apply (p2_shift 2 103); simpl; lra).
      assert (1 <= p2 103) by (apply Rle_trans with (p2 0); [apply Req_le; reflexivity|apply bpow_le; discriminate]). set (B := p2 103) in *. clearbody B.
      apply Rabs_le. split; nra.
    - rewrite E. apply rel_step; auto; lra.
  Qed.
  Lemma len2_fin2 : exists L, fin (nadd (nadd (nadd (nmul x x) (nmul y y)) (nmul z z)) (nmul w w)) L /\
    S * (1 - 4.1 * eps) <= L <= S * (1 + 4.1 * eps).
  Proof using Fx Fy Fz Fw Ba Bb Bc Bd HS.
    destruct (sq_rel2 x a Fx Ba) as (q0 & F0 & B0). destruct (sq_rel2 y b Fy Bb) as (q1 & F1 & B1).
    destruct (sq_rel2 z c Fz Bc) as (q2 & F2 & B2). destruct (sq_rel2 w d Fw Bd) as (q3 & F3 & B3).
    pose proof tiny_S as TS. pose proof tiny_eps as TE. pose proof tiny_pos as TP.
    pose proof (sq_le a 50 Ba) as Qa. pose proof (sq_le b 50 Bb) as Qb. pose proof (sq_le c 50 Bc) as Qc. pose proof (sq_le d 50 Bd) as Qd.
    assert (Pa : 0 <= a * a) by nra. assert (Pb : 0 <= b * b) by nra. assert (Pc : 0 <= c * c) by nra. assert (Pd : 0 <= d * d) by nra.
    unfold S in *. set (A := a * a) in *. set (B := b * b) in *. set (C := c * c) in *. set (D := d * d) in *.
    replace (p2 (50 + 50)) with (/ 8 * p2 103) in * by (symmetry; apply (p2_shift (-3) 103); simpl; lra).
    pose proof (p2_pos 103) as P103. set (M := p2 103) in *.
    clearbody A B C D.
    destruct (add_rel2 _ _ _ _ A B (1.001 * eps) tiny tiny F0 F1) as (s1 & G1 & H1); fold M; try assumption; try (rewrite ?eps_val; lra).
    destruct (add_rel2 _ _ _ _ (A + B) C (2.002 * eps) (2.002 * tiny) tiny G1 F2) as (s2 & G2 & H2); fold M; try (unfold eps in *; lra).
    destruct (add_rel2 _ _ _ _ (A + B + C) D (3.003 * eps) (4 * tiny) tiny G2 F3) as (s3 & G3 & H3); fold M; try (unfold eps in *; lra).
    exists s3. split; [exact G3|].
    unfold eps in *. lra.
  Qed.

  Lemma n_pos : 0 < n. Proof using HS. apply sqrt_lt_R0. apply Spos. Qed.
  Lemma n_sq2 : n * n = S. Proof using HS. apply sqrt_sqrt. pose proof Spos. lra. Qed.
  Lemma n_lo : p2 (-32) <= n.
  Proof using HS.
    unfold n. rewrite <- (sqrt_square (p2 (-32))) by (apply Rlt_le, p2_pos).
    apply sqrt_le_1; [pose proof (p2_pos (-32)); nra|pose proof Spos; lra|].
    rewrite <- bpow_plus. exact HS.
  Qed.
  Lemma n_hi : n <= p2 51.
  Proof using Ba Bb Bc Bd HS.
    unfold n. rewrite <- (sqrt_square (p2 51)) by (apply Rlt_le, p2_pos).
    apply sqrt_le_1; [pose proof Spos; lra|pose proof (p2_pos 51); nra|].
    rewrite <- bpow_plus. change (51 + 51)%Z with (2 + (50 + 50))%Z. rewrite (p2_shift 2 (50 + 50) 4) by (simpl; lra).
    pose proof (sq_le a 50 Ba). pose proof (sq_le b 50 Bb). pose proof (sq_le c 50 Bc). pose proof (sq_le d 50 Bd). unfold S. lra.
  Qed.
  Lemma tiny_n : tiny <= / 1000000 * eps * n.
  Proof using HS.
    pose proof n_lo as H. clear - H. apply Rle_trans with (p2 (-20) * p2 (-24) * p2 (-32)).
    - rewrite <- !bpow_plus. apply bpow_le. lia.
    - replace (p2 (-24)) with eps by (unfold eps; simpl; lra). pose proof (p2_pos (-32)).
      assert (p2 (-20) <= / 1000000) by (simpl; lra). pose proof (p2_pos (-20)).
      assert (p2 (-20) * eps <= / 1000000 * eps) by (apply Rmult_le_compat_r; [unfold eps; lra|assumption]).
      assert (0 <= p2 (-20) * eps) by (unfold eps; lra).
      apply Rmult_le_compat; lra.
  Qed.
  Lemma inv_n_range : p2 (-51) <= / n <= p2 32.
  Proof using Ba Bb Bc Bd HS.
    pose proof n_pos. pose proof n_lo. pose proof n_hi. change (p2 (-51)) with (p2 (Z.opp 51)). rewrite (bpow_opp radix2 51).
    replace (p2 32) with (/ p2 (-32)) by (rewrite <- bpow_opp; reflexivity).
    split; apply Rinv_le; auto. apply p2_pos.
  Qed.
  Lemma tiny_inv : tiny <= / 1000000 * eps * / n.
  Proof using Ba Bb Bc Bd HS.
    destruct inv_n_range as [H _]. clear - H. apply Rle_trans with (p2 (-20) * p2 (-24) * p2 (-51)).
    - rewrite <- !bpow_plus. apply bpow_le. lia.
    - replace (p2 (-24)) with eps by (unfold eps; simpl; lra). pose proof (p2_pos (-51)).
      assert (p2 (-20) <= / 1000000) by (simpl; lra). pose proof (p2_pos (-20)).
      assert (p2 (-20) * eps <= / 1000000 * eps) by (apply Rmult_le_compat_r; [unfold eps; lra|assumption]).
      assert (0 <= p2 (-20) * eps) by (unfold eps; lra).
      apply Rmult_le_compat; lra.
  Qed.

  Definition inv_len2 := nrecip (nsqrt (nadd (nadd (nadd (nmul x x) (nmul y y)) (nmul z z)) (nmul w w))).
  Lemma inv_fin2 : exists i, fin inv_len2 i /\ / n * (1 - 4.3 * eps) <= i <= / n * (1 + 4.3 * eps).
  Proof using Fx Fy Fz Fw Ba Bb Bc Bd HS.
    destruct len2_fin2 as (L & FL & BL). pose proof n_pos as Np. pose proof n_sq2 as Nn. pose proof tiny_n as TN. pose proof tiny_inv as TI.
    pose proof tiny_pos as TP. pose proof inv_n_range as IN. pose proof Spos as SP. rewrite eps_val in *.
    assert (L0 : 0 <= L) by nra.
    assert (R1 : n * (1 - 2.06 * / 16777216) <= sqrt L <= n * (1 + 2.06 * / 16777216)).
    { split.
      - rewrite <- (sqrt_square (n * (1 - 2.06 * / 16777216))) by nra. apply sqrt_le_1; nra.
      - rewrite <- (sqrt_square (n * (1 + 2.06 * / 16777216))) by nra. apply sqrt_le_1; nra. }
    pose proof (fin_sqrt _ _ FL L0) as F1.
    destruct (rnd_rel (sqrt L)) as (e1 & t1 & He1 & Ht1 & E1). apply eps_inv in He1. apply Rabs_le_inv in Ht1.
    assert (R2 : n * (1 - 3.1 * / 16777216) <= rnd32 (sqrt L) <= n * (1 + 3.1 * / 16777216)).
    { rewrite E1. set (q := sqrt L) in *. clearbody q. clear - R1 He1 Ht1 TN Np.
      assert (q * - / 16777216 <= q * e1 <= q * / 16777216) by (assert (0 <= q) by lra; split; apply Rmult_le_compat_l; lra).
      split; lra. }
    set (s := rnd32 (sqrt L)) in *. clearbody s.
    assert (Sp : 0 < s) by lra.
    assert (Is : / n * (1 - 3.12 * / 16777216) <= 1 / s <= / n * (1 + 3.12 * / 16777216)).
    { clear - R2 Sp Np. unfold Rdiv. rewrite Rmult_1_l. split.
      - apply Rmult_le_reg_r with (s * n); [nra|]. replace (/ s * (s * n)) with n by (field; lra).
        replace (/ n * (1 - 3.12 * / 16777216) * (s * n)) with ((1 - 3.12 * / 16777216) * s) by (field; lra). lra.
      - apply Rmult_le_reg_r with (s * n); [nra|]. replace (/ s * (s * n)) with n by (field; lra).
        replace (/ n * (1 + 3.12 * / 16777216) * (s * n)) with ((1 + 3.12 * / 16777216) * s) by (field; lra). lra. }
    pose proof (fin_div none_ _ _ _ fin_one F1) as F2.
    assert (H : s <> 0) by lra. specialize (F2 H).
    assert (Ip : 0 < / n) by (apply Rinv_0_lt_compat, Np).
    assert (Rabs (1 / s) <= HUGE) as HH.
    { apply (p2_le_HUGE 33); [lia|]. change 33%Z with (1 + 32)%Z. rewrite (p2_shift 1 32 2) by (simpl; lra). apply Rabs_le. lra. }
    specialize (F2 HH).
    exists (rnd32 (1 / s)). split; [exact F2|].
    destruct (rnd_rel (1 / s)) as (e2 & t2 & He2 & Ht2 & E2). apply eps_inv in He2. apply Rabs_le_inv in Ht2. rewrite E2.
    set (k := 1 / s) in *. set (m := / n) in *. clearbody k m. clear - Is Ip He2 Ht2 TI.
    assert (k * - / 16777216 <= k * e2 <= k * / 16777216) by (assert (0 <= k) by lra; split; apply Rmult_le_compat_l; lra).
    split; lra.
  Qed.

  Lemma component_norm2 u r : fin u r -> r * r <= S ->
    exists v, fin (nmul u inv_len2) v /\ Rabs (v - r / n) <= 5.5 * eps.
  Proof using Fx Fy Fz Fw Ba Bb Bc Bd HS.
    intros F B. destruct inv_fin2 as (i & Fi & Bi). pose proof n_pos as Np. pose proof n_sq2 as Nn.
    pose proof tiny_eps as TE. pose proof tiny_pos as TP. pose proof Spos as SP. rewrite eps_val in *.
    set (q := r / n).
    assert (Q : -1 <= q <= 1).
    { assert (q * q <= 1).
      { unfold q. replace (r / n * (r / n)) with (r * r / (n * n)) by (field; lra). rewrite Nn.
        apply Rmult_le_reg_r with S; [lra|]. unfold Rdiv. rewrite Rmult_assoc, Rinv_l by lra. lra. }
      split; nra. }
    assert (P : Rabs (r * i - q) <= 4.3 * / 16777216).
    { replace (r * i - q) with (q * (n * i - 1)) by (unfold q; field; lra).
      assert (G : - (4.3 * / 16777216) <= n * i - 1 <= 4.3 * / 16777216).
      { clear - Bi Np. assert (E : n * / n = 1) by (apply Rinv_r; lra).
        assert (n * (/ n * (1 - 4.3 * / 16777216)) <= n * i <= n * (/ n * (1 + 4.3 * / 16777216))) by (split; apply Rmult_le_compat_l; lra).
        rewrite <- !Rmult_assoc, E in H. lra. }
      set (g := n * i - 1) in *. clearbody g q. clear - G Q. apply Rabs_le. split; nra. }
    apply Rabs_le_inv in P.
    exists (rnd32 (r * i)). split.
    - apply fin_mul; auto. apply HUGE_ok. split; lra.
    - destruct (rnd_rel (r * i)) as (e & t & He & Ht & E). apply eps_inv in He. apply Rabs_le_inv in Ht. rewrite E.
      set (p := r * i) in *. assert (PB : Rabs p <= 1.001) by (apply Rabs_le; lra).
      assert (PE : Rabs (p * e) <= 1.001 * / 16777216).
      { rewrite Rabs_mult. apply Rmult_le_compat; try apply Rabs_pos; [exact PB|]. apply Rabs_le. lra. }
      apply Rabs_le_inv in PE. clearbody p q. clear - P PE Ht TE. apply Rabs_le. lra.
  Qed.

  Lemma normalized2 : exists r0 r1 r2 r3,
    fin (nmul x inv_len2) r0 /\ fin (nmul y inv_len2) r1 /\ fin (nmul z inv_len2) r2 /\ fin (nmul w inv_len2) r3 /\
    Rabs (r0 - a / n) <= 5.5 * eps /\ Rabs (r1 - b / n) <= 5.5 * eps /\
    Rabs (r2 - c / n) <= 5.5 * eps /\ Rabs (r3 - d / n) <= 5.5 * eps /\
    Rabs (r0 * r0 + r1 * r1 + r2 * r2 + r3 * r3 - 1) <= / 524288.
  Proof using Fx Fy Fz Fw Ba Bb Bc Bd HS.
    pose proof n_pos as Np. pose proof n_sq2 as Nn. pose proof Spos as SP.
    assert (Qa : a * a <= S) by (unfold S; nra). assert (Qb : b * b <= S) by (unfold S; nra).
    assert (Qc : c * c <= S) by (unfold S; nra). assert (Qd : d * d <= S) by (unfold S; nra).
    destruct (component_norm2 x a Fx Qa) as (r0 & F0 & B0). destruct (component_norm2 y b Fy Qb) as (r1 & F1 & B1).
    destruct (component_norm2 z c Fz Qc) as (r2 & F2 & B2). destruct (component_norm2 w d Fw Qd) as (r3 & F3 & B3).
    exists r0, r1, r2, r3. repeat (split; [assumption|]).
    assert (U : a / n * (a / n) + b / n * (b / n) + c / n * (c / n) + d / n * (d / n) = 1).
    { replace (a / n * (a / n) + b / n * (b / n) + c / n * (c / n) + d / n * (d / n)) with (S / (n * n)) by (unfold S; field; lra).
      rewrite Nn. unfold Rdiv. apply Rinv_r. lra. }
    set (q0 := a / n) in *. set (q1 := b / n) in *. set (q2 := c / n) in *. set (q3 := d / n) in *. clearbody q0 q1 q2 q3. clear - U B0 B1 B2 B3.
    assert (SB : forall p, p * p <= 1 -> -1 <= p <= 1) by (intros; split; nra).
    assert (K0 : -1 <= q0 <= 1) by (apply SB; nra). assert (K1 : -1 <= q1 <= 1) by (apply SB; nra).
    assert (K2 : -1 <= q2 <= 1) by (apply SB; nra). assert (K3 : -1 <= q3 <= 1) by (apply SB; nra).
    rewrite eps_val in *.
    apply Rabs_le_inv in B0. apply Rabs_le_inv in B1. apply Rabs_le_inv in B2. apply Rabs_le_inv in B3.
    assert (SQ : forall r p, -1 <= p <= 1 -> - (5.5 * / 16777216) <= r - p <= 5.5 * / 16777216 ->
              p * p + 2 * (p * (r - p)) <= r * r <= p * p + 2 * (p * (r - p)) + / 1000000000).
    { intros r p Hp Hr. set (e := r - p) in *. replace r with (p + e) by (unfold e; ring). clearbody e. clear - Hr.
      assert (E2 : 0 <= e * e <= / 1000000000) by (split; nra). replace ((p + e) * (p + e)) with (p * p + 2 * (p * e) + e * e) by ring. lra. }
    pose proof (SQ _ _ K0 B0) as Q0. pose proof (SQ _ _ K1 B1) as Q1. pose proof (SQ _ _ K2 B2) as Q2. pose proof (SQ _ _ K3 B3) as Q3.
    set (d0 := r0 - q0) in *. set (d1 := r1 - q1) in *. set (d2 := r2 - q2) in *. set (d3 := r3 - q3) in *.
    assert (H4 : Rabs q0 + Rabs q1 + Rabs q2 + Rabs q3 <= 2).
    { assert (E : forall q, q * q = Rabs q * Rabs q) by (intros q; rewrite <- Rabs_mult, Rabs_pos_eq; [reflexivity|nra]).
      rewrite (E q0), (E q1), (E q2), (E q3) in U.
      set (u0 := Rabs q0) in *. set (u1 := Rabs q1) in *. set (u2 := Rabs q2) in *. set (u3 := Rabs q3) in *.
      pose proof (Rle_0_sqr (u0 - 1/2)). pose proof (Rle_0_sqr (u1 - 1/2)). pose proof (Rle_0_sqr (u2 - 1/2)). pose proof (Rle_0_sqr (u3 - 1/2)).
      unfold Rsqr in *. lra. }
    assert (PD : forall p q, - (5.5 * / 16777216) <= q <= 5.5 * / 16777216 -> - (Rabs p * (5.5 * / 16777216)) <= p * q <= Rabs p * (5.5 * / 16777216)).
    { intros p q Hq. apply Rabs_le_inv. rewrite Rabs_mult. apply Rmult_le_compat_l; [apply Rabs_pos|]. apply Rabs_le. exact Hq. }
    pose proof (PD q0 d0 B0). pose proof (PD q1 d1 B1). pose proof (PD q2 d2 B2). pose proof (PD q3 d3 B3).
    apply Rabs_le. split; lra.
  Qed.
End Normalize.
