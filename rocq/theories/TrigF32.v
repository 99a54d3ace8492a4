(** Rounding errors of the binary32 sine, cosine and arcsine of math.rs 1089-1238. *)
From Coq Require Import Reals Lra Psatz Lia ZArith Bool.
From Flocq Require Import IEEE754.BinarySingleNaN Core Sterbenz Mult_error.
From Verif Require Import Base Num NumF32 Math F32Facts F32Err MathF32 ApxF32 TrigReal.
Local Open Scope R_scope.

Local Notation u := (/ 16777216).

Ltac num := simpl bpow; lra.
Ltac lit := apply apx_lit; [simpl; lia|lia|first [rewrite Rabs_pos_eq by num; num|rewrite Rabs_left by num; num]].
Lemma fin_inj x a b : fin x a -> fin x b -> a = b. Proof. intros [_ <-] [_ <-]. reflexivity. Qed.

Section Poly.
  Context (x : f32) (r : R) (Fr : fin x r) (Hr : Rabs r <= LIM).
  Let z := r * r.
  Local Lemma z_range : 0 <= z <= 0.6188.
  Proof using Hr.
    unfold z. split; [apply Rle_0_sqr|]. rewrite <- (Rabs_mult r r) || idtac.
    apply Rabs_le_inv in Hr. unfold LIM in Hr. nra.
  Qed.
  Local Lemma Bx : apx x r 0 0.7866.
  Proof using All. apply apx_exact; [exact Fr|exact Hr]. Qed.
  Local Lemma x2_apx : apx (nmul x x) z (/ 2 * u) 0.6189.
  Proof using All.
    unfold z. apply (apx_mul x x r r 0 0 0.7866 0.7866 0); try apply Bx; try lra; try lia; num.
  Qed.
  Local Lemma x2_nonneg : exists w, fin (nmul x x) w /\ 0 <= w.
  Proof using All.
    exists (rnd32 (r * r)). split; [|apply rnd32_ge0, Rle_0_sqr]. apply fin_mul; auto.
    pose proof z_range as Z. unfold z in Z. rewrite Rabs_pos_eq by lra. pose proof HUGE_big. lra.
  Qed.
  Lemma sin_poly : apx
    (nadd (nmul (nmul (nsub (nmul (nadd (nmul (nlit (-13410809) (-36)) (nmul x x)) (nlit 4473295 (-29))) (nmul x x)) (nlit 11184803 (-26))) (nmul x x)) x) x)
    (sinP r) (3 / 4 * u) 0.79.
  Proof using All.
    pose proof z_range as Z. pose proof x2_apx as X2. pose proof Bx as X.
    set (y := nmul x x) in *. clearbody y.
    assert (S1 : apx (nlit (-13410809) (-36)) (-13410809 / 2 ^ 36) 0 0.000196).
    { replace (-13410809 / 2 ^ 36) with (IZR (-13410809) * bpow radix2 (-36)) by (simpl; lra). lit. }
    assert (S2 : apx (nlit 4473295 (-29)) (4473295 / 2 ^ 29) 0 0.00834).
    { replace (4473295 / 2 ^ 29) with (IZR 4473295 * bpow radix2 (-29)) by (simpl; lra). lit. }
    assert (S3 : apx (nlit 11184803 (-26)) (11184803 / 2 ^ 26) 0 0.16667).
    { replace (11184803 / 2 ^ 26) with (IZR 11184803 * bpow radix2 (-26)) by (simpl; lra). lit. }
    unfold sinP. fold z.
    assert (R1 : -0.000122 <= -13410809 / 2 ^ 36 * z <= 0) by (simpl; lra).
    assert (A1 : apx (nmul (nlit (-13410809) (-36)) y) (-13410809 / 2 ^ 36 * z) (/ 1000 * u) 0.000122).
    { apply (apx_mul _ _ _ _ 0 (/ 2 * u) 0.000196 0.6189 (-12)); auto; try lra; try lia; num. }
    set (a1 := -13410809 / 2 ^ 36 * z) in *. clearbody a1.
    assert (R2 : 0.0082 <= a1 + 4473295 / 2 ^ 29 <= 0.00834) by (simpl; lra).
    assert (A2 : apx (nadd (nmul (nlit (-13410809) (-36)) y) (nlit 4473295 (-29))) (a1 + 4473295 / 2 ^ 29) (/ 100 * u) 0.00835).
    { apply (apx_add _ _ _ _ (/ 1000 * u) 0 0.000122 0.00834 (-6) _ _ 0.00834); auto; try lia; try num. apply Rabs_le. lra. }
    set (a2 := a1 + 4473295 / 2 ^ 29) in *. clearbody a2. clear A1 R1.
    assert (R3 : 0 <= a2 * z <= 0.00517) by nra.
    match type of A2 with apx ?t _ _ _ => set (t2 := t) in * end. clearbody t2.
    assert (A3 : apx (nmul t2 y) (a2 * z) (/ 50 * u) 0.0052).
    { apply (apx_mul _ _ _ _ (/ 100 * u) (/ 2 * u) 0.00835 0.6189 (-7)); auto; try lra; try lia; num. }
    set (a3 := a2 * z) in *. clearbody a3. clear A2.
    assert (R4 : -0.16667 <= a3 - 11184803 / 2 ^ 26 <= -0.16149) by (simpl; lra).
    assert (A4 : apx (nsub (nmul t2 y) (nlit 11184803 (-26))) (a3 - 11184803 / 2 ^ 26) (0.146 * u) 0.1667).
    { apply (apx_sub _ _ _ _ (/ 50 * u) 0 0.0052 0.16667 (-2) _ _ 0.16667); auto; try lia; try num. apply Rabs_le. lra. }
    match type of A4 with apx ?t _ _ _ => set (t4 := t) in * end. clearbody t4.
    set (a4 := a3 - 11184803 / 2 ^ 26) in *. clearbody a4. clear A3 R3.
    assert (R5 : -0.1032 <= a4 * z <= 0) by nra.
    assert (A5 : apx (nmul t4 y) (a4 * z) (0.237 * u) 0.1033).
    { apply (apx_mul _ _ _ _ (0.146 * u) (/ 2 * u) 0.1667 0.6189 (-3)); auto; try lra; try lia; num. }
    match type of A5 with apx ?t _ _ _ => set (t5 := t) in * end. clearbody t5.
    set (a5 := a4 * z) in *. clearbody a5. clear A4 R4.
    assert (A6 : apx (nmul t5 x) (a5 * r) (0.25 * u) 0.0813).
    { apply (apx_mul _ _ _ _ (0.237 * u) 0 0.1033 0.7866 (-3)); auto; try lra; try lia; num. }
    match type of A6 with apx ?t _ _ _ => set (t6 := t) in * end. clearbody t6.
    assert (R7 : Rabs (a5 * r + r) <= 0.7866).
    { replace (a5 * r + r) with ((1 + a5) * r) by ring. rewrite Rabs_mult, (Rabs_pos_eq (1 + a5)) by lra. unfold LIM in Hr.
      rewrite <- (Rmult_1_l 0.7866). apply Rmult_le_compat; try lra. apply Rabs_pos. }
    apply (apx_add _ _ _ _ (0.25 * u) 0 0.0813 0.7866 0 _ _ 0.7866); auto; try lia; try num.
  Qed.
  Lemma cos_poly : apx
    (nadd (nsub (nmul (nmul (nadd (nmul (nsub (nmul (nlit 6716135 (-38)) (nmul x x)) (nlit 5964557 (-32))) (nmul x x)) (nlit 11184805 (-28))) (nmul x x)) (nmul x x)) (nmul nhalf (nmul x x))) none_)
    (cosP r) (1.32 * u) 1.
  Proof using All.
    pose proof z_range as Z. pose proof x2_apx as X2. destruct x2_nonneg as (w & Fw & W0).
    set (y := nmul x x) in *. clearbody y.
    assert (C1 : apx (nlit 6716135 (-38)) (6716135 / 2 ^ 38) 0 0.0000245).
    { replace (6716135 / 2 ^ 38) with (IZR 6716135 * bpow radix2 (-38)) by (simpl; lra). lit. }
    assert (C2 : apx (nlit 5964557 (-32)) (5964557 / 2 ^ 32) 0 0.00139).
    { replace (5964557 / 2 ^ 32) with (IZR 5964557 * bpow radix2 (-32)) by (simpl; lra). lit. }
    assert (C3 : apx (nlit 11184805 (-28)) (11184805 / 2 ^ 28) 0 0.04167).
    { replace (11184805 / 2 ^ 28) with (IZR 11184805 * bpow radix2 (-28)) by (simpl; lra). lit. }
    assert (HF : apx nhalf (/ 2) 0 (/ 2)).
    { replace (/ 2) with (IZR 1 * bpow radix2 (-1)) at 1 by (simpl; lra). lit. }
    unfold cosP. fold z.
    assert (R1 : 0 <= 6716135 / 2 ^ 38 * z <= 0.0000152) by (simpl; lra).
    assert (A1 : apx (nmul (nlit 6716135 (-38)) y) (6716135 / 2 ^ 38 * z) (/ 1000 * u) 0.0000153).
    { apply (apx_mul _ _ _ _ 0 (/ 2 * u) 0.0000245 0.6189 (-15)); auto; try lra; try lia; num. }
    set (a1 := 6716135 / 2 ^ 38 * z) in *. clearbody a1.
    assert (R2 : -0.00139 <= a1 - 5964557 / 2 ^ 32 <= -0.00137) by (simpl; lra).
    assert (A2 : apx (nsub (nmul (nlit 6716135 (-38)) y) (nlit 5964557 (-32))) (a1 - 5964557 / 2 ^ 32) (/ 400 * u) 0.0014).
    { apply (apx_sub _ _ _ _ (/ 1000 * u) 0 0.0000153 0.00139 (-9) _ _ 0.00139); auto; try lia; try num. apply Rabs_le. lra. }
    set (a2 := a1 - 5964557 / 2 ^ 32) in *. clearbody a2. clear A1 R1.
    assert (R3 : -0.00087 <= a2 * z <= 0) by nra.
    match type of A2 with apx ?t _ _ _ => set (t2 := t) in * end. clearbody t2.
    assert (A3 : apx (nmul t2 y) (a2 * z) (/ 300 * u) 0.00088).
    { apply (apx_mul _ _ _ _ (/ 400 * u) (/ 2 * u) 0.0014 0.6189 (-10)); auto; try lra; try lia; num. }
    set (a3 := a2 * z) in *. clearbody a3. clear A2.
    assert (R4 : 0.0407 <= a3 + 11184805 / 2 ^ 28 <= 0.04167) by (simpl; lra).
    assert (A4 : apx (nadd (nmul t2 y) (nlit 11184805 (-28))) (a3 + 11184805 / 2 ^ 28) (0.035 * u) 0.0417).
    { apply (apx_add _ _ _ _ (/ 300 * u) 0 0.00088 0.04167 (-4) _ _ 0.04167); auto; try lia; try num. apply Rabs_le. lra. }
    match type of A4 with apx ?t _ _ _ => set (t4 := t) in * end. clearbody t4.
    set (a4 := a3 + 11184805 / 2 ^ 28) in *. clearbody a4. clear A3 R3.
    assert (R5 : 0 <= a4 * z <= 0.02579) by nra.
    assert (A5 : apx (nmul t4 y) (a4 * z) (0.06 * u) 0.026).
    { apply (apx_mul _ _ _ _ (0.035 * u) (/ 2 * u) 0.0417 0.6189 (-5)); auto; try lra; try lia; num. }
    match type of A5 with apx ?t _ _ _ => set (t5 := t) in * end. clearbody t5.
    set (a5 := a4 * z) in *. clearbody a5. clear A4 R4.
    assert (R6 : 0 <= a5 * z <= 0.016) by nra.
    assert (R8 : a5 * z <= / 2 * z) by (apply Rmult_le_compat_r; lra).
    assert (A6 : apx (nmul t5 y) (a5 * z) (0.067 * u) 0.0162).
    { apply (apx_mul _ _ _ _ (0.06 * u) (/ 2 * u) 0.026 0.6189 (-5)); auto; try lra; try lia; num. }
    assert (A7 : apx (nmul nhalf y) (/ 2 * z) (0.5 * u) 0.3095).
    { apply (apx_mul _ _ _ _ 0 (/ 2 * u) (/ 2) 0.6189 (-1)); auto; try lra; try lia; num. }
    assert (A8 : apx (nsub (nmul t5 y) (nmul nhalf y)) (a5 * z - / 2 * z) (0.817 * u) 0.3095).
    { apply (apx_sub _ _ _ _ (0.067 * u) (0.5 * u) 0.0162 0.3095 (-1) _ _ 0.3094); auto; try lia; try num. apply Rabs_le. lra. }
    (* the first term never exceeds the second one, even after rounding *)
    assert (N : exists t, fin (nsub (nmul t5 y) (nmul nhalf y)) t /\ t <= 0).
    { pose proof HUGE_big as HB. destruct A5 as (p & Fp & _ & Bp). destruct X2 as (w' & Fw' & Ew & Bw). rewrite <- (fin_inj _ _ _ Fw Fw') in *. clear w' Fw'.
      rewrite Rabs_pos_eq in Bw by exact W0. apply Rabs_le_inv in Bp.
      assert (Fh : fin nhalf (/ 2)) by (replace (/ 2) with (IZR 1 * bpow radix2 (-1)) by (simpl; lra); apply fin_lit; [simpl; lia|lia]).
      assert (L : p * w <= / 2 * w) by (apply Rmult_le_compat_r; lra).
      assert (G1 : fin (nmul t5 y) (rnd32 (p * w))) by (apply fin_mul; auto; apply Rabs_le; nra).
      assert (G2 : fin (nmul nhalf y) (rnd32 (/ 2 * w))) by (apply fin_mul; auto; apply Rabs_le; nra).
      pose proof (rnd32_le _ _ L) as L2.
      exists (rnd32 (rnd32 (p * w) - rnd32 (/ 2 * w))). split.
      - apply fin_sub; auto. destruct A6 as (a & Fa & _ & Ba). destruct A7 as (b & Fb & _ & Bb).
        rewrite (fin_inj _ _ _ G1 Fa), (fin_inj _ _ _ G2 Fb). eapply Rle_trans; [apply Rabs_triang|]. rewrite Rabs_Ropp. lra.
      - rewrite <- rnd32_0. apply rnd32_le. lra. }
    destruct N as (t & Ft & Nt). destruct A8 as (t' & Ft' & Et & Bt). rewrite <- (fin_inj _ _ _ Ft Ft') in *. clear t' Ft'.
    apply Rabs_le_inv in Bt. set (f := nsub (nmul t5 y) (nmul nhalf y)) in *. clearbody f.
    pose proof HUGE_big as HB.
    assert (F : fin (nadd f none_) (rnd32 (t + 1))) by (apply fin_add; [exact Ft|apply fin_one|apply Rabs_le; lra]).
    pose proof (rnd_pow (t + 1) 0 ltac:(lia) ltac:(simpl; apply Rabs_le; lra)) as Er. simpl (bpow radix2 (0 - 25)) in Er.
    exists (rnd32 (t + 1)). split; [exact F|]. split.
    - replace (rnd32 (t + 1) - (a5 * z - / 2 * z + 1)) with ((rnd32 (t + 1) - (t + 1)) + (t - (a5 * z - / 2 * z))) by ring.
      eapply Rle_trans; [apply Rabs_triang|]. lra.
    - apply Rabs_le. split.
      + apply Rle_trans with (rnd32 0); [rewrite rnd32_0; lra|apply rnd32_le; lra].
      + replace 1 with (IZR 1 * bpow radix2 0) at 2 by (simpl; lra). apply rnd_le_lit; [simpl; lia|lia|simpl; lra].
  Qed.
End Poly.

(** ** The reduction to a quarter turn (math.rs 1108-1124) *)
Local Notation K1 := (201 * / 128).
Local Notation K2 := (2029 * / 4194304).
Local Notation K3 := (10625385 * / 140737488355328).
Local Notation T := (10680707 * / 16777216).

Lemma rnd_exact m e : (Z.abs m <= 2 ^ 24)%Z -> (-149 <= e <= 103)%Z -> rnd32 (IZR m * bpow radix2 e) = IZR m * bpow radix2 e.
Proof. intros Hm He. apply rnd_id, lit_format; assumption. Qed.
Lemma fin_trunc y b : fin y b -> 0 <= b -> fin (ntrunc y) (IZR (Zfloor b)).
Proof.
  intros (Fy & Ey) Hb. destruct (Bnearbyint_correct 24 128 _ mode_ZR y) as (C1 & C2 & _).
  split; change (ntrunc y) with (Bnearbyint mode_ZR y : f32); [rewrite C2; exact Fy|]. rewrite C1, Ey. simpl round_mode.
  unfold round, F2R, scaled_mantissa, cexp, FIX_exp. simpl bpow. cbn [Fnum Fexp]. simpl bpow. rewrite !Rmult_1_r.
  rewrite Ztrunc_floor by exact Hb. reflexivity.
Qed.

(** a number of at least 1/2 is a multiple of 2^-24 *)
Lemma multiple x a : fin x a -> / 2 <= a -> exists m, a = IZR m * bpow radix2 (-24).
Proof.
  intros [_ Ex] Ha. assert (G : generic_format radix2 (SpecFloat.fexp 24 128) a) by (rewrite <- Ex; apply generic_format_B2R).
  set (e := cexp radix2 (SpecFloat.fexp 24 128) a). set (k := Ztrunc (scaled_mantissa radix2 (SpecFloat.fexp 24 128) a)).
  assert (E : a = IZR k * bpow radix2 e) by exact G.
  assert (L : (-24 <= e)%Z).
  { unfold e, cexp, SpecFloat.fexp, SpecFloat.emin. assert (M : (0 <= mag radix2 a)%Z); [|lia].
    apply mag_ge_bpow. rewrite Rabs_pos_eq by lra. simpl. lra. }
  exists (k * 2 ^ (e + 24))%Z. rewrite mult_IZR, E. replace e with ((e + 24) + -24)%Z at 1 by ring. rewrite bpow_plus, <- Rmult_assoc. do 2 f_equal.
  rewrite <- IZR_Zpower by lia. reflexivity.
Qed.

Section Reduce.
  Context (x : f32) (a : R) (Fa : fin x a) (Ha : 0 <= a <= 8192).
  Definition quad : f32 := ntrunc (nadd (nmul (nlit 10680707 (-24)) x) nhalf).
  Local Lemma half_fin : fin nhalf (/ 2).
  Proof. replace (/ 2) with (IZR 1 * bpow radix2 (-1)) by (simpl; lra). apply fin_lit; [simpl; lia|lia]. Qed.
  Local Lemma T_fin : fin (nlit 10680707 (-24)) T.
  Proof. replace T with (IZR 10680707 * bpow radix2 (-24)) by (simpl; lra). apply fin_lit; [simpl; lia|lia]. Qed.
  Local Lemma quad_facts : exists n p, fin quad (IZR n) /\ n = Zfloor p /\ (0 <= n <= 8191)%Z /\ 0 <= p /\
    T * a + / 2 - / 2048 <= p <= T * a + / 2 + / 2048 /\ (1 <= p -> K1 / 2 <= a).
  Proof using All.
    pose proof HUGE_big as HB.
    set (m := rnd32 (T * a)). set (p := rnd32 (m + / 2)).
    assert (Em : Rabs (m - T * a) <= / 4096).
    { eapply Rle_trans; [apply (rnd_pow (T * a) 13); [lia|rewrite Rabs_pos_eq; simpl; lra]|]. simpl. lra. }
    assert (M0 : 0 <= m) by (apply rnd32_ge0; lra). apply Rabs_le_inv in Em.
    assert (Ep : Rabs (p - (m + / 2)) <= / 4096).
    { eapply Rle_trans; [apply (rnd_pow (m + / 2) 13); [lia|rewrite Rabs_pos_eq; simpl; lra]|]. simpl. lra. }
    assert (P0 : 0 <= p) by (apply rnd32_ge0; lra). apply Rabs_le_inv in Ep.
    exists (Zfloor p), p. split; [|split; [reflexivity|split; [|split; [exact P0|split; [lra|]]]]].
    - unfold quad. apply fin_trunc; [|exact P0]. apply fin_add; [|apply half_fin|apply Rabs_le; lra].
      apply fin_mul; [apply T_fin|exact Fa|apply Rabs_le; lra].
    - split; [apply Zfloor_lub; exact P0|]. apply le_IZR. eapply Rle_trans; [apply Zfloor_lb|]. lra.
    - intros H1. destruct (Rle_dec (K1 / 2) a) as [|N]; [assumption|exfalso].
      assert (m <= IZR 8387000 * bpow radix2 (-24)) by (apply rnd_le_lit; [simpl; lia|lia|simpl; lra]).
      assert (p <= IZR 16776000 * bpow radix2 (-24)) by (apply rnd_le_lit; [simpl; lia|lia|simpl in *; lra]).
      simpl in *. lra.
  Qed.
  Definition reduced : f32 :=
    nsub (nsub (nsub x (nmul quad (nlit 201 (-7)))) (nmul quad (nlit 2029 (-22)))) (nmul quad (nlit 10625385 (-47))).
  Lemma reduction : exists n r, (0 <= n <= 8191)%Z /\ fin quad (IZR n) /\ fin reduced r /\
    Rabs (r - (a - IZR n * (PI / 2))) <= 0.51 * u /\ Rabs r <= LIM.
  Proof using All.
    destruct quad_facts as (n & p & Fq & En & Hn & P0 & Hp & Hh). exists n.
    pose proof PI_bounds as PB. pose proof HUGE_big as HB.
    pose proof (Zfloor_lb p) as L. pose proof (Zfloor_ub p) as U. rewrite <- En in L, U.
    set (t := a - IZR n * (PI / 2)).
    assert (N0 : 0 <= IZR n <= 8191) by (split; apply IZR_le; apply Hn).
    assert (Bt : -0.78645 <= t <= 0.78651).
    { unfold t. assert (X1 : IZR n * (PI / 2) <= (T * a + / 2 + / 2048) * (PI / 2)) by (apply Rmult_le_compat_r; lra).
      assert (X2 : (T * a - / 2 - / 2048) * (PI / 2) <= IZR n * (PI / 2)) by (apply Rmult_le_compat_r; lra).
      assert (Y1 : T * (PI / 2) * a <= 1 * a) by (apply Rmult_le_compat_r; lra).
      assert (Y2 : (1 - 0.0000000404) * a <= T * (PI / 2) * a) by (apply Rmult_le_compat_r; lra).
      split; lra. }
    (* the first two steps are exact *)
    assert (F1 : fin (nmul quad (nlit 201 (-7))) (IZR n * K1)).
    { replace (IZR n * K1) with (IZR (n * 201) * bpow radix2 (-7)) by (rewrite mult_IZR; simpl; lra).
      rewrite <- rnd_exact by lia. replace (IZR (n * 201) * bpow radix2 (-7)) with (IZR n * (201 * bpow radix2 (-7))) by (rewrite mult_IZR; ring).
      apply fin_mul; [exact Fq|apply fin_lit; [simpl; lia|lia]|]. simpl. apply Rabs_le. lra. }
    assert (F2 : fin (nmul quad (nlit 2029 (-22))) (IZR n * K2)).
    { replace (IZR n * K2) with (IZR (n * 2029) * bpow radix2 (-22)) by (rewrite mult_IZR; simpl; lra).
      rewrite <- rnd_exact by lia. replace (IZR (n * 2029) * bpow radix2 (-22)) with (IZR n * (2029 * bpow radix2 (-22))) by (rewrite mult_IZR; ring).
      apply fin_mul; [exact Fq|apply fin_lit; [simpl; lia|lia]|]. simpl. apply Rabs_le. lra. }
    assert (F3 : fin (nsub x (nmul quad (nlit 201 (-7)))) (a - IZR n * K1)).
    { replace (a - IZR n * K1) with (rnd32 (a - IZR n * K1)); [apply fin_sub; auto; apply Rabs_le; lra|]. apply rnd_id.
      destruct (Z.eq_dec n 0) as [Z0|Z0]; [rewrite Z0, Rmult_0_l, Rminus_0_r; destruct Fa as [_ <-]; apply generic_format_B2R|].
      assert (N1 : 1 <= IZR n) by (apply IZR_le; lia). specialize (Hh ltac:(lra)).
      apply (sterbenz radix2 (FLT_exp (-149) 24)); [destruct Fa as [_ <-]; apply generic_format_B2R|destruct F1 as [_ <-]; apply generic_format_B2R|].
      destruct (Z.eq_dec n 1) as [Z1|Z1]; [rewrite Z1 in *; unfold t in Bt; lra|]. assert (N2 : 2 <= IZR n) by (apply IZR_le; lia). unfold t in Bt. split; nra. }
    assert (B4 : Rabs (a - IZR n * K1 - IZR n * K2) <= 0.788).
    { replace (a - IZR n * K1 - IZR n * K2) with (t + IZR n * (PI / 2 - K1 - K2)) by (unfold t; ring).
      assert (0 <= IZR n * (PI / 2 - K1 - K2) <= 8191 * 0.0000000756) by (split; [apply Rmult_le_pos; lra|apply Rmult_le_compat; lra]). apply Rabs_le. lra. }
    assert (F4 : fin (nsub (nsub x (nmul quad (nlit 201 (-7)))) (nmul quad (nlit 2029 (-22)))) (a - IZR n * K1 - IZR n * K2)).
    { replace (a - IZR n * K1 - IZR n * K2) with (rnd32 (a - IZR n * K1 - IZR n * K2)); [apply fin_sub; auto; lra|]. apply rnd_id.
      destruct (Z.eq_dec n 0) as [Z0|Z0]; [rewrite Z0, !Rmult_0_l, !Rminus_0_r; destruct Fa as [_ <-]; apply generic_format_B2R|].
      assert (N1 : 1 <= IZR n) by (apply IZR_le; lia). specialize (Hh ltac:(lra)).
      destruct (multiple x a Fa ltac:(lra)) as [m Em].
      assert (Ed : a - IZR n * K1 - IZR n * K2 = IZR (m - n * 201 * 131072 - n * 2029 * 4) * bpow radix2 (-24)).
      { rewrite Em, !minus_IZR, !mult_IZR. simpl. lra. }
      rewrite Ed in B4 |- *. set (k := (m - n * 201 * 131072 - n * 2029 * 4)%Z) in *. clearbody k. apply lit_format; [|lia]. apply le_IZR. rewrite abs_IZR.
      rewrite Rabs_mult, (Rabs_pos_eq (bpow radix2 (-24))) in B4 by apply bpow_ge_0. simpl in B4. change (IZR (2 ^ 24)) with 16777216. lra. }
    set (d := a - IZR n * K1 - IZR n * K2) in *.
    assert (B5 : 0 <= IZR n * K3 <= / 1024) by lra.
    assert (F5 : fin (nmul quad (nlit 10625385 (-47))) (rnd32 (IZR n * K3))).
    { replace (IZR n * K3) with (IZR n * (10625385 * bpow radix2 (-47))) by (simpl; lra).
      apply fin_mul; [exact Fq|apply fin_lit; [simpl; lia|lia]|]. simpl. apply Rabs_le. lra. }
    pose proof (rnd_pow (IZR n * K3) (-10) ltac:(lia) ltac:(simpl; apply Rabs_le; lra)) as E5. simpl (bpow _ _) in E5.
    set (m3 := rnd32 (IZR n * K3)) in *. apply Rabs_le_inv in E5. apply Rabs_le_inv in B4.
    assert (F6 : fin reduced (rnd32 (d - m3))) by (unfold reduced; apply fin_sub; auto; apply Rabs_le; lra).
    pose proof (rnd_pow (d - m3) 0 ltac:(lia) ltac:(simpl; apply Rabs_le; lra)) as E6. simpl (bpow _ _) in E6. apply Rabs_le_inv in E6.
    exists (rnd32 (d - m3)).
    assert (G : -0.0000000001 <= d - IZR n * K3 - t <= 0.0000000001).
    { replace (d - IZR n * K3 - t) with (IZR n * (PI / 2 - K1 - K2 - K3)) by (unfold d, t; ring).
      assert (C1 : IZR n * -0.00000000000001 <= IZR n * (PI / 2 - K1 - K2 - K3)) by (apply Rmult_le_compat_l; lra).
      assert (C2 : IZR n * (PI / 2 - K1 - K2 - K3) <= IZR n * 0.00000000000001) by (apply Rmult_le_compat_l; lra). lra. }
    split; [exact Hn|]. split; [exact Fq|]. split; [exact F6|]. split; apply Rabs_le; unfold LIM; lra.
  Qed.
End Reduce.

(** ** The quarter turns (math.rs 1133-1151) *)
Lemma quarter_turns n r : (0 <= n)%Z -> let t := r + IZR n * (PI / 2) in
  sin t = (if Z.testbit n 1 then -1 else 1) * (if Z.testbit n 0 then cos r else sin r) /\
  cos t = (if xorb (Z.testbit n 0) (Z.testbit n 1) then -1 else 1) * (if Z.testbit n 0 then sin r else cos r).
Proof.
  intros Hn t. set (k := (n / 4)%Z). set (j := (n mod 4)%Z).
  assert (E : n = (4 * k + j)%Z) by (apply Z.div_mod; lia).
  assert (Hj : (0 <= j < 4)%Z) by (apply Z.mod_pos_bound; lia).
  assert (Hk : (0 <= k)%Z) by (apply Z.div_pos; lia).
  assert (T0 : Z.testbit n 0 = Z.testbit j 0) by (unfold j; change 4%Z with (2 ^ 2)%Z; rewrite Z.mod_pow2_bits_low by lia; reflexivity).
  assert (T1 : Z.testbit n 1 = Z.testbit j 1) by (unfold j; change 4%Z with (2 ^ 2)%Z; rewrite Z.mod_pow2_bits_low by lia; reflexivity).
  rewrite T0, T1.
  assert (Et : t = (r + IZR j * (PI / 2)) + 2 * INR (Z.to_nat k) * PI).
  { unfold t. rewrite E, INR_IZR_INZ, Z2Nat.id, plus_IZR, mult_IZR by exact Hk. field. }
  rewrite Et, sin_period, cos_period.
  assert (C : j = 0%Z \/ j = 1%Z \/ j = 2%Z \/ j = 3%Z) by lia.
  destruct C as [->|[->|[->| ->]]]; cbn [Z.testbit Pos.testbit xorb Z.odd Pos.pred_N Pos.pred_double N.sub].
  - replace (r + 0 * (PI / 2)) with r by ring. split; ring.
  - replace (r + 1 * (PI / 2)) with (PI / 2 + r) by ring. rewrite <- cos_sin, Rmult_1_l. split; [reflexivity|]. rewrite (sin_cos r). ring.
  - replace (r + 2 * (PI / 2)) with (r + PI) by field. rewrite neg_sin, neg_cos. split; ring.
  - replace (r + 3 * (PI / 2)) with (PI / 2 + (r + PI)) by field. rewrite <- cos_sin, neg_cos. split; [ring|].
    pose proof (sin_cos (r + PI)) as Q. rewrite neg_sin in Q. rewrite Rmult_1_l. lra.
Qed.

Lemma sin_lip a b : Rabs (sin a - sin b) <= Rabs (a - b).
Proof.
  rewrite form4. replace (2 * cos ((a + b) / 2) * sin ((a - b) / 2)) with (cos ((a + b) / 2) * (2 * sin ((a - b) / 2))) by ring.
  rewrite Rabs_mult, <- (Rmult_1_l (Rabs (a - b))). apply Rmult_le_compat; try apply Rabs_pos.
  - apply Rabs_le, COS_bound.
  - rewrite Rabs_mult, (Rabs_pos_eq 2) by lra. replace (a - b) with (2 * ((a - b) / 2)) at 2 by field. rewrite Rabs_mult, (Rabs_pos_eq 2) by lra.
    apply Rmult_le_compat_l; [lra|]. generalize ((a - b) / 2). intros y.
    assert (P : forall y, 0 <= y -> Rabs (sin y) <= y).
    { clear. intros y Hy. destruct (Rle_dec y 1) as [H|H].
      - rewrite Rabs_pos_eq; [|apply sin_ge_0; [exact Hy|pose proof PI_bounds; lra]].
        destruct Hy as [Hy|<-]; [left; apply sin_lt_x, Hy|rewrite sin_0; lra].
      - apply Rle_trans with 1; [apply Rabs_le, SIN_bound|lra]. }
    destruct (Rle_dec 0 y); [rewrite (Rabs_pos_eq y) by assumption; apply P; assumption|].
    rewrite (Rabs_left y) by lra. rewrite <- (Rabs_Ropp (sin y)), <- sin_neg. apply P. lra.
Qed.
(** near the axis the cosine is flatter *)
Lemma cos_lip a b : Rabs (cos a - cos b) <= Rabs (a - b) * Rabs (sin ((a + b) / 2)).
Proof.
  rewrite form2. rewrite !Rabs_mult. 
  replace (Rabs (-2)) with 2 by (rewrite Rabs_left by lra; ring).
  pose proof (sin_lip ((a - b) / 2) 0) as S. rewrite sin_0, !Rminus_0_r in S.
  replace (Rabs (a - b)) with (2 * Rabs ((a - b) / 2)) by (rewrite <- (Rabs_pos_eq 2) at 1 by lra; rewrite <- Rabs_mult; f_equal; field).
  apply Rmult_le_compat_r; [apply Rabs_pos|lra].
Qed.

Lemma nlt0_f32 (v : f32) : is_finite v = true -> nlt v nzero = true <-> B2R v < 0.
Proof.
  intros F. change (nlt v nzero) with (Bltb v (nzero : f32)). split.
  - intros H. apply Bltb_iff in H. destruct H as (_ & _ & H). rewrite ext_finite, zero_ext in H by exact F. exact H.
  - intros H. apply Bltb_iff. split; [apply finite_notnan, F|]. split; [reflexivity|]. rewrite ext_finite, zero_ext by exact F. exact H.
Qed.
Lemma nto_i32_fin (q : f32) n : fin q (IZR n) -> (0 <= n <= 8191)%Z -> nto_i32 q = n.
Proof.
  intros [F E] Hn. change (nto_i32 q) with (f32_to_i32 q). rewrite to_i32_ext by (apply finite_notnan, F).
  rewrite ext_finite, E, Ztrunc_IZR by exact F. unfold clampZ. lia.
Qed.
Lemma flip_fin b (x : f32) a : fin x a -> fin (flip b x) ((if b then -1 else 1) * a).
Proof. intros F. destruct b; cbn [flip]; [replace (-1 * a) with (- a) by ring; apply fin_neg, F|rewrite Rmult_1_l; exact F]. Qed.

Lemma sin_cos_accurate (v : f32) : is_finite v = true -> Rabs (B2R v) <= 8192 ->
  exists s c S C, sin_cos_lane v = Some (s, c) /\ fin s S /\ fin c C /\
    Rabs (S - sin (B2R v)) <= / 2 ^ 23 /\ Rabs (C - cos (B2R v)) <= / 2 ^ 23 /\ Rabs S <= 1 /\ Rabs C <= 1.
Proof.
  intros Fv Hv. pose proof (fin_abs v (B2R v) (conj Fv eq_refl)) as Fa. pose proof (Rabs_pos (B2R v)) as P.
  destruct (reduction (nabs v) _ Fa ltac:(lra)) as (n & r & Hn & Fq & Fr & Er & Br).
  pose proof (sin_poly _ r Fr Br) as PS. pose proof (cos_poly _ r Fr Br) as PC.
  unfold sin_cos_lane. cbv zeta. change (@num_arith f32 f32num) with f32arith in *.
  unfold reduced in PS, PC. unfold quad in PS, PC, Fq. cbv zeta in PS, PC, Fq.
  set (q := ntrunc _) in *.
  set (y := nsub (nsub (nsub (nabs v) (nmul q (nlit 201 (-7)))) (nmul q (nlit 2029 (-22)))) (nmul q (nlit 10625385 (-47)))) in *.
  match type of PS with apx ?t _ _ _ => set (ts := t) in * end. match type of PC with apx ?t _ _ _ => set (tc := t) in * end.
  assert (G : nle (nlit (-1) 31) q && nlt q (nlit 1 31) = true).
  { destruct Fq as [Fq1 Eq]. destruct (fin_lit (-1) 31) as [F0 E0]; [simpl; lia|lia|]. destruct (fin_lit 1 31) as [F1 E1]; [simpl; lia|lia|].
    assert (0 <= IZR n <= 8191) by (split; apply IZR_le; apply Hn).
    apply andb_true_intro. split.
    - change (Bleb (f32_lit (-1) 31) q = true). apply Bleb_iff. repeat split; try (apply finite_notnan; assumption).
      rewrite !ext_finite by assumption. rewrite E0, Eq. simpl. lra.
    - change (Bltb q (f32_lit 1 31) = true). apply Bltb_iff. repeat split; try (apply finite_notnan; assumption).
      rewrite !ext_finite by assumption. rewrite E1, Eq. simpl. lra. }
  rewrite G, (nto_i32_fin q n Fq Hn).
  destruct PS as (ss & Fss & Ess & Bss). destruct PC as (cc & Fcc & Ecc & Bcc).
  set (t := Rabs (B2R v) - IZR n * (PI / 2)) in *.
  assert (Ds : Rabs (ss - sin t) <= / 2 ^ 23).
  { replace (ss - sin t) with ((ss - sinP r) + ((sinP r - sin r) + (sin r - sin t))) by ring.
    eapply Rle_trans; [apply Rabs_triang|]. eapply Rle_trans; [apply Rplus_le_compat_l, Rabs_triang|].
    pose proof (sinP_sin r Br) as Q1. pose proof (sin_lip r t) as Q2. simpl in Q1 |- *. lra. }
  assert (Dc : Rabs (cc - cos t) <= / 2 ^ 23).
  { replace (cc - cos t) with ((cc - cosP r) + ((cosP r - cos r) + (cos r - cos t))) by ring.
    eapply Rle_trans; [apply Rabs_triang|]. eapply Rle_trans; [apply Rplus_le_compat_l, Rabs_triang|].
    pose proof (cosP_cos r Br) as Q1. pose proof (cos_lip r t) as Q2.
    assert (Q3 : Rabs (r - t) * Rabs (sin ((r + t) / 2)) <= Rabs (r - t) * 1) by (apply Rmult_le_compat_l; [apply Rabs_pos|apply Rabs_le, SIN_bound]).
    simpl in Q1 |- *. lra. }
  destruct (quarter_turns n t ltac:(lia)) as [QS QC]. replace (t + IZR n * (PI / 2)) with (Rabs (B2R v)) in QS, QC by (unfold t; ring).
  set (b0 := Z.testbit n 0) in *. set (b1 := Z.testbit n 1) in *.
  assert (Fs : fin (if b0 then tc else ts) (if b0 then cc else ss)) by (destruct b0; assumption).
  assert (Fc : fin (if b0 then ts else tc) (if b0 then ss else cc)) by (destruct b0; assumption).
  assert (Sg : sin (B2R v) = (if nlt v nzero then -1 else 1) * sin (Rabs (B2R v))).
  { destruct (nlt v nzero) eqn:L.
    - apply nlt0_f32 in L; [|exact Fv]. rewrite Rabs_left, sin_neg by exact L. ring.
    - assert (N : ~ B2R v < 0) by (intros N; apply nlt0_f32 in N; [congruence|exact Fv]). rewrite Rabs_pos_eq by lra. ring. }
  assert (Cg : cos (B2R v) = cos (Rabs (B2R v))).
  { unfold Rabs. destruct (Rcase_abs (B2R v)); [rewrite cos_neg|]; reflexivity. }
  eexists _, _, _, _. split; [reflexivity|]. split; [apply flip_fin, Fs|]. split; [apply flip_fin, Fc|].
  rewrite Sg, Cg, QS, QC.
  assert (U : forall b b' p p', Rabs (p - p') <= / 2 ^ 23 -> b = b' -> Rabs ((if b : bool then -1 else 1) * p - (if b' : bool then -1 else 1) * p') <= / 2 ^ 23).
  { clear. intros b b' p p' H <-. destruct b; [replace (-1 * p - -1 * p') with (- (p - p')) by ring; rewrite Rabs_Ropp|rewrite !Rmult_1_l]; exact H. }
  assert (V : forall (b : bool) p, Rabs p <= 1 -> Rabs ((if b then -1 else 1) * p) <= 1).
  { clear. intros b p H. rewrite Rabs_mult. replace (Rabs (if b then -1 else 1)) with 1; [lra|]. destruct b; [rewrite Rabs_left by lra; ring|rewrite Rabs_R1; reflexivity]. }
  split; [|split; [|split]].
  - replace ((if nlt v nzero then -1 else 1) * ((if b1 then -1 else 1) * (if b0 then cos t else sin t)))
      with ((if xorb (nlt v nzero) b1 then -1 else 1) * (if b0 then cos t else sin t)) by (destruct (nlt v nzero), b1; cbn [xorb]; ring).
    apply U; [destruct b0; assumption|reflexivity].
  - apply U; [destruct b0; assumption|reflexivity].
  - apply V. destruct b0; [exact Bcc|lra].
  - apply V. destruct b0; [lra|exact Bcc].
Qed.

(** ** The arcsine *)
Section AsinPoly.
  Context (zf xf : f32) (z x : R) (Hz : apx zf z (/ 8 * u) (/ 4)) (Hx : apx xf x (/ 4 * u) (/ 2)) (Rz : 0 <= z <= / 4) (Rx : 0 <= x <= / 2).
  Lemma asin_poly : apx
    (nadd (nmul (nmul (nadd (nmul (nadd (nmul (nadd (nmul (nadd (nmul (nlit 5659049 (-27)) zf) (nlit 12982243 (-29))) zf) (nlit 12205767 (-28))) zf) (nlit 5030011 (-26))) zf) (nlit 2796217 (-24))) zf) xf) xf)
    (asinP z x) (0.83 * u) 0.53.
  Proof using All.
    assert (N1 : apx (nlit 5659049 (-27)) (5659049 / 2 ^ 27) 0 0.0422).
    { replace (5659049 / 2 ^ 27) with (IZR 5659049 * bpow radix2 (-27)) by (simpl; lra). lit. }
    assert (N2 : apx (nlit 12982243 (-29)) (12982243 / 2 ^ 29) 0 0.0242).
    { replace (12982243 / 2 ^ 29) with (IZR 12982243 * bpow radix2 (-29)) by (simpl; lra). lit. }
    assert (N3 : apx (nlit 12205767 (-28)) (12205767 / 2 ^ 28) 0 0.0455).
    { replace (12205767 / 2 ^ 28) with (IZR 12205767 * bpow radix2 (-28)) by (simpl; lra). lit. }
    assert (N4 : apx (nlit 5030011 (-26)) (5030011 / 2 ^ 26) 0 0.075).
    { replace (5030011 / 2 ^ 26) with (IZR 5030011 * bpow radix2 (-26)) by (simpl; lra). lit. }
    assert (N5 : apx (nlit 2796217 (-24)) (2796217 / 2 ^ 24) 0 0.1667).
    { replace (2796217 / 2 ^ 24) with (IZR 2796217 * bpow radix2 (-24)) by (simpl; lra). lit. }
    unfold asinP.
    assert (R1 : 0 <= 5659049 / 2 ^ 27 * z <= 0.0106) by (simpl; lra).
    assert (A1 : apx (nmul (nlit 5659049 (-27)) zf) (5659049 / 2 ^ 27 * z) (0.015 * u) 0.0106).
    { apply (apx_mul _ _ _ _ 0 (/ 8 * u) 0.0422 (/ 4) (-6)); auto; try lra; try lia; num. }
    set (a1 := 5659049 / 2 ^ 27 * z) in *. clearbody a1. match type of A1 with apx ?t _ _ _ => set (t1 := t) in * end. clearbody t1.
    assert (R2 : 0.024 <= a1 + 12982243 / 2 ^ 29 <= 0.0348) by (simpl; lra).
    assert (A2 : apx (nadd t1 (nlit 12982243 (-29))) (a1 + 12982243 / 2 ^ 29) (0.05 * u) 0.035).
    { apply (apx_add _ _ _ _ (0.015 * u) 0 0.0106 0.0242 (-4) _ _ 0.0348); auto; try lia; try num. apply Rabs_le. lra. }
    set (a2 := a1 + 12982243 / 2 ^ 29) in *. clearbody a2. clear A1 R1. match type of A2 with apx ?t _ _ _ => set (t2 := t) in * end. clearbody t2.
    assert (R3 : 0 <= a2 * z <= 0.0087) by nra.
    assert (A3 : apx (nmul t2 zf) (a2 * z) (0.025 * u) 0.0088).
    { apply (apx_mul _ _ _ _ (0.05 * u) (/ 8 * u) 0.035 (/ 4) (-6)); auto; try lra; try lia; num. }
    set (a3 := a2 * z) in *. clearbody a3. clear A2 R2. match type of A3 with apx ?t _ _ _ => set (t3 := t) in * end. clearbody t3.
    assert (R4 : 0.0454 <= a3 + 12205767 / 2 ^ 28 <= 0.0542) by (simpl; lra).
    assert (A4 : apx (nadd t3 (nlit 12205767 (-28))) (a3 + 12205767 / 2 ^ 28) (0.06 * u) 0.0543).
    { apply (apx_add _ _ _ _ (0.025 * u) 0 0.0088 0.0455 (-4) _ _ 0.0542); auto; try lia; try num. apply Rabs_le. lra. }
    set (a4 := a3 + 12205767 / 2 ^ 28) in *. clearbody a4. clear A3 R3. match type of A4 with apx ?t _ _ _ => set (t4 := t) in * end. clearbody t4.
    assert (R5 : 0 <= a4 * z <= 0.0136) by nra.
    assert (A5 : apx (nmul t4 zf) (a4 * z) (0.03 * u) 0.0137).
    { apply (apx_mul _ _ _ _ (0.06 * u) (/ 8 * u) 0.0543 (/ 4) (-6)); auto; try lra; try lia; num. }
    set (a5 := a4 * z) in *. clearbody a5. clear A4 R4. match type of A5 with apx ?t _ _ _ => set (t5 := t) in * end. clearbody t5.
    assert (R6 : 0.0749 <= a5 + 5030011 / 2 ^ 26 <= 0.0886) by (simpl; lra).
    assert (A6 : apx (nadd t5 (nlit 5030011 (-26))) (a5 + 5030011 / 2 ^ 26) (0.1 * u) 0.0887).
    { apply (apx_add _ _ _ _ (0.03 * u) 0 0.0137 0.075 (-3) _ _ 0.0886); auto; try lia; try num. apply Rabs_le. lra. }
    set (a6 := a5 + 5030011 / 2 ^ 26) in *. clearbody a6. clear A5 R5. match type of A6 with apx ?t _ _ _ => set (t6 := t) in * end. clearbody t6.
    assert (R7 : 0 <= a6 * z <= 0.0222) by nra.
    assert (A7 : apx (nmul t6 zf) (a6 * z) (0.055 * u) 0.0223).
    { apply (apx_mul _ _ _ _ (0.1 * u) (/ 8 * u) 0.0887 (/ 4) (-5)); auto; try lra; try lia; num. }
    set (a7 := a6 * z) in *. clearbody a7. clear A6 R6. match type of A7 with apx ?t _ _ _ => set (t7 := t) in * end. clearbody t7.
    assert (R8 : 0.1666 <= a7 + 2796217 / 2 ^ 24 <= 0.1889) by (simpl; lra).
    assert (A8 : apx (nadd t7 (nlit 2796217 (-24))) (a7 + 2796217 / 2 ^ 24) (0.18 * u) 0.189).
    { apply (apx_add _ _ _ _ (0.055 * u) 0 0.0223 0.1667 (-2) _ _ 0.1889); auto; try lia; try num. apply Rabs_le. lra. }
    set (a8 := a7 + 2796217 / 2 ^ 24) in *. clearbody a8. clear A7 R7. match type of A8 with apx ?t _ _ _ => set (t8 := t) in * end. clearbody t8.
    assert (R9 : 0 <= a8 * z <= 0.0473) by nra.
    assert (A9 : apx (nmul t8 zf) (a8 * z) (0.1 * u) 0.0473).
    { apply (apx_mul _ _ _ _ (0.18 * u) (/ 8 * u) 0.189 (/ 4) (-4)); auto; try lra; try lia; num. }
    set (a9 := a8 * z) in *. clearbody a9. clear A8 R8. match type of A9 with apx ?t _ _ _ => set (t9 := t) in * end. clearbody t9.
    assert (R10 : 0 <= a9 * x <= 0.0237) by nra.
    assert (A10 : apx (nmul t9 xf) (a9 * x) (0.08 * u) 0.0237).
    { apply (apx_mul _ _ _ _ (0.1 * u) (/ 4 * u) 0.0473 (/ 2) (-5)); auto; try lra; try lia; num. }
    set (a10 := a9 * x) in *. clearbody a10. clear A9 R9. match type of A10 with apx ?t _ _ _ => set (t10 := t) in * end. clearbody t10.
    apply (apx_add _ _ _ _ (0.08 * u) (/ 4 * u) 0.0237 (/ 2) 0 _ _ 0.5237); auto; try lia; try num. apply Rabs_le. lra.
  Qed.
End AsinPoly.

Lemma nhalf_lt (a : f32) : is_finite a = true -> nlt nhalf a = true <-> / 2 < B2R a.
Proof.
  intros F. change (nlt nhalf a) with (Bltb (nhalf : f32) a). split.
  - intros H. apply Bltb_iff in H. destruct H as (_ & _ & H). rewrite half_ext, ext_finite in H by exact F. exact H.
  - intros H. apply Bltb_iff. split; [reflexivity|]. split; [apply finite_notnan, F|]. rewrite half_ext, ext_finite by exact F. exact H.
Qed.
Lemma fin_double x a : fin x a -> Rabs a <= 1000 -> fin (nadd x x) (2 * a).
Proof.
  intros F H. replace (2 * a) with (rnd32 (a + a)); [apply fin_add; auto; pose proof HUGE_big; replace (a + a) with (2 * a) by ring; rewrite Rabs_mult, (Rabs_pos_eq 2) by lra; lra|].
  replace (a + a) with (a * bpow radix2 1) by (change (bpow radix2 1) with 2; ring). replace (2 * a) with (a * bpow radix2 1) by (change (bpow radix2 1) with 2; ring). apply rnd_id.
  change (generic_format radix2 (FLT_exp (-149) 24) (a * bpow radix2 1)). apply mult_bpow_pos_exact_FLT; [|lia]. destruct F as [_ <-]. apply generic_format_B2R.
Qed.
Lemma fin_min1 x a : fin x a -> a <= 1 -> fin (nmin x none_) a.
Proof.
  intros (Fx & Ex) H. change (fin (f32_min x (@none_ f32 f32arith)) a). unfold f32_min.
  assert (Nx : is_nan x = false) by (apply finite_notnan, Fx). rewrite Nx. change (is_nan (@none_ f32 f32arith)) with false. cbv iota.
  assert (L : Bleb x (@none_ f32 f32arith) = true).
  { apply Bleb_iff. split; [exact Nx|]. split; [reflexivity|]. rewrite (ext_finite x Fx), Ex. eapply Rle_trans; [exact H|]. right. symmetry. exact one_ext. }
  rewrite L. split; assumption.
Qed.
Lemma asin_accurate (v : f32) : is_finite v = true -> Rabs (B2R v) <= 1 ->
  exists s, fin (asin_lane v) s /\ Rabs (s - asin (B2R v)) <= / 2 ^ 22.
Proof.
  intros Fv Hv. pose proof (fin_abs v (B2R v) (conj Fv eq_refl)) as Fa. pose proof (Rabs_pos (B2R v)) as P.
  apply fin_min1 in Fa; [|exact Hv]. unfold asin_lane. cbv zeta. change (@num_arith f32 f32num) with f32arith in *.
  set (f := nmin (nabs v) none_) in *. set (a := Rabs (B2R v)) in *.
  assert (Sg : asin (B2R v) = (if nlt v nzero then -1 else 1) * asin a).
  { unfold a. destruct (nlt v nzero) eqn:L.
    - apply nlt0_f32 in L; [|exact Fv]. rewrite Rabs_left, asin_opp by exact L. ring.
    - assert (N : ~ B2R v < 0) by (intros N; apply nlt0_f32 in N; [congruence|exact Fv]). rewrite Rabs_pos_eq by lra. ring. }
  rewrite Sg.
  match goal with |- exists s, fin (flip _ ?w) s /\ _ => assert (M : exists s, fin w s /\ Rabs (s - asin a) <= / 2 ^ 22) end.
  2:{ destruct M as (s & Fs & Es). exists ((if nlt v nzero then -1 else 1) * s). split; [apply flip_fin, Fs|].
      destruct (nlt v nzero); [replace (-1 * s - -1 * asin a) with (- (s - asin a)) by ring; rewrite Rabs_Ropp|rewrite !Rmult_1_l]; exact Es. }
  clear Sg. pose proof HUGE_big as HB. destruct (nlt nhalf f) eqn:L.
  - apply nhalf_lt in L; [|apply Fa]. destruct Fa as [Fa1 Ea]. rewrite Ea in L.
    assert (Fz : fin (nmul nhalf (nsub none_ f)) (/ 2 * (1 - a))).
    { destruct (multiple f a (conj Fa1 Ea) ltac:(lra)) as [m Em].
      assert (F1 : fin (nsub none_ f) (1 - a)).
      { replace (1 - a) with (rnd32 (1 - a)); [apply fin_sub; [apply fin_one|split; assumption|apply Rabs_le; lra]|].
        assert (E : 1 - a = IZR (16777216 - m) * bpow radix2 (-24)) by (rewrite Em, minus_IZR; simpl; lra). rewrite E. apply rnd_exact; [|lia].
        rewrite Em in L, Hv. simpl in L, Hv. assert (8388608 < IZR m <= 16777216) as [M1 M2] by lra. apply lt_IZR in M1. apply le_IZR in M2. clear - M1 M2. change (2 ^ 24)%Z with 16777216%Z. lia. }
      replace (/ 2 * (1 - a)) with (rnd32 (/ 2 * (1 - a))); [apply fin_mul; [apply half_fin|exact F1|apply Rabs_le; lra]|].
      assert (E : / 2 * (1 - a) = IZR (16777216 - m) * bpow radix2 (-25)) by (rewrite Em, minus_IZR; simpl; lra). rewrite E. apply rnd_exact; [|lia].
      rewrite Em in L, Hv. simpl in L, Hv. assert (8388608 < IZR m <= 16777216) as [M1 M2] by lra. apply lt_IZR in M1. apply le_IZR in M2. clear - M1 M2. change (2 ^ 24)%Z with 16777216%Z. lia. }
    set (zf := nmul nhalf (nsub none_ f)) in *. clearbody zf. set (z := / 2 * (1 - a)) in *.
    assert (Rz : 0 <= z <= / 4) by (unfold z; lra). set (h := sqrt z).
    assert (H0 : 0 <= h) by apply sqrt_pos. assert (Hh : h * h = z) by (apply sqrt_sqrt; lra). assert (H1 : h <= / 2) by nra.
    assert (Ax : apx (nsqrt zf) h (/ 4 * u) (/ 2)).
    { exists (rnd32 h). split; [apply fin_sqrt; [exact Fz|lra]|]. split.
      - eapply Rle_trans; [apply (rnd_pow h (-1)); [lia|rewrite Rabs_pos_eq by exact H0; simpl; lra]|]. num.
      - rewrite Rabs_pos_eq by (apply rnd32_ge0, H0). replace (/ 2) with (IZR 1 * bpow radix2 (-1)) by (simpl; lra). apply rnd_le_lit; [simpl; lia|lia|simpl; lra]. }
    assert (Az : apx zf z (/ 8 * u) (/ 4)).
    { apply (apx_weak zf z 0 (/ 4)); [apply apx_exact; [exact Fz|rewrite Rabs_pos_eq; lra]|lra|lra]. }
    destruct (asin_poly zf (nsqrt zf) z h Az Ax Rz ltac:(lra)) as (w & Fw & Ew & Bw).
    match type of Fw with fin ?t _ => set (p := t) in * end. clearbody p.
    pose proof (fin_double p w Fw ltac:(lra)) as F2. apply Rabs_le_inv in Bw.
    assert (FP : fin (nlit 13176795 (-23)) (13176795 * / 8388608)).
    { replace (13176795 * / 8388608) with (IZR 13176795 * bpow radix2 (-23)) by (simpl; lra). apply fin_lit; [simpl; lia|lia]. }
    assert (B3 : Rabs (13176795 * / 8388608 - 2 * w) <= 2).
    { pose proof (asinP_asin h ltac:(lra)) as Q. rewrite Hh in Q. assert (Qa : 0 <= asinP z h).
      { unfold asinP. assert (0 <= ((((5659049 / 2 ^ 27 * z + 12982243 / 2 ^ 29) * z + 12205767 / 2 ^ 28) * z + 5030011 / 2 ^ 26) * z + 2796217 / 2 ^ 24) * z * h).
        { apply Rmult_le_pos; [|exact H0]. apply Rmult_le_pos; [|apply Rz].
          assert (St : forall b c, 0 <= b -> 0 <= c -> 0 <= b * z + c) by (intros b c Hb Hc; apply Rplus_le_le_0_compat; [apply Rmult_le_pos; [exact Hb|apply Rz]|exact Hc]).
          do 4 (apply St; [|simpl; lra]). simpl. lra. }
        lra. }
      apply Rabs_le_inv in Ew. apply Rabs_le. lra. }
    exists (rnd32 (13176795 * / 8388608 - 2 * w)). split; [apply fin_sub; auto; lra|].
    pose proof (rnd_pow (13176795 * / 8388608 - 2 * w) 1 ltac:(lia) ltac:(simpl; lra)) as Er. simpl (bpow _ _) in Er.
    rewrite asin_half by lra. fold z. fold h. pose proof (asinP_asin h ltac:(lra)) as Q. rewrite Hh in Q.
    assert (Q' : 14 / 100 / 2 ^ 24 * h <= 14 / 100 / 2 ^ 24 * / 2) by (apply Rmult_le_compat_l; [simpl; lra|exact H1]).
    pose proof PI_bounds as PB. apply Rabs_le_inv in Er, Ew, Q. clear - Er Ew Q Q' PB H0 H1. simpl in Q, Q' |- *. apply Rabs_le. lra.
  - assert (L' : a <= / 2).
    { destruct (Rle_dec a (/ 2)) as [|N]; [assumption|exfalso]. destruct Fa as [Fa1 Ea].
      assert (nlt nhalf f = true) by (apply nhalf_lt; [exact Fa1|lra]). congruence. }
    assert (Az : apx (nmul f f) (a * a) (/ 8 * u) (/ 4)).
    { exists (rnd32 (a * a)). split; [apply fin_mul; auto; apply Rabs_le; nra|]. split.
      - eapply Rle_trans; [apply (rnd_pow (a * a) (-2)); [lia|rewrite Rabs_pos_eq by nra; simpl; nra]|]. num.
      - rewrite Rabs_pos_eq by (apply rnd32_ge0; nra). replace (/ 4) with (IZR 1 * bpow radix2 (-2)) by (simpl; lra). apply rnd_le_lit; [simpl; lia|lia|simpl; nra]. }
    assert (Ax : apx f a (/ 4 * u) (/ 2)).
    { apply (apx_weak f a 0 (/ 2)); [apply apx_exact; [exact Fa|rewrite Rabs_pos_eq; lra]|lra|lra]. }
    destruct (asin_poly (nmul f f) f (a * a) a Az Ax ltac:(nra) ltac:(lra)) as (w & Fw & Ew & Bw).
    exists w. split; [exact Fw|]. pose proof (asinP_asin a ltac:(lra)) as Q.
    assert (Q' : 14 / 100 / 2 ^ 24 * a <= 14 / 100 / 2 ^ 24 * / 2) by (apply Rmult_le_compat_l; [simpl; lra|exact L']).
    apply Rabs_le_inv in Ew, Q. clear - Ew Q Q'. simpl in Q, Q' |- *. apply Rabs_le. lra.
Qed.

Lemma acos_accurate (v : f32) : is_finite v = true -> Rabs (B2R v) <= 1 ->
  exists s, fin (nsub (nlit 13176795 (-23)) (asin_lane v)) s /\ Rabs (s - acos (B2R v)) <= / 2 ^ 21.
Proof.
  intros Fv Hv. destruct (asin_accurate v Fv Hv) as (s & Fs & Es). pose proof HUGE_big as HB. pose proof PI_bounds as PB.
  assert (FP : fin (nlit 13176795 (-23)) (13176795 * / 8388608)).
  { replace (13176795 * / 8388608) with (IZR 13176795 * bpow radix2 (-23)) by (simpl; lra). apply fin_lit; [simpl; lia|lia]. }
  pose proof (asin_bound (B2R v)) as Bd. apply Rabs_le_inv in Es. simpl in Es.
  exists (rnd32 (13176795 * / 8388608 - s)). split; [apply fin_sub; auto; apply Rabs_le; lra|].
  pose proof (rnd_pow (13176795 * / 8388608 - s) 2 ltac:(lia) ltac:(simpl; apply Rabs_le; lra)) as Er. simpl (bpow _ _) in Er.
  apply Rabs_le_inv in Hv. rewrite acos_asin by lra. apply Rabs_le_inv in Er. clear - Es PB Er. simpl. apply Rabs_le. lra.
Qed.
