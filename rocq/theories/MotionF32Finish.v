(** Motion blending in single precision: the final normalisation. *)
From Coq Require Import Reals Lra Psatz.
From Flocq Require Import IEEE754.BinarySingleNaN Core Relative.
From Verif Require Import Base Num NumF32 NumR F32Facts F32Err InterpF32 NormF32 BlendF32 Math MathSpec BlendingSpec QuatNorm
  Motion MotionProps MotionGlam MotionF32Spec MotionF32 MotionF32Proofs.
Local Open Scope R_scope.

Lemma finish_rot o div k W DL DT a : Inv k W DL DT a ->
  exists r, finq (tr_r (mfinish_on o div a)) r /\ Rabs (norm2 r - 1) <= / 524288.
Proof.
  intros I. destruct (iadr _ _ _ _ _ I) as [[_ E]|(r & Fr & Br & Nr)]; unfold mfinish_on; cbv zeta; cbn [tr_r]; change (@num_arith f32 f32num) with f32arith.
  - rewrite E. assert (FZ : finq (q_zero : quat f32) (Q4 0 0 0 0)) by (repeat split; apply fin_zero).
    assert (BZ : boundq (p2 50) (Q4 0 0 0 0)) by (pose proof (p2_pos 50); repeat split; cbn; rewrite Rabs_R0; lra).
    destruct (g_dot_err o _ _ _ _ FZ FZ BZ BZ) as (d & Fd & Ed).
    assert (d = 0) as ->.
    { clear - Fd. destruct Fd as [_ <-]. destruct o; vm_compute; reflexivity. }
    match goal with |- context [neq ?x nzero] => replace (neq x (nzero : f32)) with true by (symmetry; rewrite (neq_fin0 _ _ Fd); destruct (Req_EM_T 0 0); [reflexivity|lra]) end.
    exists (Q4 0 0 0 1). split; [split; [apply fin_zero|split; [apply fin_zero|split; [apply fin_zero|apply fin_one]]]|].
    unfold norm2. cbn. replace (0 * 0 + 0 * 0 + 0 * 0 + 1 * 1 - 1) with 0 by ring. rewrite Rabs_R0. lra.
  - assert (B50 : boundq (p2 50) r) by (apply (bq50 (p2 47) r 47); [lra|lia|exact Br]).
    destruct (g_dot_err o _ _ _ _ Fr Fr B50 B50) as (d & Fd & Ed).
    assert (E2 : absdot r r = nq r) by (unfold absdot, nq; rewrite !abs_sq; reflexivity). change (rdot r r) with (nq r) in Ed. rewrite E2 in Ed.
    pose proof (tiny_rel (-42) _ ltac:(lia) Nr) as T. pose proof (p2_pos (-42)) as P42. apply Rabs_le_inv in Ed. unfold eps in *.
    match goal with |- context [neq ?x nzero] => replace (neq x (nzero : f32)) with false by (symmetry; rewrite (neq_fin0 _ _ Fd); destruct (Req_EM_T d 0); [lra|reflexivity]) end.
    destruct (g_normalize_err o div _ r Fr B50) as (q & Fq & _ & Nq); [change (norm2 r) with (nq r); eapply Rle_trans; [|exact Nr]; apply bpow_le; lia|].
    exists q. split; assumption.
Qed.

(** ** The translation *)
Lemma rel_of v V d : 0 < V -> Rabs (v - V) <= d * V -> exists a, Rabs a <= d /\ v = V * (1 + a).
Proof.
  intros H E. exists ((v - V) / V). split; [|field; lra]. unfold Rdiv. rewrite Rabs_mult, (Rabs_pos_eq (/ V)) by (apply Rlt_le, Rinv_0_lt_compat, H).
  apply Rmult_le_reg_r with V; [exact H|]. rewrite Rmult_assoc, Rinv_l by lra. lra.
Qed.
Lemma rel_rnd V a d : p2 (-110) <= V -> Rabs a <= d -> d <= / 100 -> exists b, Rabs b <= d + 1.02 * eps /\ rnd32 (V * (1 + a)) = V * (1 + b).
Proof.
  intros H A D. pose proof (p2_pos (-110)) as P.
  assert (T : tiny <= / 1000 * eps * V).
  { apply Rle_trans with (p2 (-10) * p2 (-24) * p2 (-110)); [rewrite <- !bpow_plus; apply bpow_le; lia|].
    replace (p2 (-24)) with eps by (unfold eps; simpl; lra). apply Rmult_le_compat; [|apply Rlt_le, p2_pos| |exact H].
    - apply Rmult_le_pos; [apply Rlt_le, p2_pos|unfold eps; lra].
    - apply Rmult_le_compat_r; [unfold eps; lra|simpl; lra]. }
  destruct (rnd_rel (V * (1 + a))) as (e & t & He & Ht & E). apply eps_inv in He. apply Rabs_le_inv in Ht. apply Rabs_le_inv in A. unfold eps in *.
  apply rel_of; [lra|]. rewrite E. replace (V * (1 + a) * (1 + e) + t - V) with (V * (a + e + a * e) + t) by ring.
  assert (B : Rabs (a + e + a * e) <= d + 1.011 * / 16777216).
  { apply Rabs_le. assert (- (/ 100 * / 16777216) <= a * e <= / 100 * / 16777216) by (split; nra). lra. }
  eapply Rle_trans; [apply Rabs_triang|]. rewrite Rabs_mult, (Rabs_pos_eq V) by lra.
  assert (V * Rabs (a + e + a * e) <= V * (d + 1.011 * / 16777216)) by (apply Rmult_le_compat_l; lra).
  assert (Rabs t <= / 1000 * / 16777216 * V) by (apply Rabs_le; lra). lra.
Qed.

Definition e3 (v : vec3 R) : quat R := Q4 (vx v) (vy v) (vz v) 0.
Lemma qn_e3 v : qn (e3 v) = len3 v.
Proof. unfold qn, len3. f_equal. unfold norm2, dot3, e3. cbn. ring. Qed.
Lemma prod_rel a b A B : Rabs a <= A -> Rabs b <= B -> A <= / 100 -> B <= / 100 -> Rabs (a + b + a * b) <= A + B + / 100 * B.
Proof. intros HA HB LA LB. apply Rabs_le_inv in HA. apply Rabs_le_inv in HB. apply Rabs_le. split; nra. Qed.

Lemma finish_move o div k W DL DT a sg : Inv k W DL DT a -> (k <= 4096)%nat -> 0 < W -> p2 (-8) <= sg <= 1 -> sg * W <= len3 DT ->
  exists t, fin3 (tr_t (mfinish_on o div a)) t /\
    Rabs (len3 t - DL / W) <= (INR k + 8) * p2 (-21) * (DL / W) /\
    len3 (plus3 t (scale3 (-1) (scale3 (DL / W / len3 DT) DT))) <= (INR k + 8) * p2 (-20) / sg * (DL / W).
Proof.
  intros I Hk HW Hs HT. pose proof (INR_4096' k Hk) as Hk'.
  destruct I as [[Z|BW] BDL BDT (x & Fx & Ex) (y & Fy & Ey) (d & Fd & E0 & E1 & E2) _]; [lra|].
  set (kp := kap (INR k)) in *. assert (KB : 0 < kp <= 0.000245) by (unfold kp, kap, eps; lra).
  pose proof (p2_pos (-20)) as P20. pose proof (p2_pos (-40)) as P40. assert (P8 : p2 (-8) = / 256) by (simpl; lra). rewrite P8 in Hs.
  set (n := len3 DT) in *. assert (n0 : W <= 256 * n) by nra.
  destruct BDL as [[_ ZD]|BDL].
  { exfalso. unfold n in n0. rewrite ZD in n0. unfold len3, dot3 in n0. cbn [vx vy vz] in n0. rewrite !Rmult_0_l, !Rplus_0_l, sqrt_0 in n0. lra. }
  assert (WH : W <= p2 33).
  { eapply Rle_trans; [apply BW|]. change 33%Z with (13 + 20)%Z. rewrite bpow_plus. apply Rmult_le_compat_r; [apply Rlt_le, p2_pos|]. simpl. lra. }
  assert (DH : DL <= p2 73).
  { eapply Rle_trans; [apply BDL|]. change 73%Z with (13 + 60)%Z. rewrite bpow_plus. apply Rmult_le_compat_r; [apply Rlt_le, p2_pos|]. simpl. lra. }
  (* the computed direction sum *)
  assert (QD : qn (qsub (e3 d) (e3 DT)) <= 2 * (kp * W)).
  { apply qn_le; [apply Rmult_le_pos; lra| | | |]; unfold qsub, qadd, qscale, e3; cbn [qx qy qz qw];
      [replace (vx d + _) with (vx d - vx DT) by ring|replace (vy d + _) with (vy d - vy DT) by ring|replace (vz d + _) with (vz d - vz DT) by ring|]; auto.
    replace (0 + -1 * 0) with 0 by ring. rewrite Rabs_R0. apply Rmult_le_pos; lra. }
  set (m := len3 d). pose proof (qn_diff (e3 d) (e3 DT)) as QN. rewrite !qn_e3 in QN. fold m n in QN.
  assert (QN' : Rabs (m - n) <= 2 * (kp * W)) by lra. apply Rabs_le_inv in QN'.
  assert (KW : kp * W <= 0.000245 * W) by (apply Rmult_le_compat_r; lra).
  assert (mL : W <= 512 * m) by lra.
  assert (nH : n <= 2 * W).
  { unfold n. rewrite <- (qn_e3 DT). destruct BDT as (B0 & B1 & B2). apply qn_le; cbn; auto; try lra. rewrite Rabs_R0. lra. }
  assert (mH : m <= p2 36).
  { apply Rle_trans with (3 * W); [lra|]. change 36%Z with (3 + 33)%Z. rewrite (p2_shift 3 33 8) by (simpl; lra). lra. }
  assert (m29 : p2 (-29) <= m).
  { change (-29)%Z with (-9 + -20)%Z. rewrite (p2_shift (-9) (-20) (/ 512)) by (simpl; lra). lra. }
  pose proof (p2_pos (-29)) as P29. assert (m0 : 0 < m) by lra.
  destruct (len3_comp d) as (C0 & C1 & C2). fold m in C0, C1, C2.
  assert (B50 : forall z, z <= m -> z <= p2 50) by (intros z Hz; eapply Rle_trans; [exact Hz|]; eapply Rle_trans; [exact mH|]; apply bpow_le; lia).
  destruct (v3_len_err _ d Fd) as (Lf & FL & EL); [repeat split; apply B50; assumption|fold m; eapply Rle_trans; [|exact m29]; apply bpow_le; lia|].
  fold m in EL. destruct (rel_of _ _ _ m0 EL) as (a1 & A1 & ->). destruct (rel_of _ _ _ HW Ex) as (a2 & A2 & ->).
  assert (DL0 : 0 < DL) by lra. destruct (rel_of _ _ _ DL0 Ey) as (a4 & A4 & ->). unfold eps in *.
  (* the denominator *)
  assert (MW : p2 (-49) <= m * W) by (change (-49)%Z with (-29 + -20)%Z; rewrite bpow_plus; apply Rmult_le_compat; lra).
  assert (MWH : m * W <= p2 69) by (change 69%Z with (36 + 33)%Z; rewrite bpow_plus; apply Rmult_le_compat; lra).
  pose proof (p2_pos (-49)) as P49. assert (MW0 : 0 < m * W) by lra.
  pose proof (prod_rel a1 a2 _ _ A1 A2 ltac:(lra) ltac:(lra)) as A12.
  destruct (rel_rnd (m * W) (a1 + a2 + a1 * a2) (1.01 * kp + 2.7 * / 16777216)) as (a3 & A3 & R3);
    [eapply Rle_trans; [|exact MW]; apply bpow_le; lia|lra|lra|].
  replace (m * W * (1 + (a1 + a2 + a1 * a2))) with (m * (1 + a1) * (W * (1 + a2))) in R3 by ring.
  assert (FP : fin (nmul (v3_len (a_dt a)) (a_w a)) (m * W * (1 + a3))).
  { rewrite <- R3. apply fin_mul; auto. apply (p2_le_HUGE 70); [lia|]. change 70%Z with (1 + 69)%Z. rewrite (p2_shift 1 69 2) by (simpl; lra).
    replace (m * (1 + a1) * (W * (1 + a2))) with (m * W * (1 + (a1 + a2 + a1 * a2))) by ring. rewrite Rabs_mult, Rabs_pos_eq by lra.
    apply Rabs_le_inv in A12. rewrite (Rmult_comm 2). apply Rmult_le_compat; try lra; [apply Rabs_pos|apply Rabs_le; lra]. }
  unfold eps in A3. assert (A3' : Rabs a3 <= 1.01 * kp + 3.72 * / 16777216) by lra. clear A3 R3.
  apply Rabs_le_inv in A3'. assert (p0 : 0 < m * W * (1 + a3)) by (apply Rmult_lt_0_compat; lra).
  (* the quotient *)
  set (V := DL / (m * W)).
  assert (IV : / (m * W) <= p2 49) by (replace (p2 49) with (/ p2 (-49)) by (rewrite <- bpow_opp; reflexivity); apply Rinv_le; lra).
  assert (IV' : p2 (-69) <= / (m * W)) by (change (-69)%Z with (Z.opp 69); rewrite bpow_opp; apply Rinv_le; lra).
  assert (VH : V <= p2 122) by (change 122%Z with (73 + 49)%Z; rewrite bpow_plus; apply Rmult_le_compat; try lra; apply Rlt_le, Rinv_0_lt_compat; lra).
  assert (VL : p2 (-109) <= V) by (change (-109)%Z with (-40 + -69)%Z; rewrite bpow_plus; apply Rmult_le_compat; try lra; apply Rlt_le, p2_pos).
  pose proof (p2_pos (-109)) as P109.
  set (a5 := (a4 - a3) / (1 + a3)).
  assert (EQ : DL * (1 + a4) / (m * W * (1 + a3)) = V * (1 + a5)) by (unfold V, a5; field; repeat split; lra).
  assert (A5 : Rabs a5 <= 2.02 * kp + 3.73 * / 16777216).
  { apply Rabs_le_inv in A4. unfold a5, Rdiv. rewrite Rabs_mult. apply Rle_trans with ((2.01 * kp + 3.72 * / 16777216) * 1.0004).
    - apply Rmult_le_compat; try apply Rabs_pos; [apply Rabs_le; lra|]. rewrite Rabs_pos_eq by (apply Rlt_le, Rinv_0_lt_compat; lra).
      apply Rmult_le_reg_r with (1 + a3); [lra|]. rewrite Rinv_l by lra. lra.
    - lra. }
  destruct (rel_rnd V a5 (2.02 * kp + 3.73 * / 16777216)) as (a6 & A6 & R6);
    [eapply Rle_trans; [|exact VL]; apply bpow_le; lia|exact A5|lra|].
  assert (FN : fin (ndiv (a_dl a) (nmul (v3_len (a_dt a)) (a_w a))) (V * (1 + a6))).
  { rewrite <- R6, <- EQ. apply fin_div; auto; [lra|]. rewrite EQ. apply (p2_le_HUGE 123); [lia|]. change 123%Z with (1 + 122)%Z. rewrite (p2_shift 1 122 2) by (simpl; lra).
    rewrite Rabs_mult, Rabs_pos_eq by lra. apply Rabs_le_inv in A5. rewrite (Rmult_comm 2). apply Rmult_le_compat; try lra; [apply Rabs_pos|apply Rabs_le; lra]. }
  unfold eps in A6. assert (A6' : Rabs a6 <= 2.02 * kp + 4.75 * / 16777216) by lra. clear A6 R6 A5 EQ. clearbody a5. clear a5.
  (* the result *)
  set (M := DL / W). assert (M0 : 0 < M) by (apply Rdiv_lt_0_compat; lra). assert (VM : V * m = M) by (unfold V, M; field; lra).
  assert (ML : p2 (-73) <= M).
  { change (-73)%Z with (-40 + -33)%Z. rewrite bpow_plus. unfold M. apply Rmult_le_compat; try (apply Rlt_le, p2_pos); [apply BDL|].
    change (-33)%Z with (Z.opp 33). rewrite bpow_opp. apply Rinv_le; lra. }
  pose proof (tiny_rel (-73) M ltac:(lia) ML) as TM. unfold eps in TM.
  assert (MH : M <= p2 93).
  { change 93%Z with (73 + 20)%Z. rewrite bpow_plus. unfold M. apply Rmult_le_compat; try lra; [apply Rlt_le, Rinv_0_lt_compat; lra|].
    replace (p2 20) with (/ p2 (-20)) by (rewrite <- bpow_opp; reflexivity). apply Rinv_le; lra. }
  set (gm := 2.02 * kp + 5.8 * / 16777216).
  assert (CO : forall u ur, fin u ur -> Rabs ur <= m ->
     exists z, fin (nmul u (ndiv (a_dl a) (nmul (v3_len (a_dt a)) (a_w a)))) z /\ Rabs (z - M * (/ m * ur)) <= gm * M).
  { intros u ur Fu Hu.
    assert (X : Rabs (ur * (V * (1 + a6)) - M * (/ m * ur)) <= (2.02 * kp + 4.75 * / 16777216) * M).
    { replace (ur * (V * (1 + a6)) - M * (/ m * ur)) with (ur * V * a6) by (rewrite <- VM; field; lra). rewrite !Rabs_mult.
      rewrite (Rabs_pos_eq V) by lra. rewrite <- VM. rewrite (Rmult_comm _ (V * m)). apply Rmult_le_compat; try apply Rabs_pos; [|apply Rabs_pos || idtac|exact A6' || idtac].
      all: try (apply Rmult_le_pos; [apply Rabs_pos|lra]). rewrite (Rmult_comm V). apply Rmult_le_compat_r; lra. all: assumption. }
    assert (Y : Rabs (M * (/ m * ur)) <= M).
    { rewrite Rabs_mult, (Rabs_pos_eq M) by lra. rewrite <- (Rmult_1_r M) at 2. apply Rmult_le_compat_l; [lra|].
      rewrite Rabs_mult, Rabs_pos_eq by (apply Rlt_le, Rinv_0_lt_compat; lra). apply Rle_trans with (/ m * m).
      - apply Rmult_le_compat_l; [apply Rlt_le, Rinv_0_lt_compat; lra|exact Hu].
      - rewrite Rinv_l; lra. }
    set (p := ur * (V * (1 + a6))) in *. set (v := M * (/ m * ur)) in *. assert (KM : kp * M <= 0.000245 * M) by (apply Rmult_le_compat_r; lra).
    apply Rabs_le_inv in X. apply Rabs_le_inv in Y.
    assert (PB : Rabs p <= 1.001 * M) by (apply Rabs_le; lra).
    exists (rnd32 p). split.
    - apply fin_mul; auto. apply (p2_le_HUGE 94); [lia|]. change 94%Z with (1 + 93)%Z. rewrite (p2_shift 1 93 2) by (simpl; lra). fold p. lra.
    - pose proof (rnd_err p) as RE. apply Rabs_le_inv in RE. unfold eps in RE. unfold gm. apply Rabs_le. lra. }
  destruct Fd as (F0 & F1 & F2).
  destruct (CO _ _ F0 C0) as (t0 & T0 & G0). destruct (CO _ _ F1 C1) as (t1 & T1 & G1). destruct (CO _ _ F2 C2) as (t2 & T2 & G2).
  exists (V3 t0 t1 t2). split.
  { unfold mfinish_on. cbv zeta. cbn [tr_t]. change (@num_arith f32 f32num) with f32arith.
    match goal with |- context [neq ?x nzero] => replace (neq x (nzero : f32)) with false by (symmetry; rewrite (neq_fin0 _ _ FP); destruct (Req_EM_T (m * W * (1 + a3)) 0); [lra|reflexivity]) end.
    split; [exact T0|split; [exact T1|exact T2]]. }
  assert (GM : 0 <= gm * M) by (apply Rmult_le_pos; unfold gm; lra).
  set (u := qscale M (qscale (/ m) (e3 d))).
  assert (Q1 : qn (qsub (e3 (V3 t0 t1 t2)) u) <= 2 * (gm * M)).
  { apply qn_le; [exact GM| | | |]; unfold u, qsub, qadd, qscale, e3; cbn [qx qy qz qw vx vy vz];
      [replace (t0 + _) with (t0 - M * (/ m * vx d)) by ring|replace (t1 + _) with (t1 - M * (/ m * vy d)) by ring|replace (t2 + _) with (t2 - M * (/ m * vz d)) by ring|]; auto.
    replace (0 + -1 * (M * (/ m * 0))) with 0 by ring. rewrite Rabs_R0. exact GM. }
  assert (U1 : qn u = M).
  { unfold u. rewrite !qn_scale, qn_e3. fold m. rewrite (Rabs_pos_eq M), Rabs_pos_eq by (try lra; apply Rlt_le, Rinv_0_lt_compat; lra). field. lra. }
  assert (KK : 2 * gm <= (INR k + 8) * p2 (-21)).
  { unfold gm, kp, kap, eps. replace (p2 (-21)) with (8 * / 16777216) by (simpl; lra). lra. }
  split.
  - pose proof (qn_diff (e3 (V3 t0 t1 t2)) u) as D. rewrite qn_e3, U1 in D. eapply Rle_trans; [exact D|]. eapply Rle_trans; [exact Q1|].
    rewrite <- Rmult_assoc. apply Rmult_le_compat_r; lra.
  - assert (n1 : 0 < n) by lra.
    assert (Q2 : qn (qsub u (qscale M (qscale (/ n) (e3 DT)))) <= 4 * kp / sg * M).
    { replace (qsub u (qscale M (qscale (/ n) (e3 DT)))) with (qscale M (qsub (qscale (/ m) (e3 d)) (qscale (/ n) (e3 DT)))).
      2: { unfold u, qsub, qadd, qscale, e3. cbn. f_equal; ring. }
      rewrite qn_scale, (Rabs_pos_eq M) by lra. rewrite (Rmult_comm _ M). apply Rmult_le_compat_l; [lra|].
      pose proof (unit_sub (e3 d) (e3 DT)) as US. rewrite !qn_e3 in US. fold m n in US. eapply Rle_trans; [apply US; lra|].
      apply Rle_trans with (2 * (2 * (kp * W)) / n).
      - unfold Rdiv. apply Rmult_le_compat_r; [apply Rlt_le, Rinv_0_lt_compat; lra|]. lra.
      - apply Rmult_le_reg_r with (n * sg); [apply Rmult_lt_0_compat; lra|]. replace (2 * (2 * (kp * W)) / n * (n * sg)) with (4 * kp * (sg * W)) by (field; lra).
        replace (4 * kp / sg * (n * sg)) with (4 * kp * n) by (field; lra). apply Rmult_le_compat_l; lra. }
    rewrite <- qn_e3.
    replace (e3 (plus3 (V3 t0 t1 t2) (scale3 (-1) (scale3 (M / n) DT)))) with (qsub (e3 (V3 t0 t1 t2)) (qscale M (qscale (/ n) (e3 DT)))).
    2: { unfold e3, qsub, qadd, qscale, plus3, scale3, Rdiv. cbn. f_equal; ring. }
    eapply Rle_trans; [apply (qsub_tri _ u)|].
    assert (K2 : 2 * gm + 4 * kp <= (INR k + 8) * p2 (-20)).
    { unfold gm, kp, kap, eps. replace (p2 (-20)) with (16 * / 16777216) by (simpl; lra). lra. }
    assert (Is : 1 <= / sg) by (rewrite <- Rinv_1; apply Rinv_le; lra).
    apply Rle_trans with ((2 * gm + 4 * kp) / sg * M).
    + replace ((2 * gm + 4 * kp) / sg * M) with (2 * gm * / sg * M + 4 * kp / sg * M) by (field; lra). apply Rplus_le_compat; [|exact Q2].
      eapply Rle_trans; [exact Q1|]. rewrite <- Rmult_assoc. apply Rmult_le_compat_r; [lra|]. rewrite <- (Rmult_1_r (2 * gm)) at 1. apply Rmult_le_compat_l; [unfold gm; lra|exact Is].
    + apply Rmult_le_compat_r; [lra|]. unfold Rdiv. apply Rmult_le_compat_r; lra.
Qed.

(** ** The rotation, when no two layers are far apart *)
Lemma g_dot_zero o q b : finq q b -> fin (g_dot o q_zero q) 0.
Proof.
  intros (F0 & F1 & F2 & F3). unfold g_dot, q_zero. cbn [qx qy qz qw].
  assert (H : Rabs 0 <= HUGE) by (rewrite Rabs_R0; pose proof HUGE_big; lra).
  assert (M : forall x v, fin x v -> fin (nmul (nzero : f32) x) 0).
  { intros x v Fx. pose proof (fin_mul _ x 0 v fin_zero Fx) as G. rewrite Rmult_0_l, rnd0 in G. auto. }
  assert (A : forall x y, fin x 0 -> fin y 0 -> fin (nadd x y) 0) by (intros x y Fx Fy; pose proof (fin_add x y 0 0 Fx Fy) as G; rewrite Rplus_0_l, rnd0 in G; auto).
  pose proof (M _ _ F0). pose proof (M _ _ F1). pose proof (M _ _ F2). pose proof (M _ _ F3). destruct o; unfold sum4; repeat apply A; assumption.
Qed.
Record RInv (k : nat) (W : R) (DR : quat R) (a : @macc f32) : Prop := mkRInv {
  rW : 0 <= W <= INR k * p2 20;
  rN : / 4 * (W * W) <= norm2 DR;
  rB : boundq (1.01 * W) DR;
  rC : (W = 0 /\ DR = Q4 0 0 0 0 /\ a_dr a = q_zero) \/
       (p2 (-20) <= W /\ exists r, finq (a_dr a) r /\ boundq (p2 47) r /\ p2 (-42) <= nq r /\ boundq (kap (INR k) * (1.01 * W)) (qsub r DR)) }.
Definition part4 (l : mlayer R) : quat R :=
  Q4 (part (fun l => qx (tr_r (ml_delta l))) l) (part (fun l => qy (tr_r (ml_delta l))) l)
     (part (fun l => qz (tr_r (ml_delta l))) l) (part (fun l => qw (tr_r (ml_delta l))) l).

Lemma unit_comp q : norm2 q <= 1.01 -> boundq 1.01 q.
Proof. intros H. unfold norm2 in H. assert (G : forall x, x * x <= 1.01 -> Rabs x <= 1.01) by (intros x Hx; apply Rabs_le; split; nra). repeat split; apply G; nra. Qed.
Lemma prod_abs x y X Y : Rabs x <= X -> Rabs y <= Y -> Rabs (x * y) <= X * Y.
Proof. intros HX HY. rewrite Rabs_mult. apply Rmult_le_compat; auto; apply Rabs_pos. Qed.

Lemma rinv_step o k W DR a l : usable_mlayer l -> (k < 4096)%nat -> RInv k W DR a ->
  (0 < B2R (ml_weight l) -> / 4 * W <= qdot DR (real4 (tr_r (ml_delta l)))) ->
  RInv (S k) (W + part (fun _ => 1) (real_mlayer l)) (qadd DR (part4 (real_mlayer l))) (mstep_on o a l).
Proof.
  intros U Hk [HW HN HB HC] HD. pose proof (INR_4096' k ltac:(lia)) as Hk'. pose proof (p2_pos (-20)) as P20. pose proof (p2_pos 20) as P20'.
  destruct (step_layer o a l U) as [(-> & Z)|(Us & PF & ->)].
  - unfold part4. rewrite !Z. rewrite !Rplus_0_r. replace (qadd DR (Q4 0 0 0 0)) with DR by (destruct DR; unfold qadd; cbn; f_equal; ring).
    pose proof (kap_mono k (1.01 * W) ltac:(lra)) as M1.
    assert (I1 : INR k * p2 20 <= INR (S k) * p2 20) by (rewrite S_INR; nra).
    constructor; [lra|exact HN|exact HB|]. destruct HC as [HC|(WL & r & Fr & Br & Nr & (D0 & D1 & D2 & D3))]; [left; exact HC|right].
    split; [exact WL|]. exists r. split; [exact Fr|]. split; [exact Br|]. split; [exact Nr|]. repeat split; lra.
  - destruct Us as (Fw & Bw & _ & _ & Fr & Nr). set (w := B2R (ml_weight l)) in *. pose proof (fin_of _ Fw) as FW. fold w in FW.
    specialize (HD ltac:(lra)). unfold part4. rewrite !PF. fold w. destruct (quat_usable _ Fr Nr) as (Fq & Bq & Nq).
    change (tr_r (ml_delta (real_mlayer l))) with (real4 (tr_r (ml_delta l))). set (q := real4 (tr_r (ml_delta l))) in *.
    change (nq q) with (norm2 q) in Nq. pose proof (unit_comp q ltac:(lra)) as (Q0 & Q1 & Q2 & Q3). destruct HB as (B0 & B1 & B2 & B3).
    assert (W1 : W + w * 1 <= INR (S k) * p2 20) by (rewrite S_INR; lra).
    assert (S20 : INR (S k) * p2 20 <= p2 33).
    { rewrite S_INR. change 33%Z with (13 + 20)%Z. rewrite bpow_plus. apply Rmult_le_compat_r; [lra|]. simpl. lra. }
    assert (Q33 : 2 * p2 33 <= p2 100) by (change 2 with (p2 1); rewrite <- bpow_plus; apply bpow_le; lia).
    assert (WQ : forall x, Rabs x <= 1.01 -> Rabs (w * x) <= 1.01 * w) by (intros x Hx; rewrite Rabs_mult, (Rabs_pos_eq w), (Rmult_comm 1.01) by lra; apply Rmult_le_compat_l; lra).
    assert (S0 : exists s, finq (a_dr a) s /\ boundq (p2 47) s /\ boundq (kap (INR k) * (1.01 * W)) (qsub s DR)).
    { destruct HC as [(Z0 & Z1 & Z2)|(WL & s & Fs & Bs & Ns & Ds)]; [|exists s; auto].
      exists (Q4 0 0 0 0). rewrite Z2. split; [repeat split; apply fin_zero|]. pose proof (p2_pos 47).
      split; [repeat split; cbn; rewrite Rabs_R0; lra|]. rewrite Z0, Z1. unfold qsub, qadd, qscale. cbn.
      repeat split; cbn; replace (0 + -1 * 0) with 0 by ring; rewrite Rabs_R0; lra. }
    destruct S0 as (s & Fs & Bs & Ds). pose proof Ds as (E0 & E1 & E2 & E3).
    assert (SG : fin (msigned o (a_dr a) (tr_r (ml_delta l)) (ml_weight l)) w).
    { unfold msigned. pose proof (fin_abs _ _ FW) as FA. rewrite Rabs_pos_eq in FA by lra.
      destruct HC as [(Z0 & Z1 & Z2)|(WL & _)].
      - rewrite Z2, (nle0_fin _ _ (g_dot_zero o _ _ Fq)). destruct (Rle_dec 0 0); [exact FA|lra].
      - destruct (g_dot_err o _ _ _ _ Fs Fq (bq50 (p2 47) s 47 ltac:(lra) ltac:(lia) Bs) (bq50 2 q 1 ltac:(simpl; lra) ltac:(lia) Bq)) as (D & FD & ED).
        rewrite (nle0_fin _ _ FD). assert (KK : 0 <= kap (INR k) <= 0.000246) by (unfold kap, eps; lra).
        assert (KW : kap (INR k) * (1.01 * W) <= 0.00025 * W) by nra.
        assert (SX : forall x y, Rabs (x + -1 * y) <= kap (INR k) * (1.01 * W) -> Rabs y <= 1.01 * W -> Rabs x <= 1.02 * W).
        { intros x y Hx Hy. apply Rabs_le_inv in Hx. apply Rabs_le_inv in Hy. apply Rabs_le. lra. }
        unfold qsub, qadd, qscale in E0, E1, E2, E3. cbn [qx qy qz qw] in E0, E1, E2, E3.
        pose proof (prod_abs _ _ _ _ (SX _ _ E0 B0) Q0) as X0. pose proof (prod_abs _ _ _ _ (SX _ _ E1 B1) Q1) as X1.
        pose proof (prod_abs _ _ _ _ (SX _ _ E2 B2) Q2) as X2. pose proof (prod_abs _ _ _ _ (SX _ _ E3 B3) Q3) as X3.
        pose proof (prod_abs _ _ _ _ E0 Q0) as Y0. pose proof (prod_abs _ _ _ _ E1 Q1) as Y1.
        pose proof (prod_abs _ _ _ _ E2 Q2) as Y2. pose proof (prod_abs _ _ _ _ E3 Q3) as Y3.
        assert (AD : absdot s q <= 5 * W) by (unfold absdot; lra).
        assert (RD : rdot s q = qdot DR q + ((qx s + -1 * qx DR) * qx q + (qy s + -1 * qy DR) * qy q + (qz s + -1 * qz DR) * qz q + (qw s + -1 * qw DR) * qw q))
          by (unfold rdot, qdot; ring).
        apply Rabs_le_inv in Y0. apply Rabs_le_inv in Y1. apply Rabs_le_inv in Y2. apply Rabs_le_inv in Y3.
        pose proof (tiny_rel (-20) W ltac:(lia) WL) as T. apply Rabs_le_inv in ED. unfold eps in *.
        destruct (Rle_dec 0 D) as [_|N]; [exact FA|]. exfalso. lra. }
    assert (TM : forall x v, fin x v -> Rabs v <= 1.01 -> exists t, fin (nmul x (msigned o (a_dr a) (tr_r (ml_delta l)) (ml_weight l))) t /\ Rabs (t - w * v) <= 5 * eps * (1.01 * w)).
    { intros x v Fx Hv. pose proof (WQ v Hv) as X. exists (rnd32 (v * w)). split.
      - apply fin_mul; auto. rewrite Rmult_comm. apply (p2_le_HUGE 21); [lia|]. change 21%Z with (1 + 20)%Z. rewrite (p2_shift 1 20 2) by (simpl; lra). lra.
      - rewrite (Rmult_comm v). pose proof (rnd_err (w * v)) as RE. pose proof (tiny_rel (-20) w ltac:(lia) ltac:(lra)). unfold eps in *. lra. }
    destruct (mrot_pass o _ _ _ _ _ _ Fs Fq FW Bs Bq Nq Bw) as (r' & _ & _ & Fr' & Br' & Nr' & _).
    constructor.
    + lra.
    + replace (norm2 (qadd DR (Q4 (w * qx q) (w * qy q) (w * qz q) (w * qw q)))) with (norm2 DR + 2 * (w * qdot DR q) + w * w * norm2 q)
        by (unfold norm2, qadd, qdot; cbn; ring).
      assert (w * (/ 4 * W) <= w * qdot DR q) by (apply Rmult_le_compat_l; lra).
      assert (w * w * 0.99 <= w * w * norm2 q) by (apply Rmult_le_compat_l; nra). nra.
    + repeat split; cbn [qx qy qz qw qadd]; (eapply Rle_trans; [apply Rabs_triang|]);
        [pose proof (WQ _ Q0)|pose proof (WQ _ Q1)|pose proof (WQ _ Q2)|pose proof (WQ _ Q3)]; lra.
    + right. split; [lra|]. cbn [a_dr]. exists r'. split; [exact Fr'|]. split; [exact Br'|]. split; [exact Nr'|].
      destruct Fs as (F0 & F1 & F2 & F3). destruct Fq as (G0 & G1 & G2 & G3).
      destruct (TM _ _ G0 Q0) as (t0 & H0 & K0). destruct (TM _ _ G1 Q1) as (t1 & H1 & K1).
      destruct (TM _ _ G2 Q2) as (t2 & H2 & K2). destruct (TM _ _ G3 Q3) as (t3 & H3 & K3).
      assert (E' : forall x y b, Rabs (x + -1 * y) <= b -> Rabs (x - y) <= b) by (intros x y b Hx; replace (x - y) with (x + -1 * y) by ring; exact Hx).
      destruct (acc_step _ _ (qx s) t0 (qx DR) (w * qx q) (1.01 * W) (1.01 * w) (INR k) F0 H0) as (x0 & X0 & Y0); try (apply WQ, Q0); try assumption; try lra; try (apply E'; assumption).
      destruct (acc_step _ _ (qy s) t1 (qy DR) (w * qy q) (1.01 * W) (1.01 * w) (INR k) F1 H1) as (x1 & X1 & Y1); try (apply WQ, Q1); try assumption; try lra; try (apply E'; assumption).
      destruct (acc_step _ _ (qz s) t2 (qz DR) (w * qz q) (1.01 * W) (1.01 * w) (INR k) F2 H2) as (x2 & X2 & Y2); try (apply WQ, Q2); try assumption; try lra; try (apply E'; assumption).
      destruct (acc_step _ _ (qw s) t3 (qw DR) (w * qw q) (1.01 * W) (1.01 * w) (INR k) F3 H3) as (x3 & X3 & Y3); try (apply WQ, Q3); try assumption; try lra; try (apply E'; assumption).
      destruct Fr' as (J0 & J1 & J2 & J3). cbn [q_add q_mul_num qx qy qz qw] in J0, J1, J2, J3.
      assert (FE : forall z u v, fin z u -> fin z v -> u = v) by (intros z u v [_ <-] [_ <-]; reflexivity).
      rewrite (FE _ _ _ X0 J0) in Y0. rewrite (FE _ _ _ X1 J1) in Y1. rewrite (FE _ _ _ X2 J2) in Y2. rewrite (FE _ _ _ X3 J3) in Y3.
      rewrite S_INR. replace (1.01 * (W + w * 1)) with (1.01 * W + 1.01 * w) by ring.
      repeat split; cbn [qx qy qz qw qsub qadd qscale];
        [replace (qx r' + _) with (qx r' - (qx DR + w * qx q)) by ring|replace (qy r' + _) with (qy r' - (qy DR + w * qy q)) by ring
        |replace (qz r' + _) with (qz r' - (qz DR + w * qz q)) by ring|replace (qw r' + _) with (qw r' - (qw DR + w * qw q)) by ring]; assumption.
Qed.
Lemma rinv_run o ls : Forall usable_mlayer ls ->
  (forall l l', In l ls -> In l' ls -> 0 < B2R (ml_weight l) -> 0 < B2R (ml_weight l') -> / 4 <= qdot (real4 (tr_r (ml_delta l))) (real4 (tr_r (ml_delta l')))) ->
  forall k W DR a, (k + length ls <= 4096)%nat -> RInv k W DR a ->
  (forall l, In l ls -> 0 < B2R (ml_weight l) -> / 4 * W <= qdot DR (real4 (tr_r (ml_delta l)))) ->
  let rs := map real_mlayer ls in
  RInv (k + length ls) (W + total_weight rs) (qadd DR (mean_rot rs)) (fold_left (mstep_on o) ls a).
Proof.
  induction 1 as [|l ls U _ IH]; intros HP k W DR a Hk I HD; cbv zeta.
  - cbn [map length fold_left]. rewrite Nat.add_0_r. unfold total_weight, mean_rot, qadd. cbn. rewrite !Rplus_0_r. destruct DR. exact I.
  - cbn [map length fold_left] in *. pose proof (rinv_step o k W DR a l U ltac:(lia) I (HD l (or_introl eq_refl))) as I'.
    assert (IH' := fun H => IH H (S k) _ _ _ ltac:(lia) I'). cbv zeta in IH'. replace (k + S (length ls))%nat with (S k + length ls)%nat by lia.
    replace (W + total_weight (real_mlayer l :: map real_mlayer ls)) with (W + part (fun _ => 1) (real_mlayer l) + total_weight (map real_mlayer ls))
      by (unfold total_weight; cbn [wsum]; unfold part; ring).
    replace (qadd DR (mean_rot (real_mlayer l :: map real_mlayer ls))) with (qadd (qadd DR (part4 (real_mlayer l))) (mean_rot (map real_mlayer ls)))
      by (unfold qadd, mean_rot, part4; cbn [wsum qx qy qz qw]; unfold part; f_equal; ring).
    apply IH'.
    + intros l1 l2 H1 H2. apply HP; right; assumption.
    + intros l' Hl' Pl'. specialize (HD l' (or_intror Hl') Pl'). 
      assert (E : qdot (qadd DR (part4 (real_mlayer l))) (real4 (tr_r (ml_delta l'))) = qdot DR (real4 (tr_r (ml_delta l'))) +
         (if Rlt_dec 0 (B2R (ml_weight l)) then B2R (ml_weight l) * qdot (real4 (tr_r (ml_delta l))) (real4 (tr_r (ml_delta l'))) else 0)).
      { unfold qdot, qadd, part4, part. cbn [ml_weight ml_delta real_mlayer real_delta tr_r qx qy qz qw]. destruct (Rlt_dec 0 (B2R (ml_weight l))); ring. }
      rewrite E. unfold part. cbn [ml_weight real_mlayer]. destruct (Rlt_dec 0 (B2R (ml_weight l))) as [P|P]; [|lra].
      pose proof (HP l l' (or_introl eq_refl) (or_intror Hl') P Pl') as Q.
      assert (B2R (ml_weight l) * / 4 <= B2R (ml_weight l) * qdot (real4 (tr_r (ml_delta l))) (real4 (tr_r (ml_delta l')))) by (apply Rmult_le_compat_l; lra). lra.
Qed.
Lemma finish_turn o div k W DR a : RInv k W DR a -> (k <= 4096)%nat -> 0 < W ->
  exists r, finq (tr_r (mfinish_on o div a)) r /\ qn (qsub r (qscale (/ qn DR) DR)) <= (INR k + 8) * p2 (-20).
Proof.
  intros [HW HN HB [(Z & _)|(WL & r & Fr & Br & Nr & (D0 & D1 & D2 & D3))]] Hk W0; [lra|]. pose proof (INR_4096' k Hk) as Hk'.
  assert (B50 : boundq (p2 50) r) by (apply (bq50 (p2 47) r 47); [lra|lia|exact Br]).
  destruct (g_dot_err o _ _ _ _ Fr Fr B50 B50) as (d & Fd & Ed).
  assert (E2 : absdot r r = nq r) by (unfold absdot, nq; rewrite !abs_sq; reflexivity). change (rdot r r) with (nq r) in Ed. rewrite E2 in Ed.
  pose proof (tiny_rel (-42) _ ltac:(lia) Nr) as T. pose proof (p2_pos (-42)) as P42. apply Rabs_le_inv in Ed. unfold eps in *.
  unfold mfinish_on; cbv zeta; cbn [tr_r]; change (@num_arith f32 f32num) with f32arith.
  match goal with |- context [neq ?x nzero] => replace (neq x (nzero : f32)) with false by (symmetry; rewrite (neq_fin0 _ _ Fd); destruct (Req_EM_T d 0); [lra|reflexivity]) end.
  destruct (g_normalize_err o div _ r Fr B50) as (q & Fq & Nq & _); [change (norm2 r) with (nq r); eapply Rle_trans; [|exact Nr]; apply bpow_le; lia|].
  exists q. split; [exact Fq|]. eapply Rle_trans; [apply (qsub_tri _ (qscale (/ qn r) r))|].
  assert (QD : / 2 * W <= qn DR).
  { unfold qn. rewrite <- (sqrt_square (/ 2 * W)) by lra. apply sqrt_le_1_alt. lra. }
  assert (KK : 0 <= kap (INR k)) by (unfold kap, eps; lra).
  assert (QS : qn (qsub r DR) <= 2 * (kap (INR k) * (1.01 * W))) by (apply qn_le; auto; apply Rmult_le_pos; lra).
  assert (RP : 0 < qn r) by (apply sqrt_lt_R0; change (norm2 r) with (nq r); lra).
  pose proof (unit_sub r DR RP ltac:(lra)) as US.
  assert (2 * qn (qsub r DR) / qn DR <= 8.08 * kap (INR k)).
  { apply Rmult_le_reg_r with (qn DR); [lra|]. unfold Rdiv. rewrite Rmult_assoc, Rinv_l by lra.
    apply Rle_trans with (8.08 * kap (INR k) * (/ 2 * W)); [lra|]. apply Rmult_le_compat_l; lra. }
  replace (p2 (-20)) with (16 * / 16777216) by (simpl; lra). unfold kap, eps in *. lra.
Qed.
