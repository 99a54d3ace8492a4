(** Additive layers in single precision: rounding errors of one layer. *)
From Coq Require Import Reals Lra Psatz.
From Flocq Require Import IEEE754.BinarySingleNaN Core Relative.
From Verif Require Import Base Num NumR NumF32 F32Facts F32Err InterpF32 NormF32 Math MathSpec MathProofs Keys KeysSpec Skeleton Blending BlendingProofs BlendingSpec
  BlendLane BlendF32 BlendF32Spec BlendF32Proofs RigidF32 SkinF32 AdditiveSpec AdditiveProofs QuatNorm.
Local Open Scope R_scope.

Lemma sub_is_add (x y : f32) : nsub x y = nadd x (nneg y). Proof. destruct x, y; reflexivity. Qed.
(** ** Quaternion product *)
Lemma sum4_err x0 x1 x2 x3 m0 m1 m2 m3 v0 v1 v2 v3 : fin x0 m0 -> fin x1 m1 -> fin x2 m2 -> fin x3 m3 ->
  Rabs (m0 - v0) <= eps * Rabs v0 + tiny -> Rabs (m1 - v1) <= eps * Rabs v1 + tiny ->
  Rabs (m2 - v2) <= eps * Rabs v2 + tiny -> Rabs (m3 - v3) <= eps * Rabs v3 + tiny ->
  Rabs v0 <= 2 -> Rabs v1 <= 2 -> Rabs v2 <= 2 -> Rabs v3 <= 2 ->
  exists r, fin (nadd (nadd (nadd x0 x1) x2) x3) r /\
    Rabs (r - (v0 + v1 + v2 + v3)) <= 4.1 * eps * (Rabs v0 + Rabs v1 + Rabs v2 + Rabs v3) + 5 * tiny.
Proof.
  intros H0 H1 H2 H3 E0 E1 E2 E3 M0 M1 M2 M3. pose proof tiny_pos as TP. pose proof tiny_eps as TE.
  assert (HB : forall v, Rabs v <= 16 -> Rabs v <= HUGE).
  { intros v Hv. apply (p2_le_HUGE 4); [lia|]. simpl. lra. }
  pose proof (Rabs_pos v0). pose proof (Rabs_pos v1). pose proof (Rabs_pos v2). pose proof (Rabs_pos v3).
  assert (K : eps <= / 16777216) by (rewrite eps_val; lra). assert (K0 : 0 < eps) by (rewrite eps_val; lra).
  assert (W : forall m v, Rabs (m - v) <= eps * Rabs v + tiny -> Rabs v <= 2 -> Rabs m <= 3).
  { intros m v E B. unfold eps in *. apply Rabs_le_inv in E. apply Rabs_le_inv in B. apply Rabs_le.
    assert (Rabs v <= 2) by (apply Rabs_le; lra). lra. }
  pose proof (W _ _ E0 M0) as W0. pose proof (W _ _ E1 M1) as W1. pose proof (W _ _ E2 M2) as W2. pose proof (W _ _ E3 M3) as W3.
  assert (TR : forall x y, Rabs (x + y) <= Rabs x + Rabs y) by apply Rabs_triang.
  destruct (err_add _ _ m0 m1 v0 v1 (Rabs v0) (Rabs v1) eps tiny tiny H0 H1) as (s1 & S1 & T1); try assumption; try (unfold eps in *; lra).
  { apply HB. eapply Rle_trans; [apply TR|]. lra. }
  assert (Y1 : Rabs s1 <= 5).
  { unfold eps in *. pose proof (TR v0 v1). pose proof (TR (s1 - (v0 + v1)) (v0 + v1)).
    replace (s1 - (v0 + v1) + (v0 + v1)) with s1 in * by ring. lra. }
  destruct (err_add _ _ s1 m2 (v0 + v1) v2 (Rabs v0 + Rabs v1) (Rabs v2) (eps + 1.001 * eps) (1.001 * (tiny + tiny)) tiny S1 H2) as (s2 & S2 & T2);
    try assumption; try (unfold eps in *; lra).
  { apply HB. eapply Rle_trans; [apply TR|]. lra. }
  { apply TR. }
  assert (Y2 : Rabs s2 <= 7).
  { unfold eps in *. pose proof (TR v0 v1). pose proof (TR (v0 + v1) v2). pose proof (TR (s2 - (v0 + v1 + v2)) (v0 + v1 + v2)).
    replace (s2 - (v0 + v1 + v2) + (v0 + v1 + v2)) with s2 in * by ring. lra. }
  destruct (err_add _ _ s2 m3 (v0 + v1 + v2) v3 (Rabs v0 + Rabs v1 + Rabs v2) (Rabs v3) (eps + 1.001 * eps + 1.001 * eps)
     (1.001 * (1.001 * (tiny + tiny) + tiny)) tiny S2 H3) as (s3 & S3 & T3);
    try assumption; try (unfold eps in *; lra).
  { apply HB. eapply Rle_trans; [apply TR|]. lra. }
  { eapply Rle_trans; [apply TR|]. pose proof (TR v0 v1). lra. }
  exists s3. split; [exact S3|]. eapply Rle_trans; [exact T3|]. unfold eps in *. lra.
Qed.

Definition prodv (x : f32) (v : R) : Prop := exists m, fin x m /\ Rabs (m - v) <= eps * Rabs v + tiny.
Lemma prodv_mul x y a b : fin x a -> fin y b -> Rabs (a * b) <= 2 -> prodv (nmul x y) (a * b).
Proof. intros F G H. apply err_mul; auto. apply (p2_le_HUGE 1); [lia|]. simpl. lra. Qed.
Lemma prodv_neg x v : prodv x v -> prodv (nneg x) (- v).
Proof.
  intros (m & F & E). exists (- m). split; [apply fin_neg, F|]. rewrite Rabs_Ropp.
  replace (- m - - v) with (- (m - v)) by ring. rewrite Rabs_Ropp. exact E.
Qed.
Lemma sum4_prod x0 x1 x2 x3 v0 v1 v2 v3 : prodv x0 v0 -> prodv x1 v1 -> prodv x2 v2 -> prodv x3 v3 ->
  Rabs v0 + Rabs v1 + Rabs v2 + Rabs v3 <= 1.05 ->
  exists r, fin (nadd (nadd (nadd x0 x1) x2) x3) r /\ Rabs (r - (v0 + v1 + v2 + v3)) <= 4.4 * eps.
Proof.
  intros (m0 & F0 & E0) (m1 & F1 & E1) (m2 & F2 & E2) (m3 & F3 & E3) S.
  pose proof (Rabs_pos v0). pose proof (Rabs_pos v1). pose proof (Rabs_pos v2). pose proof (Rabs_pos v3).
  destruct (sum4_err _ _ _ _ _ _ _ _ _ _ _ _ F0 F1 F2 F3 E0 E1 E2 E3) as (r & Fr & Er); try lra.
  exists r. split; [exact Fr|]. eapply Rle_trans; [exact Er|]. pose proof tiny_eps. unfold eps in *. lra.
Qed.
Lemma half_prod a b : Rabs (a * b) <= / 2 * (a * a + b * b). Proof. apply amgm. Qed.
Lemma mul_err s q a b : finq s a -> finq q b -> norm2 a <= 1.05 -> norm2 b <= 1.05 ->
  exists r, finq (q_mul s q) r /\ qn (qsub r (hamilton a b)) <= 9 * eps.
Proof.
  intros (F0 & F1 & F2 & F3) (G0 & G1 & G2 & G3) NA NB. unfold norm2 in NA, NB.
  destruct a as [ax ay az aw], b as [bx by_ bz bw]. cbn [qx qy qz qw] in *.
  assert (P : forall u v x y, fin u x -> fin v y -> x * x <= 1.05 -> y * y <= 1.05 -> prodv (nmul u v) (x * y)).
  { intros u v x y Fu Fv X Y. apply prodv_mul; auto. eapply Rle_trans; [apply half_prod|]. lra. }
  pose proof (Rle_0_sqr ax). pose proof (Rle_0_sqr ay). pose proof (Rle_0_sqr az). pose proof (Rle_0_sqr aw).
  pose proof (Rle_0_sqr bx). pose proof (Rle_0_sqr by_). pose proof (Rle_0_sqr bz). pose proof (Rle_0_sqr bw). unfold Rsqr in *.
  pose proof (half_prod aw bx). pose proof (half_prod ax bw). pose proof (half_prod ay bz). pose proof (half_prod az by_).
  pose proof (half_prod aw by_). pose proof (half_prod ay bw). pose proof (half_prod az bx). pose proof (half_prod ax bz).
  pose proof (half_prod aw bz). pose proof (half_prod az bw). pose proof (half_prod ax by_). pose proof (half_prod ay bx).
  pose proof (half_prod aw bw). pose proof (half_prod ax bx). pose proof (half_prod ay by_). pose proof (half_prod az bz).
  destruct (sum4_prod _ _ _ _ _ _ _ _ (P _ _ _ _ F3 G0 ltac:(lra) ltac:(lra)) (P _ _ _ _ F0 G3 ltac:(lra) ltac:(lra))
    (P _ _ _ _ F1 G2 ltac:(lra) ltac:(lra)) (prodv_neg _ _ (P _ _ _ _ F2 G1 ltac:(lra) ltac:(lra)))) as (r0 & R0 & E0); [rewrite Rabs_Ropp; lra|].
  destruct (sum4_prod _ _ _ _ _ _ _ _ (P _ _ _ _ F3 G1 ltac:(lra) ltac:(lra)) (P _ _ _ _ F1 G3 ltac:(lra) ltac:(lra))
    (P _ _ _ _ F2 G0 ltac:(lra) ltac:(lra)) (prodv_neg _ _ (P _ _ _ _ F0 G2 ltac:(lra) ltac:(lra)))) as (r1 & R1 & E1); [rewrite Rabs_Ropp; lra|].
  destruct (sum4_prod _ _ _ _ _ _ _ _ (P _ _ _ _ F3 G2 ltac:(lra) ltac:(lra)) (P _ _ _ _ F2 G3 ltac:(lra) ltac:(lra))
    (P _ _ _ _ F0 G1 ltac:(lra) ltac:(lra)) (prodv_neg _ _ (P _ _ _ _ F1 G0 ltac:(lra) ltac:(lra)))) as (r2 & R2 & E2); [rewrite Rabs_Ropp; lra|].
  destruct (sum4_prod _ _ _ _ _ _ _ _ (P _ _ _ _ F3 G3 ltac:(lra) ltac:(lra)) (prodv_neg _ _ (P _ _ _ _ F0 G0 ltac:(lra) ltac:(lra)))
    (prodv_neg _ _ (P _ _ _ _ F1 G1 ltac:(lra) ltac:(lra))) (prodv_neg _ _ (P _ _ _ _ F2 G2 ltac:(lra) ltac:(lra)))) as (r3 & R3 & E3);
    [rewrite !Rabs_Ropp; lra|].
  exists (Q4 r0 r1 r2 r3). split.
  - unfold q_mul. rewrite !sub_is_add. repeat split; [apply R0|apply R0|apply R1|apply R1|apply R2|apply R2|apply R3|apply R3].
  - replace (9 * eps) with (2 * (4.5 * eps)) by lra. pose proof tiny_eps as TE.
    assert (L : 4.4 * eps <= 4.5 * eps) by (unfold eps; lra).
    apply qn_le; [unfold eps; lra|..]; unfold qsub, qadd, qscale, hamilton, hvec, cross3, dot3; cbn [qx qy qz qw vx vy vz];
      (eapply Rle_trans; [|exact L]).
    + eapply Rle_trans; [|exact E0]. apply Req_le. f_equal. ring.
    + eapply Rle_trans; [|exact E1]. apply Req_le. f_equal. ring.
    + eapply Rle_trans; [|exact E2]. apply Req_le. f_equal. ring.
    + eapply Rle_trans; [|exact E3]. apply Req_le. f_equal. ring.
Qed.

(** ** The partial turn *)
(** The interpolation never vanishes. *)
Lemma partial_len W (p : quat R) : 0 <= W <= 4 -> 0 <= qw p -> Rabs (norm2 p - 1) <= / 1024 ->
  0.48 <= norm2 (qadd (qscale (1 - W) (Q4 0 0 0 1)) (qscale W p)).
Proof.
  intros HW HP HN. apply Rabs_le_inv in HN.
  assert (E : norm2 (qadd (qscale (1 - W) (Q4 0 0 0 1)) (qscale W p)) = 1 + 2 * (W * (W - 1)) * (1 - qw p) + W * W * (norm2 p - 1)).
  { unfold norm2, qadd, qscale. cbn. ring. }
  rewrite E. set (d := norm2 p - 1) in *.
  assert (Q1 : qw p <= 1.0005).
  { assert (Q : qw p * qw p <= 1 + / 1024).
    { unfold d, norm2 in HN. pose proof (Rle_0_sqr (qx p)). pose proof (Rle_0_sqr (qy p)). pose proof (Rle_0_sqr (qz p)). unfold Rsqr in *. lra. }
    apply Rnot_lt_le. intros L. assert (1.0005 * 1.0005 <= qw p * qw p) by (apply Rmult_le_compat; lra). lra. }
  set (s := qw p) in *. clearbody d s. clear - HW HP HN Q1.
  assert (W2 : 0 <= W * W <= 16) by (split; nra).
  assert (WD : - (16 * / 1024) <= W * W * d).
  { assert (W * W * (- / 1024) <= W * W * d) by (apply Rmult_le_compat_l; lra). lra. }
  assert (S1 : - 0.0005 <= 1 - s <= 1) by lra. set (u := 1 - s) in *. clearbody u. set (g := W * (W - 1)).
  destruct (Rle_dec 1 W) as [G|G].
  - assert (0 <= g <= 12) by (unfold g; split; nra). assert (g * - 0.0005 <= g * u) by (apply Rmult_le_compat_l; lra). lra.
  - assert (- / 4 <= g <= 0).
    { unfold g. split; [|nra]. pose proof (Rle_0_sqr (W - / 2)). unfold Rsqr in *. lra. }
    assert (g * 1 <= g * u) by (apply Rmult_le_compat_neg_l; lra). lra.
Qed.
Lemma weight_near w W W' : fin w W' -> 0 <= W <= 4 -> Rabs (W' - W) <= eps * W + tiny -> near w W (4.001 * eps).
Proof.
  intros F HW E. exists W'. split; [exact F|]. eapply Rle_trans; [exact E|]. pose proof tiny_eps. unfold eps in *. lra.
Qed.
Lemma flip_fin b x a : fin x a -> fin (flip b x) (if b then - a else a).
Proof. intros F. destruct b; [apply fin_neg|]; exact F. Qed.
Lemma turn_err q w b W W' : finq q b -> Rabs (norm2 b - 1) <= / 1024 -> fin w W' -> 0 <= W <= 4 -> Rabs (W' - W) <= eps * W + tiny ->
  exists r, finq (q_normalize (ga_interp q w)) r /\ Rabs (norm2 r - 1) <= / 524288 /\ qn (qsub r (partial_turn W b)) <= 80 * eps /\
    qn (partial_turn W b) = 1.
Proof.
  intros Fq HN Fw HW EW. pose proof (weight_near _ _ _ Fw HW EW) as NW. pose proof tiny_eps as TE.
  set (p := nearer b). assert (NP : norm2 p = norm2 b).
  { unfold p, nearer. destruct (Rlt_dec (qw b) 0); [|reflexivity]. unfold norm2, qscale. cbn. ring. }
  assert (PW : 0 <= qw p).
  { unfold p, nearer. destruct (Rlt_dec (qw b) 0); unfold qscale; cbn; lra. }
  assert (HNp : Rabs (norm2 p - 1) <= / 1024) by (rewrite NP; exact HN).
  pose proof (partial_len W p HW PW HNp) as LS.
  assert (Fp : finq (g_flip (nlt (qw q) nzero) q) p).
  { destruct Fq as (F0 & F1 & F2 & F3). rewrite (nlt0_sign _ _ F3). unfold p, nearer, g_flip.
    destruct (Rlt_dec (qw b) 0); unfold finq, qscale, flip; cbn [qx qy qz qw].
    - replace (-1 * qx b) with (- qx b) by ring. replace (-1 * qy b) with (- qy b) by ring. replace (-1 * qz b) with (- qz b) by ring.
      replace (-1 * qw b) with (- qw b) by ring. split; [|split; [|split]]; apply fin_neg; assumption.
    - split; [|split; [|split]]; assumption. }
  unfold ga_interp. set (r := g_flip _ q) in *. clearbody r. destruct Fp as (F0 & F1 & F2 & F3).
  assert (HB : norm2 p <= 1.001) by (apply Rabs_le_inv in HNp; lra).
  assert (CB : Rabs (qx p) <= 1.001 /\ Rabs (qy p) <= 1.001 /\ Rabs (qz p) <= 1.001 /\ qw p <= 1.001).
  { unfold norm2 in HB. assert (SB : forall u, u * u <= 1.001 -> Rabs u <= 1.001) by (intros; apply Rabs_le; split; nra).
    pose proof (Rle_0_sqr (qx p)). pose proof (Rle_0_sqr (qy p)). pose proof (Rle_0_sqr (qz p)). pose proof (Rle_0_sqr (qw p)). unfold Rsqr in *.
    repeat split; try (apply SB; lra). eapply Rle_trans; [apply Rle_abs|]. apply SB. lra. }
  destruct CB as (C0 & C1 & C2 & C3).
  assert (AW : Rabs W <= 4) by (rewrite Rabs_pos_eq; lra).
  assert (NV : forall u v, fin u v -> Rabs v <= 1.001 -> near (nmul u w) (v * W) (8.2 * eps)).
  { intros u v Fu Bu. eapply near_le; [apply (near_mul u w v W 0 (4.001 * eps) 1.001 4 (near_fin _ _ Fu) NW); auto; unfold eps; lra|].
    unfold eps in *. lra. }
  pose proof (NV _ _ F0 C0) as (s0 & S0 & E0). pose proof (NV _ _ F1 C1) as (s1 & S1 & E1). pose proof (NV _ _ F2 C2) as (s2 & S2 & E2).
  assert (NU : near (nsub (qw r) none_) (qw p - 1) (1.01 * eps)).
  { eapply near_le; [apply (near_sub (qw r) none_ (qw p) 1 0 0 1.001 (near_fin _ _ F3) (near_fin _ _ fin_one)); [apply Rabs_le; lra|lra]|].
    unfold eps in *. lra. }
  assert (NM : near (nmul (nsub (qw r) none_) w) ((qw p - 1) * W) (12.2 * eps)).
  { eapply near_le; [apply (near_mul _ _ (qw p - 1) W (1.01 * eps) (4.001 * eps) 1.001 4 NU NW); auto; try (unfold eps; lra); apply Rabs_le; lra|].
    unfold eps in *. lra. }
  assert (NS : near (nadd (nmul (nsub (qw r) none_) w) none_) ((qw p - 1) * W + 1) (17 * eps)).
  { eapply near_le; [apply (near_add _ _ ((qw p - 1) * W) 1 (12.2 * eps) 0 4.1 NM (near_fin _ _ fin_one)); [|unfold eps; lra]|].
    - apply Rabs_le. split; nra.
    - unfold eps in *. lra. }
  destruct NS as (s3 & S3 & E3).
  set (s := qadd (qscale (1 - W) (Q4 0 0 0 1)) (qscale W p)) in *.
  set (S := Q4 s0 s1 s2 s3).
  assert (DS : qn (qsub S s) <= 22.5 * eps).
  { unfold qn. rewrite <- (sqrt_square (22.5 * eps)) by (unfold eps; lra). apply sqrt_le_1_alt.
    assert (B0 : Rabs (qx (qsub S s)) <= 8.2 * eps).
    { unfold qsub, S, s, qadd, qscale. cbn. eapply Rle_trans; [|exact E0]. apply Req_le. f_equal. ring. }
    assert (B1 : Rabs (qy (qsub S s)) <= 8.2 * eps).
    { unfold qsub, S, s, qadd, qscale. cbn. eapply Rle_trans; [|exact E1]. apply Req_le. f_equal. ring. }
    assert (B2 : Rabs (qz (qsub S s)) <= 8.2 * eps).
    { unfold qsub, S, s, qadd, qscale. cbn. eapply Rle_trans; [|exact E2]. apply Req_le. f_equal. ring. }
    assert (B3 : Rabs (qw (qsub S s)) <= 17 * eps).
    { unfold qsub, S, s, qadd, qscale. cbn. eapply Rle_trans; [|exact E3]. apply Req_le. f_equal. ring. }
    assert (SQ : forall x k, Rabs x <= k -> x * x <= k * k) by (intros x k Hx; apply Rabs_le_inv in Hx; nra).
    unfold norm2. apply SQ in B0. apply SQ in B1. apply SQ in B2. apply SQ in B3.
    assert (EE : 0 <= eps * eps) by (unfold eps; lra). lra. }
  assert (LN : 0.69 <= qn s).
  { unfold qn. rewrite <- (sqrt_square 0.69) by lra. apply sqrt_le_1_alt. lra. }
  assert (LS' : 0.68 <= qn S).
  { pose proof (qn_diff S s) as D. apply Rabs_le_inv in D. unfold eps in DS. lra. }
  assert (BS : forall c x, fin x c -> Rabs c <= 5 -> Rabs c <= p2 50).
  { intros c x _ H. eapply Rle_trans; [exact H|]. apply Rle_trans with (p2 3); [simpl; lra|apply bpow_le; lia]. }
  assert (V0 : forall v, Rabs v <= 1.001 -> Rabs (v * W) <= 4.01).
  { intros v Hv. rewrite Rabs_mult. assert (0 <= Rabs v) by apply Rabs_pos. assert (0 <= Rabs W) by apply Rabs_pos. nra. }
  assert (B5 : forall c v, Rabs (c - v) <= 17 * eps -> Rabs v <= 4.9 -> Rabs c <= 5).
  { intros c v E V. apply Rabs_le_inv in E. apply Rabs_le_inv in V. unfold eps in *. apply Rabs_le. lra. }
  assert (Z0 : Rabs s0 <= 5) by (apply (B5 _ (qx p * W)); [unfold eps in *; lra|pose proof (V0 _ C0); lra]).
  assert (Z1 : Rabs s1 <= 5) by (apply (B5 _ (qy p * W)); [unfold eps in *; lra|pose proof (V0 _ C1); lra]).
  assert (Z2 : Rabs s2 <= 5) by (apply (B5 _ (qz p * W)); [unfold eps in *; lra|pose proof (V0 _ C2); lra]).
  assert (Z3 : Rabs s3 <= 5) by (apply (B5 _ _ E3); apply Rabs_le; split; nra).
  assert (HS : p2 (-64) <= s0 * s0 + s1 * s1 + s2 * s2 + s3 * s3).
  { change (s0 * s0 + s1 * s1 + s2 * s2 + s3 * s3) with (norm2 S). rewrite <- qn_sq.
    apply Rle_trans with (p2 (-2)); [apply bpow_le; lia|]. simpl (p2 (-2)). nra. }
  destruct (normalized2 _ _ _ _ _ _ _ _ S0 S1 S2 S3 (BS _ _ S0 Z0) (BS _ _ S1 Z1) (BS _ _ S2 Z2) (BS _ _ S3 Z3) HS)
    as (r0 & r1 & r2 & r3 & R0 & R1 & R2 & R3 & D0 & D1 & D2 & D3 & NR).
  exists (Q4 r0 r1 r2 r3). rewrite norm_shape. cbn [qx qy qz qw]. cbv zeta. split; [|split; [|split]].
  - split; [|split; [|split]]; assumption.
  - unfold norm2. cbn [qx qy qz qw]. exact NR.
  - change (partial_turn W b) with (qscale (/ qn s) s).
    change (sqrt (s0 * s0 + s1 * s1 + s2 * s2 + s3 * s3)) with (qn S) in *.
    eapply Rle_trans; [apply (qsub_tri _ (qscale (/ qn S) S))|].
    assert (T1 : qn (qsub (Q4 r0 r1 r2 r3) (qscale (/ qn S) S)) <= 2 * (5.5 * eps)).
    { apply qn_le; [unfold eps; lra|..]; unfold qsub, qadd, qscale, S; cbn [qx qy qz qw]; fold S; eapply Rle_trans;
        [|exact D0| |exact D1| |exact D2| |exact D3]; apply Req_le; f_equal; unfold Rdiv; ring. }
    assert (T2 : qn (qsub (qscale (/ qn S) S) (qscale (/ qn s) s)) <= 66 * eps).
    { eapply Rle_trans; [apply unit_sub; lra|]. apply Rmult_le_reg_r with (qn s); [lra|].
      unfold Rdiv. rewrite Rmult_assoc, Rinv_l, Rmult_1_r by lra. unfold eps in *. lra. }
    unfold eps in *. lra.
  - change (partial_turn W b) with (qscale (/ qn s) s). apply qn_unit. lra.
Qed.
