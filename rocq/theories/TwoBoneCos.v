(** The law of cosines as the two bone job computes it in binary32. *)
From Coq Require Import ZArith Lia Reals Lra Psatz.
From Flocq Require Import IEEE754.BinarySingleNaN Core.
From Verif Require Import Base Num NumF32 NumR F32Facts F32Err InterpF32 NormF32 BlendF32 BlendF32Proofs Math MathSpec MathProofs MotionF32 MotionF32Proofs QuatNorm
  Ik IkSpec IkProofs PolyErr MatInvF32 VecNorm TrigF32 TrigProps AimF32 AimParts AimSteps.
Local Open Scope R_scope.

(** The errors are measured by [e]; everything of the size of one rounding is far below it. *)
Definition unit_of (e : R) : Prop := / 32768 <= e <= / 2048.
Lemma eps_e e : unit_of e -> eps <= 0.002 * e.
Proof. unfold unit_of, eps. lra. Qed.
Lemma rnd_small x b e : unit_of e -> p2 (-100) <= b -> Rabs x <= b -> Rabs (rnd32 x - x) <= 0.00201 * e * b.
Proof.
  intros He Hb Hx. pose proof (rnd_err x) as R. assert (T : tiny <= / 1000 * eps * b) by (apply (tiny_rel (-100)); [lia|exact Hb]).
  pose proof (eps_e e He) as E. pose proof (bpow_gt_0 radix2 (-100)) as PZ. assert (0 < b) by (eapply Rlt_le_trans; eassumption).
  assert (eps * Rabs x <= eps * b) by (apply Rmult_le_compat_l; [unfold eps; lra|exact Hx]).
  assert (eps * b <= 0.002 * e * b) by (apply Rmult_le_compat_r; [apply Rlt_le; assumption|exact E]). assert (0 <= e * b) by (apply Rmult_le_pos; unfold unit_of in He; lra). lra.
Qed.
Lemma half_err (fa fb : f32) A2 B2 a b e : fin fa A2 -> fin fb B2 -> unit_of e -> / 512 <= a <= 4194304 -> / 512 <= b <= 4194304 ->
  Rabs (A2 - a * a) <= 2.05 * e * (a * a) -> Rabs (B2 - b * b) <= 4.06 * e * (b * b) ->
  exists h, fin (nmul nhalf (nrecip (nsqrt (nmul fa fb)))) h /\ Rabs (h - / (2 * (a * b))) <= 3.16 * e * / (2 * (a * b)).
Proof.
  intros Fa Fb He Ha Hb HA HB. pose proof He as He'. unfold unit_of in He'.
  set (m := a * b). assert (M : / 262144 <= m <= 17592186044416) by (unfold m; split; [apply Rle_trans with (/ 512 * / 512); [lra|]|apply Rle_trans with (4194304 * 4194304); [|lra]]; apply Rmult_le_compat; lra).
  assert (aa : 0 < a * a) by (apply Rmult_lt_0_compat; lra). assert (bb : 0 < b * b) by (apply Rmult_lt_0_compat; lra).
  assert (mm : m * m = (a * a) * (b * b)) by (unfold m; ring). assert (mm0 : 0 < m * m) by (rewrite mm; apply Rmult_lt_0_compat; assumption).
  assert (PE : Rabs (A2 * B2 - m * m) <= 6.12 * e * (m * m)).
  { rewrite mm. replace (A2 * B2 - a * a * (b * b)) with ((A2 - a * a) * (B2 - b * b) + (A2 - a * a) * (b * b) + (a * a) * (B2 - b * b)) by ring.
    assert (X1 : Rabs ((A2 - a * a) * (B2 - b * b)) <= 2.05 * e * (a * a) * (4.06 * e * (b * b))) by (rewrite Rabs_mult; apply Rmult_le_compat; auto using Rabs_pos).
    assert (X2 : Rabs ((A2 - a * a) * (b * b)) <= 2.05 * e * (a * a) * (b * b)) by (rewrite Rabs_mult, (Rabs_pos_eq (b * b)) by lra; apply Rmult_le_compat_r; lra).
    assert (X3 : Rabs ((a * a) * (B2 - b * b)) <= (a * a) * (4.06 * e * (b * b))) by (rewrite Rabs_mult, (Rabs_pos_eq (a * a)) by lra; apply Rmult_le_compat_l; lra).
    set (k := a * a * (b * b)) in *. assert (0 < k) by (unfold k; apply Rmult_lt_0_compat; assumption).
    replace (2.05 * e * (a * a) * (4.06 * e * (b * b))) with (2.05 * 4.06 * (e * e) * k) in X1 by (unfold k; ring).
    replace (2.05 * e * (a * a) * (b * b)) with (2.05 * e * k) in X2 by (unfold k; ring). replace (a * a * (4.06 * e * (b * b))) with (4.06 * e * k) in X3 by (unfold k; ring).
    assert (EE : e * e * k <= / 2048 * e * k) by (apply Rmult_le_compat_r; [lra|]; apply Rmult_le_compat_r; lra).
    apply Rabs_le_inv in X1, X2, X3. apply Rabs_le. assert (0 < e * k) by (apply Rmult_lt_0_compat; lra). lra. }
  (* the product *)
  assert (M2 : p2 (-40) <= m * m <= p2 90).
  { split; [apply Rle_trans with (/ 262144 * / 262144); [simpl; lra|]|apply Rle_trans with (17592186044416 * 17592186044416); [|simpl; lra]]; apply Rmult_le_compat; lra. }
  assert (EM : e * (m * m) <= / 2048 * (m * m)) by (apply Rmult_le_compat_r; lra). assert (EM0 : 0 < e * (m * m)) by (apply Rmult_lt_0_compat; lra).
  assert (PB : Rabs (A2 * B2) <= 1.01 * (m * m)) by (apply Rabs_le_inv in PE; apply Rabs_le; lra).
  assert (FP : fin (nmul fa fb) (rnd32 (A2 * B2))).
  { apply fin_mul; auto. apply (p2_le_HUGE 91); [lia|]. change 91%Z with (1 + 90)%Z. rewrite (p2_shift 1 90 2) by (simpl; lra). lra. }
  pose proof (rnd_small (A2 * B2) (1.01 * (m * m)) e He ltac:(pose proof (bpow_le radix2 (-100) (-40) ltac:(lia)); lra) PB) as PR. set (P := rnd32 (A2 * B2)) in *.
  assert (PP : Rabs (P - m * m) <= 6.123 * e * (m * m)) by (apply Rabs_le_inv in PE; apply Rabs_le_inv in PR; apply Rabs_le; lra). clearbody P.
  (* its root *)
  assert (P0 : 0.99 * (m * m) <= P) by (apply Rabs_le_inv in PP; lra).
  pose proof (fin_sqrt _ _ FP ltac:(lra)) as FS.
  assert (SE : Rabs (sqrt P - m) <= 3.08 * e * m).
  { assert (Q : sqrt P * sqrt P = P) by (apply sqrt_sqrt; lra). pose proof (sqrt_pos P) as S0. set (q := sqrt P) in *. clearbody q.
    apply Rabs_le_inv in PP. rewrite <- Q in PP. assert (e * m <= / 2048 * m) by (apply Rmult_le_compat_r; lra). assert (0 < e * m) by (apply Rmult_lt_0_compat; lra).
    apply Rabs_le. split; apply Rnot_lt_le; intros L.
    - assert (q * q <= (m - 3.08 * e * m) * (m - 3.08 * e * m)) by (apply Rmult_le_compat; lra).
      assert (3.08 * e * m * (3.08 * e * m) <= 0.005 * (e * (m * m))) by (replace (3.08 * e * m * (3.08 * e * m)) with (3.08 * 3.08 * e * (e * (m * m))) by ring; apply Rmult_le_compat_r; lra). lra.
    - assert ((m + 3.08 * e * m) * (m + 3.08 * e * m) <= q * q) by (apply Rmult_le_compat; lra). assert (0 <= 3.08 * e * m * (3.08 * e * m)) by (apply Rle_0_sqr). lra. }
  assert (em : e * m <= / 2048 * m) by (apply Rmult_le_compat_r; lra). assert (em0 : 0 < e * m) by (apply Rmult_lt_0_compat; lra).
  assert (SB : Rabs (sqrt P) <= 1.01 * m) by (apply Rabs_le_inv in SE; apply Rabs_le; lra).
  pose proof (rnd_small (sqrt P) (1.01 * m) e He ltac:(assert (p2 (-100) <= / 262144) by (replace (/ 262144) with (p2 (-18)) by (simpl; lra); apply bpow_le; lia); lra) SB) as SR. set (n := rnd32 (sqrt P)) in *.
  assert (NE : Rabs (n - m) <= 3.083 * e * m) by (apply Rabs_le_inv in SE; apply Rabs_le_inv in SR; apply Rabs_le; lra). clearbody n. clear SE SB SR P0 PP PR PB PE FP.
  (* its reciprocal *)
  assert (N0 : 0.998 * m <= n <= 1.01 * m) by (apply Rabs_le_inv in NE; lra). assert (n0 : 0 < n) by lra.
  set (J := / m). assert (J0 : 0 < J) by (apply Rinv_0_lt_compat; lra). assert (mJ : m * J = 1) by (apply Rinv_r; lra).
  assert (JB : / 17592186044416 <= J <= 262144) by (unfold J; split; [apply Rinv_le_contravar; lra|rewrite <- (Rinv_inv 262144); apply Rinv_le_contravar; lra]).
  assert (RE : Rabs (1 / n - J) <= 3.095 * e * J).
  { replace (1 / n - J) with ((m - n) * (J * / n)) by (unfold J; field; lra). rewrite Rabs_mult, (Rabs_pos_eq (J * / n)) by (apply Rmult_le_pos; [lra|apply Rlt_le, Rinv_0_lt_compat; lra]).
    rewrite Rabs_minus_sym. apply Rle_trans with (3.083 * e * m * (J * / n)); [apply Rmult_le_compat_r; [apply Rmult_le_pos; [lra|apply Rlt_le, Rinv_0_lt_compat; lra]|exact NE]|].
    replace (3.083 * e * m * (J * / n)) with (3.083 * e * J * (m * / n)) by ring. assert (eJ0 : 0 < e * J) by (apply Rmult_lt_0_compat; lra).
    apply Rle_trans with (3.083 * e * J * 1.0038); [|lra]. apply Rmult_le_compat_l; [apply Rmult_le_pos; lra|]. apply Rmult_le_reg_r with n; [lra|]. rewrite Rmult_assoc, Rinv_l by lra. lra. }
  assert (eJ : e * J <= / 2048 * J) by (apply Rmult_le_compat_r; lra). assert (eJ0 : 0 < e * J) by (apply Rmult_lt_0_compat; lra).
  assert (RB : Rabs (1 / n) <= 1.01 * J) by (apply Rabs_le_inv in RE; apply Rabs_le; lra).
  assert (PJ : p2 (-100) <= 0.5 * J) by (assert (p2 (-100) <= 0.5 * / 17592186044416) by (replace (0.5 * / 17592186044416) with (p2 (-45)) by (simpl; lra); apply bpow_le; lia); lra).
  assert (FR : fin (nrecip (nsqrt (nmul fa fb))) (rnd32 (1 / n))).
  { unfold nrecip. apply fin_div; auto using fin_one; [lra|]. apply (p2_le_HUGE 20); [lia|]. replace (p2 20) with 1048576 by (simpl; lra). lra. }
  pose proof (rnd_small (1 / n) (1.01 * J) e He ltac:(lra) RB) as RR. set (q := rnd32 (1 / n)) in *. 
  assert (QE : Rabs (q - J) <= 3.1 * e * J) by (apply Rabs_le_inv in RE; apply Rabs_le_inv in RR; apply Rabs_le; lra). clearbody q.
  assert (QB : Rabs (/ 2 * q) <= 0.51 * J) by (apply Rabs_le_inv in QE; apply Rabs_le; lra).
  exists (rnd32 (/ 2 * q)). split.
  - apply fin_mul; auto using fin_half. apply (p2_le_HUGE 20); [lia|]. replace (p2 20) with 1048576 by (simpl; lra). lra.
  - pose proof (rnd_small (/ 2 * q) (0.51 * J) e He ltac:(lra) QB) as HR. replace (/ (2 * m)) with (/ 2 * J) by (unfold J; field; lra).
    apply Rabs_le_inv in HR. apply Rabs_le_inv in QE. apply Rabs_le. lra.
Qed.

Lemma clampR_1 lo hi x y : lo <= hi -> Rabs (clampR lo hi x - clampR lo hi y) <= Rabs (x - y).
Proof.
  intros H. unfold clampR, Rmax, Rmin. repeat destruct (Rle_dec _ _); unfold Rabs; repeat destruct (Rcase_abs _); lra.
Qed.
Lemma clampR_low x : x <= -1 -> clampR (-1) 1 x = -1.
Proof. intros H. unfold clampR, Rmax, Rmin. repeat destruct (Rle_dec _ _); lra. Qed.
(** The squared length of a vector near [y]. *)
Lemma len2_near (v : V4 f32) x y h : fin4 v x -> len3 (minus3 x y) <= h -> len3 y <= 2097152 -> h <= 2097152 ->
  exists d, fin (l0 (vec3_length2_s v)) d /\ Rabs (d - len3 y * len3 y) <= 2 * h * len3 y + h * h + 3.01 * eps * ((len3 y + h) * (len3 y + h)) + p2 (-80).
Proof.
  intros Fv Hx Hy Hh. pose proof (len3_nn (minus3 x y)) as H0. pose proof (len3_nn y) as Y0. pose proof (len3_nn x) as X0.
  pose proof (len3_diff x y) as D. apply Rabs_le_inv in D. set (L := len3 y) in *.
  assert (XL : Rabs (len3 x - L) <= h) by (apply Rabs_le; lra). assert (X1 : len3 x <= p2 22) by (replace (p2 22) with 4194304 by (simpl; lra); lra).
  pose proof (env6_fin v v x x Fv Fv) as V. destruct (len3_comp x) as (C0 & C1 & C2).
  assert (B : forall i, Rabs (env6 0 (vx x) (vy x) (vz x) (vx x) (vy x) (vz x) i) <= p2 22).
  { assert (0 <= p2 22) by apply bpow_ge_0. intros i. do 6 (destruct i as [|i]; [cbn; lra|]). cbn [env6]. rewrite Rabs_R0. lra. }
  unfold vec3_length2_s. change (l0 (vec3_dot_s v v)) with (ev32 (env6 nzero (l0 v) (l1 v) (l2 v) (l0 v) (l1 v) (l2 v)) (dote 0 1 2 3 4 5)).
  set (e := env6 nzero _ _ _ _ _ _) in *. clearbody e.
  destruct (poly_err 22 e _ (dote 0 1 2 3 4 5) ltac:(lia) V B ltac:(vm_compute; reflexivity)) as (d & Fd & _ & Ed).
  exists d. split; [exact Fd|]. change (cost (dote 0 1 2 3 4 5)) with 3%Z in Ed. change (evR _ _) with (dot3 x x) in Ed.
  assert (A : evA (env6 0 (vx x) (vy x) (vz x) (vx x) (vy x) (vz x)) (dote 0 1 2 3 4 5) <= len3 x * len3 x).
  { cbn [evA dote env6]. rewrite <- !Rabs_mult. apply dot3_abs. }
  assert (T : p2 (under 22 (dote 0 1 2 3 4 5)) * tiny <= p2 (-80)) by (unfold tiny; rewrite <- bpow_plus; apply bpow_le; vm_compute; discriminate).
  rewrite <- len3_sq in Ed. set (l := len3 x) in *.
  assert (E1 : 3 * eta * (evA (env6 0 (vx x) (vy x) (vz x) (vx x) (vy x) (vz x)) (dote 0 1 2 3 4 5)) <= 3.01 * eps * ((L + h) * (L + h))).
  { apply Rle_trans with (3 * eta * (l * l)); [apply Rmult_le_compat_l; [unfold eta, eps; lra|exact A]|]. apply Rmult_le_compat; [unfold eta, eps; lra|nra|unfold eta, eps; lra|]. apply Rmult_le_compat; apply Rabs_le_inv in XL; lra. }
  assert (E2 : Rabs (l * l - L * L) <= 2 * h * L + h * h).
  { replace (l * l - L * L) with ((l - L) * (l + L)) by ring. rewrite Rabs_mult, (Rabs_pos_eq (l + L)) by lra.
    apply Rle_trans with (h * (2 * L + h)); [|lra]. apply Rmult_le_compat; auto using Rabs_pos; [lra|apply Rabs_le_inv in XL; lra]. }
  change (IZR 3) with 3 in Ed. apply Rabs_le_inv in Ed. apply Rabs_le_inv in E2. apply Rabs_le. lra.
Qed.

(** The cosine of the angle between two bones [a] and [b] whose ends are [r] apart. *)
Definition bones_cos (a b r : R) : R := (a * a + b * b - r * r) / (2 * (a * b)).
Lemma cos_err (fa fb ft : f32) A2 B2 T2 a b r l e : fin fa A2 -> fin fb B2 -> fin ft T2 -> unit_of e ->
  / 512 <= a <= 4194304 -> / 512 <= b <= 4194304 -> 0 <= r <= 4194304 -> 0 < l -> l <= a -> l <= b -> a <= 4 * b -> b <= 4 * a ->
  Rabs (A2 - a * a) <= 2.05 * e * (a * l) -> Rabs (B2 - b * b) <= 4.06 * e * (b * l) ->
  Rabs (T2 - r * r) <= e * (2.001 * (r * l) + 0.001 * (l * l) + 0.0062 * (r * r)) ->
  exists c, fin (nmul (nsub (nadd fa fb) ft) (nmul nhalf (nrecip (nsqrt (nmul fa fb))))) c /\
    Rabs (clampR (-1) 1 c - clampR (-1) 1 (bones_cos a b r)) <= 15 * e.
Proof.
  intros Fa Fb Ft He Ha Hb Hr l0 la lb ab ba HA HB HT. pose proof He as He'. unfold unit_of in He'.
  set (m := a * b). assert (M : / 262144 <= m <= 17592186044416) by (unfold m; split; [apply Rle_trans with (/ 512 * / 512); [lra|]|apply Rle_trans with (4194304 * 4194304); [|lra]]; apply Rmult_le_compat; lra).
  assert (al : 0 < a * l <= m) by (unfold m; split; [apply Rmult_lt_0_compat; lra|apply Rmult_le_compat_l; lra]).
  assert (bl : 0 < b * l <= m) by (unfold m; split; [apply Rmult_lt_0_compat; lra|rewrite (Rmult_comm a b); apply Rmult_le_compat_l; lra]).
  assert (aa : 0 < a * a) by (apply Rmult_lt_0_compat; lra). assert (bb : 0 < b * b) by (apply Rmult_lt_0_compat; lra).
  assert (S2 : 2 * m <= a * a + b * b <= 4.25 * m) by (unfold m; pose proof (Rle_0_sqr (a - b)) as Q1; pose proof (Rmult_le_pos (4 * b - a) (4 * a - b) ltac:(lra) ltac:(lra)) as Q2; unfold Rsqr in Q1; lra).
  assert (al' : a * l <= a * a) by (apply Rmult_le_compat_l; lra). assert (bl' : b * l <= b * b) by (apply Rmult_le_compat_l; lra).
  assert (mono : forall k x y, 0 <= k -> x <= y -> k * e * x <= k * e * y) by (intros k x y Hk Hxy; apply Rmult_le_compat_l; [apply Rmult_le_pos; lra|exact Hxy]).
  destruct (half_err fa fb A2 B2 a b e Fa Fb He Ha Hb) as (h & Fh & Eh).
  { pose proof (mono 2.05 _ _ ltac:(lra) al'). lra. } { pose proof (mono 4.06 _ _ ltac:(lra) bl'). lra. }
  fold m in Eh. set (H := / (2 * m)) in *. assert (H0 : 0 < H) by (apply Rinv_0_lt_compat; lra). assert (mH : m * H = / 2) by (unfold H; field; lra).
  assert (eH : e * H <= / 2048 * H) by (apply Rmult_le_compat_r; lra). assert (eH0 : 0 < e * H) by (apply Rmult_lt_0_compat; lra).
  assert (em : e * m <= / 2048 * m) by (apply Rmult_le_compat_r; lra). assert (em0 : 0 < e * m) by (apply Rmult_lt_0_compat; lra).
  assert (HA' : Rabs (A2 - a * a) <= 2.05 * e * m) by (pose proof (mono 2.05 _ _ ltac:(lra) (proj2 al)); lra).
  assert (HB' : Rabs (B2 - b * b) <= 4.06 * e * m) by (pose proof (mono 4.06 _ _ ltac:(lra) (proj2 bl)); lra).
  apply Rabs_le_inv in HA', HB'. clear HA HB.
  assert (PM : p2 (-100) <= m) by (assert (p2 (-100) <= / 262144) by (replace (/ 262144) with (p2 (-18)) by (simpl; lra); apply bpow_le; lia); lra).
  assert (SB : Rabs (A2 + B2) <= 4.26 * m) by (apply Rabs_le; lra).
  assert (FS : fin (nadd fa fb) (rnd32 (A2 + B2))) by (apply fin_add; auto; apply (p2_le_HUGE 50); [lia|]; replace (p2 50) with 1125899906842624 by (simpl; lra); lra).
  pose proof (rnd_small (A2 + B2) (4.26 * m) e He ltac:(lra) SB) as SR. set (S := rnd32 (A2 + B2)) in *. clearbody S. apply Rabs_le_inv in SR.
  assert (SE : Rabs (S - (a * a + b * b)) <= 6.12 * e * m) by (apply Rabs_le; lra).
  assert (l2 : l * l <= m) by (unfold m; apply Rmult_le_compat; lra). assert (l2' : 0 < l * l) by (apply Rmult_lt_0_compat; lra). assert (rl : 0 <= r * l) by (apply Rmult_le_pos; lra). assert (rr : 0 <= r * r) by (apply Rmult_le_pos; lra).
  assert (Rr : r * r <= 17592186044416) by (apply Rle_trans with (4194304 * 4194304); [apply Rmult_le_compat; lra|lra]).
  assert (Rl : r * l <= 17592186044416) by (apply Rle_trans with (4194304 * 4194304); [apply Rmult_le_compat; lra|lra]).
  assert (HT2 : Rabs (T2 - r * r) <= 0.002 * (r * l) + 0.001 * (l * l) + 0.001 * (r * r)).
  { eapply Rle_trans; [exact HT|]. apply Rle_trans with (/ 2048 * (2.001 * (r * l) + 0.001 * (l * l) + 0.0062 * (r * r))); [apply Rmult_le_compat_r; lra|lra]. }
  apply Rabs_le_inv in HT2. apply Rabs_le_inv in SE.
  assert (FN : fin (nsub (nadd fa fb) ft) (rnd32 (S - T2))) by (apply fin_sub; auto; apply (p2_le_HUGE 50); [lia|]; replace (p2 50) with 1125899906842624 by (simpl; lra); apply Rabs_le; lra).
  assert (Hh : H <= 131072) by (unfold H; rewrite <- (Rinv_inv 131072); apply Rinv_le_contravar; lra).
  apply Rabs_le_inv in Eh.
  assert (FIN : forall n, n = rnd32 (S - T2) -> fin (nmul (nsub (nadd fa fb) ft) (nmul nhalf (nrecip (nsqrt (nmul fa fb))))) (rnd32 (n * h))).
  { intros n ->. assert (NB : Rabs (rnd32 (S - T2)) <= p2 50).
    { apply Rabs_le. split; [apply Ropp_le_cancel; rewrite Ropp_involutive, <- rnd_opp|]; (apply rnd_le_p2; [lia|]); replace (p2 50) with 1125899906842624 by (simpl; lra); lra. }
    apply fin_mul; auto. apply (p2_le_HUGE 70); [lia|]. change 70%Z with (50 + 20)%Z. rewrite bpow_plus, Rabs_mult. apply Rmult_le_compat; auto using Rabs_pos. replace (p2 20) with 1048576 by (simpl; lra). apply Rabs_le. lra. }
  pose proof (FIN _ eq_refl) as FC. set (n := rnd32 (S - T2)) in *. exists (rnd32 (n * h)). split; [exact FC|]. clear FIN FC Fa Fb Ft Fh FS FN.
  assert (BC : bones_cos a b r = (a * a + b * b - r * r) * H) by (unfold bones_cos, H, m; reflexivity). rewrite BC.
  destruct (Rle_or_lt r (1.25 * (a + b))) as [Hn|Hf].
  - (* near *)
    assert (RL : r * l <= 2.5 * m) by (apply Rle_trans with (1.25 * (a + b) * l); [apply Rmult_le_compat_r; lra|lra]).
    assert (RR : r * r <= 1.5625 * (a * a + b * b) + 3.125 * m) by (apply Rle_trans with (1.25 * (a + b) * (1.25 * (a + b))); [apply Rmult_le_compat; lra|unfold m; lra]).
    assert (TE : Rabs (T2 - r * r) <= 5.07 * e * m).
    { eapply Rle_trans; [exact HT|]. replace (5.07 * e * m) with (e * (5.07 * m)) by ring. apply Rmult_le_compat_l; lra. }
    apply Rabs_le_inv in TE. set (N := a * a + b * b - r * r). assert (NB : Rabs N <= 5.52 * m) by (unfold N; apply Rabs_le; lra). apply Rabs_le_inv in NB.
    pose proof (rnd_small (S - T2) (5.53 * m) e He ltac:(lra) ltac:(apply Rabs_le; unfold N in NB; lra)) as NR. fold n in NR. apply Rabs_le_inv in NR.
    assert (NE : Rabs (n - N) <= 11.21 * e * m) by (unfold N; apply Rabs_le; lra). clearbody n N. 
    assert (PE : Rabs (n * h - N * H) <= 14.35 * e).
    { replace (n * h - N * H) with ((n - N) * h + N * (h - H)) by ring. eapply Rle_trans; [apply Rabs_triang|]. rewrite !Rabs_mult.
      assert (Rabs (n - N) * Rabs h <= 11.21 * e * m * (1.002 * H)) by (apply Rmult_le_compat; auto using Rabs_pos; apply Rabs_le; lra).
      assert (Rabs N * Rabs (h - H) <= 5.52 * m * (3.16 * e * H)) by (apply Rmult_le_compat; auto using Rabs_pos; apply Rabs_le; lra).
      replace (11.21 * e * m * (1.002 * H)) with (11.21 * 1.002 * e * (m * H)) in * by ring. replace (5.52 * m * (3.16 * e * H)) with (5.52 * 3.16 * e * (m * H)) in * by ring. rewrite mH in *. lra. }
    assert (PB : Rabs (n * h) <= 3).
    { apply Rabs_le_inv in PE. assert (Rabs (N * H) <= 2.77) by (rewrite Rabs_mult, (Rabs_pos_eq H) by lra; apply Rle_trans with (5.52 * m * H); [apply Rmult_le_compat_r; [lra|apply Rabs_le; lra]|lra]). apply Rabs_le_inv in H1. apply Rabs_le. lra. }
    pose proof (rnd_small (n * h) 3 e He ltac:(assert (p2 (-100) <= 1) by (apply (bpow_le radix2 (-100) 0); lia); lra) PB) as CR.
    eapply Rle_trans; [apply clampR_1; lra|]. apply Rabs_le_inv in CR. apply Rabs_le_inv in PE. apply Rabs_le. lra.
  - (* far *)
    assert (RR : 1.5625 * (a * a + b * b) + 3.125 * m <= r * r) by (apply Rle_trans with (1.25 * (a + b) * (1.25 * (a + b))); [unfold m; lra|apply Rmult_le_compat; lra]).
    assert (rl' : r * l <= 0.4 * (r * r)) by (apply Rle_trans with (r * (0.4 * r)); [apply Rmult_le_compat_l; lra|lra]).
    assert (ND : S - T2 <= -4 * m) by lra.
    assert (N1 : n <= -3.9 * m).
    { assert (n <= rnd32 (-4 * m)) by (unfold n; apply rnd_mono; exact ND). pose proof (rnd_small (-4 * m) (4 * m) e He ltac:(lra) ltac:(rewrite Rabs_left; lra)) as Q. apply Rabs_le_inv in Q. lra. }
    assert (C1 : n * h <= -1).
    { assert (3.9 * m * (0.99 * H) <= (- n) * h) by (apply Rmult_le_compat; lra). replace (3.9 * m * (0.99 * H)) with (3.9 * 0.99 * (m * H)) in * by ring. rewrite mH in *. lra. }
    assert (C2 : rnd32 (n * h) <= -1).
    { assert (E1 : rnd32 1 = 1) by (apply round_generic; [typeclasses eauto|exact (fin_fmt _ _ fin_one)]).
      assert (1 <= rnd32 (- (n * h))) by (rewrite <- E1 at 1; apply rnd_mono; lra). rewrite rnd_opp in *. lra. }
    rewrite (clampR_low _ C2), clampR_low; [rewrite Rminus_diag_eq, Rabs_R0 by reflexivity; lra|].
    apply Rle_trans with (-2 * m * H); [apply Rmult_le_compat_r; lra|lra].
Qed.
