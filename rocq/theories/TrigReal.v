(** The polynomials of math.rs 1089-1223 against the functions they approximate, in real numbers. *)
From Coq Require Import Reals Lra Psatz QArith Qreals List Bool Ratan.
From Flocq Require Import Core.
From Verif Require Import PolyBound.
Import ListNotations.
Local Open Scope R_scope.

Lemma machin_term n m : m = Z.of_nat (2 * n + 1) -> tg_alt PI_2_3_7_tg n = (-1) ^ n * (2 * (/ 3 ^ (2 * n + 1) / IZR m) + / 7 ^ (2 * n + 1) / IZR m).
Proof. intros ->. unfold tg_alt, PI_2_3_7_tg, Ratan_seq. rewrite <- INR_IZR_INZ, !pow_inv. reflexivity. Qed.
Lemma PI_bounds : 3.14159265358979 < PI < 3.14159265358980.
Proof.
  pose proof (PI_2_3_7_ineq 7) as [L U].
  change (S (2 * 7)) with 15%nat in L. change (2 * 7)%nat with 14%nat in U. cbn [sum_f_R0] in L, U.
  rewrite (machin_term 0 1), (machin_term 1 3), (machin_term 2 5), (machin_term 3 7), (machin_term 4 9), (machin_term 5 11), (machin_term 6 13), (machin_term 7 15), (machin_term 8 17),
   (machin_term 9 19), (machin_term 10 21), (machin_term 11 23), (machin_term 12 25), (machin_term 13 27), (machin_term 14 29) in L, U by reflexivity.
  rewrite (machin_term 15 31) in L by reflexivity. 
  cbn [Nat.mul Nat.add pow] in L, U. lra.
Qed.

(** the reduced argument lies in [-LIM, LIM] *)
Definition LIM : R := 0.7866.

(** math.rs 1129-1131: ((S1 x2 + S2) x2 - S3) x2 x + x, with the binary32 values of the constants *)
Definition sinP (x : R) : R :=
  ((IZR (-13410809) / 2 ^ 36 * (x * x) + 4473295 / 2 ^ 29) * (x * x) - 11184803 / 2 ^ 26) * (x * x) * x + x.
(** math.rs 1126-1128: ((C1 x2 - C2) x2 + C3) x2 x2 - x2 / 2 + 1 *)
Definition cosP (x : R) : R :=
  ((6716135 / 2 ^ 38 * (x * x) - 5964557 / 2 ^ 32) * (x * x) + 11184805 / 2 ^ 28) * (x * x) * (x * x) - / 2 * (x * x) + 1.

Ltac pos_pow := repeat match goal with |- context [Pos.pow ?a ?b] => let c := eval vm_compute in (Pos.pow a b) in change (Pos.pow a b) with c end.
Local Notation pq n e := (Qmake n (Pos.pow 2 e)).
Definition sin_series : qpoly := ([0; 1; 0; -1 # 6; 0; 1 # 120; 0; -1 # 5040; 0; 1 # 362880; 0; -1 # 39916800])%Q.
Definition cos_series : qpoly := ([1; 0; -1 # 2; 0; 1 # 24; 0; -1 # 720; 0; 1 # 40320; 0; -1 # 3628800])%Q.
Definition sin_coefs : qpoly := ([0; 1; 0; - pq 11184803 26; 0; pq 4473295 29; 0; pq (-13410809) 36])%Q.
Definition cos_coefs : qpoly := ([1; 0; - (1 # 2); 0; pq 11184805 28; 0; - pq 5964557 32; 0; pq 6716135 38])%Q.

Lemma sin_check : pcheck 12 (psub sin_coefs sin_series) (Qmake 105 (1000 * Pos.pow 2 24)) 0 (7866 # 10000) = true.
Proof. vm_compute. reflexivity. Qed.
Lemma cos_check : pcheck 12 (psub cos_coefs cos_series) (Qmake 9 (1000 * Pos.pow 2 24)) 0 (7866 # 10000) = true.
Proof. vm_compute. reflexivity. Qed.

Fixpoint zfact (n : nat) : Z := match n with O => 1%Z | S k => (Z.of_nat (S k) * zfact k)%Z end.
Lemma fact_Z n m : m = zfact n -> INR (fact n) = IZR m.
Proof.
  intros ->. induction n as [|n IH]; [reflexivity|]. rewrite fact_simpl, mult_INR, IH. cbn [zfact]. rewrite mult_IZR, INR_IZR_INZ. reflexivity.
Qed.
Lemma sin_approx5 x : sin_approx x 5 = peval sin_series x.
Proof.
  unfold sin_approx, sin_term. cbn [sum_f_R0 Nat.mul Nat.add].
  rewrite (fact_Z 1 1), (fact_Z 3 6), (fact_Z 5 120), (fact_Z 7 5040), (fact_Z 9 362880), (fact_Z 11 39916800) by reflexivity.
  unfold sin_series, peval, Q2R. cbn [Qnum Qden]. field.
Qed.
Lemma sin_approx6 x : sin_approx x 6 = peval sin_series x + x ^ 13 / 6227020800.
Proof.
  rewrite <- sin_approx5. change (sin_approx x 6) with (sin_approx x 5 + sin_term x 6).
  unfold sin_term. cbn [Nat.mul Nat.add]. rewrite (fact_Z 13 6227020800) by reflexivity. field.
Qed.
Lemma cos_approx5 x : cos_approx x 5 = peval cos_series x.
Proof.
  unfold cos_approx, cos_term. cbn [sum_f_R0 Nat.mul Nat.add].
  rewrite (fact_Z 0 1), (fact_Z 2 2), (fact_Z 4 24), (fact_Z 6 720), (fact_Z 8 40320), (fact_Z 10 3628800) by reflexivity.
  unfold cos_series, peval, Q2R. cbn [Qnum Qden]. field.
Qed.
Lemma cos_approx6 x : cos_approx x 6 = peval cos_series x + x ^ 12 / 479001600.
Proof.
  rewrite <- cos_approx5. change (cos_approx x 6) with (cos_approx x 5 + cos_term x 6).
  unfold cos_term. cbn [Nat.mul Nat.add]. rewrite (fact_Z 12 479001600) by reflexivity. field.
Qed.
Lemma sinP_eval x : sinP x = peval sin_coefs x.
Proof. unfold sinP, sin_coefs, peval, Q2R, Qopp. cbn [Qnum Qden Z.opp]. pos_pow. simpl pow. lra. Qed.
Lemma cosP_eval x : cosP x = peval cos_coefs x.
Proof. unfold cosP, cos_coefs, peval, Q2R, Qopp. cbn [Qnum Qden Z.opp]. pos_pow. simpl pow. lra. Qed.

(** ** Sine and cosine *)
Lemma pow_le_lim x n : 0 <= x <= LIM -> 0 <= x ^ n <= LIM ^ n.
Proof. intros [H1 H2]. split; [apply pow_le, H1|apply pow_incr; auto]. Qed.
Lemma lim_Q x : 0 <= x <= LIM -> Q2R 0 <= x <= Q2R (7866 # 10000).
Proof. unfold LIM, Q2R. simpl. intros [H1 H2]. split; lra. Qed.
Lemma quarter_Q x : 0 <= x <= / 4 -> Q2R 0 <= x <= Q2R (1 # 4).
Proof. unfold Q2R. simpl. intros [H1 H2]. split; lra. Qed.
Lemma sinP_nonneg x : 0 <= x <= LIM -> Rabs (sinP x - sin x) <= 11 / 100 / 2 ^ 24.
Proof.
  intros H. pose proof (pcheck_sound _ _ _ _ _ x sin_check) as C. rewrite peval_sub in C.
  specialize (C (lim_Q x H)).
  destruct (pre_sin_bound x 2) as [L U]; [lra|unfold LIM in H; lra|]. cbn [Nat.mul Nat.add] in L, U. rewrite sin_approx5 in L. rewrite sin_approx6 in U.
  rewrite <- sinP_eval in C. destruct (pow_le_lim x 13 H) as [_ P].
  assert (E : LIM ^ 13 / 6227020800 <= / 1000 / 2 ^ 24) by (clear; unfold LIM; simpl; lra).
  assert (E2 : Q2R (105 # 1000 * 2 ^ 24) = 105 / 1000 / 2 ^ 24) by (clear; unfold Q2R; cbn [Qnum Qden]; pos_pow; simpl; lra). rewrite E2 in C.
  apply Rabs_le_inv in C. apply Rabs_le. lra.
Qed.
Lemma sinP_odd x : sinP (- x) = - sinP x. Proof. unfold sinP. ring. Qed.
Lemma cosP_even x : cosP (- x) = cosP x. Proof. unfold cosP. ring. Qed.
Lemma sinP_sin x : Rabs x <= LIM -> Rabs (sinP x - sin x) <= 11 / 100 / 2 ^ 24.
Proof.
  intros H. destruct (Rle_dec 0 x) as [P|P].
  - apply sinP_nonneg. rewrite Rabs_pos_eq in H by exact P. auto.
  - replace (sinP x - sin x) with (- (sinP (- x) - sin (- x))) by (rewrite sinP_odd, sin_neg; ring). rewrite Rabs_Ropp.
    apply sinP_nonneg. rewrite Rabs_left in H; lra.
Qed.
Lemma cosP_nonneg x : 0 <= x <= LIM -> Rabs (cosP x - cos x) <= / 80 / 2 ^ 24.
Proof.
  intros H. pose proof (pcheck_sound _ _ _ _ _ x cos_check) as C. rewrite peval_sub in C.
  specialize (C (lim_Q x H)).
  destruct (pre_cos_bound x 2) as [L U]; [lra|unfold LIM in H; lra|]. cbn [Nat.mul Nat.add] in L, U. rewrite cos_approx5 in L. rewrite cos_approx6 in U.
  rewrite <- cosP_eval in C. destruct (pow_le_lim x 12 H) as [_ P].
  assert (E : LIM ^ 12 / 479001600 <= 2 / 1000 / 2 ^ 24) by (clear; unfold LIM; simpl; lra).
  assert (E2 : Q2R (9 # 1000 * 2 ^ 24) = 9 / 1000 / 2 ^ 24) by (clear; unfold Q2R; cbn [Qnum Qden]; pos_pow; simpl; lra). rewrite E2 in C.
  apply Rabs_le_inv in C. apply Rabs_le. lra.
Qed.
Lemma cosP_cos x : Rabs x <= LIM -> Rabs (cosP x - cos x) <= / 80 / 2 ^ 24.
Proof.
  intros H. destruct (Rle_dec 0 x) as [P|P].
  - apply cosP_nonneg. rewrite Rabs_pos_eq in H by exact P. auto.
  - replace (cosP x - cos x) with (cosP (- x) - cos (- x)) by (rewrite cosP_even, cos_neg; ring).
    apply cosP_nonneg. rewrite Rabs_left in H; lra.
Qed.

(** ** Arcsine *)
(** math.rs 1213: ((((N1 z + N2) z + N3) z + N4) z + N5) z x + x *)
Definition asinP (z x : R) : R :=
  ((((5659049 / 2 ^ 27 * z + 12982243 / 2 ^ 29) * z + 12205767 / 2 ^ 28) * z + 5030011 / 2 ^ 26) * z + 2796217 / 2 ^ 24) * z * x + x.
(** the series of asin x / x in x^2 *)
Definition asin_series : qpoly := ([1 # 1; 1 # 6; 3 # 40; 5 # 112; 35 # 1152; 63 # 2816; 231 # 13312; 143 # 10240; 6435 # 557056; 12155 # 1245184; 46189 # 5505024; 88179 # 12058624; 676039 # 104857600; 1300075 # 226492416])%Q.
Definition asin_coefs : qpoly := ([1; pq 2796217 24; pq 5030011 26; pq 12205767 28; pq 12982243 29; pq 5659049 27])%Q.
Fixpoint dodd (k : Z) (p : qpoly) : qpoly := match p with [] => [] | a :: p => Qred (((2 * k + 1)%Z # 1) * a) :: dodd (k + 1) p end.
Definition asin_deriv : qpoly := Eval vm_compute in dodd 0 asin_series.
Lemma asin_check : pcheck 12 (psub asin_coefs asin_series) (Qmake 98 (1000 * Pos.pow 2 24)) 0 (1 # 4) = true.
Proof. vm_compute. reflexivity. Qed.
Lemma asin_deriv_check : pcheck 12 (psub (pmul (pmul asin_deriv asin_deriv) [1; -1]) [1])%Q (Qmake 35 (1000 * Pos.pow 2 24)) 0 (1 # 4) = true.
Proof. vm_compute. reflexivity. Qed.

Lemma dodd_lim p : forall (k : nat) x,
  derivable_pt_lim (fun x => x ^ (2 * k + 1) * peval p (x * x)) x (x ^ (2 * k) * peval (dodd (Z.of_nat k) p) (x * x)).
Proof.
  induction p as [|a p IH]; intros k x; cbn [peval dodd].
  - apply (derivable_pt_lim_ext (fun _ => 0)); [intros; ring|]. rewrite Rmult_0_r. apply derivable_pt_lim_const.
  - apply (derivable_pt_lim_ext (fun x => Q2R a * x ^ (2 * k + 1) + x ^ (2 * (S k) + 1) * peval p (x * x))).
    + intros y. replace (2 * S k + 1)%nat with (2 + (2 * k + 1))%nat by lia. rewrite (pow_add y 2). simpl (y ^ 2). ring.
    + rewrite Q2R_red, Q2R_mult. replace (Z.of_nat k + 1)%Z with (Z.of_nat (S k)) by lia.
      replace (x ^ (2 * k) * (Q2R ((2 * Z.of_nat k + 1)%Z # 1) * Q2R a + x * x * peval (dodd (Z.of_nat (S k)) p) (x * x)))
        with (Q2R a * (INR (2 * k + 1)%nat * x ^ Nat.pred (2 * k + 1)%nat) + x ^ (2 * S k) * peval (dodd (Z.of_nat (S k)) p) (x * x)).
      * apply derivable_pt_lim_plus; [|apply IH]. apply derivable_pt_lim_scal, derivable_pt_lim_pow.
      * replace (Nat.pred (2 * k + 1)) with (2 * k)%nat by lia. replace (2 * S k)%nat with (2 + 2 * k)%nat by lia. rewrite (pow_add x 2).
        rewrite INR_IZR_INZ. replace (Z.of_nat (2 * k + 1)) with (2 * Z.of_nat k + 1)%Z by lia.
        unfold Q2R at 2. cbn [Qnum Qden]. simpl (x ^ 2). field.
Qed.
Definition asinT (x : R) : R := x * peval asin_series (x * x).
Lemma asinT_lim x : derivable_pt_lim asinT x (peval asin_deriv (x * x)).
Proof.
  pose proof (dodd_lim asin_series 0 x) as H. cbn [Nat.mul Nat.add pow Z.of_nat] in H. rewrite Rmult_1_l in H.
  apply (derivable_pt_lim_ext (fun x => x * 1 * peval asin_series (x * x))); [intros; unfold asinT; ring|exact H].
Qed.
Lemma asin_lim x : -1 < x < 1 -> derivable_pt_lim asin x (/ sqrt (1 - x * x)).
Proof.
  intros H. apply (derive_pt_eq_1 _ _ _ (derivable_pt_asin x H)). rewrite derive_pt_asin. unfold Rsqr. lra.
Qed.
Lemma deriv_close x : 0 <= x <= / 2 -> Rabs (peval asin_deriv (x * x) - / sqrt (1 - x * x)) <= 41 / 1000 / 2 ^ 24.
Proof.
  intros H. assert (Z : 0 <= x * x <= / 4) by nra.
  pose proof (pcheck_sound _ _ _ _ _ (x * x) asin_deriv_check) as C. rewrite peval_sub, !peval_mul in C.
  specialize (C (quarter_Q _ Z)).
  assert (E2 : Q2R (35 # 1000 * 2 ^ 24) = 35 / 1000 / 2 ^ 24) by (clear; unfold Q2R; cbn [Qnum Qden]; pos_pow; simpl; lra). rewrite E2 in C.
  set (z := x * x) in *. set (d := peval asin_deriv z) in *.
  replace (peval [1%Q; (-1)%Q] z) with (1 - z) in C by (unfold peval, Q2R; simpl; lra). replace (peval [1%Q] z) with 1 in C by (unfold peval, Q2R; simpl; lra).
  assert (D0 : 0 <= d).
  { unfold d, asin_deriv, peval, Q2R. cbn [Qnum Qden].
    repeat (apply Rplus_le_le_0_compat; [apply Rmult_le_pos; [apply IZR_le; discriminate|left; apply Rinv_0_lt_compat, IZR_lt; reflexivity]|];
      apply Rmult_le_pos; [lra|]). lra. }
  clearbody d. set (s := sqrt (1 - z)).
  assert (S2 : s * s = 1 - z) by (apply sqrt_sqrt; lra). assert (S0 : 0 <= s) by apply sqrt_pos.
  assert (S1 : 0.866 <= s) by (destruct (Rle_dec 0.866 s); [assumption|nra]).
  replace (d * d * (1 - z) - 1) with ((d * s - 1) * (d * s + 1)) in C by (rewrite <- S2; ring).
  replace (d - / s) with ((d * s - 1) * / s) by (field; lra).
  rewrite Rabs_mult in *. assert (P : 0 <= d * s) by (apply Rmult_le_pos; lra).
  rewrite (Rabs_pos_eq (d * s + 1)) in C by lra. rewrite (Rabs_pos_eq (/ s)) by (left; apply Rinv_0_lt_compat; lra).
  assert (Q : Rabs (d * s - 1) <= 35 / 1000 / 2 ^ 24).
  { eapply Rle_trans; [|exact C]. rewrite <- (Rmult_1_r (Rabs _)) at 1. apply Rmult_le_compat_l; [apply Rabs_pos|lra]. }
  assert (I : / s <= / 0.866) by (apply Rinv_le_contravar; lra).
  eapply Rle_trans; [apply Rmult_le_compat; [apply Rabs_pos|left; apply Rinv_0_lt_compat; lra|exact Q|exact I]|]. simpl. lra.
Qed.
Lemma asinT_asin x : 0 <= x <= / 2 -> Rabs (asinT x - asin x) <= 41 / 1000 / 2 ^ 24 * x.
Proof.
  intros H. destruct (Req_dec x 0) as [->|Hx].
  - unfold asinT. rewrite asin_0, Rmult_0_l, Rminus_0_r, Rabs_R0. lra.
  - destruct (MVT_cor2 (fun x => asinT x - asin x) (fun x => peval asin_deriv (x * x) - / sqrt (1 - x * x)) 0 x) as (c & E & Hc); [lra| |].
    + intros c Hc. apply (derivable_pt_lim_minus asinT asin); [apply asinT_lim|apply asin_lim; lra].
    + cbv beta in E. rewrite Rminus_0_r in E. replace (asinT 0 - asin 0) with 0 in E by (unfold asinT; rewrite asin_0; ring).
      rewrite Rminus_0_r in E. rewrite E, Rabs_mult, (Rabs_pos_eq x) by lra. apply Rmult_le_compat_r; [lra|]. apply deriv_close. lra.
Qed.
(** relative accuracy of the polynomial on [0, 1/2] *)
Lemma asinP_asin x : 0 <= x <= / 2 -> Rabs (asinP (x * x) x - asin x) <= 14 / 100 / 2 ^ 24 * x.
Proof.
  intros H. assert (Z : 0 <= x * x <= / 4) by nra.
  pose proof (pcheck_sound _ _ _ _ _ (x * x) asin_check) as C. rewrite peval_sub in C.
  specialize (C (quarter_Q _ Z)).
  assert (E2 : Q2R (98 # 1000 * 2 ^ 24) = 98 / 1000 / 2 ^ 24) by (clear; unfold Q2R; cbn [Qnum Qden]; pos_pow; simpl; lra). rewrite E2 in C.
  assert (EP : asinP (x * x) x = x * peval asin_coefs (x * x)) by (unfold asinP, asin_coefs, peval, Q2R; cbn [Qnum Qden]; pos_pow; simpl pow; lra).
  replace (asinP (x * x) x - asin x) with (x * (peval asin_coefs (x * x) - peval asin_series (x * x)) + (asinT x - asin x)) by (rewrite EP; unfold asinT; ring).
  eapply Rle_trans; [apply Rabs_triang|]. rewrite Rabs_mult, (Rabs_pos_eq x) by lra. pose proof (asinT_asin x H) as T.
  apply (Rmult_le_compat_l x) in C; [|lra]. simpl in *. lra.
Qed.
(** the identity used above 1/2 *)
Lemma asin_half x : 0 <= x <= 1 -> asin x = PI / 2 - 2 * asin (sqrt (/ 2 * (1 - x))).
Proof.
  intros H. set (h := sqrt (/ 2 * (1 - x))). assert (H0 : 0 <= h) by apply sqrt_pos. assert (H2 : h * h = / 2 * (1 - x)) by (apply sqrt_sqrt; lra).
  assert (H1 : h <= 1) by nra. set (p := asin h).
  assert (Sp : sin p = h) by (apply sin_asin; lra).
  assert (Bp : 0 <= p <= PI / 4).
  { pose proof (asin_bound h) as Bd. fold p in Bd. pose proof PI_RGT_0. split.
    - destruct (Rle_dec 0 p); [assumption|]. assert (sin p < 0) by (apply sin_lt_0_var; lra). lra.
    - destruct (Rle_dec p (PI / 4)); [assumption|]. assert (L : sin (PI / 4) < sin p) by (apply sin_increasing_1; lra).
      rewrite sin_PI4, Sp in L. assert (S2 : sqrt 2 * sqrt 2 = 2) by (apply sqrt_sqrt; lra). assert (P2 : 0 < sqrt 2) by (apply sqrt_lt_R0; lra).
      assert (L2 : (1 / sqrt 2) * (1 / sqrt 2) < h * h) by (assert (0 <= 1 / sqrt 2) by (apply Rmult_le_pos; [lra|left; apply Rinv_0_lt_compat, P2]); apply Rmult_le_0_lt_compat; assumption).
      replace (1 / sqrt 2 * (1 / sqrt 2)) with (/ (sqrt 2 * sqrt 2)) in L2 by (field; lra). rewrite S2 in L2. lra. }
  rewrite <- (asin_sin (PI / 2 - 2 * p)) by (pose proof PI_RGT_0; lra). f_equal.
  rewrite sin_shift, cos_2a_sin, Sp. lra.
Qed.
