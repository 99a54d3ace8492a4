(** Rounding errors of polynomial code in binary32, by reflection.

    Code written over any [Num] can be run over [expr], which records the operations.  [poly_err] then
    bounds the difference between the binary32 result and the real one for any such record: a relative
    part against the sum of the absolute values of the terms, and an absolute part for underflow. *)
From Coq Require Import Reals Lra Psatz.
From Flocq Require Import IEEE754.BinarySingleNaN Core.
From Verif Require Import Base Num NumF32 NumR F32Facts F32Err InterpF32 NormF32 BlendF32.
Local Open Scope R_scope.

Inductive expr :=
| Var (i : nat) | Lit (m e : Z) | Add (a b : expr) | Sub (a b : expr) | Mul (a b : expr) | Neg (a : expr)
| Bad.

#[global] Instance expr_arith : Arith expr := {
  nadd := Add; nsub := Sub; nmul := Mul; ndiv _ _ := Bad; nneg := Neg; nabs _ := Bad; nsqrt _ := Bad; ntrunc _ := Bad;
  nmin _ _ := Bad; nmax _ _ := Bad; nlit := Lit }.
#[global] Instance expr_num : Num expr := {
  num_arith := expr_arith; nlt _ _ := false; nle _ _ := false; neq _ _ := false; nto_i32 _ := 0%Z }.

(** The record run on binary32, on the reals, and on the reals with every term counted positively. *)
Fixpoint ev {F} {NF : Num F} (v : nat -> F) (e : expr) : F :=
  match e with
  | Var i => v i | Lit m k => nlit m k | Add a b => nadd (ev v a) (ev v b) | Sub a b => nsub (ev v a) (ev v b)
  | Mul a b => nmul (ev v a) (ev v b) | Neg a => nneg (ev v a) | Bad => nzero
  end.
Notation ev32 := (@ev f32 f32num).
Fixpoint evR (v : nat -> R) (e : expr) : R :=
  match e with
  | Var i => v i | Lit m k => IZR m * bpow radix2 k | Add a b => evR v a + evR v b | Sub a b => evR v a - evR v b
  | Mul a b => evR v a * evR v b | Neg a => - evR v a | Bad => 0
  end.
Fixpoint evA (v : nat -> R) (e : expr) : R :=
  match e with
  | Var i => Rabs (v i) | Lit m k => IZR (Z.abs m) * bpow radix2 k | Add a b | Sub a b => evA v a + evA v b
  | Mul a b => evA v a * evA v b | Neg a => evA v a | Bad => 0
  end.

(** The roundings on the longest way to the result; bounds on the exponents of the terms and of the
    underflow errors, the variables being below 2^b. *)
Fixpoint cost (e : expr) : Z :=
  match e with
  | Var _ | Lit _ _ | Bad => 0 | Add a b | Sub a b => Z.max (cost a) (cost b) + 1 | Mul a b => cost a + cost b + 1 | Neg a => cost a
  end%Z.
Fixpoint bits (b : Z) (e : expr) : Z :=
  match e with
  | Var _ => b | Lit m k => Z.max 0 (Z.log2_up (Z.abs m) + k) | Add x y | Sub x y => Z.max (bits b x) (bits b y) + 1
  | Mul x y => bits b x + bits b y | Neg x => bits b x | Bad => 0
  end%Z.
Fixpoint under (b : Z) (e : expr) : Z :=
  match e with
  | Var _ | Lit _ _ | Bad => 0 | Add x y | Sub x y => Z.max (under b x) (under b y) + 2
  | Mul x y => Z.max (under b x + bits b y) (under b y + bits b x) + 2 | Neg x => under b x
  end%Z.
Fixpoint plain (e : expr) : bool :=
  match e with
  | Var _ => true | Lit m k => (Z.abs m <=? 2 ^ 24) && (-149 <=? k) && (k <=? 100) | Add a b | Sub a b | Mul a b => plain a && plain b
  | Neg a => plain a | Bad => false
  end%Z%bool.
Definition small (b : Z) (e : expr) : bool := (plain e && (cost e <=? 100) && (bits b e <=? 120) && (under b e <=? 130))%Z%bool.

Lemma cost_nonneg e : (0 <= cost e)%Z.
Proof. induction e; cbn; lia. Qed.
Lemma bits_nonneg b e : (0 <= b)%Z -> (0 <= bits b e)%Z.
Proof. intros Hb. induction e; cbn [bits]; try lia. Qed.
Lemma under_nonneg b e : (0 <= b)%Z -> (0 <= under b e)%Z.
Proof. intros Hb. induction e; cbn [under]; try lia. pose proof (bits_nonneg b e2 Hb). lia. Qed.
Lemma evA_pos v e : 0 <= evA v e.
Proof.
  induction e; cbn [evA]; try lra; try apply Rabs_pos; try nra.
  apply Rmult_le_pos; [apply IZR_le; lia|apply bpow_ge_0].
Qed.
Lemma evR_le v e : Rabs (evR v e) <= evA v e.
Proof.
  induction e; cbn [evA evR]; try (rewrite Rabs_R0; lra); try lra.
  - rewrite Rabs_mult, (Rabs_pos_eq (bpow radix2 e)) by apply bpow_ge_0. apply Rmult_le_compat_r; [apply bpow_ge_0|]. rewrite <- abs_IZR. lra.
  - eapply Rle_trans; [apply Rabs_triang|]. lra.
  - unfold Rminus. eapply Rle_trans; [apply Rabs_triang|]. rewrite Rabs_Ropp. lra.
  - rewrite Rabs_mult. apply Rmult_le_compat; auto; apply Rabs_pos.
  - rewrite Rabs_Ropp. lra.
Qed.
Lemma p2_max_l a b : p2 a <= p2 (Z.max a b). Proof. apply bpow_le. lia. Qed.
Lemma p2_max_r a b : p2 b <= p2 (Z.max a b). Proof. apply bpow_le. lia. Qed.
Lemma p2_succ a : p2 (a + 1) = 2 * p2 a. Proof. rewrite Z.add_comm. apply (p2_shift 1 a 2). simpl. lra. Qed.
Lemma p2_succ2 a : p2 (a + 2) = 4 * p2 a. Proof. rewrite Z.add_comm. apply (p2_shift 2 a 4). simpl. lra. Qed.
Lemma evA_bits b v e : (0 <= b)%Z -> plain e = true -> (forall i, Rabs (v i) <= p2 b) -> evA v e <= p2 (bits b e).
Proof.
  intros Hb P V. induction e; cbn [evA bits]; cbn [plain] in P; try discriminate; try (apply andb_true_iff in P; destruct P as [P1 P2]).
  - apply V.
  - eapply Rle_trans; [|apply p2_max_r]. rewrite bpow_plus. apply Rmult_le_compat_r; [apply bpow_ge_0|].
    destruct (Z.eq_dec (Z.abs m) 0) as [E|E]; [rewrite E; apply bpow_ge_0|].
    pose proof (Z.log2_log2_up_spec (Z.abs m) ltac:(lia)) as [_ H]. apply IZR_le in H. eapply Rle_trans; [exact H|].
    change (2 ^ Z.log2_up (Z.abs m))%Z with (Zaux.radix_val radix2 ^ Z.log2_up (Z.abs m))%Z. rewrite IZR_Zpower by apply Z.log2_up_nonneg. apply Rle_refl.
  - rewrite p2_succ. specialize (IHe1 P1). specialize (IHe2 P2). pose proof (p2_max_l (bits b e1) (bits b e2)). pose proof (p2_max_r (bits b e1) (bits b e2)). lra.
  - rewrite p2_succ. specialize (IHe1 P1). specialize (IHe2 P2). pose proof (p2_max_l (bits b e1) (bits b e2)). pose proof (p2_max_r (bits b e1) (bits b e2)). lra.
  - rewrite bpow_plus. apply Rmult_le_compat; auto using evA_pos.
  - auto.
Qed.

(** ** One rounding *)
Definition eta := 1.001 * eps.
(** [p] stands for [x] with relative error [c] against [A] and underflow error [2^u] units. *)
Definition appr (p x A : R) (c u : Z) : Prop := Rabs x <= A /\ Rabs (p - x) <= IZR c * eta * A + p2 u * tiny.
Lemma tiny_p2 u : (u <= 130)%Z -> p2 u * tiny <= p2 (-20).
Proof. intros H. unfold tiny. rewrite <- bpow_plus. apply bpow_le. lia. Qed.

Lemma appr_add p q x y A B c d u w s : appr p x A c u -> appr q y B d w -> (0 <= c <= 100)%Z -> (0 <= d <= 100)%Z -> (0 <= u)%Z -> (0 <= w)%Z ->
  (s = x + y /\ True) -> appr (rnd32 (p + q)) s (A + B) (Z.max c d + 1) (Z.max u w + 2).
Proof.
  intros (X & P) (Y & Q) Hc Hd Hu Hw (-> & _). pose proof (Rabs_pos x) as X0. pose proof (Rabs_pos y) as Y0. pose proof tiny_pos as TP.
  split; [eapply Rle_trans; [apply Rabs_triang|]; lra|].
  set (k := IZR (Z.max c d)). assert (Hk : IZR c <= k /\ IZR d <= k /\ 0 <= k <= 100).
  { unfold k. repeat split; apply IZR_le; lia. }
  assert (PC : IZR c * eta * A <= k * eta * A) by (apply Rmult_le_compat_r; [lra|]; apply Rmult_le_compat_r; [unfold eta, eps; lra|lra]).
  assert (QC : IZR d * eta * B <= k * eta * B) by (apply Rmult_le_compat_r; [lra|]; apply Rmult_le_compat_r; [unfold eta, eps; lra|lra]).
  set (U := p2 (Z.max u w) * tiny).
  assert (PU : p2 u * tiny <= U) by (apply Rmult_le_compat_r; [lra|apply p2_max_l]).
  assert (QU : p2 w * tiny <= U) by (apply Rmult_le_compat_r; [lra|apply p2_max_r]).
  assert (TU : tiny <= U). { unfold U. rewrite <- (Rmult_1_l tiny) at 1. apply Rmult_le_compat_r; [lra|]. change 1 with (p2 0). apply bpow_le. lia. }
  rewrite p2_succ2, plus_IZR. fold k.
  pose proof (rnd_err (p + q)) as R. set (r := rnd32 (p + q)) in *. clearbody r.
  set (S := A + B) in *. assert (KS : k * eta * A + k * eta * B = k * eta * S) by (unfold S; ring).
  assert (PQ : Rabs (p + q - (x + y)) <= k * eta * S + 2 * U).
  { apply Rabs_le_inv in P. apply Rabs_le_inv in Q. apply Rabs_le. lra. }
  assert (KE : k * eta * S <= / 100000 * S) by (apply Rmult_le_compat_r; [unfold S; lra|]; unfold eta, eps; lra).
  apply Rabs_le_inv in X. apply Rabs_le_inv in Y. apply Rabs_le_inv in PQ.
  assert (AB : Rabs (p + q) <= 1.00001 * S + 2 * U) by (apply Rabs_le; unfold S in *; lra).
  apply Rabs_le_inv in R. replace ((k + 1) * eta * S) with (k * eta * S + eta * S) by ring.
  replace (4 * p2 (Z.max u w) * tiny) with (4 * U) by (unfold U; ring).
  assert (ER : eps * Rabs (p + q) + tiny <= eta * S + 2 * U).
  { apply Rle_trans with (eps * (1.00001 * S + 2 * U) + tiny); [apply Rplus_le_compat_r, Rmult_le_compat_l; [unfold eps; lra|exact AB]|].
    assert (0 <= S) by (unfold S; lra). unfold eta, eps. lra. }
  apply Rabs_le. lra.
Qed.
Lemma appr_neg p x A c u : appr p x A c u -> appr (- p) (- x) A c u.
Proof. intros (X & P). split; [rewrite Rabs_Ropp; exact X|]. replace (- p - - x) with (- (p - x)) by ring. rewrite Rabs_Ropp. exact P. Qed.
Lemma appr_mul p q x y A B c d u w bA bB : appr p x A c u -> appr q y B d w -> (0 <= c)%Z -> (0 <= d)%Z -> (c + d <= 100)%Z ->
  (0 <= u <= 130)%Z -> (0 <= w <= 130)%Z -> A <= p2 bA -> B <= p2 bB -> (0 <= bA)%Z -> (0 <= bB)%Z ->
  appr (rnd32 (p * q)) (x * y) (A * B) (c + d + 1) (Z.max (u + bB) (w + bA) + 2).
Proof.
  intros (X & P) (Y & Q) Hc Hd Hcd Hu Hw HA HB HbA HbB. pose proof (Rabs_pos x) as X0. pose proof (Rabs_pos y) as Y0. pose proof tiny_pos as TP.
  split; [rewrite Rabs_mult; apply Rmult_le_compat; auto|].
  set (kc := IZR c) in *. set (kd := IZR d) in *.
  assert (K : 0 <= kc /\ 0 <= kd /\ kc + kd <= 100).
  { unfold kc, kd. rewrite <- plus_IZR. repeat split; apply IZR_le; lia. }
  set (M := Z.max (u + bB) (w + bA)). set (U := p2 M * tiny).
  pose proof (p2_pos u) as Pu. pose proof (p2_pos w) as Pw. pose proof (tiny_p2 u ltac:(lia)) as Tu. pose proof (tiny_p2 w ltac:(lia)) as Tw.
  assert (UB : p2 u * tiny * B <= U).
  { unfold U. replace (p2 u * tiny * B) with (p2 u * B * tiny) by ring. apply Rmult_le_compat_r; [lra|].
    apply Rle_trans with (p2 (u + bB)); [rewrite bpow_plus; apply Rmult_le_compat_l; lra|apply bpow_le; lia]. }
  assert (WA : p2 w * tiny * A <= U).
  { unfold U. replace (p2 w * tiny * A) with (p2 w * A * tiny) by ring. apply Rmult_le_compat_r; [lra|].
    apply Rle_trans with (p2 (w + bA)); [rewrite bpow_plus; apply Rmult_le_compat_l; lra|apply bpow_le; lia]. }
  assert (UU : p2 u * tiny <= U). { unfold U. apply Rmult_le_compat_r; [lra|]. apply bpow_le. lia. }
  assert (TU : tiny <= U). { unfold U. rewrite <- (Rmult_1_l tiny) at 1. apply Rmult_le_compat_r; [lra|]. change 1 with (p2 0). apply bpow_le. lia. }
  set (a := p2 u * tiny) in *. set (b := p2 w * tiny) in *. assert (a0 : 0 < a) by (apply Rmult_lt_0_compat; lra). assert (b0 : 0 < b) by (apply Rmult_lt_0_compat; lra).
  assert (T20 : p2 (-20) <= / 1000000) by (simpl; lra).
  rewrite p2_succ2, !plus_IZR. fold kc kd. replace (4 * p2 M * tiny) with (4 * U) by (unfold U; ring).
  pose proof (rnd_err (p * q)) as R. set (r := rnd32 (p * q)) in *. clearbody r.
  set (e := p - x) in *. set (f := q - y) in *. assert (EPQ : p * q - x * y = e * y + x * f + e * f) by (unfold e, f; ring).
  assert (A0 : 0 <= A) by lra. assert (B0 : 0 <= B) by lra.
  (* the three parts of the error *)
  set (g := kc * eta) in *. set (h := kd * eta) in *.
  assert (G : 0 <= g /\ 0 <= h /\ g <= / 100000 /\ h <= / 100000 /\ g * h <= 0.0002 * eps).
  { unfold g, h, eta, eps. repeat split; try lra.
    apply Rle_trans with (2500 * ((1.001 * / 16777216) * (1.001 * / 16777216))); [|lra].
    replace (kc * (1.001 * / 16777216) * (kd * (1.001 * / 16777216))) with (kc * kd * ((1.001 * / 16777216) * (1.001 * / 16777216))) by ring.
    apply Rmult_le_compat_r; [lra|]. destruct K as (K1 & K2 & K3). pose proof (Rle_0_sqr (kc - kd)) as Q0. unfold Rsqr in Q0.
    assert (K4 : (kc + kd) * (kc + kd) <= 100 * 100) by (apply Rmult_le_compat; lra). lra. }
  destruct G as (g0 & h0 & g1 & h1 & gh).
  assert (AB0 : 0 <= A * B) by (apply Rmult_le_pos; assumption).
  assert (E1 : Rabs (e * y) <= g * (A * B) + U).
  { rewrite Rabs_mult. apply Rle_trans with ((g * A + a) * B); [apply Rmult_le_compat; auto; apply Rabs_pos|]. lra. }
  assert (E2 : Rabs (x * f) <= h * (A * B) + U).
  { rewrite Rabs_mult. apply Rle_trans with (A * (h * B + b)); [apply Rmult_le_compat; auto; apply Rabs_pos|]. lra. }
  assert (E3 : Rabs (e * f) <= 0.0002 * eps * (A * B) + 0.001 * U).
  { rewrite Rabs_mult. apply Rle_trans with ((g * A + a) * (h * B + b)); [apply Rmult_le_compat; auto; apply Rabs_pos|].
    replace ((g * A + a) * (h * B + b)) with (g * h * (A * B) + g * (b * A) + h * (a * B) + a * b) by ring.
    assert (I1 : g * h * (A * B) <= 0.0002 * eps * (A * B)) by (apply Rmult_le_compat_r; assumption).
    assert (I2 : g * (b * A) <= / 100000 * U) by (apply Rmult_le_compat; try lra; apply Rmult_le_pos; lra).
    assert (I3 : h * (a * B) <= / 100000 * U) by (apply Rmult_le_compat; try lra; apply Rmult_le_pos; lra).
    assert (I4 : a * b <= U * / 1000000) by (apply Rmult_le_compat; lra).
    lra. }
  assert (PQ : Rabs (p * q - x * y) <= (g + h + 0.0002 * eps) * (A * B) + 2.001 * U).
  { rewrite EPQ. apply Rabs_le_inv in E1. apply Rabs_le_inv in E2. apply Rabs_le_inv in E3. apply Rabs_le. lra. }
  assert (XY : Rabs (x * y) <= A * B) by (rewrite Rabs_mult; apply Rmult_le_compat; auto).
  assert (GH : (g + h + 0.0002 * eps) * (A * B) <= / 40000 * (A * B)) by (apply Rmult_le_compat_r; [exact AB0|unfold eps; lra]).
  apply Rabs_le_inv in XY. apply Rabs_le_inv in PQ.
  assert (AP : Rabs (p * q) <= 1.0001 * (A * B) + 2.001 * U) by (apply Rabs_le; lra).
  assert (ER : eps * Rabs (p * q) + tiny <= 1.0001 * eps * (A * B) + 1.1 * U).
  { apply Rle_trans with (eps * (1.0001 * (A * B) + 2.001 * U) + tiny); [apply Rplus_le_compat_r, Rmult_le_compat_l; [unfold eps; lra|exact AP]|].
    unfold eps. lra. }
  apply Rabs_le_inv in R. replace ((kc + kd + 1) * eta * (A * B)) with ((g + h) * (A * B) + 1.001 * eps * (A * B)) by (unfold g, h, eta; ring).
  assert (0 <= eps * (A * B)) by (apply Rmult_le_pos; [unfold eps; lra|exact AB0]).
  apply Rabs_le. lra.
Qed.

(** ** The error of a record *)
Lemma appr_huge p x A c u bb : appr p x A c u -> (0 <= c <= 100)%Z -> (u <= 130)%Z -> A <= p2 bb -> (0 <= bb <= 122)%Z -> Rabs p <= p2 (bb + 1).
Proof.
  intros (X & P) Hc Hu HA Hb. rewrite p2_succ. pose proof (tiny_p2 u Hu) as T. assert (T20 : p2 (-20) <= / 1000000) by (simpl; lra).
  assert (A0 : 0 <= A) by (pose proof (Rabs_pos x); lra).
  assert (K : 0 <= IZR c <= 100) by (split; apply IZR_le; lia).
  assert (KA : IZR c * eta * A <= / 1000 * A) by (apply Rmult_le_compat_r; [exact A0|]; unfold eta, eps; lra).
  assert (1 <= p2 bb) by (change 1 with (p2 0); apply bpow_le; lia).
  apply Rabs_le_inv in X. apply Rabs_le_inv in P. apply Rabs_le. lra.
Qed.

Theorem poly_err b (v : nat -> f32) (w : nat -> R) e : (0 <= b)%Z -> (forall i, fin (v i) (w i)) -> (forall i, Rabs (w i) <= p2 b) -> small b e = true ->
  exists p, fin (ev32 v e) p /\ appr p (evR w e) (evA w e) (cost e) (under b e).
Proof.
  intros Hb F W S. unfold small in S. repeat (apply andb_true_iff in S; destruct S as [S ?]).
  apply Z.leb_le in H, H0, H1. induction e; cbn [plain] in S; cbn [ev evR evA]; change (@num_arith f32 f32num) with f32arith; try discriminate.
  - exists (w i). split; [apply F|]. cbn [cost under]. split; [lra|]. rewrite Rminus_diag_eq, Rabs_R0 by reflexivity. pose proof tiny_pos. simpl (p2 0). lra.
  - apply andb_true_iff in S. destruct S as [S S3]. apply andb_true_iff in S. destruct S as [S1 S2]. apply Z.leb_le in S1, S2, S3.
    exists (IZR m * bpow radix2 e). split; [apply fin_lit; lia|]. cbn [cost under]. split.
    + rewrite Rabs_mult, (Rabs_pos_eq (bpow radix2 e)) by apply bpow_ge_0. rewrite abs_IZR. lra.
    + rewrite Rminus_diag_eq, Rabs_R0 by reflexivity. pose proof tiny_pos. simpl (p2 0). lra.
  - cbn [cost bits under] in *. apply andb_true_iff in S. destruct S as [S1 S2].
    pose proof (cost_nonneg e1). pose proof (cost_nonneg e2). pose proof (under_nonneg b e1 Hb). pose proof (under_nonneg b e2 Hb).
    pose proof (bits_nonneg b e1 Hb). pose proof (bits_nonneg b e2 Hb).
    destruct (IHe1 S1) as (p & Fp & Ap); try lia. destruct (IHe2 S2) as (q & Fq & Aq); try lia.
    exists (rnd32 (p + q)). split; [|eapply appr_add; eauto; lia].
    pose proof (evA_bits b w e1 Hb S1 W) as B1. pose proof (evA_bits b w e2 Hb S2 W) as B2.
    assert (H1' : Rabs p <= p2 121) by (eapply Rle_trans; [eapply appr_huge; [exact Ap|lia|lia|exact B1|lia]|apply bpow_le; lia]).
    assert (H2' : Rabs q <= p2 121) by (eapply Rle_trans; [eapply appr_huge; [exact Aq|lia|lia|exact B2|lia]|apply bpow_le; lia]).
    apply fin_add; auto. apply (p2_le_HUGE 122); [lia|]. change 122%Z with (121 + 1)%Z. rewrite p2_succ. eapply Rle_trans; [apply Rabs_triang|]. lra.
  - cbn [cost bits under] in *. apply andb_true_iff in S. destruct S as [S1 S2].
    pose proof (cost_nonneg e1). pose proof (cost_nonneg e2). pose proof (under_nonneg b e1 Hb). pose proof (under_nonneg b e2 Hb).
    pose proof (bits_nonneg b e1 Hb). pose proof (bits_nonneg b e2 Hb).
    destruct (IHe1 S1) as (p & Fp & Ap); try lia. destruct (IHe2 S2) as (q & Fq & Aq); try lia.
    exists (rnd32 (p - q)). split; [|].
    2:{ unfold Rminus. eapply appr_add; [exact Ap|apply appr_neg, Aq|lia|lia|lia|lia|split; [reflexivity|exact I]]. }
    pose proof (evA_bits b w e1 Hb S1 W) as B1. pose proof (evA_bits b w e2 Hb S2 W) as B2.
    assert (H1' : Rabs p <= p2 121) by (eapply Rle_trans; [eapply appr_huge; [exact Ap|lia|lia|exact B1|lia]|apply bpow_le; lia]).
    assert (H2' : Rabs q <= p2 121) by (eapply Rle_trans; [eapply appr_huge; [exact Aq|lia|lia|exact B2|lia]|apply bpow_le; lia]).
    apply fin_sub; auto. apply (p2_le_HUGE 122); [lia|]. change 122%Z with (121 + 1)%Z. rewrite p2_succ. unfold Rminus. eapply Rle_trans; [apply Rabs_triang|]. rewrite Rabs_Ropp. lra.
  - cbn [cost bits under] in *. apply andb_true_iff in S. destruct S as [S1 S2].
    pose proof (cost_nonneg e1). pose proof (cost_nonneg e2). pose proof (under_nonneg b e1 Hb). pose proof (under_nonneg b e2 Hb).
    pose proof (bits_nonneg b e1 Hb). pose proof (bits_nonneg b e2 Hb).
    destruct (IHe1 S1) as (p & Fp & Ap); try lia. destruct (IHe2 S2) as (q & Fq & Aq); try lia.
    pose proof (evA_bits b w e1 Hb S1 W) as B1. pose proof (evA_bits b w e2 Hb S2 W) as B2.
    exists (rnd32 (p * q)). split; [|eapply appr_mul; eauto; lia].
    assert (H1' : Rabs p <= p2 (bits b e1 + 1)) by (eapply appr_huge; [exact Ap|lia|lia|exact B1|lia]).
    assert (H2' : Rabs q <= p2 (bits b e2 + 1)) by (eapply appr_huge; [exact Aq|lia|lia|exact B2|lia]).
    apply fin_mul; auto. apply (p2_le_HUGE (bits b e1 + 1 + (bits b e2 + 1))); [lia|]. rewrite bpow_plus, Rabs_mult. apply Rmult_le_compat; auto; apply Rabs_pos.
  - cbn [cost bits under] in *. destruct (IHe S) as (p & Fp & Ap); try lia. exists (- p). split; [apply fin_neg, Fp|apply appr_neg, Ap].
Qed.

Lemma ev_R (v : nat -> R) e : @ev R Rnum v e = evR v e.
Proof.
  induction e; cbn [ev evR]; rewrite ?IHe1, ?IHe2, ?IHe; try reflexivity.
  - change (nlit m e) with (IZR m * powerRZ 2 e). rewrite bpow_powerRZ. reflexivity.
  - change (@nzero R (@num_arith R Rnum)) with (IZR 0 * powerRZ 2 0). ring.
Qed.
(** Terms grow with the variables. *)
Lemma evA_mono (v w : nat -> R) e : (forall i, Rabs (v i) <= w i) -> evA v e <= evA w e.
Proof.
  intros H. induction e; cbn [evA]; try lra.
  - eapply Rle_trans; [apply H|apply Rle_abs].
  - apply Rmult_le_compat; auto using evA_pos.
Qed.
(** The form used below: [w] bounds the variables, [A] the terms. *)
Lemma poly_bound b (v : nat -> f32) (r w : nat -> R) e A : (0 <= b)%Z -> (forall i, fin (v i) (r i)) -> (forall i, Rabs (r i) <= w i) -> (forall i, w i <= p2 b) ->
  small b e = true -> evA w e <= A ->
  exists p, fin (ev32 v e) p /\ Rabs (evR r e) <= A /\ Rabs (p - evR r e) <= IZR (cost e) * eta * A + p2 (under b e) * tiny.
Proof.
  intros Hb F W B S HA. destruct (poly_err b v r e Hb F) as (p & Fp & X & P); auto.
  { intros i. eapply Rle_trans; [apply W|apply B]. }
  pose proof (evA_mono r w e W) as M. exists p. split; [exact Fp|]. split; [lra|].
  eapply Rle_trans; [exact P|]. apply Rplus_le_compat_r, Rmult_le_compat_l; [|lra].
  apply Rmult_le_pos; [apply IZR_le, cost_nonneg|unfold eta, eps; lra].
Qed.
