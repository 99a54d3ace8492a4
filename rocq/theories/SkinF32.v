(** Rounding of the blended matrices and of their application. *)
From Coq Require Import Reals Lra Lia Psatz.
From Flocq Require Import Core.Core IEEE754.BinarySingleNaN.
From Verif Require Import Base Num NumR NumF32 Math MathSpec Blending BlendingProofs Skinning SkinningSpec SkinningProofs
  F32Facts F32Err InterpF32 NormF32 BlendF32 BlendF32Proofs RigidF32 SkinF32Spec.
Local Open Scope R_scope.

(** ** One operation, with no bound but overflow *)
Lemma near_mulH x y v w e f V W : near x v e -> near y w f -> Rabs v <= V -> Rabs w <= W -> 0 <= e -> 0 <= f ->
  (V + e) * (W + f) <= HUGE ->
  near (nmul x y) (v * w) (V * f + W * e + e * f + eps * ((V + e) * (W + f)) + tiny).
Proof.
  intros (r & Fr & Hr) (s & Fs & Hs) HV HW He Hf HB.
  assert (Br : Rabs r <= V + e) by (replace r with (v + (r - v)) by ring; eapply Rle_trans; [apply Rabs_triang|lra]).
  assert (Bs : Rabs s <= W + f) by (replace s with (w + (s - w)) by ring; eapply Rle_trans; [apply Rabs_triang|lra]).
  assert (BP : Rabs (r * s) <= (V + e) * (W + f)) by (rewrite Rabs_mult; apply Rmult_le_compat; auto; apply Rabs_pos).
  exists (rnd32 (r * s)). split; [apply fin_mul; auto; lra|].
  replace (rnd32 (r * s) - v * w) with ((rnd32 (r * s) - r * s) + (v * (s - w) + w * (r - v) + (r - v) * (s - w))) by ring.
  eapply Rle_trans; [apply Rabs_triang|].
  assert (E1 := rnd_close _ _ BP).
  assert (E2 : Rabs (v * (s - w) + w * (r - v) + (r - v) * (s - w)) <= V * f + W * e + e * f).
  { eapply Rle_trans; [apply Rabs_triang|]. apply Rplus_le_compat; [eapply Rle_trans; [apply Rabs_triang|]; apply Rplus_le_compat|];
      rewrite Rabs_mult; apply Rmult_le_compat; auto using Rabs_pos. }
  lra.
Qed.
Lemma near_addH x y v w e f V : near x v e -> near y w f -> Rabs (v + w) <= V -> V + e + f <= HUGE ->
  near (nadd x y) (v + w) (e + f + eps * (V + e + f)).
Proof.
  intros (r & Fr & Hr) (s & Fs & Hs) HV HB.
  assert (BP : Rabs (r + s) <= V + e + f).
  { replace (r + s) with ((v + w) + (r - v) + (s - w)) by ring. eapply Rle_trans; [apply Rabs_triang|].
    apply Rplus_le_compat; [eapply Rle_trans; [apply Rabs_triang|lra]|exact Hs]. }
  exists (rnd32 (r + s)). split; [apply fin_add; auto; lra|].
  destruct (rnd_add_rel r s (fin_fmt _ _ Fr) (fin_fmt _ _ Fs)) as (d & Hd & ->).
  replace ((r + s) * (1 + d) - (v + w)) with ((r - v) + (s - w) + (r + s) * d) by ring.
  eapply Rle_trans; [apply Rabs_triang|]. apply Rplus_le_compat; [eapply Rle_trans; [apply Rabs_triang|lra]|].
  rewrite Rabs_mult, Rmult_comm. apply Rmult_le_compat; auto using Rabs_pos.
Qed.
Lemma near_opp x v e : near x v e -> near (nneg x) (- v) e.
Proof.
  intros (r & F & H). exists (- r). split; [apply fin_neg, F|]. replace (- r - - v) with (- (r - v)) by ring. rewrite Rabs_Ropp. exact H.
Qed.
Lemma near_subH x y v w e f V : near x v e -> near y w f -> Rabs (v - w) <= V -> V + e + f <= HUGE ->
  near (nsub x y) (v - w) (e + f + eps * (V + e + f)).
Proof.
  intros (r & Fr & Hr) (s & Fs & Hs) HV HB.
  assert (BP : Rabs (r - s) <= V + e + f).
  { replace (r - s) with ((v - w) + (r - v) + - (s - w)) by ring. eapply Rle_trans; [apply Rabs_triang|].
    rewrite Rabs_Ropp. apply Rplus_le_compat; [eapply Rle_trans; [apply Rabs_triang|lra]|exact Hs]. }
  exists (rnd32 (r - s)). split; [apply fin_sub; auto; lra|].
  destruct (rnd_sub_rel r s (fin_fmt _ _ Fr) (fin_fmt _ _ Fs)) as (d & Hd & ->).
  replace ((r - s) * (1 + d) - (v - w)) with ((r - v) + - (s - w) + (r - s) * d) by ring.
  eapply Rle_trans; [apply Rabs_triang|]. apply Rplus_le_compat; [eapply Rle_trans; [apply Rabs_triang|rewrite Rabs_Ropp; lra]|].
  rewrite Rabs_mult, Rmult_comm. apply Rmult_le_compat; auto using Rabs_pos.
Qed.

(** ** Entries *)
Lemma ent_col_mul (m : mat4 f32) w r c : (r < 4)%nat -> (c < 4)%nat -> ent (mat4_col_mul m (splat w)) r c = nmul (ent m r c) w.
Proof.
  intros Hr Hc. destruct r as [|[|[|[|r]]]]; [..|lia]; (destruct c as [|[|[|[|c]]]]; [..|lia]); reflexivity.
Qed.
Lemma ent_mat_add (a b : mat4 f32) r c : (r < 4)%nat -> (c < 4)%nat -> ent (mat_add a b) r c = nadd (ent a r c) (ent b r c).
Proof.
  intros Hr Hc. destruct r as [|[|[|[|r]]]]; [..|lia]; (destruct c as [|[|[|[|c]]]]; [..|lia]); reflexivity.
Qed.
Lemma ent_real (m : mat4 f32) r c : (r < 4)%nat -> (c < 4)%nat -> ent (real_mat m) r c = B2R (ent m r c).
Proof.
  intros Hr Hc. destruct r as [|[|[|[|r]]]]; [..|lia]; (destruct c as [|[|[|[|c]]]]; [..|lia]); reflexivity.
Qed.

(** ** Arithmetic of the bounds *)
Lemma tiny_B B : p2 (-40) <= B -> 0 < tiny /\ 100000 * tiny <= / 1000 * (eps * B).
Proof.
  intros H. split; [apply bpow_gt_0|]. pose proof (p2_pos (-40)) as P.
  assert (T : tiny = p2 (-110) * p2 (-40)) by (unfold tiny; rewrite <- bpow_plus; reflexivity).
  assert (K : p2 (-110) <= / 2 ^ 60).
  { change (p2 (-110)) with (p2 (- (110))%Z); rewrite (p2_inv 110) by lia. apply Rinv_le_contravar; [apply pow_lt; lra|]. apply Rle_pow; [lra|]. change (Z.to_nat 110) with 110%nat. lia. }
  assert (K2 : 100000 * p2 (-110) <= / 1000 * eps) by (revert K; generalize (p2 (-110)); intros q K; simpl in K; unfold eps; lra).
  rewrite T. apply Rle_trans with (/ 1000 * (eps * p2 (-40))).
  - replace (100000 * (p2 (-110) * p2 (-40))) with (100000 * p2 (-110) * p2 (-40)) by ring. rewrite <- Rmult_assoc. apply Rmult_le_compat_r; lra.
  - apply Rmult_le_compat_l; [lra|]. apply Rmult_le_compat_l; [unfold eps; lra|exact H].
Qed.
Lemma step_bound J a b t : 1 <= J <= 4096 -> 0 <= a -> 0 <= b -> 0 <= t ->
  (1.01 * eps * J * a + 2 * J * t) + (eps * b + t) + eps * ((a + b) + (1.01 * eps * J * a + 2 * J * t) + (eps * b + t))
  <= 1.01 * eps * (J + 1) * (a + b) + 2 * (J + 1) * t.
Proof.
  intros HJ Ha Hb Ht. unfold eps.
  assert (0 <= J * a <= 4096 * a) by (split; [apply Rmult_le_pos; lra|apply Rmult_le_compat_r; lra]).
  assert (0 <= J * t <= 4096 * t) by (split; [apply Rmult_le_pos; lra|apply Rmult_le_compat_r; lra]).
  assert (b <= J * b) by (rewrite <- (Rmult_1_l b) at 1; apply Rmult_le_compat_r; lra).
  lra.
Qed.
Lemma sum_bound J a b : 0 <= J <= 4096 -> 0 <= a -> 0 <= b ->
  1.01 * eps * J * a + 0 + eps * ((a + b) + 1.01 * eps * J * a + 0) <= 1.01 * eps * (J + 1) * (a + b).
Proof.
  intros HJ Ha Hb. unfold eps.
  assert (0 <= J * a <= 4096 * a) by (split; [apply Rmult_le_pos; lra|apply Rmult_le_compat_r; lra]).
  assert (0 <= J * b) by (apply Rmult_le_pos; lra).
  lra.
Qed.

(** ** The blended entry: weights [w 0 .. w (k-1)] stored, the last one computed *)
Section Entry.
  Variables (B : R) (w : nat -> R) (m : nat -> R).
  Hypotheses (HB : p2 (-40) <= B <= p2 40) (Hm : forall k, Rabs (m k) <= B).
  Notation A jj := (rsum jj (fun k => Rabs (w k))).
  Lemma A_pos jj : 0 <= A jj.
  Proof using. induction jj as [|jj IH]; cbn; [lra|]. pose proof (Rabs_pos (w jj)). lra. Qed.
  Lemma B_pos : 0 < B. Proof using HB. pose proof (p2_pos (-40)). lra. Qed.
  Lemma sum_le jj : Rabs (rsum jj (fun k => w k * m k)) <= B * A jj.
  Proof using Hm HB.
    induction jj as [|jj IH]; cbn [rsum]; [rewrite Rabs_R0; lra|]. eapply Rle_trans; [apply Rabs_triang|].
    assert (Rabs (w jj * m jj) <= B * Rabs (w jj)).
    { rewrite Rabs_mult, Rmult_comm. apply Rmult_le_compat_r; [apply Rabs_pos|apply Hm]. }
    lra.
  Qed.
  Lemma wsum_le jj : Rabs (rsum jj w) <= A jj.
  Proof using. induction jj as [|jj IH]; cbn [rsum]; [rewrite Rabs_R0; lra|]. eapply Rle_trans; [apply Rabs_triang|]. lra. Qed.
  Lemma big4 : 1000000 * B <= HUGE.
  Proof using HB.
    apply Rle_trans with (p2 60); [|apply bpow_le; lia].
    apply Rle_trans with (1000000 * p2 40); [lra|]. replace (p2 60) with (p2 20 * p2 40) by (rewrite <- bpow_plus; reflexivity).
    apply Rmult_le_compat_r; [left; apply p2_pos|]. simpl. lra.
  Qed.

  Lemma term_near x y k : fin x (m k) -> fin y (w k) -> Rabs (w k) <= 3 -> near (nmul x y) (w k * m k) (eps * (B * Rabs (w k)) + tiny).
  Proof using Hm HB.
    intros Fx Fy Hw. rewrite Rmult_comm. pose proof B_pos. pose proof big4. pose proof (Rabs_pos (w k)) as PW.
    assert (BW : B * Rabs (w k) <= B * 3) by (apply Rmult_le_compat_l; lra).
    eapply near_le; [apply (near_mulH x y (m k) (w k) 0 0 B (Rabs (w k)) (near_fin _ _ Fx) (near_fin _ _ Fy)); auto; lra|].
    lra.
  Qed.
  Lemma entry_step x y z jj : (1 <= jj)%nat -> INR jj <= 4096 -> A (S jj) <= 2 ->
    near x (rsum jj (fun k => w k * m k)) (1.01 * eps * INR jj * (B * A jj) + 2 * INR jj * tiny) ->
    fin y (m jj) -> fin z (w jj) ->
    near (nadd x (nmul y z)) (rsum (S jj) (fun k => w k * m k)) (1.01 * eps * INR (S jj) * (B * A (S jj)) + 2 * INR (S jj) * tiny).
  Proof using Hm HB.
    intros H1 H2 HA Hx Fy Fz. cbn [rsum] in *. pose proof (A_pos jj) as PA. pose proof (Rabs_pos (w jj)) as PW. pose proof B_pos as PB.
    pose proof big4 as B4. pose proof (tiny_B B (proj1 HB)) as [T0 T1].
    assert (J1 : 1 <= INR jj) by (apply (le_INR 1); exact H1).
    assert (Ha : 0 <= B * A jj <= B * 2) by (split; [apply Rmult_le_pos; lra|apply Rmult_le_compat_l; lra]).
    assert (Hb : 0 <= B * Rabs (w jj) <= B * 2) by (split; [apply Rmult_le_pos; lra|apply Rmult_le_compat_l; lra]).
    pose proof (step_bound (INR jj) (B * A jj) (B * Rabs (w jj)) tiny ltac:(lra) ltac:(lra) ltac:(lra) ltac:(lra)) as SB.
    assert (PJ : 0 <= INR jj * (B * A jj) <= 4096 * (B * 2)) by (split; [apply Rmult_le_pos; lra|apply Rmult_le_compat; lra]).
    assert (PT : 0 <= INR jj * tiny <= 4096 * tiny) by (split; [apply Rmult_le_pos; lra|apply Rmult_le_compat_r; lra]).
    eapply near_le.
    - apply (near_addH x (nmul y z) _ _ _ _ (B * A jj + B * Rabs (w jj)) Hx (term_near y z jj Fy Fz ltac:(lra))).
      + eapply Rle_trans; [apply Rabs_triang|]. apply Rplus_le_compat; [apply sum_le|].
        rewrite Rabs_mult, Rmult_comm. apply Rmult_le_compat_r; [exact PW|apply Hm].
      + unfold eps in *. lra.
    - rewrite S_INR. rewrite (Rmult_plus_distr_l B). exact SB.
  Qed.
  Lemma sum_step x z jj : (1 <= jj)%nat -> INR jj <= 4096 -> A (S jj) <= 2 ->
    near x (rsum jj w) (1.01 * eps * INR jj * A jj) -> fin z (w jj) ->
    near (nadd x z) (rsum (S jj) w) (1.01 * eps * INR (S jj) * A (S jj)).
  Proof using.
    intros H1 H2 HA Hx Fz. cbn [rsum] in *. pose proof (A_pos jj) as PA. pose proof (Rabs_pos (w jj)) as PW.
    assert (J1 : 1 <= INR jj) by (apply (le_INR 1); exact H1). pose proof HUGE_big.
    pose proof (sum_bound (INR jj) (A jj) (Rabs (w jj)) ltac:(lra) ltac:(lra) ltac:(lra)) as SB.
    assert (PJ : 0 <= INR jj * A jj <= 4096 * 2) by (split; [apply Rmult_le_pos; lra|apply Rmult_le_compat; lra]).
    eapply near_le.
    - apply (near_addH x z _ _ _ _ (A jj + Rabs (w jj)) Hx (near_fin _ _ Fz)).
      + eapply Rle_trans; [apply Rabs_triang|]. apply Rplus_le_compat_r, wsum_le.
      + unfold eps in *. lra.
    - rewrite S_INR. exact SB.
  Qed.
  (** The last influence. *)
  Lemma last_near x s y k : (1 <= k)%nat -> INR k <= 4096 -> A k <= 2 ->
    near x (rsum k (fun j => w j * m j)) (1.01 * eps * INR k * (B * A k) + 2 * INR k * tiny) ->
    near s (rsum k w) (1.01 * eps * INR k * A k) -> fin y (m k) ->
    let v := rsum k (fun j => w j * m j) + (1 - rsum k w) * m k in
    near (nadd x (nmul y (nsub none_ s))) v (7.6 * INR (S k) * eps * B) /\ Rabs v <= 5 * B.
  Proof using Hm HB.
    intros H1 H2 HA Hx Hs Fy v. pose proof (A_pos k) as PA. pose proof B_pos as PB. pose proof big4 as B4.
    pose proof (tiny_B B (proj1 HB)) as [T0 T1]. pose proof HUGE_big as HG.
    assert (J1 : 1 <= INR k) by (apply (le_INR 1); exact H1).
    pose proof (wsum_le k) as WS. pose proof (sum_le k) as SM. pose proof (Hm k) as MK.
    assert (L3 : Rabs (1 - rsum k w) <= 3).
    { eapply Rle_trans; [apply Rabs_triang|]. rewrite Rabs_Ropp, Rabs_R1. lra. }
    assert (PJA : 0 <= INR k * A k <= INR k * 2) by (split; [apply Rmult_le_pos; lra|apply Rmult_le_compat_l; lra]).
    assert (BA : 0 <= B * A k <= B * 2) by (split; [apply Rmult_le_pos; lra|apply Rmult_le_compat_l; lra]).
    assert (PJB : 0 <= INR k * (B * A k) <= INR k * (B * 2)) by (split; [apply Rmult_le_pos; lra|apply Rmult_le_compat_l; lra]).
    assert (KB : B <= INR k * B <= 4096 * B) by (split; [rewrite <- (Rmult_1_l B) at 1; apply Rmult_le_compat_r; lra|apply Rmult_le_compat_r; lra]).
    assert (KT : 0 <= INR k * tiny <= 4096 * tiny) by (split; [apply Rmult_le_pos; lra|apply Rmult_le_compat_r; lra]).
    assert (NL : near (nsub none_ s) (1 - rsum k w) (eps * (2.03 * INR k + 3.01))).
    { eapply near_le; [apply (near_subH none_ s 1 (rsum k w) 0 _ 3 (near_fin _ _ fin_one) Hs L3)|]; unfold eps in *; lra. }
    assert (NT : near (nmul y (nsub none_ s)) (m k * (1 - rsum k w)) (eps * (B * (2.03 * INR k + 6.03)) + tiny)).
    { assert (EL : 0 <= eps * (2.03 * INR k + 3.01) <= / 1000) by (unfold eps; lra).
      assert (BE : 0 <= B * (eps * (2.03 * INR k + 3.01)) <= B * / 1000) by (split; [apply Rmult_le_pos; lra|apply Rmult_le_compat_l; lra]).
      eapply near_le; [apply (near_mulH y _ (m k) _ 0 _ B 3 (near_fin _ _ Fy) NL MK L3); lra|].
      unfold eps in *. lra. }
    rewrite (Rmult_comm (m k)) in NT.
    assert (BV : Rabs v <= 5 * B).
    { eapply Rle_trans; [apply Rabs_triang|]. rewrite Rabs_mult.
      assert (Rabs (1 - rsum k w) * Rabs (m k) <= 3 * B) by (apply Rmult_le_compat; auto using Rabs_pos). lra. }
    split; [|exact BV].
    eapply near_le; [apply (near_addH x _ _ _ _ _ (5 * B) Hx NT BV)|]; rewrite ?S_INR; unfold eps in *; lra.
  Qed.
End Entry.

(** ** Applying a blended matrix *)
Section Apply.
  Variables (B P E : R).
  Hypotheses (HB : p2 (-40) <= B <= p2 40) (HP : p2 (-40) <= P <= p2 40) (HE : 0 <= E <= / 500 * B).
  Lemma BP_pos : 0 < B /\ 0 < P /\ 0 < B * P /\ 1000000 * (B * P) <= HUGE /\ 1000000 * B <= HUGE /\ 100000 * tiny <= / 1000 * (eps * (B * P)).
  Proof using HB HP.
    pose proof (p2_pos (-40)) as Z. assert (PB : 0 < B) by lra. assert (PP : 0 < P) by lra.
    assert (PBP : 0 < B * P) by (apply Rmult_lt_0_compat; assumption).
    assert (H80 : B * P <= p2 80).
    { replace (p2 80) with (p2 40 * p2 40) by (rewrite <- bpow_plus; reflexivity). apply Rmult_le_compat; lra. }
    assert (L80 : p2 (-80) <= B * P).
    { replace (p2 (-80)) with (p2 (-40) * p2 (-40)) by (rewrite <- bpow_plus; reflexivity). apply Rmult_le_compat; lra. }
    repeat split; auto.
    - apply Rle_trans with (1000000 * p2 80); [lra|]. apply Rle_trans with (p2 20 * p2 80).
      + apply Rmult_le_compat_r; [left; apply p2_pos|]. simpl. lra.
      + rewrite <- bpow_plus. apply bpow_le. lia.
    - exact (big4 B HB).
    - assert (T : tiny = p2 (-70) * p2 (-80)) by (unfold tiny; rewrite <- bpow_plus; reflexivity).
      assert (K : p2 (-70) <= / 2 ^ 60).
      { change (p2 (-70)) with (p2 (- (70))%Z); rewrite (p2_inv 70) by lia. apply Rinv_le_contravar; [apply pow_lt; lra|]. apply Rle_pow; [lra|]. change (Z.to_nat 70) with 70%nat. lia. }
      rewrite T. apply Rle_trans with (/ 1000 * (eps * p2 (-80))).
      + replace (100000 * (p2 (-70) * p2 (-80))) with (100000 * p2 (-70) * p2 (-80)) by ring. rewrite <- Rmult_assoc.
        apply Rmult_le_compat_r; [left; apply p2_pos|]. clear T. revert K; generalize (p2 (-70)); intros q K; simpl in K; unfold eps; lra.
      + apply Rmult_le_compat_l; [lra|]. apply Rmult_le_compat_l; [unfold eps; lra|exact L80].
  Qed.
  Variables (c0 c1 c2 c3 x y z : f32) (v0 v1 v2 v3 a b c : R).
  Hypotheses (N0 : near c0 v0 E) (N1 : near c1 v1 E) (N2 : near c2 v2 E) (N3 : near c3 v3 E).
  Hypotheses (B0 : Rabs v0 <= 5 * B) (B1 : Rabs v1 <= 5 * B) (B2 : Rabs v2 <= 5 * B) (B3 : Rabs v3 <= 5 * B).
  Hypotheses (Fx : fin x a) (Fy : fin y b) (Fz : fin z c) (Ha : Rabs a <= P) (Hb : Rabs b <= P) (Hc : Rabs c <= P).
  Lemma prod_E d v u p : near d v E -> Rabs v <= 5 * B -> fin u p -> Rabs p <= P -> near (nmul d u) (v * p) (P * E + 5.03 * (eps * (B * P))) /\ Rabs (v * p) <= 5 * (B * P).
  Proof using HB HP HE.
    intros Hd Hv Fu Hp. destruct BP_pos as (PB & PP & PBP & HG & _ & T). pose proof (Rabs_pos v). pose proof (Rabs_pos p).
    assert (EP : 0 <= P * E <= P * (/ 500 * B)) by (split; [apply Rmult_le_pos; lra|apply Rmult_le_compat_l; lra]).
    pose proof tiny_small. split.
    - eapply near_le; [apply (near_mulH d u v p E 0 (5 * B) P Hd (near_fin _ _ Fu) Hv Hp); [lra|lra|unfold eps in *; lra]|unfold eps in *; lra].
    - rewrite Rabs_mult. replace (5 * (B * P)) with (5 * B * P) by ring. apply Rmult_le_compat; auto.
  Qed.
  Lemma vector_near : near (nadd (nmul c2 z) (nadd (nmul c1 y) (nmul c0 x))) (v0 * a + v1 * b + v2 * c) (3 * (P * E) + 40.4 * (eps * (B * P))) /\
    Rabs (v0 * a + v1 * b + v2 * c) <= 15 * (B * P).
  Proof using HB HP HE N0 N1 N2 B0 B1 B2 Fx Fy Fz Ha Hb Hc.
    destruct BP_pos as (PB & PP & PBP & HG & _ & T).
    assert (EP : 0 <= P * E <= P * (/ 500 * B)) by (split; [apply Rmult_le_pos; lra|apply Rmult_le_compat_l; lra]).
    destruct (prod_E c0 v0 x a N0 B0 Fx Ha) as [P0 Q0]. destruct (prod_E c1 v1 y b N1 B1 Fy Hb) as [P1 Q1].
    destruct (prod_E c2 v2 z c N2 B2 Fz Hc) as [P2 Q2].
    assert (Q01 : Rabs (v1 * b + v0 * a) <= 10 * (B * P)) by (eapply Rle_trans; [apply Rabs_triang|lra]).
    assert (Q012 : Rabs (v2 * c + (v1 * b + v0 * a)) <= 15 * (B * P)) by (eapply Rle_trans; [apply Rabs_triang|lra]).
    replace (v0 * a + v1 * b + v2 * c) with (v2 * c + (v1 * b + v0 * a)) by ring. split; [|exact Q012].
    assert (S1 : near (nadd (nmul c1 y) (nmul c0 x)) (v1 * b + v0 * a) (2 * (P * E) + 20.2 * (eps * (B * P)))).
    { eapply near_le; [apply (near_addH _ _ _ _ _ _ (10 * (B * P)) P1 P0 Q01)|]; unfold eps in *; lra. }
    eapply near_le; [apply (near_addH _ _ _ _ _ _ (15 * (B * P)) P2 S1 Q012)|]; unfold eps in *; lra.
  Qed.
  Lemma point_near : near (nadd c3 (nadd (nmul c2 z) (nadd (nmul c1 y) (nmul c0 x)))) (v0 * a + v1 * b + v2 * c + v3)
    ((3 * P + 1) * E + eps * B * (55.7 * P + 5.2)).
  Proof using All.
    destruct BP_pos as (PB & PP & PBP & HG & HG2 & T).
    assert (EP : 0 <= P * E <= P * (/ 500 * B)) by (split; [apply Rmult_le_pos; lra|apply Rmult_le_compat_l; lra]).
    destruct vector_near as [V Q]. rewrite Rplus_comm.
    assert (Q' : Rabs (v3 + (v0 * a + v1 * b + v2 * c)) <= 5 * B + 15 * (B * P)) by (eapply Rle_trans; [apply Rabs_triang|lra]).
    eapply near_le; [apply (near_addH _ _ _ _ _ _ (5 * B + 15 * (B * P)) N3 V Q')|]; unfold eps in *; lra.
  Qed.
End Apply.

(** ** One vertex *)
Lemma rsum_mono a b f : (a <= b)%nat -> (forall j, 0 <= f j) -> rsum a f <= rsum b f.
Proof. intros H Pf. induction H as [|b H IH]; [lra|]. cbn [rsum]. specialize (Pf b). lra. Qed.
Definition its_or32 (ms : list (mat4 f32)) (its : option (list (mat4 f32))) : list (mat4 f32) := match its with Some l => l | None => ms end.
Lemma get_mat_in (ms : list (mat4 f32)) i m : get_mat ms i = Ok m ->
  In m ms /\ matrix (map real_mat ms) (N.to_nat i) = real_mat m /\ (N.to_nat i < length ms)%nat.
Proof.
  unfold get_mat, matrix. intros H. apply ok_or_Ok in H. split; [eapply nth_error_In, H|].
  split; [|apply nth_error_Some; congruence]. apply nth_error_nth. rewrite nth_error_map, H. reflexivity.
Qed.
Lemma lookup2_32 ms its idx w mm : lookup2 ms its idx w = Ok mm -> exists m m',
  mm = (mat4_col_mul m w, mat4_col_mul m' w) /\ In m ms /\ In m' (its_or32 ms its) /\
  matrix (map real_mat ms) (N.to_nat idx) = real_mat m /\ matrix (map real_mat (its_or32 ms its)) (N.to_nat idx) = real_mat m'.
Proof.
  unfold lookup2. intros H. apply bind_Ok in H. destruct H as (m & H1 & H). apply bind_Ok in H. destruct H as (mi & H2 & H).
  inversion H; subst mm. exists m, mi. split; [reflexivity|]. apply get_mat_in in H1. destruct H1 as (I1 & E1 & _).
  destruct its as [its|]; cbn [its_or32].
  - apply get_mat_in in H2. destruct H2 as (I2 & E2 & _). auto.
  - inversion H2; subst. auto.
Qed.

(** Every entry of the first three rows of [m] is within [e] of the weighted sum, which is at most [5 b]. *)
Definition near_sum (b e : R) (k : nat) (m : mat4 f32) (w : nat -> R) (ms : nat -> mat4 R) : Prop :=
  forall r c, (r < 3)%nat -> (c < 4)%nat ->
    near (ent m r c) (rsum k (fun j => w j * ent (ms j) r c)) e /\ Rabs (rsum k (fun j => w j * ent (ms j) r c)) <= 5 * b.

Section Vertex.
  Variables (B : R) (checks : bool) (n : N) (ms : list (mat4 f32)) (its : option (list (mat4 f32))) (indices : list N) (ws : list f32) (i : nat).
  Hypotheses (HB : p2 (-40) <= B <= p2 40) (Hms : forall m, In m ms -> small_mat B m) (Hits : forall m, In m (its_or32 ms its) -> small_mat B m).
  Notation k := (N.to_nat n).
  Notation wt := (fun j => B2R (nth (i * (k - 1) + j) ws nzero)).
  Hypotheses (Hk : (2 <= n <= 4096)%N) (Hs : (N.of_nat i * n < 18446744073709551616)%N).
  Hypotheses (Fw : forall j, (j < k - 1)%nat -> is_finite (nth (i * (k - 1) + j) ws nzero) = true).
  Hypothesis (Aw : rsum (k - 1) (fun j => Rabs (wt j)) <= 2).
  Notation mtx l := (fun j => matrix (map real_mat l) (influence k indices i j)).
  (** the entries, cut beyond what was read *)
  Definition cut (l : list (mat4 f32)) (r c K j : nat) : R := if (j <? K)%nat then ent (mtx l j) r c else 0.
  Definition acc (l : list (mat4 f32)) (jj : nat) (m : mat4 f32) : Prop :=
    forall r c, (r < 3)%nat -> (c < 4)%nat -> (forall j, (j < jj)%nat -> Rabs (ent (mtx l j) r c) <= B) /\
      near (ent m r c) (rsum jj (fun j => wt j * ent (mtx l j) r c)) (1.01 * eps * INR jj * (B * rsum jj (fun j => Rabs (wt j))) + 2 * INR jj * tiny).
  Lemma A_mono jj : (jj <= k - 1)%nat -> rsum jj (fun j => Rabs (wt j)) <= 2.
  Proof using Aw.
    intros H. apply Rle_trans with (2 := Aw). apply rsum_mono; [exact H|]. intros; apply Rabs_pos.
  Qed.
  Lemma w_small jj : (jj < k - 1)%nat -> Rabs (wt jj) <= 2.
  Proof using Aw.
    intros H. pose proof (A_mono (S jj) H) as Q. cbn [rsum] in Q. pose proof (A_pos wt jj) as P. cbn beta in *. lra.
  Qed.
  Lemma cut_B l r c K : (forall j, (j < K)%nat -> Rabs (ent (mtx l j) r c) <= B) -> forall j, Rabs (cut l r c K j) <= B.
  Proof using HB.
    intros H j. unfold cut. destruct (Nat.ltb_spec j K); [apply H; assumption|]. rewrite Rabs_R0. pose proof (p2_pos (-40)). lra.
  Qed.
  Lemma cut_sum l r c K jj : (jj <= K)%nat -> rsum jj (fun j => wt j * ent (mtx l j) r c) = rsum jj (fun j => wt j * cut l r c K j).
  Proof using. intros H. apply rsum_ext. intros j Hj. unfold cut. destruct (Nat.ltb_spec j K) as [Q|Q]; [reflexivity|]. clear - H Hj Q. lia. Qed.
  Lemma acc_first l m : small_mat B m -> mtx l 0%nat = real_mat m -> acc l 1 (mat4_col_mul m (splat (nth (i * (k - 1) + 0) ws nzero))).
  Proof using All.
    intros Hm E r c Hr Hc. destruct (Hm r c Hr Hc) as [F1 B1].
    assert (BB : forall j, (j < 1)%nat -> Rabs (ent (mtx l j) r c) <= B).
    { intros j Hj. replace j with 0%nat by lia. cbn beta in E |- *. rewrite E, ent_real by lia. exact B1. }
    split; [exact BB|]. rewrite ent_col_mul by lia. cbn [rsum]. rewrite !Rplus_0_l.
    cbn beta in E |- *. rewrite E, ent_real by lia. pose proof (tiny_B B (proj1 HB)) as [T0 _].
    pose proof (w_small 0 ltac:(lia)) as W. cbn beta in W. pose proof (Rabs_pos (B2R (nth (i * (k - 1) + 0) ws nzero))) as PW.
    pose proof (p2_pos (-40)) as P4.
    assert (0 <= B * Rabs (B2R (nth (i * (k - 1) + 0) ws nzero))) by (apply Rmult_le_pos; lra).
    eapply near_le; [apply (term_near B (fun _ => B2R (nth (i * (k - 1) + 0) ws nzero)) (fun _ => B2R (ent m r c)) HB (fun _ => B1) _ _ 0%nat
      (fin_of _ F1) (fin_of _ (Fw 0%nat ltac:(lia)))); cbn beta; lra|].
    cbn [INR]. unfold eps in *. lra.
  Qed.
  Lemma acc_next l jj m0 m : (1 <= jj < k - 1)%nat -> acc l jj m0 -> small_mat B m -> mtx l jj = real_mat m ->
    acc l (S jj) (mat_add m0 (mat4_col_mul m (splat (nth (i * (k - 1) + jj) ws nzero)))).
  Proof using All.
    intros Hj HA Hm E r c Hr Hc. destruct (Hm r c Hr Hc) as [F1 B1]. destruct (HA r c Hr Hc) as [BB N0].
    assert (BB' : forall j, (j < S jj)%nat -> Rabs (ent (mtx l j) r c) <= B).
    { intros j Hj'. destruct (Nat.eq_dec j jj) as [->|]; [|apply BB; lia]. cbn beta in E |- *. rewrite E, ent_real by lia. exact B1. }
    split; [exact BB'|]. rewrite ent_mat_add, ent_col_mul by lia.
    rewrite (cut_sum l r c (S jj)) by lia. rewrite (cut_sum l r c (S jj)) in N0 by lia.
    apply (entry_step B wt (cut l r c (S jj)) HB (cut_B l r c (S jj) BB')); auto; [lia| |apply A_mono; lia| |].
    - apply Rle_trans with (INR (N.to_nat 4096)); [apply le_INR; lia|]. rewrite INR_IZR_INZ, N_nat_Z. cbn. lra.
    - unfold cut. destruct (Nat.ltb_spec jj (S jj)); [|lia]. cbn beta in E |- *. rewrite E, ent_real by lia. apply fin_of, F1.
    - apply fin_of, Fw. lia.
  Qed.
  Lemma K4096 jj : (jj <= k)%nat -> INR jj <= 4096.
  Proof using All. intros H. apply Rle_trans with (INR (N.to_nat 4096)); [apply le_INR; lia|]. rewrite INR_IZR_INZ, N_nat_Z. cbn. lra. Qed.
  Lemma weight_map j : weight k (map (fun x : f32 => B2R x) ws) i j = if (j =? k - 1)%nat then 1 - rsum (k - 1) wt else wt j.
  Proof using.
    assert (E : forall q, nth q (map (fun x : f32 => B2R x) ws) 0 = B2R (nth q ws nzero)).
    { intros q. change 0 with (B2R (nzero : f32)). apply (map_nth (fun x : f32 => B2R x)). }
    unfold weight. destruct (j =? k - 1)%nat; [|apply E]. f_equal. apply rsum_ext. intros; apply E.
  Qed.
  Lemma acc_last l m0 m s : acc l (k - 1) m0 -> near s (rsum (k - 1) wt) (1.01 * eps * INR (k - 1) * rsum (k - 1) (fun j => Rabs (wt j))) ->
    small_mat B m -> mtx l (k - 1)%nat = real_mat m ->
    near_sum B (7.6 * INR k * eps * B) k (mat_add m0 (mat4_col_mul m (splat (nsub none_ s)))) (weight k (map (fun x : f32 => B2R x) ws) i) (mtx l).
  Proof using All.
    intros HA Ns Hm E r c Hr Hc. destruct (Hm r c Hr Hc) as [F1 B1]. destruct (HA r c Hr Hc) as [BB N0].
    assert (KK : k = S (k - 1)) by lia.
    assert (BB' : forall j, (j < k)%nat -> Rabs (ent (mtx l j) r c) <= B).
    { intros j Hj'. destruct (Nat.eq_dec j (k - 1)) as [->|]; [|apply BB; lia]. cbn beta in E |- *. rewrite E, ent_real by lia. exact B1. }
    rewrite ent_mat_add, ent_col_mul by lia. rewrite (cut_sum l r c k) in N0 by lia.
    assert (FK : fin (ent m r c) (cut l r c k (k - 1))).
    { unfold cut. destruct (Nat.ltb_spec (k - 1) k); [|lia]. cbn beta in E |- *. rewrite E, ent_real by lia. apply fin_of, F1. }
    pose proof (last_near B wt (cut l r c k) HB (cut_B l r c k BB') _ s _ (k - 1) ltac:(lia) (K4096 (k - 1)%nat ltac:(lia)) Aw N0 Ns FK) as L.
    cbv zeta in L. rewrite <- KK in L.
    match type of L with near _ ?v _ /\ _ => assert (EV : rsum k (fun j => weight k (map (fun x : f32 => B2R x) ws) i j * ent (mtx l j) r c) = v) end.
    { rewrite KK at 1. cbn [rsum]. f_equal.
      - rewrite <- (cut_sum l r c k) by lia. apply rsum_ext. intros j Hj. rewrite weight_map. destruct (Nat.eqb_spec j (k - 1)); [lia|reflexivity].
      - rewrite weight_map, Nat.eqb_refl. f_equal. unfold cut. destruct (Nat.ltb_spec (k - 1) k); [reflexivity|lia]. }
    rewrite EV. exact L.
  Qed.

  Lemma vertex_n_32 mm : vertex_n checks n ms its indices ws i = Ok mm ->
    near_sum B (7.6 * INR k * eps * B) k (fst mm) (weight k (map (fun x : f32 => B2R x) ws) i) (mtx ms) /\
    near_sum B (7.6 * INR k * eps * B) k (snd mm) (weight k (map (fun x : f32 => B2R x) ws) i) (mtx (its_or32 ms its)).
  Proof using All.
    intros H. unfold vertex_n in H.
    rewrite !umul_small in H by nia. cbn [bind] in H.
    apply bind_Ok in H. destruct H as (w0 & W0 & H). apply bind_Ok in H. destruct H as (i0 & I0 & H).
    apply bind_Ok in H. destruct H as (m0 & M0 & H). apply bind_Ok in H. destruct H as ((sum & ml) & FR & H).
    apply bind_Ok in H. destruct H as (i1 & I1 & H). apply bind_Ok in H. destruct H as (m1 & M1 & H).
    inversion H; subst mm; clear H. cbn [fst snd].
    assert (OW : forall jj, N.to_nat (N.of_nat i * (n - 1) + N.of_nat jj) = (i * (k - 1) + jj)%nat).
    { intros jj. rewrite N2Nat.inj_add, N2Nat.inj_mul, N2Nat.inj_sub, !Nat2N.id. reflexivity. }
    assert (OI : forall jj, N.to_nat (N.of_nat i * n + N.of_nat jj) = (i * k + jj)%nat).
    { intros jj. rewrite N2Nat.inj_add, N2Nat.inj_mul, !Nat2N.id. reflexivity. }
    set (Inv := fun (jj : nat) (s : V4 f32 * (mat4 f32 * mat4 f32)) =>
       (exists x, fst s = splat x /\ near x (rsum jj wt) (1.01 * eps * INR jj * rsum jj (fun j => Rabs (wt j)))) /\
       acc ms jj (fst (snd s)) /\ acc (its_or32 ms its) jj (snd (snd s))).
    assert (IN : Inv (k - 1)%nat (sum, ml)).
    { replace (k - 1)%nat with (1 + N.to_nat (N.max (n - 1) 1 - 1))%nat by lia.
      eapply (for_range_inv _ Inv); [|exact FR|].
      - intros jj s s' Hj Bd ((x & S1 & S1') & S2 & S3).
        apply bind_Ok in Bd. destruct Bd as (w & B1 & Bd). apply bind_Ok in Bd. destruct Bd as (ix & B2 & Bd).
        apply bind_Ok in Bd. destruct Bd as (mm & B3 & Bd). inversion Bd; subst s'; clear Bd. cbn [fst snd].
        apply (get_n_nth _ _ _ nzero) in B1. destruct B1 as [B1 _]. rewrite OW in B1.
        apply (get_n_nth _ _ _ 0%N) in B2. destruct B2 as [B2 _]. rewrite OI in B2.
        apply lookup2_32 in B3. destruct B3 as (m & m' & -> & C1 & C2 & C3 & C4). rewrite B2 in C3, C4.
        fold (influence k indices i jj) in C3, C4. subst w. cbn [fst snd].
        split; [|split]; cbn [fst snd].
        + exists (nadd x (nth (i * (k - 1) + jj) ws nzero)). rewrite S1. split; [reflexivity|].
          apply sum_step; [lia|apply K4096; lia|apply A_mono; lia|exact S1'|]. apply fin_of, Fw. lia.
        + apply acc_next; auto. lia.
        + apply acc_next; auto. lia.
      - apply (get_n_nth _ _ _ nzero) in W0. destruct W0 as [W0 _].
        replace (N.of_nat i * (n - 1))%N with (N.of_nat i * (n - 1) + N.of_nat 0)%N in W0 by lia. rewrite OW in W0.
        apply (get_n_nth _ _ _ 0%N) in I0. destruct I0 as [I0 _].
        replace (N.of_nat i * n)%N with (N.of_nat i * n + N.of_nat 0)%N in I0 by lia. rewrite OI in I0.
        apply lookup2_32 in M0. destruct M0 as (m & m' & -> & C1 & C2 & C3 & C4). rewrite I0 in C3, C4. subst w0.
        fold (influence k indices i 0) in C3, C4.
        split; [|split]; cbn [fst snd].
        + eexists. split; [reflexivity|]. cbn [rsum]. rewrite !Rplus_0_l. eapply near_le; [apply near_fin, fin_of, Fw; lia|].
          cbn [INR]. pose proof (Rabs_pos (wt 0%nat)) as PP. cbn beta in PP. unfold eps. lra.
        + apply acc_first; auto.
        + apply acc_first; auto. }
    destruct IN as ((x & S1 & S1') & S2 & S3). cbn [fst snd] in *.
    apply (get_n_nth _ _ _ 0%N) in I1. destruct I1 as [I1 _].
    replace (N.of_nat i * n + n - 1)%N with (N.of_nat i * n + N.of_nat (k - 1))%N in I1 by lia. rewrite OI in I1.
    apply lookup2_32 in M1. destruct M1 as (m & m' & -> & C1 & C2 & C3 & C4). rewrite I1 in C3, C4.
    fold (influence k indices i (k - 1)) in C3, C4. rewrite S1. cbn [fst snd].
    split; (eapply acc_last; [eassumption|exact S1'| |eassumption]; auto).
  Qed.
End Vertex.

Lemma vertex_1_32 B ms its indices ws i mm : p2 (-40) <= B <= p2 40 -> (forall m, In m ms -> small_mat B m) -> (forall m, In m (its_or32 ms its) -> small_mat B m) ->
  vertex_1 ms its indices i = Ok mm ->
  near_sum B (7.6 * INR 1 * eps * B) 1 (fst mm) (weight 1 ws i) (fun j => matrix (map real_mat ms) (influence 1 indices i j)) /\
  near_sum B (7.6 * INR 1 * eps * B) 1 (snd mm) (weight 1 ws i) (fun j => matrix (map real_mat (its_or32 ms its)) (influence 1 indices i j)).
Proof.
  intros HB Hms Hits H. unfold vertex_1 in H. apply bind_Ok in H. destruct H as (ix & H1 & H). apply bind_Ok in H. destruct H as (m & H2 & H).
  apply bind_Ok in H. destruct H as (mi & H3 & H). inversion H; subst mm. cbn [fst snd].
  assert (E : influence 1 indices i 0 = N.to_nat ix).
  { unfold influence. rewrite Nat.mul_1_r, Nat.add_0_r. f_equal. apply nth_error_nth. apply get_Ok, H1. }
  assert (W : weight 1 ws i 0 = 1) by (unfold weight; cbn; ring).
  apply get_mat_in in H2. destruct H2 as (I2 & E2 & _).
  assert (Q : In mi (its_or32 ms its) /\ matrix (map real_mat (its_or32 ms its)) (N.to_nat ix) = real_mat mi).
  { destruct its as [its|]; cbn [its_or32]; [apply get_mat_in in H3; tauto|]. inversion H3; subst. auto. }
  destruct Q as [I3 E3]. pose proof (p2_pos (-40)) as P4.
  assert (G : forall l m, In m l -> (forall m, In m l -> small_mat B m) -> matrix (map real_mat l) (N.to_nat ix) = real_mat m ->
    near_sum B (7.6 * INR 1 * eps * B) 1 m (weight 1 ws i) (fun j => matrix (map real_mat l) (influence 1 indices i j))).
  { intros l m1 I S E1 r c Hr Hc. destruct (S m1 I r c Hr Hc) as [F1 B1]. cbn [rsum]. rewrite W, E, E1, ent_real by lia. rewrite Rplus_0_l, Rmult_1_l.
    split; [|lra]. eapply near_le; [apply near_fin, fin_of, F1|]. cbn [INR]. unfold eps. lra. }
  split; eapply G; eassumption || auto.
Qed.

(** ** One transformed vector *)
Lemma near_is x v e : near x v e -> is_finite x = true /\ Rabs (B2R x - v) <= e.
Proof. intros (r & [F V] & H). rewrite V. auto. Qed.
Section Image.
  Variables (B P : R) (k : nat) (m : mat4 f32) (w : nat -> R) (ms : nat -> mat4 R) (p : vec3 f32) (r : nat).
  Hypotheses (HB : p2 (-40) <= B <= p2 40) (HP : p2 (-40) <= P <= p2 40) (Hk : (1 <= k <= N.to_nat 4096)%nat).
  Hypotheses (Hm : near_sum B (7.6 * INR k * eps * B) k m w ms) (Hp : small_vec P p) (Hr : (r < 3)%nat).
  Lemma E_ok : 0 <= 7.6 * INR k * eps * B <= / 500 * B.
  Proof using All.
    assert (K1 : 1 <= INR k) by (apply (le_INR 1); lia).
    assert (K2 : INR k <= 4096) by (apply Rle_trans with (INR (N.to_nat 4096)); [apply le_INR; lia|]; rewrite INR_IZR_INZ, N_nat_Z; cbn; lra).
    pose proof (p2_pos (-40)). assert (0 <= INR k * B <= 4096 * B) by (split; [apply Rmult_le_pos; lra|apply Rmult_le_compat_r; lra]). unfold eps. lra.
  Qed.
  Lemma image_point : is_finite (coord32 (transform_point3 m p) r) = true /\
    Rabs (B2R (coord32 (transform_point3 m p) r) - rsum k (fun j => w j * apply_point (ms j) (real_vec p) r)) <= INR k * p2 (-19) * B * (3 * P + 1).
  Proof using All.
    apply near_is. destruct (Hm r 0%nat Hr ltac:(lia)) as [N0 B0]. destruct (Hm r 1%nat Hr ltac:(lia)) as [N1 B1].
    destruct (Hm r 2%nat Hr ltac:(lia)) as [N2 B2]. destruct (Hm r 3%nat Hr ltac:(lia)) as [N3 B3].
    destruct (Hp 0%nat ltac:(lia)) as [Fx Bx]. destruct (Hp 1%nat ltac:(lia)) as [Fy By]. destruct (Hp 2%nat ltac:(lia)) as [Fz Bz]. cbn [coord32] in *.
    pose proof (point_near B P _ HB HP E_ok _ _ _ _ _ _ _ _ _ _ _ _ _ _ N0 N1 N2 N3 B0 B1 B2 B3 (fin_of _ Fx) (fin_of _ Fy) (fin_of _ Fz) Bx By Bz) as L.
    assert (EQ : coord32 (transform_point3 m p) r = nadd (ent m r 3) (nadd (nmul (ent m r 2) (vz p)) (nadd (nmul (ent m r 1) (vy p)) (nmul (ent m r 0) (vx p))))).
    { destruct r as [|[|[|r']]]; [..|lia]; reflexivity. }
    rewrite EQ. replace (rsum k (fun j => w j * apply_point (ms j) (real_vec p) r)) with
      (rsum k (fun j => w j * ent (ms j) r 0) * B2R (vx p) + rsum k (fun j => w j * ent (ms j) r 1) * B2R (vy p) +
       rsum k (fun j => w j * ent (ms j) r 2) * B2R (vz p) + rsum k (fun j => w j * ent (ms j) r 3)).
    2:{ rewrite <- !rsum_scale, <- !rsum_plus. apply rsum_ext. intros. unfold apply_point, real_vec. cbn [vx vy vz]. ring. }
    eapply near_le; [exact L|]. clear L EQ N0 N1 N2 N3 B0 B1 B2 B3 Hm.
    assert (P19 : p2 (-19) = 32 * eps) by (unfold eps; simpl; lra). rewrite P19.
    destruct (BP_pos B P HB HP) as (PB & PP & PBP & _). assert (K1 : 1 <= INR k) by (apply (le_INR 1); lia).
    assert (KB : B <= INR k * B) by (rewrite <- (Rmult_1_l B) at 1; apply Rmult_le_compat_r; lra).
    assert (KBP : B * P <= INR k * B * P) by (apply Rmult_le_compat_r; lra).
    unfold eps. lra.
  Qed.
  Lemma image_vector : is_finite (coord32 (transform_vector3 m p) r) = true /\
    Rabs (B2R (coord32 (transform_vector3 m p) r) - rsum k (fun j => w j * apply_vector (ms j) (real_vec p) r)) <= INR k * p2 (-19) * B * (3 * P).
  Proof using All.
    apply near_is. destruct (Hm r 0%nat Hr ltac:(lia)) as [N0 B0]. destruct (Hm r 1%nat Hr ltac:(lia)) as [N1 B1].
    destruct (Hm r 2%nat Hr ltac:(lia)) as [N2 B2].
    destruct (Hp 0%nat ltac:(lia)) as [Fx Bx]. destruct (Hp 1%nat ltac:(lia)) as [Fy By]. destruct (Hp 2%nat ltac:(lia)) as [Fz Bz]. cbn [coord32] in *.
    pose proof (proj1 (vector_near B P _ HB HP E_ok _ _ _ _ _ _ _ _ _ _ _ _ N0 N1 N2 B0 B1 B2 (fin_of _ Fx) (fin_of _ Fy) (fin_of _ Fz) Bx By Bz)) as L.
    assert (EQ : coord32 (transform_vector3 m p) r = nadd (nmul (ent m r 2) (vz p)) (nadd (nmul (ent m r 1) (vy p)) (nmul (ent m r 0) (vx p)))).
    { destruct r as [|[|[|r']]]; [..|lia]; reflexivity. }
    rewrite EQ. replace (rsum k (fun j => w j * apply_vector (ms j) (real_vec p) r)) with
      (rsum k (fun j => w j * ent (ms j) r 0) * B2R (vx p) + rsum k (fun j => w j * ent (ms j) r 1) * B2R (vy p) +
       rsum k (fun j => w j * ent (ms j) r 2) * B2R (vz p)).
    2:{ rewrite <- !rsum_scale, <- !rsum_plus. apply rsum_ext. intros. unfold apply_vector, real_vec. cbn [vx vy vz]. ring. }
    eapply near_le; [exact L|]. clear L EQ N0 N1 N2 B0 B1 B2 Hm.
    assert (P19 : p2 (-19) = 32 * eps) by (unfold eps; simpl; lra). rewrite P19.
    destruct (BP_pos B P HB HP) as (PB & PP & PBP & _). assert (K1 : 1 <= INR k) by (apply (le_INR 1); lia).
    assert (KBP : B * P <= INR k * (B * P)) by (rewrite <- (Rmult_1_l (B * P)) at 1; apply Rmult_le_compat_r; lra).
    unfold eps. lra.
  Qed.
End Image.
