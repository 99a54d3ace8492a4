(** A calculus of rounding errors: [apx x a e b] says that the binary32 number [x] is finite, within
    [e] of the real number [a], and at most [b] in magnitude. *)
From Coq Require Import Reals Lra Psatz Lia.
From Flocq Require Import IEEE754.BinarySingleNaN Core.
From Verif Require Import Base Num NumF32 F32Facts F32Err.
Local Open Scope R_scope.

(** Half a unit in the last place of the binade of [x]. *)
Lemma rnd_pow x k : (-100 <= k)%Z -> Rabs x <= bpow radix2 k -> Rabs (rnd32 x - x) <= bpow radix2 (k - 25).
Proof.
  intros Hk [H|H].
  - destruct (Req_dec x 0) as [->|Z]; [rewrite rnd32_0, Rminus_0_r, Rabs_R0; apply bpow_ge_0|].
    eapply Rle_trans; [apply error_le_half_ulp; apply fexp_correct; reflexivity|].
    rewrite ulp_neq_0 by exact Z. unfold cexp. 
    replace (bpow radix2 (k - 25)) with (/ 2 * bpow radix2 (k - 24)).
    + apply Rmult_le_compat_l; [lra|]. apply bpow_le. pose proof (mag_le_bpow radix2 x k Z H) as M.
      unfold SpecFloat.fexp, SpecFloat.emin. lia.
    + replace (k - 24)%Z with (1 + (k - 25))%Z by ring. rewrite bpow_plus. simpl (bpow radix2 1). lra.
  - assert (E : rnd32 x = x).
    { apply round_generic; [apply valid_rnd_N|]. apply generic_format_abs_inv. rewrite H. apply generic_format_bpow.
      unfold SpecFloat.fexp, SpecFloat.emin. lia. }
    rewrite E, Rminus_diag_eq, Rabs_R0 by reflexivity. apply bpow_ge_0.
Qed.

Definition apx (x : f32) (a e b : R) : Prop := exists v, fin x v /\ Rabs (v - a) <= e /\ Rabs v <= b.

Lemma apx_weak x a e b e' b' : apx x a e b -> e <= e' -> b <= b' -> apx x a e' b'.
Proof. intros (v & F & H1 & H2) He Hb. exists v. split; [exact F|]. split; lra. Qed.
Lemma apx_exact x v b : fin x v -> Rabs v <= b -> apx x v 0 b.
Proof. intros F H. exists v. split; [exact F|]. rewrite Rminus_diag_eq, Rabs_R0 by reflexivity. split; [lra|exact H]. Qed.

(** [k]: the result before rounding is below [2^k] *)
Lemma apx_mul x y a b ea eb A B k e m : apx x a ea A -> apx y b eb B -> 0 <= A -> 0 <= B -> 0 <= ea -> 0 <= eb ->
  (-100 <= k <= 100)%Z -> A * B <= bpow radix2 k -> ea * B + (A + ea) * eb + bpow radix2 (k - 25) <= e -> A * B + bpow radix2 (k - 25) <= m ->
  apx (nmul x y) (a * b) e m.
Proof.
  intros (v & Fv & Hv & Bv) (w & Fw & Hw & Bw) PA PB Pa Pb Hk H1 H2 H3.
  assert (M : Rabs (v * w) <= A * B) by (rewrite Rabs_mult; apply Rmult_le_compat; auto using Rabs_pos).
  assert (Hg : Rabs (v * w) <= HUGE) by (eapply Rle_trans; [exact M|]; eapply Rle_trans; [exact H1|]; apply bpow_le; lia).
  exists (rnd32 (v * w)). split; [apply fin_mul; assumption|].
  pose proof (rnd_pow (v * w) k ltac:(lia) ltac:(lra)) as Er.
  assert (Ba : Rabs a <= A + ea) by (replace a with (v - (v - a)) by ring; eapply Rle_trans; [apply Rabs_triang|]; rewrite Rabs_Ropp; lra).
  split.
  - replace (rnd32 (v * w) - a * b) with ((rnd32 (v * w) - v * w) + ((v - a) * w + a * (w - b))) by ring.
    eapply Rle_trans; [apply Rabs_triang|]. eapply Rle_trans; [apply Rplus_le_compat_l, Rabs_triang|]. rewrite !Rabs_mult.
    assert (Rabs (v - a) * Rabs w <= ea * B) by (apply Rmult_le_compat; auto using Rabs_pos).
    assert (Rabs a * Rabs (w - b) <= (A + ea) * eb) by (apply Rmult_le_compat; auto using Rabs_pos). lra.
  - replace (rnd32 (v * w)) with ((rnd32 (v * w) - v * w) + v * w) by ring. eapply Rle_trans; [apply Rabs_triang|]. lra.
Qed.
(** [M]: a bound of the sum before rounding *)
Lemma apx_add x y a b ea eb A B k e m M : apx x a ea A -> apx y b eb B -> Rabs (a + b) <= M ->
  (-100 <= k <= 100)%Z -> M + ea + eb <= bpow radix2 k -> ea + eb + bpow radix2 (k - 25) <= e -> M + ea + eb + bpow radix2 (k - 25) <= m ->
  apx (nadd x y) (a + b) e m.
Proof.
  intros (v & Fv & Hv & Bv) (w & Fw & Hw & Bw) HM Hk H1 H2 H3.
  assert (D : Rabs ((v + w) - (a + b)) <= ea + eb).
  { replace ((v + w) - (a + b)) with ((v - a) + (w - b)) by ring. eapply Rle_trans; [apply Rabs_triang|]. lra. }
  assert (S : Rabs (v + w) <= M + ea + eb).
  { replace (v + w) with ((a + b) + ((v + w) - (a + b))) by ring. eapply Rle_trans; [apply Rabs_triang|]. lra. }
  assert (Hg : Rabs (v + w) <= HUGE) by (eapply Rle_trans; [exact S|]; eapply Rle_trans; [exact H1|]; apply bpow_le; lia).
  exists (rnd32 (v + w)). split; [apply fin_add; assumption|].
  pose proof (rnd_pow (v + w) k ltac:(lia) ltac:(lra)) as Er. split.
  - replace (rnd32 (v + w) - (a + b)) with ((rnd32 (v + w) - (v + w)) + ((v + w) - (a + b))) by ring. eapply Rle_trans; [apply Rabs_triang|]. lra.
  - replace (rnd32 (v + w)) with ((rnd32 (v + w) - (v + w)) + (v + w)) by ring. eapply Rle_trans; [apply Rabs_triang|]. lra.
Qed.
Lemma apx_neg x a e b : apx x a e b -> apx (nneg x) (- a) e b.
Proof.
  intros (v & F & H1 & H2). exists (- v). split; [apply fin_neg, F|]. split.
  - replace (- v - - a) with (- (v - a)) by ring. rewrite Rabs_Ropp. exact H1.
  - rewrite Rabs_Ropp. exact H2.
Qed.
Lemma apx_sub x y a b ea eb A B k e m M : apx x a ea A -> apx y b eb B -> Rabs (a - b) <= M ->
  (-100 <= k <= 100)%Z -> M + ea + eb <= bpow radix2 k -> ea + eb + bpow radix2 (k - 25) <= e -> M + ea + eb + bpow radix2 (k - 25) <= m ->
  apx (nsub x y) (a - b) e m.
Proof.
  intros (v & Fv & Hv & Bv) (w & Fw & Hw & Bw) HM Hk H1 H2 H3.
  assert (D : Rabs ((v - w) - (a - b)) <= ea + eb).
  { replace ((v - w) - (a - b)) with ((v - a) + - (w - b)) by ring. eapply Rle_trans; [apply Rabs_triang|]. rewrite Rabs_Ropp. lra. }
  assert (S : Rabs (v - w) <= M + ea + eb).
  { replace (v - w) with ((a - b) + ((v - w) - (a - b))) by ring. eapply Rle_trans; [apply Rabs_triang|]. lra. }
  assert (Hg : Rabs (v - w) <= HUGE) by (eapply Rle_trans; [exact S|]; eapply Rle_trans; [exact H1|]; apply bpow_le; lia).
  exists (rnd32 (v - w)). split; [apply fin_sub; assumption|].
  pose proof (rnd_pow (v - w) k ltac:(lia) ltac:(lra)) as Er. split.
  - replace (rnd32 (v - w) - (a - b)) with ((rnd32 (v - w) - (v - w)) + ((v - w) - (a - b))) by ring. eapply Rle_trans; [apply Rabs_triang|]. lra.
  - replace (rnd32 (v - w)) with ((rnd32 (v - w) - (v - w)) + (v - w)) by ring. eapply Rle_trans; [apply Rabs_triang|]. lra.
Qed.
Lemma apx_lit m e b : (Z.abs m <= 2 ^ 24)%Z -> (-149 <= e <= 103)%Z -> Rabs (IZR m * bpow radix2 e) <= b ->
  apx (nlit m e) (IZR m * bpow radix2 e) 0 b.
Proof. intros Hm He H. apply apx_exact; [apply fin_lit; assumption|exact H]. Qed.
