(** Rounding errors of the binary32 operations, for values far from overflow. *)
From Coq Require Import Reals Lra Psatz.
From Flocq Require Import IEEE754.BinarySingleNaN Core Relative.
From Verif Require Import Base Num NumF32 F32Facts.
Local Open Scope R_scope.

Definition eps := / 16777216.        (* 2^-24 *)
Definition tiny := bpow radix2 (-150).

Lemma rnd_err x : Rabs (rnd32 x - x) <= eps * Rabs x + tiny.
Proof.
  destruct (error_N_FLT radix2 (-149) 24 ltac:(reflexivity) (fun x => negb (Z.even x)) x) as (e & t & He & Ht & _ & E).
  change (rnd32 x) with (round radix2 (FLT_exp (-149) 24) (Znearest (fun x => negb (Z.even x))) x). rewrite E.
  replace (x * (1 + e) + t - x) with (x * e + t) by ring.
  eapply Rle_trans; [apply Rabs_triang|]. rewrite Rabs_mult.
  apply Rplus_le_compat.
  - rewrite Rmult_comm. apply Rmult_le_compat_r; [apply Rabs_pos|].
    eapply Rle_trans; [exact He|]. unfold eps. simpl. lra.
  - eapply Rle_trans; [exact Ht|]. unfold tiny. change (-150)%Z with (-1 + -149)%Z. rewrite bpow_plus. simpl (bpow radix2 (-1)).
    apply Rmult_le_compat_r; [apply bpow_ge_0|]. lra.
Qed.

Definition HUGE := bpow radix2 127.
Lemma rnd_lt_BIG x : Rabs x <= HUGE -> Rabs (rnd32 x) < BIG.
Proof.
  intros H. apply Rle_lt_trans with HUGE.
  - apply abs_round_le_generic; auto.
    + apply fexp_correct; reflexivity.
    + apply valid_rnd_N.
    + apply generic_format_bpow. vm_compute. discriminate.
  - apply bpow_lt. reflexivity.
Qed.

(** [fin x r]: [x] is a finite number with real value [r]. *)
Definition fin (x : f32) (r : R) : Prop := is_finite x = true /\ B2R x = r.

Lemma fin_add x y a b : fin x a -> fin y b -> Rabs (a + b) <= HUGE -> fin (nadd x y) (rnd32 (a + b)).
Proof.
  intros (Fx & Ex) (Fy & Ey) H. subst a b.
  pose proof (Bplus_correct 24 128 _ _ mode_NE x y Fx Fy) as C. simpl round_mode in C.
  rewrite Rlt_bool_true in C by (apply rnd_lt_BIG, H). destruct C as (C1 & C2 & _). split; assumption.
Qed.
Lemma fin_sub x y a b : fin x a -> fin y b -> Rabs (a - b) <= HUGE -> fin (nsub x y) (rnd32 (a - b)).
Proof.
  intros (Fx & Ex) (Fy & Ey) H. subst a b.
  pose proof (Bminus_correct 24 128 _ _ mode_NE x y Fx Fy) as C. simpl round_mode in C.
  rewrite Rlt_bool_true in C by (apply rnd_lt_BIG, H). destruct C as (C1 & C2 & _). split; assumption.
Qed.
Lemma fin_mul x y a b : fin x a -> fin y b -> Rabs (a * b) <= HUGE -> fin (nmul x y) (rnd32 (a * b)).
Proof.
  intros (Fx & Ex) (Fy & Ey) H. subst a b.
  pose proof (Bmult_correct 24 128 _ _ mode_NE x y) as C. simpl round_mode in C.
  rewrite Rlt_bool_true in C by (apply rnd_lt_BIG, H). destruct C as (C1 & C2 & _).
  split; [|exact C1]. change (nmul x y) with (Bmult mode_NE x y). rewrite C2, Fx, Fy. reflexivity.
Qed.
Lemma fin_div x y a b : fin x a -> fin y b -> b <> 0 -> Rabs (a / b) <= HUGE -> fin (ndiv x y) (rnd32 (a / b)).
Proof.
  intros (Fx & Ex) (Fy & Ey) Hb H. subst a b.
  pose proof (Bdiv_correct 24 128 _ _ mode_NE x y Hb) as C. simpl round_mode in C.
  rewrite Rlt_bool_true in C by (apply rnd_lt_BIG, H). destruct C as (C1 & C2 & _).
  split; [|exact C1]. change (ndiv x y) with (Bdiv mode_NE x y). rewrite C2. exact Fx.
Qed.
Lemma fin_sqrt x a : fin x a -> 0 <= a -> fin (nsqrt x) (rnd32 (sqrt a)).
Proof.
  intros (Fx & Ex) H. subst a.
  destruct (Bsqrt_correct 24 128 _ _ mode_NE x) as (C1 & C2 & _). split; [|exact C1].
  change (nsqrt x) with (Bsqrt mode_NE x : f32). rewrite C2.
  destruct x as [s|s| |[] m e bd]; try discriminate; try reflexivity.
  exfalso. unfold B2R, F2R in H. cbn [Fnum Fexp cond_Zopp] in H.
  pose proof (bpow_gt_0 radix2 e). change (- Z.pos m)%Z with (Zneg m) in H. pose proof (IZR_lt (Zneg m) 0 eq_refl). nra.
Qed.
Lemma fin_neg x a : fin x a -> fin (nneg x) (- a).
Proof.
  intros (Fx & Ex). change (nneg x) with (Bopp x : f32). split; [rewrite is_finite_Bopp; exact Fx|].
  rewrite B2R_Bopp, Ex. reflexivity.
Qed.
Lemma fin_abs x a : fin x a -> fin (nabs x) (Rabs a).
Proof.
  intros (Fx & Ex). change (nabs x) with (Babs x : f32). split; [rewrite is_finite_Babs; exact Fx|].
  rewrite B2R_Babs, Ex. reflexivity.
Qed.
Lemma fin_lit m e : (Z.abs m <= 2 ^ 24)%Z -> (-149 <= e <= 103)%Z -> fin (f32_lit m e) (IZR m * bpow radix2 e).
Proof. apply f32_lit_exact. Qed.
Lemma fin_zero : fin (nzero : f32) 0.
Proof. split; reflexivity. Qed.
Lemma fin_one : fin (none_ : f32) 1.
Proof. change (@none_ f32 _) with (f32_lit 1 0). replace 1 with (IZR 1 * bpow radix2 0) by (simpl; ring). apply fin_lit; simpl; lia. Qed.
Lemma fin_max0 x a : fin x a -> fin (nmax nzero x) (Rmax 0 a).
Proof.
  intros (Fx & Ex). change (@nmax f32 _ nzero x) with (f32_max nzero x). unfold f32_max.
  change (is_nan (@nzero f32 _)) with false. cbv iota.
  assert (Nx : is_nan x = false) by (destruct x; auto; discriminate). rewrite Nx.
  rewrite Bleb_ext by (auto; reflexivity). rewrite zero_ext, ext_finite, Ex by exact Fx.
  destruct (Rle_bool_spec a 0) as [H|H].
  - rewrite Rmax_left by exact H. apply fin_zero.
  - rewrite Rmax_right by lra. split; assumption.
Qed.

Lemma rnd_close x b : Rabs x <= b -> Rabs (rnd32 x - x) <= eps * b + tiny.
Proof.
  intros H. eapply Rle_trans; [apply rnd_err|]. apply Rplus_le_compat_r, Rmult_le_compat_l; [unfold eps; lra|exact H].
Qed.
Lemma tiny_small : 0 < tiny < / 2 ^ 100.
Proof.
  split; [apply bpow_gt_0|]. replace (/ 2 ^ 100) with (bpow radix2 (-100)).
  - apply bpow_lt. reflexivity.
  - simpl. lra.
Qed.
Lemma HUGE_big : 1000000 < HUGE.
Proof. replace 1000000 with (IZR 1000000) by reflexivity. apply Rlt_trans with (bpow radix2 20); [simpl; lra|apply bpow_lt; reflexivity]. Qed.
