(** Half floats: every u16 is checked. *)
From Coq Require Import Reals Lra.
From Flocq Require Import IEEE754.BinarySingleNaN Core.
From Verif Require Import Base Num NumF32 F32Facts Math Keys KeysSpec.
Local Open Scope N_scope.

(** * Exhaustive checks over all [2^k] values *)
Fixpoint all_bits (k : nat) (base : N) (f : N -> bool) : bool :=
  match k with
  | O => f base
  | S k' => all_bits k' (2 * base) f && all_bits k' (2 * base + 1) f
  end.
Lemma all_bits_spec f : forall k base, all_bits k base f = true ->
  forall i, i < 2 ^ N.of_nat k -> f (base * 2 ^ N.of_nat k + i) = true.
Proof.
  induction k as [|k IH]; intros base H i Hi.
  - simpl in *. replace (base * 1 + i) with base by lia. exact H.
  - cbn [all_bits] in H. apply andb_prop in H. destruct H as [H1 H2].
    rewrite Nnat.Nat2N.inj_succ, N.pow_succ_r' in *.
    destruct (N.lt_ge_cases i (2 ^ N.of_nat k)) as [Hlt|Hge].
    + replace (base * (2 * 2 ^ N.of_nat k) + i) with ((2 * base) * 2 ^ N.of_nat k + i) by lia.
      apply IH; assumption.
    + replace (base * (2 * 2 ^ N.of_nat k) + i)
        with ((2 * base + 1) * 2 ^ N.of_nat k + (i - 2 ^ N.of_nat k)) by lia.
      apply IH; [assumption|lia].
Qed.
Lemma all_u16 f : all_bits 16 0 f = true -> forall n, n < 65536 -> f n = true.
Proof. intros H n Hn. apply (all_bits_spec f 16 0 H n). exact Hn. Qed.

(** * Half floats *)
Definition is_zero (x : f32) : bool := match x with B754_zero _ => true | _ => false end.
Definition is_inf (x : f32) : bool := match x with B754_infinity _ => true | _ => false end.
Definition half_check (n : N) : bool :=
  let x := f16_to_f32 n in
  let b := f32_to_bits x in
  ((N.land n 32767 =? 31743) || (b =? f32_to_bits (simd_f16_lane n))) &&
  (if half_exp n =? 31 then
     if half_frac n =? 0 then is_inf x && Bool.eqb (Bsign x) (half_sign n) else is_nan x
   else Bool.eqb (Bsign x) (half_sign n) &&
     if (half_mant n =? 0)%Z then is_zero x
     else b =? f32_to_bits (f32_lit (half_mant n) (half_scale n))).
Lemma half_checked : all_bits 16 0 half_check = true.
Proof. vm_compute. reflexivity. Qed.

Lemma half_simd_scalar n : n < 65536 -> N.land n 32767 <> 31743 -> simd_f16_lane n = f16_to_f32 n.
Proof.
  intros Hn Hne. pose proof (all_u16 _ half_checked n Hn) as H. unfold half_check in H.
  apply andb_prop in H. destruct H as [H _]. apply orb_prop in H. destruct H as [H|H].
  - apply N.eqb_eq in H. congruence.
  - apply N.eqb_eq in H. apply to_bits_inj. symmetry. exact H.
Qed.

Lemma half_finite n : n < 65536 -> half_exp n <> 31 ->
  is_finite (f16_to_f32 n) = true /\ Bsign (f16_to_f32 n) = half_sign n /\
  B2R (f16_to_f32 n) = half_value n.
Proof.
  intros Hn Hne. pose proof (all_u16 _ half_checked n Hn) as H. unfold half_check in H.
  apply andb_prop in H. destruct H as [_ H].
  destruct (N.eqb_spec (half_exp n) 31); [congruence|].
  apply andb_prop in H. destruct H as [Hs H]. apply Bool.eqb_prop in Hs.
  unfold half_value. destruct (Z.eqb_spec (half_mant n) 0) as [E|E].
  - rewrite E. destruct (f16_to_f32 n) as [s| | |]; try discriminate.
    repeat split; auto. simpl. lra.
  - apply N.eqb_eq, to_bits_inj in H. rewrite H in Hs |- *.
    assert (Hm : (Z.abs (half_mant n) <= 2 ^ 24)%Z).
    { unfold half_mant, half_frac. pose proof (N.mod_lt n 1024 ltac:(discriminate)).
      change (2 ^ 24)%Z with 16777216%Z.
      destruct (half_exp n =? 0), (half_sign n); lia. }
    assert (He : (-149 <= half_scale n <= 103)%Z).
    { unfold half_scale, half_exp. pose proof (N.mod_lt (n / 1024) 32 ltac:(discriminate)). lia. }
    destruct (f32_lit_exact _ _ Hm He) as [F V]. rewrite V. repeat split; auto.
    rewrite bpow_powerRZ. reflexivity.
Qed.
Lemma half_inf n : n < 65536 -> half_exp n = 31 -> half_frac n = 0 ->
  f16_to_f32 n = B754_infinity (half_sign n).
Proof.
  intros Hn He Hf. pose proof (all_u16 _ half_checked n Hn) as H. unfold half_check in H.
  apply andb_prop in H. destruct H as [_ H]. rewrite He, Hf in H. simpl in H.
  apply andb_prop in H. destruct H as [H1 H2]. apply Bool.eqb_prop in H2.
  destruct (f16_to_f32 n); try discriminate. simpl in H2. rewrite H2. reflexivity.
Qed.
Lemma half_nan n : n < 65536 -> half_exp n = 31 -> half_frac n <> 0 -> f16_to_f32 n = B754_nan.
Proof.
  intros Hn He Hf. pose proof (all_u16 _ half_checked n Hn) as H. unfold half_check in H.
  apply andb_prop in H. destruct H as [_ H]. rewrite He in H. simpl in H.
  destruct (N.eqb_spec (half_frac n) 0); [congruence|].
  destruct (f16_to_f32 n); try discriminate. reflexivity.
Qed.

