(** Sampled poses follow their keys. *)
From Coq Require Import Reals Lra Psatz Sorted.
From Flocq Require Import IEEE754.BinarySingleNaN Core.
From Verif Require Import Base Num NumF32 F32Facts F32Err Math Keys KeysSpec KeysHalf KeysUnit InterpF32.
From Verif Require Import Sampling SamplingSpec SamplingCache SamplingProofs SamplingHist SamplingOrd SamplingProps PoseSpec.
Local Open Scope R_scope.

(** ** Halves *)
Lemma half_value_zero n : half_value n = 0 \/ / 16777216 <= Rabs (half_value n).
Proof.
  unfold half_value. destruct (Z.eq_dec (half_mant n) 0) as [E|E]; [left; rewrite E; ring|right].
  rewrite Rabs_mult, <- abs_IZR.
  assert (H1 : 1 <= IZR (Z.abs (half_mant n))) by (apply (IZR_le 1); lia).
  assert (Hs : (-24 <= half_scale n)%Z) by (unfold half_scale; lia).
  replace (powerRZ 2 (half_scale n)) with (bpow radix2 (half_scale n)) by (rewrite bpow_powerRZ; reflexivity).
  rewrite (Rabs_pos_eq (bpow _ _)) by apply bpow_ge_0.
  replace (/ 16777216) with (1 * bpow radix2 (-24)) by (simpl; lra).
  apply Rmult_le_compat; [lra|apply bpow_ge_0|exact H1|apply bpow_le, Hs].
Qed.
Lemma half_value_bound n : (n < 65536)%N -> half_exp n <> 31%N -> Rabs (half_value n) <= 65536.
Proof.
  intros Hn He. unfold half_value. rewrite Rabs_mult, <- abs_IZR.
  assert (Hm : (half_exp n < 32)%N) by (apply N.mod_lt; discriminate).
  assert (Hf : (half_frac n < 1024)%N) by (apply N.mod_lt; discriminate).
  assert (Hs : (half_scale n <= 5)%Z) by (unfold half_scale; lia).
  assert (H1 : IZR (Z.abs (half_mant n)) <= 2048).
  { apply IZR_le. unfold half_mant. destruct (half_exp n =? 0)%N, (half_sign n); lia. }
  replace (powerRZ 2 (half_scale n)) with (bpow radix2 (half_scale n)) by (rewrite bpow_powerRZ; reflexivity).
  rewrite (Rabs_pos_eq (bpow _ _)) by apply bpow_ge_0.
  replace 65536 with (2048 * bpow radix2 5) by (simpl; lra).
  apply Rmult_le_compat; [apply IZR_le; lia|apply bpow_ge_0|exact H1|apply bpow_le, Hs].
Qed.
Lemma half_fin n : half_ok n -> fin (simd_f16_lane n) (half_value n) /\ Rabs (half_value n) <= 65536.
Proof.
  intros (Hn & He & H1 & H2). split; [|apply half_value_bound; assumption].
  assert (E : simd_f16_lane n = f16_to_f32 n).
  { apply half_simd_scalar; [exact Hn|]. intros E. change 32767%N with (N.ones 15) in E. rewrite N.land_ones in E.
    destruct (N.lt_ge_cases n 32768) as [L|L].
    - rewrite N.mod_small in E by exact L. exact (H1 E).
    - pose proof (N.div_mod n (2 ^ 15) ltac:(discriminate)) as D. rewrite E in D.
      assert (n / 2 ^ 15 = 1)%N by (symmetry; apply N.div_unique with (n - 32768)%N; change (2 ^ 15)%N with 32768%N; lia).
      rewrite H in D. exact (H2 D). }
  rewrite E. destruct (half_finite n Hn He) as (F & _ & V). split; assumption.
Qed.

(** ** The two keys *)
Lemma ends_at_one_spec tm ks l r : ends_at_one tm ks = true -> StronglySorted lt ks -> consecutive l r ks ->
  r = last ks 0%nat -> nlt (tm l) (tm r) = true /\ nle none_ (tm r) = true.
Proof.
  revert l r. induction ks as [|a ks IH]; intros l r H S C E; [destruct C|].
  apply StronglySorted_inv in S. destruct S as [S Fa].
  destruct ks as [|b ks]; [destruct C|]. destruct ks as [|c ks].
  - cbn in C. destruct C as [[-> ->]|[]]. cbn in H. apply andb_prop in H. exact H.
  - change (ends_at_one tm (b :: c :: ks) = true) in H.
    change ((l = a /\ r = b) \/ consecutive l r (b :: c :: ks)) in C.
    assert (E2 : r = last (b :: c :: ks) 0%nat) by exact E.
    destruct C as [[-> ->]|C]; [|apply IH; assumption].
    exfalso. apply StronglySorted_inv in S. destruct S as [S Fb]. rewrite Forall_forall in Fb.
    assert (In (last (c :: ks) 0%nat) (c :: ks)) as I by (apply last_In; discriminate).
    apply Fb in I. change (last (b :: c :: ks) 0%nat) with (last (c :: ks) 0%nat) in E2. lia.
Qed.

Lemma nle_fin (x y : f32) : is_finite x = true -> is_finite y = true -> nle x y = true -> B2R x <= B2R y.
Proof. intros Fx Fy H. apply Bleb_iff in H. rewrite !ext_finite in H by assumption. apply H. Qed.
Lemma nlt_fin (x y : f32) : is_finite x = true -> is_finite y = true -> nlt x y = true -> B2R x < B2R y.
Proof. intros Fx Fy H. apply Bltb_iff in H. rewrite !ext_finite in H by assumption. apply H. Qed.
Lemma unit_fin (x : f32) : nle nzero x = true -> nle x none_ = true -> is_finite x = true /\ 0 <= B2R x <= 1.
Proof.
  intros H0 H1. assert (F : is_finite x = true).
  { destruct x as [s|[]| |s m e b]; try reflexivity; try (vm_compute in H0; discriminate); try (vm_compute in H1; discriminate). }
  split; [exact F|]. split.
  - change 0 with (B2R (nzero : f32)). apply nle_fin; auto.
  - replace 1 with (B2R (none_ : f32)) by apply fin_one. apply nle_fin; auto.
Qed.

Section Pair.
  Variables (nt ns : nat) (tp : list f32) (k : ctrl f32) (r : f32) (t : nat).
  Hypothesis W : wf_chan nt ns tp k.
  Hypothesis Htp : forallb (fun x => nle nzero x && nle x none_) tp = true.
  Hypothesis Hcov : channel_covers (4 * ns) tp k = true.
  Hypotheses (H0 : nle nzero r = true) (H1 : nle r none_ = true) (Ht : (t < 4 * ns)%nat).
  Let p := sample_pair (4 * ns) tp k r t.

  Lemma time_unit i : (i < length (k_prev k))%nat -> is_finite (time tp k i) = true /\ 0 <= B2R (time tp k i) <= 1.
  Proof using W Htp.
    intros Hi. unfold time. pose proof (w_rat _ _ _ _ W) as Hr.
    assert (I : In (nth i (k_ratios k) 0%nat) (k_ratios k)) by (apply nth_In; rewrite Hr; exact Hi).
    apply (w_tp _ _ _ _ W) in I.
    assert (J : In (nth (nth i (k_ratios k) 0%nat) tp nzero) tp) by (apply nth_In; exact I).
    rewrite forallb_forall in Htp. apply Htp in J. apply andb_prop in J. apply unit_fin; apply J.
  Qed.
  Lemma consecutive_In l r' ks : consecutive l r' ks -> In l ks /\ In r' ks.
  Proof.
    revert l r'. induction ks as [|a ks IH]; intros l r' C; [destruct C|]. destruct ks as [|b ks]; [destruct C|].
    change ((l = a /\ r' = b) \/ consecutive l r' (b :: ks)) in C.
    destruct C as [[-> ->]|C]; [split; [left|right; left]; reflexivity|]. destruct (IH _ _ C). split; right; assumption.
  Qed.
  Lemma pair_facts : (fst p < length (k_prev k))%nat /\ (snd p < length (k_prev k))%nat /\
    around (4 * ns) tp k r t (fst p) (snd p).
  Proof.
    destruct (sample_pair_brackets nt ns tp k W r t H0 Ht) as (C & L & E). fold p in C, L, E.
    destruct (consecutive_In _ _ _ C) as [I1 I2].
    apply (track_keys_In ns k) in I1. apply (track_keys_In ns k) in I2. destruct I1 as [I1 _]. destruct I2 as [I2 _].
    destruct (unit_fin r H0 H1) as [Fr Br]. destruct (time_unit _ I1) as [F1 B1]. destruct (time_unit _ I2) as [F2 B2].
    split; [exact I1|]. split; [exact I2|]. split; [exact C|].
    apply nle_fin in L; auto.
    destruct E as [E|E].
    - apply nlt_fin in E; auto. lra.
    - unfold channel_covers in Hcov. rewrite forallb_forall in Hcov.
      specialize (Hcov t ltac:(apply in_seq; lia)).
      destruct (ends_at_one_spec _ _ _ _ Hcov ltac:(apply sorted_filter, sorted_seq) C E) as [A B].
      apply nlt_fin in A; auto. apply nle_fin in B; auto. replace (B2R (none_ : f32)) with 1 in B by (symmetry; apply fin_one). lra.
  Qed.

  (** The fraction the code computes. *)
  Lemma alpha_fin : exists u, fin (alpha tp k r p) u /\ 0 <= u <= 1 /\
    u = alpha_r (B2R (time tp k (fst p))) (B2R (time tp k (snd p))) (B2R r) /\
    Rabs (u - fraction tp k r (fst p) (snd p)) <= 4 * eps /\
    (B2R r = B2R (time tp k (fst p)) -> u = 0).
  Proof.
    destruct pair_facts as (I1 & I2 & _ & A & B).
    destruct (unit_fin r H0 H1) as [Fr Br]. destruct (time_unit _ I1) as [F1 B1]. destruct (time_unit _ I2) as [F2 B2].
    set (tl := B2R (time tp k (fst p))) in *. set (tr := B2R (time tp k (snd p))) in *.
    assert (Gl : fmt tl) by apply generic_format_B2R. assert (Gr : fmt tr) by apply generic_format_B2R.
    assert (Gx : fmt (B2R r)) by apply generic_format_B2R.
    exists (alpha_r tl tr (B2R r)). split; [|split; [|split; [|split]]].
    - unfold alpha, alpha_r. apply fin_div.
      + apply fin_sub; try (split; [assumption|reflexivity]). apply HUGE_ok. lra.
      + apply fin_sub; try (split; [assumption|reflexivity]). apply HUGE_ok. fold tl tr. lra.
      + pose proof (den_pos tl tr Gl Gr ltac:(lra) ltac:(lra) ltac:(lra)) as D. lra.
      + pose proof (quot_range tl tr Gl Gr ltac:(lra) ltac:(lra) ltac:(lra) (B2R r) ltac:(lra)) as D. apply HUGE_ok. lra.
    - apply alpha_range; auto; lra.
    - reflexivity.
    - apply alpha_close; auto; lra.
    - intros ->. apply alpha_left.
  Qed.
End Pair.

(** ** Translations and scales *)
Lemma follow_one (x y t : f32) (a b u f : R) : fin x a -> fin y b -> fin t u -> 0 <= u <= 1 ->
  Rabs a <= 65536 -> Rabs b <= 65536 -> (a = 0 \/ / 16777216 <= Rabs a) -> (b = 0 \/ / 16777216 <= Rabs b) ->
  Rabs (u - f) <= 4 * eps ->
  let v := mix x y t in let m := Rmax (Rabs a) (Rabs b) in
  is_finite v = true /\ B2R v = lerp_r a b u /\
  Rabs (B2R v - (a + (b - a) * f)) <= m * / 524288 /\
  Rmin a b - m * / 4194304 <= B2R v <= Rmax a b + m * / 4194304.
Proof.
  intros Fx Fy Ft Hu Ba Bb Za Zb Hf. cbv zeta.
  pose proof (fin_fmt _ _ Fx) as Ga. pose proof (fin_fmt _ _ Fy) as Gb.
  destruct (lerp_fin a b Ga Gb x y t u Ba Bb Fx Fy Ft Hu) as [F V].
  change (is_finite (mix x y t) = true) in F. change (B2R (mix x y t) = lerp_r a b u) in V.
  split; [exact F|]. split; [exact V|]. rewrite V. split.
  - destruct (Req_dec a 0) as [Ea|Ea]; [destruct (Req_dec b 0) as [Eb|Eb]|].
    + rewrite Ea, Eb. unfold lerp_r. rewrite !Rminus_0_r, rnd32_0, Rmult_0_l, rnd32_0, Rplus_0_l, rnd32_0, !Rmult_0_l, Rplus_0_l, Rminus_0_r, Rabs_R0.
      rewrite Rmax_left by lra. lra.
    + pose proof (lerp_close a b Ga Gb u f (4 * eps) Hu Hf ltac:(unfold eps; lra)) as C.
      destruct (M_bounds a b) as [_ Mb]. destruct Zb as [Zb|Zb]; [contradiction|].
      set (M := Rmax (Rabs a) (Rabs b)) in *. pose proof tiny_small as T. simpl in T. unfold eps in *. lra.
    + pose proof (lerp_close a b Ga Gb u f (4 * eps) Hu Hf ltac:(unfold eps; lra)) as C.
      destruct (M_bounds a b) as [Ma _]. destruct Za as [Za|Za]; [contradiction|].
      set (M := Rmax (Rabs a) (Rabs b)) in *. pose proof tiny_small as T. simpl in T. unfold eps in *. lra.
  - pose proof (lerp_hull a b Ga Gb u Hu) as H. unfold eps in H. set (M := Rmax (Rabs a) (Rabs b)) in *. lra.
Qed.

Lemma sample3_follows nt ns tp k keys d r t :
  wf_chan nt ns tp k -> forallb (fun x => nle nzero x && nle x none_) tp = true ->
  channel_covers (4 * ns) tp k = true -> nle nzero r = true -> nle r none_ = true -> (t < 4 * ns)%nat ->
  length keys = length (k_prev k) -> Forall key3_ok keys ->
  follows3 (4 * ns) tp k keys d r t (sample3 float3_lane (4 * ns) tp k keys d r t).
Proof.
  intros W Htp Hcov H0 H1 Ht HL HK.
  destruct (pair_facts nt ns tp k r t W Htp Hcov H0 H1 Ht) as (I1 & I2 & A).
  destruct (alpha_fin nt ns tp k r t W Htp Hcov H0 H1 Ht) as (u & Fu & Hu & Eu & Cu & Zu).
  unfold sample3. set (p := sample_pair (4 * ns) tp k r t) in *. cbv zeta.
  exists (fst p), (snd p). split; [exact A|].
  rewrite Forall_forall in HK.
  pose proof (HK _ (nth_In keys d (eq_ind_r (fun n => (fst p < n)%nat) I1 HL))) as (K0 & K1 & K2).
  pose proof (HK _ (nth_In keys d (eq_ind_r (fun n => (snd p < n)%nat) I2 HL))) as (L0 & L1 & L2).
  assert (G : forall n m, half_ok n -> half_ok m ->
    let v := mix (simd_f16_lane n) (simd_f16_lane m) (alpha tp k r p) in
    let a := half_value n in let b := half_value m in let M := Rmax (Rabs a) (Rabs b) in
    is_finite v = true /\
    Rabs (B2R v - (a + (b - a) * fraction tp k r (fst p) (snd p))) <= M * / 524288 /\
    Rmin a b - M * / 4194304 <= B2R v <= Rmax a b + M * / 4194304 /\
    (B2R r = B2R (time tp k (fst p)) -> B2R v = a)).
  { intros n m Hn Hm. destruct (half_fin n Hn) as [Fn Bn]. destruct (half_fin m Hm) as [Fm Bm].
    destruct (follow_one _ _ _ _ _ _ _ Fn Fm Fu Hu Bn Bm (half_value_zero n) (half_value_zero m) Cu) as (Q1 & Q2 & Q3 & Q4).
    cbv zeta. split; [exact Q1|]. split; [exact Q3|]. split; [exact Q4|].
    intros E. rewrite Q2, (Zu E). apply lerp_0. exact (fin_fmt _ _ Fn). }
  intros [|[|[|c]]] Hc; [| | |lia].
  - exact (G _ _ K0 L0).
  - exact (G _ _ K1 L1).
  - exact (G _ _ K2 L2).
Qed.

(** ** Rotations *)
(** Norms of nearby vectors are near. *)
Lemma norm_near (w e : nat -> R) (d n N : R) : 0 <= d -> 0 <= n -> 0 <= N ->
  n * n = sum4 (fun c => w c * w c) -> N * N = sum4 (fun c => e c * e c) ->
  (forall c, (c < 4)%nat -> Rabs (w c - e c) <= d) -> n <= N + 2 * d.
Proof.
  intros Hd Hn HN En EN H.
  assert (H4 : sum4 (fun c => Rabs (e c)) <= 2 * N).
  { assert (E : forall q, q * q = Rabs q * Rabs q) by (intros q; rewrite <- Rabs_mult, Rabs_pos_eq; [reflexivity|nra]).
    unfold sum4 in *. rewrite (E (e 0%nat)), (E (e 1%nat)), (E (e 2%nat)), (E (e 3%nat)) in EN.
    pose proof (Rabs_pos (e 0%nat)). pose proof (Rabs_pos (e 1%nat)). pose proof (Rabs_pos (e 2%nat)). pose proof (Rabs_pos (e 3%nat)).
    set (u0 := Rabs (e 0%nat)) in *. set (u1 := Rabs (e 1%nat)) in *. set (u2 := Rabs (e 2%nat)) in *. set (u3 := Rabs (e 3%nat)) in *.
    clearbody u0 u1 u2 u3. apply Rsqr_incr_0_var; [|lra]. unfold Rsqr.
    pose proof (Rle_0_sqr (u0 - u1)). pose proof (Rle_0_sqr (u0 - u2)). pose proof (Rle_0_sqr (u0 - u3)).
    pose proof (Rle_0_sqr (u1 - u2)). pose proof (Rle_0_sqr (u1 - u3)). pose proof (Rle_0_sqr (u2 - u3)). unfold Rsqr in *. lra. }
  apply Rsqr_incr_0_var; [|lra]. unfold Rsqr. rewrite En.
  assert (Q : forall c, (c < 4)%nat -> w c * w c <= e c * e c + 2 * d * Rabs (e c) + d * d).
  { intros c Hc. assert (A : Rabs (w c) <= Rabs (e c) + d).
    { replace (w c) with (e c + (w c - e c)) by ring. eapply Rle_trans; [apply Rabs_triang|]. apply Rplus_le_compat_l, H, Hc. }
    assert (E : forall q, q * q = Rabs q * Rabs q) by (intros q; rewrite <- Rabs_mult, Rabs_pos_eq; [reflexivity|nra]).
    rewrite (E (w c)), (E (e c)). pose proof (Rabs_pos (w c)). pose proof (Rabs_pos (e c)). nra. }
  pose proof (Q 0%nat ltac:(lia)). pose proof (Q 1%nat ltac:(lia)). pose proof (Q 2%nat ltac:(lia)). pose proof (Q 3%nat ltac:(lia)).
  unfold sum4 in *. nra.
Qed.
(** ... and so are their directions. *)
Lemma dir_near (wc ec d n N : R) : 0.6 <= n -> 0.7 <= N -> Rabs (wc - ec) <= d -> Rabs (n - N) <= 2 * d -> Rabs ec <= N ->
  Rabs (wc / n - ec / N) <= 5 * d.
Proof.
  intros Hn HN Hw Hd He.
  replace (wc / n - ec / N) with ((wc - ec) * / n + ec / N * (N - n) * / n) by (field; lra).
  assert (D : 0 <= d) by (eapply Rle_trans; [apply Rabs_pos|exact Hw]).
  assert (In : 0 < / n <= 5 / 3).
  { split; [apply Rinv_0_lt_compat; lra|]. apply Rmult_le_reg_r with n; [lra|]. rewrite Rinv_l by lra. lra. }
  eapply Rle_trans; [apply Rabs_triang|]. rewrite !Rabs_mult, (Rabs_pos_eq (/ n)) by lra.
  assert (R1 : Rabs (ec / N) <= 1).
  { unfold Rdiv. rewrite Rabs_mult, (Rabs_pos_eq (/ N)) by (left; apply Rinv_0_lt_compat; lra).
    apply Rmult_le_reg_r with N; [lra|]. rewrite Rmult_assoc, Rinv_l by lra. lra. }
  rewrite Rabs_minus_sym in Hd. pose proof (Rabs_pos (wc - ec)). pose proof (Rabs_pos (N - n)). pose proof (Rabs_pos (ec / N)).
  assert (A : Rabs (wc - ec) * / n <= d * (5 / 3)) by (apply Rmult_le_compat; lra).
  assert (B : Rabs (ec / N) * Rabs (N - n) <= 1 * (2 * d)) by (apply Rmult_le_compat; lra).
  assert (C : Rabs (ec / N) * Rabs (N - n) * / n <= (1 * (2 * d)) * (5 / 3)) by (apply Rmult_le_compat; try lra; apply Rmult_le_pos; lra).
  lra.
Qed.

Lemma qcomp_cases {A} (P : A -> Prop) (q : quat A) : P (qx q) -> P (qy q) -> P (qz q) -> P (qw q) -> forall c, P (qcomp q c).
Proof. intros ? ? ? ? [|[|[|c]]]; assumption. Qed.

(** A rotation key: four finite components of at most 1.001, squared norm at least 1 - 2^-20. *)
Lemma keyq_facts q : keyq_ok q ->
  (forall c, (c < 4)%nat -> fin (qcomp (quat_decompress q) c) (rot q c) /\ Rabs (rot q c) <= 1.001) /\
  1 - / 1048576 <= sum4 (fun c => rot q c * rot q c).
Proof.
  intros (g & s & v & Hg & Hs & V0 & V1 & V2 & E & U). rewrite E in *.
  destruct (decompress_unit g s v Hg Hs V0 V1 V2) as (A & _ & _ & D & B). cbv zeta in U. specialize (B U).
  split.
  - intros c Hc. split; [split; [apply A, Hc|reflexivity]|].
    assert (rot (pack g s v) c * rot (pack g s v) c <= 1 + / 1048576).
    { unfold sumsq in B. unfold rot. destruct c as [|[|[|[|c]]]]; [| | | |lia]; cbn [qcomp]; nra. }
    apply Rabs_le. split; nra.
  - exact D.
Qed.

Lemma mixq_shape (xa xb : quat f32) (t : f32) :
  let m c := mix (qcomp xa c) (qcomp xb c) t in
  let i := inv_len (m 0%nat) (m 1%nat) (m 2%nat) (m 3%nat) in
  mixq xa xb t = Q4 (nmul (m 0%nat) i) (nmul (m 1%nat) i) (nmul (m 2%nat) i) (nmul (m 3%nat) i).
Proof. cbv zeta. unfold mixq, inv_len, nrecip, qcomp. reflexivity. Qed.

Lemma nlerp_core (xa xb : quat f32) (t : f32) (a b : nat -> R) (u f : R) :
  (forall c, (c < 4)%nat -> fin (qcomp xa c) (a c) /\ Rabs (a c) <= 1.001) ->
  (forall c, (c < 4)%nat -> fin (qcomp xb c) (b c) /\ Rabs (b c) <= 1.001) ->
  1 - / 1048576 <= sum4 (fun c => a c * a c) -> 1 - / 1048576 <= sum4 (fun c => b c * b c) ->
  0 <= sum4 (fun c => a c * b c) ->
  fin t u -> 0 <= u <= 1 -> 0 <= f <= 1 -> Rabs (u - f) <= 4 * eps ->
  let q := mixq xa xb t in
  let e c := a c + (b c - a c) * f in
  let norm := sqrt (sum4 (fun c => e c * e c)) in
  (forall c, (c < 4)%nat -> is_finite (qcomp q c) = true /\ Rabs (B2R (qcomp q c) - e c / norm) <= / 131072) /\
  Rabs (sumsq q - 1) <= / 524288.
Proof.
  intros Ha Hb Na Nb Hd Ft Hu Hf Cu. cbv zeta.
  set (e := fun c => a c + (b c - a c) * f). set (w := fun c => lerp_r (a c) (b c) u).
  set (N := sqrt (sum4 (fun c => e c * e c))).
  (* lerp *)
  assert (Hw : forall c, (c < 4)%nat -> fin (mix (qcomp xa c) (qcomp xb c) t) (w c) /\ Rabs (w c - e c) <= 17 * eps /\ Rabs (e c) <= 1.001).
  { intros c Hc. destruct (Ha c Hc) as [Fa Ba]. destruct (Hb c Hc) as [Fb Bb].
    pose proof (fin_fmt _ _ Fa) as Ga. pose proof (fin_fmt _ _ Fb) as Gb.
    split; [|split].
    - apply lerp_fin; auto; lra.
    - eapply Rle_trans; [apply (lerp_close _ _ Ga Gb u f (4 * eps) Hu Cu ltac:(unfold eps; lra))|].
      assert (M : Rmax (Rabs (a c)) (Rabs (b c)) <= 1.001) by (apply Rmax_lub; assumption).
      pose proof tiny_small as T. simpl in T. unfold eps. set (m := Rmax _ _) in *. lra.
    - unfold e. replace (a c + (b c - a c) * f) with ((1 - f) * a c + f * b c) by ring.
      eapply Rle_trans; [apply Rabs_triang|]. rewrite !Rabs_mult, (Rabs_pos_eq (1 - f)), (Rabs_pos_eq f) by lra.
      pose proof (Rabs_pos (a c)). pose proof (Rabs_pos (b c)). nra. }
  (* the exact interpolation is not short *)
  assert (NN : 0.4999 <= sum4 (fun c => e c * e c)).
  { unfold sum4, e in *.
    set (a0 := a 0%nat) in *. set (a1 := a 1%nat) in *. set (a2 := a 2%nat) in *. set (a3 := a 3%nat) in *.
    set (b0 := b 0%nat) in *. set (b1 := b 1%nat) in *. set (b2 := b 2%nat) in *. set (b3 := b 3%nat) in *.
    replace ((a0 + (b0 - a0) * f) * (a0 + (b0 - a0) * f) + (a1 + (b1 - a1) * f) * (a1 + (b1 - a1) * f) +
             (a2 + (b2 - a2) * f) * (a2 + (b2 - a2) * f) + (a3 + (b3 - a3) * f) * (a3 + (b3 - a3) * f)) with
      ((1 - f) * (1 - f) * (a0 * a0 + a1 * a1 + a2 * a2 + a3 * a3) + f * f * (b0 * b0 + b1 * b1 + b2 * b2 + b3 * b3) +
       2 * ((1 - f) * f) * (a0 * b0 + a1 * b1 + a2 * b2 + a3 * b3)) by ring.
    set (A := a0 * a0 + a1 * a1 + a2 * a2 + a3 * a3) in *. set (B := b0 * b0 + b1 * b1 + b2 * b2 + b3 * b3) in *.
    set (D := a0 * b0 + a1 * b1 + a2 * b2 + a3 * b3) in *. clearbody A B D. clear - Na Nb Hd Hf.
    assert (P1 : (1 - f) * (1 - f) * (1 - / 1048576) <= (1 - f) * (1 - f) * A) by (apply Rmult_le_compat_l; [nra|exact Na]).
    assert (P2 : f * f * (1 - / 1048576) <= f * f * B) by (apply Rmult_le_compat_l; [nra|exact Nb]).
    assert (P3 : 0 <= (1 - f) * f * D) by (apply Rmult_le_pos; [nra|exact Hd]).
    pose proof (Rle_0_sqr (f - 1/2)) as P4. unfold Rsqr in P4. nra. }
  assert (N2 : N * N = sum4 (fun c => e c * e c)) by (apply sqrt_sqrt; lra).
  assert (N0 : 0.7 <= N).
  { unfold N. replace 0.7 with (sqrt (0.7 * 0.7)) by (apply sqrt_square; lra). apply sqrt_le_1; lra. }
  assert (Epos : 0 < eps) by (unfold eps; lra).
  set (S := w 0%nat * w 0%nat + w 1%nat * w 1%nat + w 2%nat * w 2%nat + w 3%nat * w 3%nat).
  assert (S0 : 0 <= S) by (unfold S; nra).
  assert (n2 : sqrt S * sqrt S = sum4 (fun c => w c * w c)) by (apply sqrt_sqrt, S0).
  assert (X1 : sqrt S <= N + 2 * (17 * eps)).
  { apply (norm_near w e); try lra; auto using sqrt_pos. intros c Hc. apply (Hw c Hc). }
  assert (X2 : N <= sqrt S + 2 * (17 * eps)).
  { apply (norm_near e w); try lra; auto using sqrt_pos. intros c Hc. rewrite Rabs_minus_sym. apply (Hw c Hc). }
  assert (n0 : 0.69 <= sqrt S) by (unfold eps in X2; lra).
  assert (HS : 0.4 <= S) by (fold S in n2; unfold sum4 in n2; fold S in n2; nra).
  assert (WB : forall c, (c < 4)%nat -> Rabs (w c) <= 2).
  { intros c Hc. destruct (Hw c Hc) as (_ & A & B). replace (w c) with (e c + (w c - e c)) by ring.
    eapply Rle_trans; [apply Rabs_triang|]. unfold eps in A. lra. }
  destruct (Hw 0%nat ltac:(lia)) as (F0 & _). destruct (Hw 1%nat ltac:(lia)) as (F1 & _).
  destruct (Hw 2%nat ltac:(lia)) as (F2 & _). destruct (Hw 3%nat ltac:(lia)) as (F3 & _).
  destruct (normalized _ _ _ _ _ _ _ _ F0 F1 F2 F3 (WB 0%nat ltac:(lia)) (WB 1%nat ltac:(lia)) (WB 2%nat ltac:(lia)) (WB 3%nat ltac:(lia)) HS)
    as (r0 & r1 & r2 & r3 & G0 & G1 & G2 & G3 & C0 & C1 & C2 & C3 & U).
  fold S in C0, C1, C2, C3.
  assert (EN : forall c, (c < 4)%nat -> Rabs (e c) <= N).
  { intros c Hc. apply Rsqr_le_abs_0_alt || idtac. apply Rsqr_incr_0_var; [|lra].
    rewrite <- Rsqr_abs. unfold Rsqr. rewrite N2. unfold sum4.
    destruct c as [|[|[|[|c]]]]; [| | | |lia]; nra. }
  assert (DN : Rabs (sqrt S - N) <= 2 * (17 * eps)) by (apply Rabs_le; lra).
  assert (K : forall c r, (c < 4)%nat -> Rabs (r - w c / sqrt S) <= 5.5 * eps -> Rabs (r - e c / N) <= / 131072).
  { intros c r Hc Hr.
    assert (D : Rabs (w c / sqrt S - e c / N) <= 5 * (17 * eps)).
    { apply dir_near; try lra. apply (Hw c Hc). apply EN, Hc. }
    replace (r - e c / N) with ((r - w c / sqrt S) + (w c / sqrt S - e c / N)) by ring.
    eapply Rle_trans; [apply Rabs_triang|]. unfold eps in *. lra. }
  rewrite (mixq_shape xa xb t). cbv zeta.
  set (i := inv_len _ _ _ _) in *. clearbody i.
  set (v0 := nmul (mix (qcomp xa 0) _ _) i) in *. set (v1 := nmul (mix (qcomp xa 1) _ _) i) in *.
  set (v2 := nmul (mix (qcomp xa 2) _ _) i) in *. set (v3 := nmul (mix (qcomp xa 3) _ _) i) in *.
  clearbody v0 v1 v2 v3. destruct G0 as [P0 V0]. destruct G1 as [P1 V1]. destruct G2 as [P2 V2]. destruct G3 as [P3 V3].
  split.
  - intros c Hc. destruct c as [|[|[|[|c]]]]; [| | | |lia]; cbn [qcomp qx qy qz qw].
    + rewrite V0. split; [assumption|]. apply K; [lia|exact C0].
    + rewrite V1. split; [assumption|]. apply K; [lia|exact C1].
    + rewrite V2. split; [assumption|]. apply K; [lia|exact C2].
    + rewrite V3. split; [assumption|]. apply K; [lia|exact C3].
  - unfold sumsq. cbn [qx qy qz qw]. rewrite V0, V1, V2, V3. exact U.
Qed.

Lemma sampleq_follows nt ns tp k keys d r t :
  wf_chan nt ns tp k -> forallb (fun x => nle nzero x && nle x none_) tp = true ->
  channel_covers (4 * ns) tp k = true -> nle nzero r = true -> nle r none_ = true -> (t < 4 * ns)%nat ->
  length keys = length (k_prev k) -> Forall keyq_ok keys -> hemisphere (4 * ns) k keys d ->
  followsq (4 * ns) tp k keys d r t (sampleq quat_decompress (4 * ns) tp k keys d r t).
Proof.
  intros W Htp Hcov H0 H1 Ht HL HK HH.
  destruct (pair_facts nt ns tp k r t W Htp Hcov H0 H1 Ht) as (I1 & I2 & A).
  destruct (alpha_fin nt ns tp k r t W Htp Hcov H0 H1 Ht) as (u & Fu & Hu & Eu & Cu & Zu).
  unfold sampleq. set (p := sample_pair (4 * ns) tp k r t) in *. cbv zeta.
  exists (fst p), (snd p). split; [exact A|].
  rewrite Forall_forall in HK.
  destruct (keyq_facts _ (HK _ (nth_In keys d (eq_ind_r (fun n => (fst p < n)%nat) I1 HL)))) as (K1 & K2).
  destruct (keyq_facts _ (HK _ (nth_In keys d (eq_ind_r (fun n => (snd p < n)%nat) I2 HL)))) as (L1 & L2).
  apply (nlerp_core _ _ _ _ _ u); auto.
  - exact (HH t _ _ Ht (proj1 A)).
  - destruct A as (_ & B & C). unfold fraction. set (tl := B2R _) in *. set (tr := B2R (time tp k (snd p))) in *.
    split; [apply Rmult_le_pos; [lra|left; apply Rinv_0_lt_compat; lra]|].
    apply Rmult_le_reg_r with (tr - tl); [lra|]. unfold Rdiv. rewrite Rmult_assoc, Rinv_l by lra. lra.
Qed.

(** ** Between the same two keys, components move one way *)
Lemma bracket_same {F} {NF : Num F} (tm : nat -> F) (r r' : F) : forall rest l,
  (forall x, In x (removelast rest) -> nlt r (tm x) = nlt r' (tm x)) ->
  bracket tm r l rest = bracket tm r' l rest.
Proof.
  induction rest as [|x rest IH]; intros l H; [reflexivity|]. destruct rest as [|y rest]; [reflexivity|].
  change (bracket tm r l (x :: y :: rest)) with (if nlt r (tm x) then (l, x) else bracket tm r x (y :: rest)).
  change (bracket tm r' l (x :: y :: rest)) with (if nlt r' (tm x) then (l, x) else bracket tm r' x (y :: rest)).
  rewrite (H x) by (left; reflexivity). destruct (nlt r' (tm x)); [reflexivity|]. apply IH.
  intros z Hz. apply H. right. exact Hz.
Qed.
Lemma sample_pair_same (ns : nat) (tp : list f32) (k : ctrl f32) (r r' : f32) t :
  (forall x, In x (removelast (track_keys (4 * ns) k (length (k_prev k)) t)) -> nlt r (time tp k x) = nlt r' (time tp k x)) ->
  sample_pair (4 * ns) tp k r t = sample_pair (4 * ns) tp k r' t.
Proof.
  intros H. unfold sample_pair. destruct (track_keys _ _ _ _) as [|l rest]; [reflexivity|]. apply bracket_same.
  intros x Hx. apply H. destruct rest as [|y rest]; [destruct Hx|]. right. exact Hx.
Qed.
Lemma sample3_monotone nt ns tp k keys d (r r' : f32) t :
  wf_chan nt ns tp k -> forallb (fun x => nle nzero x && nle x none_) tp = true ->
  channel_covers (4 * ns) tp k = true -> nle nzero r = true -> nle r r' = true -> nle r' none_ = true -> (t < 4 * ns)%nat ->
  length keys = length (k_prev k) -> Forall key3_ok keys ->
  (forall x, In x (removelast (track_keys (4 * ns) k (length (k_prev k)) t)) ->
     ~ (B2R r < B2R (time tp k x) <= B2R r')) ->
  exists kl kr, consecutive kl kr (track_keys (4 * ns) k (length (k_prev k)) t) /\
    forall c, (c < 3)%nat ->
      let a := half_value (coord (nth kl keys d) c) in
      let b := half_value (coord (nth kr keys d) c) in
      let x := B2R (coord (sample3 float3_lane (4 * ns) tp k keys d r t) c) in
      let x' := B2R (coord (sample3 float3_lane (4 * ns) tp k keys d r' t) c) in
      (a <= b -> a <= x <= x') /\ (b <= a -> x' <= x <= a).
Proof.
  intros W Htp Hcov H0 H1 H2 Ht HL HK HN.
  assert (R1 : nle r none_ = true) by (eapply ord_trans; eassumption).
  assert (R2 : nle nzero r' = true) by (eapply ord_trans; eassumption).
  assert (SP : sample_pair (4 * ns) tp k r t = sample_pair (4 * ns) tp k r' t).
  { apply sample_pair_same. intros x Hx. pose proof (HN x Hx) as Nx.
    assert (I : In x (track_keys (4 * ns) k (length (k_prev k)) t)).
    { clear - Hx. revert Hx. generalize (track_keys (4 * ns) k (length (k_prev k)) t) as l. induction l as [|y l IH]; [easy|].
      destruct l as [|z l]; [easy|]. intros [->|Hx]; [left; reflexivity|right; apply IH, Hx]. }
    apply (track_keys_In ns k) in I. destruct I as [I _].
    destruct (time_unit nt ns tp k W Htp x I) as [Fx Bx].
    destruct (unit_fin r H0 R1) as [Fr Br]. destruct (unit_fin r' R2 H2) as [Fr' Br'].
    pose proof (nle_fin _ _ Fr Fr' H1) as Hrr.
    destruct (nlt r (time tp k x)) eqn:E1, (nlt r' (time tp k x)) eqn:E2; try reflexivity.
    - exfalso. apply Nx. apply nlt_fin in E1; auto. split; [exact E1|].
      rewrite (ord_total (time tp k x) r' (w_num _ _ _ _ W x I) (proj2 (ord_num _ _ R2))) in E2.
      destruct (nle (time tp k x) r') eqn:E3; [|discriminate]. apply nle_fin in E3; auto.
    - exfalso. apply nlt_fin in E2; auto.
      rewrite (ord_total (time tp k x) r (w_num _ _ _ _ W x I) (proj2 (ord_num _ _ H0))) in E1.
      destruct (nle (time tp k x) r) eqn:E3; [|discriminate]. apply nle_fin in E3; auto. lra. }
  destruct (pair_facts nt ns tp k r t W Htp Hcov H0 R1 Ht) as (I1 & I2 & A).
  destruct (alpha_fin nt ns tp k r t W Htp Hcov H0 R1 Ht) as (u & Fu & Hu & Eu & Cu & Zu).
  destruct (alpha_fin nt ns tp k r' t W Htp Hcov R2 H2 Ht) as (u' & Fu' & Hu' & Eu' & Cu' & Zu').
  unfold sample3. rewrite <- SP in *. set (p := sample_pair (4 * ns) tp k r t) in *. cbv zeta.
  exists (fst p), (snd p). split; [exact (proj1 A)|].
  rewrite Forall_forall in HK.
  pose proof (HK _ (nth_In keys d (eq_ind_r (fun n => (fst p < n)%nat) I1 HL))) as (K0 & K1 & K2).
  pose proof (HK _ (nth_In keys d (eq_ind_r (fun n => (snd p < n)%nat) I2 HL))) as (L0 & L1 & L2).
  assert (UU : u <= u').
  { rewrite Eu, Eu'. destruct A as (_ & A1 & A2). destruct (time_unit nt ns tp k W Htp _ I1) as [T1 T2].
    destruct (time_unit nt ns tp k W Htp _ I2) as [T3 T4].
    destruct (unit_fin r H0 R1) as [Fr Br]. destruct (unit_fin r' R2 H2) as [Fr' Br'].
    apply alpha_mono; try apply generic_format_B2R; try lra. apply nle_fin; auto. }
  assert (G : forall n m, half_ok n -> half_ok m ->
    let x := mix (simd_f16_lane n) (simd_f16_lane m) (alpha tp k r p) in
    let x' := mix (simd_f16_lane n) (simd_f16_lane m) (alpha tp k r' p) in
    let a := half_value n in let b := half_value m in
    (a <= b -> a <= B2R x <= B2R x') /\ (b <= a -> B2R x' <= B2R x <= a)).
  { intros n m Hn Hm. destruct (half_fin n Hn) as [Fn Bn]. destruct (half_fin m Hm) as [Fm Bm].
    destruct (follow_one _ _ _ _ _ _ _ Fn Fm Fu Hu Bn Bm (half_value_zero n) (half_value_zero m) Cu) as (_ & Q2 & _).
    destruct (follow_one _ _ _ _ _ _ _ Fn Fm Fu' Hu' Bn Bm (half_value_zero n) (half_value_zero m) Cu') as (_ & Q2' & _).
    cbv zeta. rewrite Q2, Q2'. pose proof (lerp_0 _ (half_value m) (fin_fmt _ _ Fn)) as Z.
    split; intros Hab.
    - split; [|apply lerp_mono_up; lra].
      eapply Rle_trans; [right; symmetry; exact Z|]. apply lerp_mono_up; lra.
    - split; [apply lerp_mono_down; lra|].
      eapply Rle_trans; [|right; exact Z]. apply lerp_mono_down; lra. }
  intros [|[|[|c]]] Hc; [| | |lia].
  - exact (G _ _ K0 L0).
  - exact (G _ _ K1 L1).
  - exact (G _ _ K2 L2).
Qed.
