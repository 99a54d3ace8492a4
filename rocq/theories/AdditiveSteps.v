(** Additive layers in single precision: errors of any number of layers. *)
From Coq Require Import Reals Lra Psatz.
From Flocq Require Import IEEE754.BinarySingleNaN Core Relative.
From Verif Require Import Base Num NumR NumF32 F32Facts F32Err InterpF32 NormF32 Math MathSpec MathProofs Keys KeysSpec Skeleton Blending BlendingProofs BlendingSpec
  BlendingReal BlendLane BlendF32 BlendF32Spec BlendF32Proofs BlendMean RigidF32 SkinF32 AdditiveSpec AdditiveProofs QuatNorm AdditiveF32.
Local Open Scope R_scope.

(** ** The real layer *)
Lemma joint_exact (l : list (transform (V4 f32))) i : joint (map real_soa l) i = exact (joint l i).
Proof.
  unfold joint.
  transitivity (lane_tr (real_soa (nth (i / 4) l tr_identity)) (i mod 4)).
  { f_equal. rewrite <- (map_nth real_soa). f_equal. symmetry. exact real_identity. }
  assert (G : forall t m, (m < 4)%nat -> lane_tr (real_soa t) m = exact (lane_tr t m)).
  { intros t m Hm. destruct m as [|[|[|[|m]]]]; [..|lia]; reflexivity. }
  apply G. apply Nat.mod_upper_bound. lia.
Qed.
Lemma mask_real (l : layer f32) i : mask (map (map4 (@B2R 24 128)) (ly_joint_weights l)) i =
  match ly_joint_weights l with [] => 1 | ws => Rmax 0 (B2R (lane (nth (i / 4) ws nzero) (i mod 4))) end.
Proof.
  unfold mask. destruct (ly_joint_weights l) as [|a ws]; [reflexivity|]. cbn [map]. f_equal.
  change (map4 (@B2R 24 128) a :: map (map4 (@B2R 24 128)) ws) with (map (map4 (@B2R 24 128)) (a :: ws)).
  assert (Z : (nzero : V4 R) = map4 (@B2R 24 128) (nzero : V4 f32)).
  { apply V4_ext; intros [|[|[|[|j]]]] Hj; try lia; transitivity (nzero : R); try reflexivity; rewrite nzero_R; reflexivity. }
  etransitivity; [|apply lane_map4]. f_equal. rewrite <- (map_nth (map4 (@B2R 24 128))). f_equal. exact Z.
Qed.
Definition aw (i : nat) (l : layer f32) : R := additive_weight (real_layer l) i.
Lemma aw_eq i l : aw i l = Rabs (B2R (ly_weight l)) *
  match ly_joint_weights l with [] => 1 | ws => Rmax 0 (B2R (lane (nth (i / 4) ws nzero) (i mod 4))) end.
Proof.
  change (aw i l) with (Rabs (B2R (ly_weight l)) * mask (map (map4 (@B2R 24 128)) (ly_joint_weights l)) i). rewrite mask_real. reflexivity.
Qed.
(** The weight of a layer, as computed. *)
Lemma aw_err i l w : usable_additive i l -> B2R (ly_weight l) <> 0 -> fin w (Rabs (B2R (ly_weight l))) ->
  exists W', fin (ga_w w l i) W' /\ 0 <= aw i l <= 4 /\ Rabs (W' - aw i l) <= eps * aw i l + tiny.
Proof.
  intros (_ & B & U) NZ Fw. destruct (U NZ) as [_ UJ]. rewrite aw_eq. unfold ga_w. set (a := Rabs (B2R (ly_weight l))) in *.
  assert (A0 : 0 <= a) by apply Rabs_pos. clearbody a. pose proof tiny_pos as TP.
  destruct (ly_joint_weights l) as [|v ws] eqn:E.
  - exists a. split; [exact Fw|]. split; [lra|]. replace (a - a * 1) with 0 by ring. rewrite Rabs_R0. unfold eps. lra.
  - destruct (UJ ltac:(discriminate)) as [FJ BJ]. clear UJ U. set (j := lane (nth (i / 4) (v :: ws) nzero) (i mod 4)) in *.
    pose proof (fin_max _ _ _ _ (fin_of _ FJ) fin_zero) as FM. rewrite Rmax_comm in FM.
    assert (M : 0 <= Rmax 0 (B2R j) <= 1) by (split; [apply Rmax_l|apply Rmax_lub; lra]).
    set (m := Rmax 0 (B2R j)) in *. clearbody m.
    assert (P : 0 <= a * m <= 4) by (split; nra).
    exists (rnd32 (a * m)). split; [|split; [exact P|]].
    + apply fin_mul; auto. apply (p2_le_HUGE 2); [lia|]. rewrite Rabs_pos_eq by lra. simpl. lra.
    + pose proof (rnd_err (a * m)) as R. rewrite (Rabs_pos_eq (a * m)) in R by lra. exact R.
Qed.
(** What a layer does, by the sign of its weight. *)
Lemma step_cases i o p l : usable_additive i l ->
  (B2R (ly_weight l) = 0 /\ ga_step i o l = o /\ added i p (real_layer l) = p) \/
  (exists w W', fin w W' /\ 0 <= aw i l <= 4 /\ Rabs (W' - aw i l) <= eps * aw i l + tiny /\ B2R (ly_weight l) <> 0 /\
     usable_transform (joint (ly_transform l) i) /\
     let t := joint (ly_transform l) i in let e := exact t in let a := aw i l in
     ((ga_step i o l = ga_add t w o /\
       added i p (real_layer l) = TR (plus3 (tr_t p) (scale3 a (tr_t e))) (hamilton (tr_r p) (partial_turn a (tr_r e)))
         (V3 (vx (tr_s p) * partial_scale a (vx (tr_s e))) (vy (tr_s p) * partial_scale a (vy (tr_s e))) (vz (tr_s p) * partial_scale a (vz (tr_s e))))) \/
      (ga_step i o l = ga_sub t w o /\
       added i p (real_layer l) = TR (minus3 (tr_t p) (scale3 a (tr_t e))) (hamilton (tr_r p) (conj (partial_turn a (tr_r e))))
         (V3 (vx (tr_s p) / partial_scale a (vx (tr_s e))) (vy (tr_s p) / partial_scale a (vy (tr_s e))) (vz (tr_s p) / partial_scale a (vz (tr_s e))))))).
Proof.
  intros U. pose proof U as (F & B & UT). pose proof (fin_of _ F) as FW.
  unfold ga_step, added. change (ly_weight (real_layer l)) with (B2R (ly_weight l)).
  change (ly_transform (real_layer l)) with (map real_soa (ly_transform l)). rewrite joint_exact.
  fold (aw i l). cbv zeta. change (@num_arith f32 f32num) with f32arith. rewrite (nlt0_fin _ _ FW), (nlt0_sign _ _ FW).
  destruct (Rlt_dec 0 (B2R (ly_weight l))) as [P|P].
  - right. destruct (aw_err i l (ly_weight l) U) as (W' & FW' & R & E); [lra|rewrite Rabs_pos_eq by lra; exact FW|].
    exists (ga_w (ly_weight l) l i), W'. split; [exact FW'|]. split; [exact R|]. split; [exact E|]. split; [lra|]. split; [apply UT; lra|]. left. split; reflexivity.
  - destruct (Rlt_dec (B2R (ly_weight l)) 0) as [Q|Q].
    + right. destruct (aw_err i l (nneg (ly_weight l)) U) as (W' & FW' & R & E); [lra|rewrite Rabs_left by lra; apply fin_neg, FW|].
      exists (ga_w (nneg (ly_weight l)) l i), W'. split; [exact FW'|]. split; [exact R|]. split; [exact E|]. split; [lra|]. split; [apply UT; lra|]. right. split; reflexivity.
    + left. split; [lra|]. split; reflexivity.
Qed.

(** ** Rotation *)
Lemma usable_rot t : usable_transform t -> finq (tr_r t) (tr_r (exact t)) /\ Rabs (norm2 (tr_r (exact t)) - 1) <= / 1024.
Proof.
  intros (_ & Fq & N). split; [|exact N]. pose proof (Fq 0%nat). pose proof (Fq 1%nat). pose proof (Fq 2%nat). pose proof (Fq 3%nat).
  repeat split; assumption.
Qed.
Lemma finq_conj q r : finq q r -> finq (q_conjugate q) (conj r).
Proof.
  intros (F0 & F1 & F2 & F3). split; [|split; [|split]]; [apply fin_neg, F0|apply fin_neg, F1|apply fin_neg, F2|exact F3].
Qed.
Lemma qn_near1 r : Rabs (norm2 r - 1) <= / 524288 -> Rabs (qn r - 1) <= 16.1 * eps.
Proof.
  intros H. apply Rabs_le_inv in H. pose proof (qn_sq r) as S. pose proof (qn_pos r) as P. set (n := qn r) in *. rewrite <- S in H. clearbody n.
  unfold eps. apply Rabs_le. split.
  - apply Rnot_lt_le. intros L. assert (n * n <= (1 - 16.1 * / 16777216) * (1 - 16.1 * / 16777216)) by (apply Rmult_le_compat; lra). lra.
  - apply Rnot_lt_le. intros L. assert ((1 + 16.1 * / 16777216) * (1 + 16.1 * / 16777216) <= n * n) by (apply Rmult_le_compat; lra). lra.
Qed.
Lemma rot_mul s q a b n c : finq s a -> finq q b -> norm2 a <= 1.04 -> Rabs (norm2 b - 1) <= / 524288 -> qn (qsub b n) <= 80 * eps -> qn n = 1 -> qn c <= 1.02 ->
  exists r, finq (q_mul s q) r /\ Rabs (qn r - qn a) <= 25.5 * eps /\
    qn (qsub r (hamilton c n)) <= qn (qsub a c) * (1 + 16.1 * eps) + 91 * eps.
Proof.
  intros Fs Fq NA NB DB UN NC. destruct (mul_err s q a b Fs Fq) as (r & Fr & Er); [lra|apply Rabs_le_inv in NB; lra|].
  pose proof (qn_near1 b NB) as QB. apply Rabs_le_inv in QB. pose proof (qn_pos a) as PA.
  assert (QA : qn a <= 1.02).
  { pose proof (qn_sq a) as S. apply Rnot_lt_le. intros L. assert (1.02 * 1.02 <= qn a * qn a) by (apply Rmult_le_compat; lra). lra. }
  exists r. split; [exact Fr|]. split.
  - pose proof (qn_diff r (hamilton a b)) as D. rewrite qn_ham in D. apply Rabs_le_inv in D.
    assert (G : Rabs (qn a * qn b - qn a) <= 1.02 * (16.1 * eps)).
    { replace (qn a * qn b - qn a) with (qn a * (qn b - 1)) by ring. rewrite Rabs_mult, (Rabs_pos_eq (qn a)) by exact PA.
      apply Rmult_le_compat; try lra; [apply Rabs_pos|apply Rabs_le; lra]. }
    apply Rabs_le_inv in G. unfold eps in *. apply Rabs_le. lra.
  - eapply Rle_trans; [apply (qsub_tri _ (hamilton a b))|]. pose proof (ham_sub a b c n) as HS.
    assert (H1 : qn (qsub a c) * qn b <= qn (qsub a c) * (1 + 16.1 * eps)) by (apply Rmult_le_compat_l; [apply qn_pos|lra]).
    assert (H2 : qn c * qn (qsub b n) <= 1.02 * (80 * eps)) by (apply Rmult_le_compat; try apply qn_pos; assumption).
    unfold eps in *. lra.
Qed.
Lemma rot_step i o p l a : usable_additive i l -> finq (tr_r o) a -> norm2 a <= 1.04 -> qn (tr_r p) <= 1.02 ->
  exists a', finq (tr_r (ga_step i o l)) a' /\ Rabs (qn a' - qn a) <= 25.5 * eps /\ qn (tr_r (added i p (real_layer l))) = qn (tr_r p) /\
    qn (qsub a' (tr_r (added i p (real_layer l)))) <= qn (qsub a (tr_r p)) * (1 + 16.1 * eps) + 91 * eps.
Proof.
  intros U Fa NA NP.
  destruct (step_cases i o p l U) as [(_ & -> & ->)|(w & W' & FW & R & E & _ & UT & C)].
  - exists a. split; [exact Fa|]. split; [|split; [reflexivity|]].
    + replace (qn a - qn a) with 0 by ring. rewrite Rabs_R0. unfold eps. lra.
    + pose proof (qn_pos (qsub a (tr_r p))). unfold eps. nra.
  - cbv zeta in C. destruct (usable_rot _ UT) as [Ft Nt]. destruct (turn_err _ _ _ _ _ Ft Nt FW R E) as (b & Fb & Nb & Db & Ub).
    set (t := joint (ly_transform l) i) in *. set (n := partial_turn (aw i l) (tr_r (exact t))) in *.
    destruct C as [[-> ->]|[-> ->]]; cbn [tr_r ga_add ga_sub].
    + destruct (rot_mul _ _ a b n (tr_r p) Fa Fb NA Nb Db Ub NP) as (r & Fr & D1 & D2).
      exists r. split; [exact Fr|]. split; [exact D1|]. split; [rewrite qn_ham, Ub; ring|exact D2].
    + destruct (rot_mul _ _ a (conj b) (conj n) (tr_r p) Fa (finq_conj _ _ Fb) NA) as (r & Fr & D1 & D2);
        [rewrite n2_conj; exact Nb|rewrite conj_sub; exact Db|rewrite qn_conj; exact Ub|exact NP|].
      exists r. split; [exact Fr|]. split; [exact D1|]. split; [rewrite qn_ham, qn_conj, Ub; ring|exact D2].
Qed.
Lemma rot_steps i adds : Forall (usable_additive i) adds -> forall k o p a m,
  0 <= k -> k + INR (length adds) <= 2048 -> finq (tr_r o) a -> qn (tr_r p) = m -> Rabs (m - 1) <= / 1000 ->
  Rabs (qn a - m) <= k * (25.5 * eps) -> qn (qsub a (tr_r p)) <= k * (128 * eps) ->
  exists a', finq (tr_r (fold_left (ga_step i) adds o)) a' /\
    Rabs (qn a' - m) <= (k + INR (length adds)) * (25.5 * eps) /\
    qn (qsub a' (tr_r (with_layers i p (map real_layer adds)))) <= (k + INR (length adds)) * (128 * eps).
Proof.
  unfold with_layers. induction 1 as [|l adds U _ IH]; intros k o p a m K0 K Fa EM M1 D1 D2.
  - exists a. cbn [fold_left map length INR]. replace (k + 0) with k by ring. auto.
  - cbn [length] in *. rewrite S_INR in *. pose proof (pos_INR (length adds)) as PI.
    assert (QA : qn a <= 1.01).
    { apply Rabs_le_inv in D1. apply Rabs_le_inv in M1. unfold eps in *. nra. }
    assert (NA : norm2 a <= 1.04).
    { rewrite <- qn_sq. pose proof (qn_pos a). assert (qn a * qn a <= 1.01 * 1.01) by (apply Rmult_le_compat; lra). lra. }
    assert (NP : qn (tr_r p) <= 1.02) by (rewrite EM; apply Rabs_le_inv in M1; lra).
    destruct (rot_step i o p l a U Fa NA NP) as (a' & Fa' & E1 & E2 & E3).
    cbn [fold_left map]. 
    destruct (IH (k + 1) (ga_step i o l) (added i p (real_layer l)) a' m) as (r & Fr & H1 & H2); try lra; auto.
    + apply Rabs_le_inv in E1. apply Rabs_le_inv in D1. unfold eps in *. apply Rabs_le. lra.
    + assert (qn (qsub a (tr_r p)) * (16.1 * eps) <= eps).
      { assert (qn (qsub a (tr_r p)) <= / 32) by (unfold eps in *; nra). unfold eps in *. lra. }
      unfold eps in *. lra.
    + exists r. split; [exact Fr|]. replace (k + (INR (length adds) + 1)) with (k + 1 + INR (length adds)) by ring. split; assumption.
Qed.

(** ** Translation *)
Lemma lin_add_t (t : transform f32) w o c : (c < 3)%nat -> linear (ga_add t w o) c = nadd (linear o c) (nmul (linear t c) w).
Proof. intros H. destruct c as [|[|[|c]]]; [reflexivity..|lia]. Qed.
Lemma lin_sub_t (t : transform f32) w o c : (c < 3)%nat -> linear (ga_sub t w o) c = nsub (linear o c) (nmul (linear t c) w).
Proof. intros H. destruct c as [|[|[|c]]]; [reflexivity..|lia]. Qed.
Lemma rlin_exact t c : rlinear c (exact t) = B2R (linear t c).
Proof. destruct c as [|[|[|[|[|c]]]]]; reflexivity. Qed.
Lemma tr_mul_err x w v W W' : fin x v -> fin w W' -> Rabs v <= p2 40 -> 0 <= W <= 4 -> Rabs (W' - W) <= eps * W + tiny ->
  exists m, fin (nmul x w) m /\ Rabs (m - v * W) <= 2.01 * eps * (W * Rabs v) + p2 (-109).
Proof.
  intros Fx Fw Bv HW EW. pose proof tiny_eps as TE.
  assert (TV : Rabs v * tiny <= p2 (-110)).
  { unfold tiny. change (p2 (-110)) with (p2 (40 + -150)). rewrite bpow_plus. apply Rmult_le_compat_r; [apply Rlt_le, p2_pos|exact Bv]. }
  assert (T2 : tiny <= p2 (-111)) by (unfold tiny; apply bpow_le; lia).
  assert (P9 : p2 (-109) = 2 * p2 (-110)) by (change (-109)%Z with (1 + -110)%Z; apply (p2_shift 1); simpl; lra).
  assert (P10 : p2 (-110) = 2 * p2 (-111)) by (change (-110)%Z with (1 + -111)%Z; apply (p2_shift 1); simpl; lra).
  assert (P11 : 0 < p2 (-111)) by apply p2_pos.
  assert (BW : Rabs W' <= 5).
  { apply Rabs_le_inv in EW. unfold eps in *. apply Rabs_le. lra. }
  pose proof (Rabs_pos v) as V0. assert (P40 : p2 43 = 8 * p2 40) by (change 43%Z with (3 + 40)%Z; apply (p2_shift 3); simpl; lra).
  assert (HP : Rabs (v * W') <= p2 43).
  { rewrite Rabs_mult. pose proof (Rabs_pos W'). pose proof (p2_pos 40). apply Rle_trans with (p2 40 * 5); [apply Rmult_le_compat; auto|lra]. }
  exists (rnd32 (v * W')). split; [apply fin_mul; auto; apply (p2_le_HUGE 43); [lia|exact HP]|].
  pose proof (rnd_err (v * W')) as R.
  assert (D : Rabs (v * W' - v * W) <= eps * (W * Rabs v) + p2 (-110)).
  { replace (v * W' - v * W) with (v * (W' - W)) by ring. rewrite Rabs_mult.
    apply Rle_trans with (Rabs v * (eps * W + tiny)); [apply Rmult_le_compat_l; assumption|]. lra. }
  assert (A : Rabs (v * W) = W * Rabs v) by (rewrite Rabs_mult, (Rabs_pos_eq W) by lra; ring).
  assert (B : Rabs (v * W') <= W * Rabs v + (eps * (W * Rabs v) + p2 (-110))).
  { replace (v * W') with (v * W + (v * W' - v * W)) by ring. eapply Rle_trans; [apply Rabs_triang|]. rewrite A. lra. }
  assert (X : 0 <= W * Rabs v) by nra. set (X' := W * Rabs v) in *. clearbody X'.
  assert (Rabs (rnd32 (v * W') - v * W) <= Rabs (rnd32 (v * W') - v * W') + Rabs (v * W' - v * W)).
  { replace (rnd32 (v * W') - v * W) with ((rnd32 (v * W') - v * W') + (v * W' - v * W)) by ring. apply Rabs_triang. }
  unfold eps in *. lra.
Qed.
Lemma tr_step x v w S A B k y : fin y B -> fin x v -> 0 <= k <= 2048 -> Rabs w <= S -> Rabs (v - w) <= (1.01 * k + 2.1) * eps * S + k * p2 (-107) ->
  Rabs (B - A) <= 2.01 * eps * Rabs A + p2 (-109) -> S + Rabs A <= p2 62 ->
  exists r, fin (nadd x y) r /\ Rabs (w + A) <= S + Rabs A /\
    Rabs (r - (w + A)) <= (1.01 * (k + 1) + 2.1) * eps * (S + Rabs A) + (k + 1) * p2 (-107).
Proof.
  intros Fy Fx K Sw E1 E2 HS. pose proof (Rabs_pos w) as W0. pose proof (Rabs_pos A) as A0.
  assert (P7 : p2 (-107) = 4 * p2 (-109)) by (change (-107)%Z with (2 + -109)%Z; apply (p2_shift 2); simpl; lra).
  assert (P9 : 0 < p2 (-109)) by apply p2_pos.
  assert (T2 : tiny <= p2 (-109)) by (unfold tiny; apply bpow_le; lia). pose proof tiny_pos as TP.
  assert (PS : p2 (-109) <= / 1000000) by (apply Rle_trans with (p2 (-20)); [apply bpow_le; lia|simpl; lra]).
  assert (SA : Rabs (w + A) <= S + Rabs A) by (eapply Rle_trans; [apply Rabs_triang|lra]).
  assert (KE : (1.01 * k + 2.1) * eps <= / 1000) by (unfold eps; lra).
  set (q := p2 (-109)) in *. rewrite P7 in *. set (T := S + Rabs A) in *.
  set (e1 := (1.01 * k + 2.1) * eps) in *.
  assert (K1 : 0 <= e1) by (unfold e1, eps; lra).
  assert (M1 : e1 * S <= e1 * T) by (apply Rmult_le_compat_l; unfold T; lra).
  assert (M2 : 0 <= e1 * S) by (apply Rmult_le_pos; lra).
  assert (D : Rabs ((v + B) - (w + A)) <= e1 * S + k * (4 * q) + (2.01 * eps * Rabs A + q)).
  { replace ((v + B) - (w + A)) with ((v - w) + (B - A)) by ring. eapply Rle_trans; [apply Rabs_triang|]. lra. }
  assert (V : Rabs (v + B) <= T + Rabs ((v + B) - (w + A))).
  { replace (v + B) with ((w + A) + ((v + B) - (w + A))) at 1 by ring. eapply Rle_trans; [apply Rabs_triang|]. lra. }
  assert (KQ : k * (4 * q) <= 2048 * (4 * q)) by (apply Rmult_le_compat_r; lra).
  assert (MT : e1 * T <= / 1000 * T) by (apply Rmult_le_compat_r; [unfold T; lra|exact KE]).
  assert (D' : Rabs ((v + B) - (w + A)) <= / 500 * T + 9000 * q) by (unfold T, eps in *; lra).
  assert (FB : Rabs (v + B) <= HUGE).
  { apply (p2_le_HUGE 64); [lia|]. change 64%Z with (2 + 62)%Z. rewrite (p2_shift 2 62 4) by (simpl; lra).
    assert (1 <= p2 62) by (apply Rle_trans with (p2 0); [apply Req_le; reflexivity|apply bpow_le; discriminate]). lra. }
  exists (rnd32 (v + B)). split; [apply fin_add; auto|]. split; [exact SA|].
  pose proof (rnd_err (v + B)) as R.
  assert (X : Rabs (rnd32 (v + B) - (w + A)) <= Rabs (rnd32 (v + B) - (v + B)) + Rabs ((v + B) - (w + A))).
  { replace (rnd32 (v + B) - (w + A)) with ((rnd32 (v + B) - (v + B)) + ((v + B) - (w + A))) by ring. apply Rabs_triang. }
  assert (Z : eps * Rabs (v + B) <= 1.002 * eps * T + q) by (unfold eps in *; lra).
  replace ((1.01 * (k + 1) + 2.1) * eps * T) with (e1 * T + 1.01 * eps * T) by (unfold e1; lra).
  assert (EQ : e1 * S + 2.01 * eps * Rabs A <= e1 * T).
  { unfold T. rewrite Rmult_plus_distr_l. apply Rplus_le_compat_l. apply Rmult_le_compat_r; [exact A0|]. unfold e1. apply Rmult_le_compat_r; [unfold eps; lra|lra]. }
  assert (0 <= eps * T) by (unfold eps, T; lra). lra.
Qed.
Definition moved (i c : nat) (l : layer f32) : R := aw i l * Rabs (B2R (linear (joint (ly_transform l) i) c)).
Lemma aw_nonneg i l : 0 <= aw i l.
Proof.
  rewrite aw_eq. apply Rmult_le_pos; [apply Rabs_pos|]. destruct (ly_joint_weights l); [lra|apply Rmax_l].
Qed.
Lemma moved_nonneg i c l : 0 <= moved i c l.
Proof. apply Rmult_le_pos; [apply aw_nonneg|apply Rabs_pos]. Qed.
Lemma sum_nonneg i c adds : 0 <= Rsum (moved i c) adds.
Proof. induction adds as [|l adds IH]; cbn; [lra|]. fold (Rsum (moved i c) adds). pose proof (moved_nonneg i c l). lra. Qed.
Lemma rl_plus p a e r s c : (c < 3)%nat -> rlinear c (TR (plus3 (tr_t p) (scale3 a (tr_t e))) r s) = rlinear c p + rlinear c e * a.
Proof. intros H. destruct c as [|[|[|c]]]; [..|lia]; cbn; ring. Qed.
Lemma rl_minus p a e r s c : (c < 3)%nat -> rlinear c (TR (minus3 (tr_t p) (scale3 a (tr_t e))) r s) = rlinear c p + - (rlinear c e * a).
Proof. intros H. destruct c as [|[|[|c]]]; [..|lia]; cbn; ring. Qed.
Lemma usable_lin t c : usable_transform t -> fin (linear t c) (B2R (linear t c)) /\ Rabs (B2R (linear t c)) <= p2 40.
Proof.
  intros (L & _). destruct (L c) as [F B]. split; [apply fin_of, F|]. rewrite (p2_pow 40) by lia. exact B.
Qed.
Lemma tr_steps i c adds : (c < 3)%nat -> Forall (usable_additive i) adds -> forall k o p v S,
  0 <= k -> k + INR (length adds) <= 2048 -> fin (linear o c) v -> Rabs (rlinear c p) <= S -> S + Rsum (moved i c) adds <= p2 62 ->
  Rabs (v - rlinear c p) <= (1.01 * k + 2.1) * eps * S + k * p2 (-107) ->
  exists r, fin (linear (fold_left (ga_step i) adds o) c) r /\
    Rabs (r - rlinear c (with_layers i p (map real_layer adds)))
    <= (1.01 * (k + INR (length adds)) + 2.1) * eps * (S + Rsum (moved i c) adds) + (k + INR (length adds)) * p2 (-107).
Proof.
  intros Hc. unfold with_layers. induction 1 as [|l adds U _ IH]; intros k o p v S K0 K Fv HS HT D.
  - exists v. cbn [fold_left map length INR Rsum fold_right]. rewrite !Rplus_0_r. auto.
  - cbn [length] in *. rewrite S_INR in *. pose proof (pos_INR (length adds)) as PI.
    change (Rsum (moved i c) (l :: adds)) with (moved i c l + Rsum (moved i c) adds) in *. pose proof (sum_nonneg i c adds) as SN.
    pose proof (moved_nonneg i c l) as MN. cbn [fold_left map].
    set (x := B2R (linear (joint (ly_transform l) i) c)) in *.
    assert (ST : exists r, fin (linear (ga_step i o l) c) r /\ Rabs (rlinear c (added i p (real_layer l))) <= S + moved i c l /\
      Rabs (r - rlinear c (added i p (real_layer l))) <= (1.01 * (k + 1) + 2.1) * eps * (S + moved i c l) + (k + 1) * p2 (-107)).
    { destruct (step_cases i o p l U) as [(Z & E1 & E2)|(w & W' & FW & R & E & NZ & UT & C)].
      - rewrite E1, E2. exists v. split; [exact Fv|]. split; [lra|]. eapply Rle_trans; [exact D|].
        pose proof (p2_pos (-107)). pose proof (Rabs_pos (rlinear c p)).
        apply Rplus_le_compat; [|apply Rmult_le_compat_r; lra]. apply Rmult_le_compat; unfold eps; try lra.
      - cbv zeta in C. destruct (usable_lin _ c UT) as [Fx Bx]. fold x in Fx, Bx.
        destruct (tr_mul_err _ _ _ _ _ Fx FW Bx R E) as (m & Fm & Em).
        assert (AX : Rabs (x * aw i l) = moved i c l) by (unfold moved; fold x; rewrite Rabs_mult, (Rabs_pos_eq (aw i l)) by lra; ring).
        assert (AX' : aw i l * Rabs x = moved i c l) by reflexivity. rewrite AX', <- AX in Em.
        assert (HT' : S + Rabs (x * aw i l) <= p2 62) by (rewrite AX; lra).
        destruct C as [[E1 E2]|[E1 E2]]; rewrite E1, E2.
        + rewrite lin_add_t, rl_plus, rlin_exact by exact Hc. fold x. rewrite <- AX.
          apply (tr_step _ v _ S _ m k); auto; lra.
        + rewrite lin_sub_t, rl_minus, rlin_exact by exact Hc. fold x. rewrite <- AX, sub_is_add, <- (Rabs_Ropp (x * aw i l)).
          apply (tr_step _ v _ S _ (- m) k); auto; try lra; [apply fin_neg, Fm|rewrite Rabs_Ropp|rewrite Rabs_Ropp; lra].
          replace (- m - - (x * aw i l)) with (- (m - x * aw i l)) by ring. rewrite Rabs_Ropp. exact Em. }
    destruct ST as (r & Fr & B1 & B2).
    destruct (IH (k + 1) (ga_step i o l) (added i p (real_layer l)) r (S + moved i c l)) as (q & Fq & H); try lra; auto.
    exists q. split; [exact Fq|]. replace (k + (INR (length adds) + 1)) with (k + 1 + INR (length adds)) by ring.
    replace (S + (moved i c l + Rsum (moved i c) adds)) with (S + moved i c l + Rsum (moved i c) adds) by ring. exact H.
Qed.

(** ** Scale *)
Lemma factor_err x w s W W' : fin x s -> fin w W' -> Rabs s <= p2 40 -> 0 <= W <= 4 -> Rabs (W' - W) <= eps * W + tiny ->
  / 2 <= partial_scale W s <= 2 ->
  near (nadd (nsub none_ w) (nmul x w)) (partial_scale W s) (20 * eps) /\ near (nadd (nmul x w) (nsub none_ w)) (partial_scale W s) (20 * eps).
Proof.
  intros Fx Fw Bs HW EW HF. unfold partial_scale in *. pose proof tiny_eps as TE. pose proof (weight_near _ _ _ Fw HW EW) as NW.
  assert (N1 : near (nsub none_ w) (1 - W) (7.1 * eps)).
  { eapply near_le; [apply (near_sub none_ w 1 W 0 (4.001 * eps) 3 (near_fin _ _ fin_one) NW); [apply Rabs_le; lra|unfold eps; lra]|]. unfold eps in *. lra. }
  assert (N2 : near (nmul x w) (s * W) (10.1 * eps)).
  { destruct (tr_mul_err _ _ _ _ _ Fx Fw Bs HW EW) as (m & Fm & Em). exists m. split; [exact Fm|]. eapply Rle_trans; [exact Em|].
    assert (B : W * Rabs s <= 5).
    { rewrite <- (Rabs_pos_eq W) by lra. rewrite <- Rabs_mult. apply Rabs_le. split; lra. }
    assert (p2 (-109) <= / 1000 * eps).
    { apply Rle_trans with (p2 (-40)); [apply bpow_le; lia|]. unfold eps. simpl. lra. }
    unfold eps in *. lra. }
  assert (SB : Rabs (1 - W + s * W) <= 2) by (apply Rabs_le; lra). assert (SB' : Rabs (s * W + (1 - W)) <= 2) by (apply Rabs_le; lra). split.
  - replace (1 + W * (s - 1)) with (1 - W + s * W) by ring. eapply near_le; [apply (near_add _ _ _ _ _ _ 2 N1 N2 SB); unfold eps; lra|]. unfold eps in *. lra.
  - replace (1 + W * (s - 1)) with (s * W + (1 - W)) by ring. eapply near_le; [apply (near_add _ _ _ _ _ _ 2 N2 N1 SB'); unfold eps; lra|]. unfold eps in *. lra.
Qed.
(** The computed factor, relative to the exact one. *)
Lemma factor_rel y f : near y f (20 * eps) -> / 2 <= f <= 2 -> exists g, fin y g /\ Rabs (g - f) <= 42 * eps * f.
Proof.
  intros (g & Fg & E) HF. exists g. split; [exact Fg|]. eapply Rle_trans; [exact E|]. unfold eps. lra.
Qed.
Lemma recip_rel y f : near y f (20 * eps) -> / 2 <= f <= 2 -> exists g, fin (nrecip y) g /\ Rabs (g - / f) <= 42 * eps * / f.
Proof.
  intros (h & Fh & E) HF. apply Rabs_le_inv in E. pose proof tiny_eps as TE.
  assert (H0 : 0.49 <= h <= 2.01) by (unfold eps in *; lra).
  assert (IH : 0 < / h <= 2.1).
  { split; [apply Rinv_0_lt_compat; lra|]. apply Rmult_le_reg_r with h; [lra|]. rewrite Rinv_l by lra. lra. }
  assert (IF : / 2 <= / f <= 2).
  { split; apply Rmult_le_reg_r with f; try lra; rewrite Rinv_l by lra; lra. }
  assert (D : Rabs (1 / h - / f) <= 40.1 * eps * / f).
  { replace (1 / h - / f) with ((f - h) * / h * / f) by (field; lra). rewrite Rabs_mult, (Rabs_pos_eq (/ f)) by lra.
    apply Rmult_le_compat_r; [lra|]. rewrite Rabs_mult, (Rabs_pos_eq (/ h)) by lra.
    assert (IH' : / h <= 2.005).
    { apply Rmult_le_reg_r with h; [lra|]. rewrite Rinv_l by lra. unfold eps in *. lra. }
    apply Rle_trans with (20 * eps * 2.005); [|unfold eps; lra].
    apply Rmult_le_compat; try lra; [apply Rabs_pos|apply Rabs_le; lra]. }
  pose proof (fin_div none_ _ _ _ fin_one Fh ltac:(lra)) as FD.
  assert (HB : Rabs (1 / h) <= HUGE).
  { apply (p2_le_HUGE 2); [lia|]. unfold Rdiv. rewrite Rmult_1_l, Rabs_pos_eq by lra. simpl. lra. }
  exists (rnd32 (1 / h)). split; [exact (FD HB)|].
  pose proof (rnd_err (1 / h)) as R. rewrite (Rabs_pos_eq (1 / h)) in R by (unfold Rdiv; lra). unfold Rdiv in *. rewrite Rmult_1_l in *.
  assert (X : Rabs (rnd32 (/ h) - / f) <= Rabs (rnd32 (/ h) - / h) + Rabs (/ h - / f)).
  { replace (rnd32 (/ h) - / f) with ((rnd32 (/ h) - / h) + (/ h - / f)) by ring. apply Rabs_triang. }
  pose proof (Rabs_le_inv _ _ D) as D'. unfold eps in *. lra.
Qed.
(** One multiplication by a factor. *)
Definition in_range (j : nat) (x : R) : Prop := x = 0 \/ p2 (- (40 + Z.of_nat j)) <= Rabs x <= p2 (41 + Z.of_nat j).
Lemma scale_mul y v z g x f k j : fin y v -> fin z g -> (j < 64)%nat -> 0 <= k <= 64 -> in_range j x -> Rabs (v - x) <= k * (48 * eps) * Rabs x ->
  / 2 <= f <= 2 -> Rabs (g - f) <= 42 * eps * f ->
  exists r, fin (nmul y z) r /\ in_range (S j) (x * f) /\ Rabs (r - x * f) <= (k + 1) * (48 * eps) * Rabs (x * f).
Proof.
  intros Fy Fz Hj Hk [X|X] E HF EG.
  - rewrite X, Rabs_R0, Rmult_0_r in E. assert (V : v = 0) by (apply Rabs_le_inv in E; lra). rewrite X, Rmult_0_l.
    exists (rnd32 (v * g)). rewrite V in *. rewrite Rmult_0_l.
    assert (Z : rnd32 0 = 0) by (apply round_0; apply valid_rnd_N). rewrite Z. split; [|split].
    + rewrite <- Z. replace (rnd32 0) with (rnd32 (0 * g)) by (f_equal; ring). apply fin_mul; auto. rewrite Rmult_0_l, Rabs_R0. pose proof HUGE_big. lra.
    + left. reflexivity.
    + rewrite Rminus_0_r, Rabs_R0, Rmult_0_r. lra.
  - assert (AF : Rabs (x * f) = Rabs x * f) by (rewrite Rabs_mult, (Rabs_pos_eq f) by lra; reflexivity).
    assert (PL : p2 (- (40 + Z.of_nat (S j))) = / 2 * p2 (- (40 + Z.of_nat j))).
    { replace (- (40 + Z.of_nat (S j)))%Z with (-1 + - (40 + Z.of_nat j))%Z by lia. apply (p2_shift (-1)). simpl. lra. }
    assert (PH : p2 (41 + Z.of_nat (S j)) = 2 * p2 (41 + Z.of_nat j)).
    { replace (41 + Z.of_nat (S j))%Z with (1 + (41 + Z.of_nat j))%Z by lia. apply (p2_shift 1). simpl. lra. }
    pose proof (p2_pos (- (40 + Z.of_nat j))) as Q. set (A := Rabs x) in *.
    assert (R : p2 (- (40 + Z.of_nat (S j))) <= A * f <= p2 (41 + Z.of_nat (S j))).
    { rewrite PL, PH. split.
      - rewrite Rmult_comm. apply Rmult_le_compat; lra.
      - rewrite Rmult_comm. apply Rmult_le_compat; lra. }
    pose proof tiny_eps as TE. assert (AF0 : 0 <= A * f) by (pose proof (p2_pos (- (40 + Z.of_nat (S j)))); lra).
    assert (TN : tiny <= / 1000 * eps * (A * f)).
    { apply Rle_trans with (p2 (-40) * p2 (- (40 + Z.of_nat (S j)))).
      - rewrite <- bpow_plus. unfold tiny. apply bpow_le. lia.
      - apply Rmult_le_compat; try (apply Rlt_le, p2_pos); [|apply R]. unfold eps. simpl. lra. }
    assert (KE : k * (48 * eps) <= / 1000) by (unfold eps; lra).
    assert (K0 : 0 <= k * (48 * eps)) by (unfold eps; lra).
    set (K := k * (48 * eps)) in *.
    assert (VB : Rabs v <= 1.001 * A).
    { replace v with (x + (v - x)) by ring. eapply Rle_trans; [apply Rabs_triang|]. fold A.
      assert (K * A <= / 1000 * A) by (apply Rmult_le_compat_r; lra). lra. }
    assert (D : Rabs (v * g - x * f) <= (K + 43 * eps) * (A * f)).
    { replace (v * g - x * f) with ((v - x) * f + v * (g - f)) by ring. eapply Rle_trans; [apply Rabs_triang|]. rewrite !Rabs_mult, (Rabs_pos_eq f) by lra.
      assert (Rabs (v - x) * f <= K * A * f) by (apply Rmult_le_compat_r; lra).
      assert (Rabs v * Rabs (g - f) <= 1.001 * A * (42 * eps * f)) by (apply Rmult_le_compat; auto; apply Rabs_pos).
      assert (1.001 * A * (42 * eps * f) <= 43 * eps * (A * f)) by (unfold eps; lra). lra. }
    assert (VG : Rabs (v * g) <= 1.01 * (A * f)).
    { replace (v * g) with (x * f + (v * g - x * f)) by ring. eapply Rle_trans; [apply Rabs_triang|]. rewrite AF.
      assert ((K + 43 * eps) * (A * f) <= / 500 * (A * f)) by (apply Rmult_le_compat_r; [exact AF0|unfold eps in *; lra]). lra. }
    exists (rnd32 (v * g)). split; [|split].
    + apply fin_mul; auto. apply (p2_le_HUGE 107); [lia|]. eapply Rle_trans; [exact VG|].
      apply Rle_trans with (2 * p2 (41 + Z.of_nat (S j))); [lra|].
      rewrite <- (p2_shift 1 _ 2) by (simpl; lra). apply bpow_le. lia.
    + right. rewrite AF. exact R.
    + pose proof (rnd_err (v * g)) as RE. rewrite AF.
      assert (X' : Rabs (rnd32 (v * g) - x * f) <= Rabs (rnd32 (v * g) - v * g) + Rabs (v * g - x * f)).
      { replace (rnd32 (v * g) - x * f) with ((rnd32 (v * g) - v * g) + (v * g - x * f)) by ring. apply Rabs_triang. }
      replace ((k + 1) * (48 * eps) * (A * f)) with (K * (A * f) + 48 * eps * (A * f)) by (unfold K; ring).
      set (B := A * f) in *. clearbody B. unfold eps in *. lra.
Qed.
Lemma lin_add_s (t : transform f32) w o c : (3 <= c)%nat -> linear (ga_add t w o) c = nmul (linear o c) (nadd (nsub none_ w) (nmul (linear t c) w)).
Proof. intros H. destruct c as [|[|[|[|[|c]]]]]; [lia|lia|lia|reflexivity..]. Qed.
Lemma lin_sub_s (t : transform f32) w o c : (3 <= c)%nat -> linear (ga_sub t w o) c = nmul (linear o c) (nrecip (nadd (nmul (linear t c) w) (nsub none_ w))).
Proof. intros H. destruct c as [|[|[|[|[|c]]]]]; [lia|lia|lia|reflexivity..]. Qed.
Lemma rl_times p a e t r c : (3 <= c)%nat ->
  rlinear c (TR t r (V3 (vx (tr_s p) * partial_scale a (vx (tr_s e))) (vy (tr_s p) * partial_scale a (vy (tr_s e))) (vz (tr_s p) * partial_scale a (vz (tr_s e)))))
  = rlinear c p * partial_scale a (rlinear c e).
Proof. intros H. destruct c as [|[|[|[|[|c]]]]]; [lia|lia|lia|reflexivity..]. Qed.
Lemma rl_over p a e t r c : (3 <= c)%nat ->
  rlinear c (TR t r (V3 (vx (tr_s p) / partial_scale a (vx (tr_s e))) (vy (tr_s p) / partial_scale a (vy (tr_s e))) (vz (tr_s p) / partial_scale a (vz (tr_s e)))))
  = rlinear c p * / partial_scale a (rlinear c e).
Proof. intros H. destruct c as [|[|[|[|[|c]]]]]; [lia|lia|lia|reflexivity..]. Qed.
Lemma scale_steps i c adds : (3 <= c)%nat -> Forall (usable_additive i) adds -> Forall (fun l => moderate_scale i c (real_layer l)) adds ->
  forall k o p v, (k + length adds <= 64)%nat -> fin (linear o c) v -> in_range k (rlinear c p) ->
  Rabs (v - rlinear c p) <= INR k * (48 * eps) * Rabs (rlinear c p) ->
  exists r, fin (linear (fold_left (ga_step i) adds o) c) r /\
    let x := rlinear c (with_layers i p (map real_layer adds)) in
    Rabs (r - x) <= INR (k + length adds) * (48 * eps) * Rabs x.
Proof.
  intros Hc U. unfold with_layers. induction U as [|l adds U _ IH]; intros M k o p v K Fv HR D.
  - exists v. cbn [fold_left map length]. rewrite Nat.add_0_r. auto.
  - cbn [length] in *. inversion M as [|? ? M1 M2]. subst. cbn [fold_left map].
    assert (ST : exists r, fin (linear (ga_step i o l) c) r /\ in_range (S k) (rlinear c (added i p (real_layer l))) /\
      Rabs (r - rlinear c (added i p (real_layer l))) <= INR (S k) * (48 * eps) * Rabs (rlinear c (added i p (real_layer l)))).
    { assert (IK : 0 <= INR k <= 64) by (split; [apply pos_INR|replace 64 with (INR 64) by (simpl; lra); apply le_INR; lia]).
      destruct (step_cases i o p l U) as [(Z & E1 & E2)|(w & W' & FW & R & E & NZ & UT & C)].
      - rewrite E1, E2. exists v. split; [exact Fv|]. split.
        + destruct HR as [H|H]; [left; exact H|right]. split; [eapply Rle_trans; [|apply H]|eapply Rle_trans; [apply H|]]; apply bpow_le; lia.
        + eapply Rle_trans; [exact D|]. rewrite S_INR. apply Rmult_le_compat_r; [apply Rabs_pos|]. unfold eps. lra.
      - cbv zeta in C. destruct (usable_lin _ c UT) as [Fx Bx].
        unfold moderate_scale in M1. change (ly_transform (real_layer l)) with (map real_soa (ly_transform l)) in M1. rewrite joint_exact, rlin_exact in M1.
        fold (aw i l) in M1. set (x := B2R (linear (joint (ly_transform l) i) c)) in *.
        destruct (factor_err _ _ _ _ _ Fx FW Bx R E M1) as [N1 N2]. rewrite S_INR.
        destruct C as [[E1 E2]|[E1 E2]]; rewrite E1, E2.
        + rewrite lin_add_s, rl_times, rlin_exact by exact Hc. fold x. destruct (factor_rel _ _ N1 M1) as (g & Fg & Eg).
          apply (scale_mul _ v _ g _ _ (INR k) k); auto; lia.
        + rewrite lin_sub_s, rl_over, rlin_exact by exact Hc. fold x. destruct (recip_rel _ _ N2 M1) as (g & Fg & Eg).
          apply (scale_mul _ v _ g _ _ (INR k) k); auto; try lia.
          split; apply Rmult_le_reg_r with (partial_scale (aw i l) x); try lra; rewrite Rinv_l by lra; lra. }
    destruct ST as (r & Fr & B1 & B2).
    destruct (IH M2 (S k) (ga_step i o l) (added i p (real_layer l)) r) as (q & Fq & H); auto; try lia.
    exists q. split; [exact Fq|]. replace (k + S (length adds))%nat with (S k + length adds)%nat by lia. exact H.
Qed.
