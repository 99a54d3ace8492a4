(** C99: a crossfade does not jump. *)
From Coq Require Import Reals Lra Psatz.
From Flocq Require Import Core.Core IEEE754.BinarySingleNaN.
From Verif Require Import Base Num NumR NumF32 F32Facts F32Err Math KeysSpec Skeleton Blending BlendingSpec BlendingProofs BlendingProps.
From Verif Require Import NormF32 BlendLane BlendF32 BlendF32Spec BlendF32Proofs BlendMean BlendF32Props FadeSpec.
Local Open Scope R_scope.

Section Fade.
  Context (i k : nat) (M d : R).
  Hypothesis M0 : 0 <= M.
  Hypothesis d0 : 0 <= d.
  (** Weights of the first list with the values of the second. *)
  Definition Xmix (ls ls' : list (layer f32)) : R := Rsum (fun p => rw i (fst p) * val i k (snd p)) (combine ls ls').
  Lemma rw_zero l : B2R (ly_weight l) <= 0 -> rw i l = 0.
  Proof using. apply rw_npos. Qed.
  Lemma sums ls ls' : Forall2 (near_layer i k M d) ls ls' ->
    Rabs (X i k ls - Xmix ls ls') <= T i ls * d /\
    Rabs (Xmix ls ls' - X i k ls') <= weight_change i ls ls' * M /\
    Rabs (T i ls - T i ls') <= weight_change i ls ls' /\ Rabs (X i k ls') <= T i ls' * M.
  Proof using M0 d0.
    induction 1 as [|l l' ls ls' N H IH].
    - unfold Xmix, weight_change, X, T, Rsum. cbn. rewrite !Rminus_0_r, !Rabs_R0. lra.
    - destruct IH as (I1 & I2 & I3 & I4). unfold Xmix, weight_change, X, T, Rsum in *. cbn [combine fold_right fst snd].
      change (joint_weight (real_layer l) i) with (rw i l). change (joint_weight (real_layer l') i) with (rw i l').
      pose proof (rw_nonneg i l) as W. pose proof (rw_nonneg i l') as W'.
      destruct (Rle_lt_dec (B2R (ly_weight l)) 0) as [Z|P], (Rle_lt_dec (B2R (ly_weight l')) 0) as [Z'|P'].
      1:{ rewrite (rw_zero l Z), (rw_zero l' Z'), !Rmult_0_l, !Rplus_0_l, Rminus_0_r, Rabs_R0, !Rplus_0_l. repeat split; assumption. }
      all: (destruct N as (N1 & N2 & N3); [first [left; assumption|right; assumption]|]);
        change (B2R (linear (joint (ly_transform l) i) k)) with (val i k l) in *; change (B2R (linear (joint (ly_transform l') i) k)) with (val i k l') in *;
        set (v := val i k l) in *; set (v' := val i k l') in *; set (w := rw i l) in *; set (w' := rw i l') in *;
        (assert (E1 : Rabs (w * v - w * v') <= w * d) by (rewrite <- Rmult_minus_distr_l, Rabs_mult, (Rabs_pos_eq w) by exact W; apply Rmult_le_compat_l; assumption));
        (assert (E2 : Rabs (w * v' - w' * v') <= Rabs (w - w') * M) by (rewrite <- Rmult_minus_distr_r, Rabs_mult; apply Rmult_le_compat_l; [apply Rabs_pos|assumption]));
        (assert (E3 : Rabs (w' * v') <= w' * M) by (rewrite Rabs_mult, (Rabs_pos_eq w') by exact W'; apply Rmult_le_compat_l; assumption));
        pose proof (Rle_abs (w - w')) as E4; pose proof (Rle_abs (- (w - w'))) as E5; rewrite Rabs_Ropp in E5;
        apply Rabs_le_inv in E1; apply Rabs_le_inv in E2; apply Rabs_le_inv in E3; apply Rabs_le_inv in I1; apply Rabs_le_inv in I2; apply Rabs_le_inv in I3; apply Rabs_le_inv in I4;
        (split; [|split; [|split]]); apply Rabs_le; lra.
  Qed.
  (** The real mean. *)
  Lemma mean_moves thr r A B C T T' w : 0 < thr -> 0 <= T -> 0 <= T' -> Rabs r <= M ->
    Rabs (A - B) <= T * d -> Rabs (B - C) <= w * M -> Rabs (T - T') <= w -> Rabs C <= T' * M ->
    Rabs ((A + Rmax 0 (thr - T) * r) / Rmax thr T - (C + Rmax 0 (thr - T') * r) / Rmax thr T') <= d + 2 * M * w / thr.
  Proof using M0 d0.
    intros HT T0 T0' Hr E1 E2 E3 E4.
    assert (RES : forall D D' p p', D = T + p -> D' = T' + p' -> thr <= D -> thr <= D' -> 0 <= p -> 0 <= p' -> Rabs (D - D') + Rabs (p - p') = Rabs (T - T') ->
      Rabs ((A + p * r) / D - (C + p' * r) / D') <= d + 2 * M * w / thr).
    { intros D D' p p' ED ED' HD HD' P P' SPL.
      assert (w0 : 0 <= w) by (pose proof (Rabs_pos (T - T')); lra).
      replace ((A + p * r) / D - (C + p' * r) / D') with ((A - B) / D + ((B - C) + (p - p') * r) / D + (C + p' * r) / D' * ((D' - D) / D)) by (field; split; apply Rgt_not_eq; lra).
      assert (ID : 0 < / D) by (apply Rinv_0_lt_compat; lra). assert (ID' : 0 < / D') by (apply Rinv_0_lt_compat; lra).
      assert (IT : / D <= / thr) by (apply Rinv_le_contravar; lra).
      assert (Q1 : Rabs ((A - B) / D) <= d).
      { unfold Rdiv. rewrite Rabs_mult, (Rabs_pos_eq (/ D)) by lra. apply (Rmult_le_reg_r D); [lra|]. rewrite Rmult_assoc, Rinv_l, Rmult_1_r by (apply Rgt_not_eq; lra).
        eapply Rle_trans; [exact E1|]. rewrite (Rmult_comm d). apply Rmult_le_compat_r; lra. }
      assert (Q2 : Rabs ((C + p' * r) / D') <= M).
      { unfold Rdiv. rewrite Rabs_mult, (Rabs_pos_eq (/ D')) by lra. apply (Rmult_le_reg_r D'); [lra|]. rewrite Rmult_assoc, Rinv_l, Rmult_1_r by (apply Rgt_not_eq; lra).
        eapply Rle_trans; [apply Rabs_triang|]. rewrite Rabs_mult, (Rabs_pos_eq p') by exact P'. rewrite ED'.
        assert (p' * Rabs r <= p' * M) by (apply Rmult_le_compat_l; assumption). lra. }
      assert (Q3 : Rabs ((B - C) + (p - p') * r) <= (w + Rabs (p - p')) * M).
      { eapply Rle_trans; [apply Rabs_triang|]. rewrite Rabs_mult. assert (Rabs (p - p') * Rabs r <= Rabs (p - p') * M) by (apply Rmult_le_compat_l; [apply Rabs_pos|assumption]). lra. }
      assert (Q4 : Rabs ((C + p' * r) / D' * ((D' - D) / D)) <= M * Rabs (D - D') * / D).
      { rewrite Rabs_mult. unfold Rdiv at 2. rewrite Rabs_mult, (Rabs_pos_eq (/ D)), (Rabs_minus_sym D') by lra. rewrite <- Rmult_assoc.
        apply Rmult_le_compat_r; [lra|]. apply Rmult_le_compat_r; [apply Rabs_pos|exact Q2]. }
      assert (Q5 : Rabs (((B - C) + (p - p') * r) / D) <= (w + Rabs (p - p')) * M * / D).
      { unfold Rdiv. rewrite Rabs_mult, (Rabs_pos_eq (/ D)) by lra. apply Rmult_le_compat_r; [lra|exact Q3]. }
      assert (Q6 : (w + Rabs (p - p')) * M * / D + M * Rabs (D - D') * / D <= 2 * M * w / thr).
      { replace ((w + Rabs (p - p')) * M * / D + M * Rabs (D - D') * / D) with (M * (w + (Rabs (D - D') + Rabs (p - p'))) * / D) by ring.
        rewrite SPL. replace (2 * M * w / thr) with (M * (w + w) * / thr) by (unfold Rdiv; ring).
        apply Rmult_le_compat; [apply Rmult_le_pos; [exact M0|pose proof (Rabs_pos (T - T')); lra]|lra| |exact IT]. apply Rmult_le_compat_l; [exact M0|lra]. }
      eapply Rle_trans; [apply Rabs_triang|]. eapply Rle_trans; [apply Rplus_le_compat_r, Rabs_triang|]. lra. }
    apply RES.
    - unfold Rmax. repeat destruct (Rle_dec _ _); lra.
    - unfold Rmax. repeat destruct (Rle_dec _ _); lra.
    - apply Rmax_l.
    - apply Rmax_l.
    - apply Rmax_l.
    - apply Rmax_l.
    - unfold Rmax. repeat destruct (Rle_dec _ _); unfold Rabs; repeat destruct (Rcase_abs _); lra.
  Qed.
End Fade.

Theorem C99_crossfade_does_not_jump :
  forall (sk : skeleton f32) ctx ctx' thr ls ls' out out' c c' o o',
    rest_sized sk ->
    blend_run (mk_bjob (Some sk) (Some ctx) thr ls [] (Some out)) = BOk (c, o) ->
    blend_run (mk_bjob (Some sk) (Some ctx') thr ls' [] (Some out')) = BOk (c', o') ->
    usable_threshold thr -> (length ls <= 4096)%nat ->
    forall i, (i < 4 * num_soa_joints sk)%nat ->
      usable_transform (joint (sk_rest sk) i) -> Forall (usable_layer i) ls -> Forall (usable_layer i) ls' ->
      forall k M d, 0 <= M <= 2 ^ 40 -> 0 <= d ->
        Forall2 (near_layer i k M d) ls ls' -> Rabs (B2R (linear (joint (sk_rest sk) i) k)) <= M ->
        Rabs (B2R (linear (joint o i) k) - B2R (linear (joint o' i) k))
        <= d + 2 * M * weight_change i ls ls' / B2R thr + 2 * ((INR (length ls) + 4) / 2 ^ 22 * M + / 2 ^ 100).
Proof.
  intros sk ctx ctx' thr ls ls' out out' c c' o o' Hr H H' Ht Hn i Hi Hu Hl Hl' k M d HM Hd F2 Hm.
  assert (LEN : length ls = length ls') by (clear -F2; induction F2; cbn; congruence).
  assert (B1 : forall l, In l ls -> 0 < B2R (ly_weight l) -> Rabs (B2R (linear (joint (ly_transform l) i) k)) <= M).
  { intros l I P. clear -F2 I P. induction F2 as [|x y xs ys N _ IH]; [destruct I|]. destruct I as [->|I]; [apply N; left; exact P|apply IH, I]. }
  assert (B2 : forall l, In l ls' -> 0 < B2R (ly_weight l) -> Rabs (B2R (linear (joint (ly_transform l) i) k)) <= M).
  { intros l I P. clear -F2 I P. induction F2 as [|x y xs ys N _ IH]; [destruct I|]. destruct I as [->|I]; [apply N; right; exact P|apply IH, I]. }
  pose proof (C75_blended_mean _ _ _ _ _ _ _ Hr H Ht Hn i Hi Hu Hl k M HM B1 Hm) as E1. rewrite LEN in Hn.
  pose proof (C75_blended_mean _ _ _ _ _ _ _ Hr H' Ht Hn i Hi Hu Hl' k M HM B2 Hm) as E2. rewrite <- LEN in E2.
  rewrite mean_TX in E1, E2. destruct (sums i k M d (proj1 HM) Hd ls ls' F2) as (S1 & S2 & S3 & S4).
  assert (T0 : 0 < B2R thr). { destruct Ht as (_ & Ht). assert (0 < / 2 ^ 20) by (apply Rinv_0_lt_compat, pow_lt; lra). lra. }
  pose proof (mean_moves M d (proj1 HM) Hd (B2R thr) _ _ _ _ _ _ _ T0 (T_nonneg i ls) (T_nonneg i ls') Hm S1 S2 S3 S4) as E3.
  apply Rabs_le_inv in E1. apply Rabs_le_inv in E2. apply Rabs_le_inv in E3. apply Rabs_le. lra.
Qed.
Print Assumptions C99_crossfade_does_not_jump.

(** ** Non-vacuity: the job of C75, and the same with the second layer at full weight. *)
Definition ex99_layers : list (layer f32) :=
  [mk_layer [k1 none_] none_ []; mk_layer [k1 ntwo] none_ [mk4 none_ nzero nhalf ntwo]; mk_layer [nan_soa] nzero []].
Example C99_hypotheses :
  (exists c o, blend_run (mk_bjob (Some one_joint) (Some (mk_bctx 0 0 nzero [])) nhalf ex_layers [] (Some [k1 ntwo])) = BOk (c, o)) /\
  (exists c o, blend_run (mk_bjob (Some one_joint) (Some (mk_bctx 0 0 nzero [])) nhalf ex99_layers [] (Some [k1 ntwo])) = BOk (c, o)) /\
  Forall (usable_layer 0) ex_layers /\ Forall (usable_layer 0) ex99_layers /\
  Forall2 (near_layer 0 0 2 0) ex_layers ex99_layers /\ weight_change 0 ex_layers ex99_layers = / 2.
Proof.
  assert (OK : forall ls, is_bok (blend_run (mk_bjob (Some one_joint) (Some (mk_bctx 0 0 nzero [])) nhalf ls [] (Some [k1 ntwo]))) = true ->
    exists c o, blend_run (mk_bjob (Some one_joint) (Some (mk_bctx 0 0 nzero [])) nhalf ls [] (Some [k1 ntwo])) = BOk (c, o)).
  { intros ls K. destruct (blend_run _) as [[c o]|e s|]; [exists c, o; reflexivity|discriminate K|discriminate K]. }
  split; [apply OK; vm_compute; reflexivity|]. split; [apply OK; vm_compute; reflexivity|].
  assert (U : Forall (usable_layer 0) ex_layers) by (apply ex_usable; lia). split; [exact U|].
  destruct (fin_one : fin (none_ : f32) 1) as (_ & O), (fin_zero : fin (nzero : f32) 0) as (_ & Z). destruct fin_two as (_ & T). destruct fin_half as (_ & H).
  split.
  { unfold ex_layers in U. inversion U as [|? ? U1 U']; subst. inversion U' as [|? ? U2 U'']; subst. inversion U'' as [|? ? U3 _]; subst.
    unfold ex99_layers. apply Forall_cons; [exact U1|]. apply Forall_cons; [|apply Forall_cons; [exact U3|apply Forall_nil]].
    destruct U2 as (_ & U2). split; [apply (usable_of _ _ fin_one); simpl; lra|]. intros _. apply U2. assert (HP : 0 < B2R (nhalf : f32)) by (rewrite H; lra). exact HP. }
  split.
  - unfold ex_layers, ex99_layers. apply Forall2_cons; [|apply Forall2_cons; [|apply Forall2_cons; [|apply Forall2_nil]]]; unfold near_layer; cbn [ly_weight ly_transform].
    + intros _. change (linear (joint [k1 none_] 0) 0) with (none_ : f32). rewrite O, Rabs_R1, Rminus_eq_0, Rabs_R0. lra.
    + intros _. change (linear (joint [k1 ntwo] 0) 0) with (ntwo : f32). rewrite T, Rminus_eq_0, Rabs_R0, Rabs_pos_eq; lra.
    + rewrite Z. intros [F|F]; exfalso; lra.
  - assert (R : forall w : f32, 0 < B2R w -> rw 0 (mk_layer [k1 ntwo] w [mk4 none_ nzero nhalf ntwo]) = B2R w).
    { intros w P. rewrite rw_pos by exact P. cbn [ly_weight ly_joint_weights Nat.div Nat.modulo Nat.divmod fst snd nth Nat.sub lane l0]. rewrite O, Rmax_right by lra. ring. }
    unfold weight_change, Rsum, ex_layers, ex99_layers. cbn [combine fold_right fst snd].
    change (joint_weight (real_layer ?l) 0) with (rw 0 l). rewrite !Rminus_eq_0, Rabs_R0.
    change (Rabs (rw 0 (mk_layer [k1 ntwo] nhalf [mk4 none_ nzero nhalf ntwo]) - rw 0 (mk_layer [k1 ntwo] none_ [mk4 none_ nzero nhalf ntwo]))) with
      (Rabs (rw 0 (mk_layer [k1 ntwo] (nhalf : f32) [mk4 none_ nzero nhalf ntwo]) - rw 0 (mk_layer [k1 ntwo] (none_ : f32) [mk4 none_ nzero nhalf ntwo]))).
    rewrite !R by (rewrite ?H, ?O; lra). rewrite H, O, Rabs_left1 by lra. lra.
Qed.

(** Rotations can jump: half-weight layers half a turn apart, where the second moves by 2^-19 across the point
    where it is as near as its negative.  The blended rotation goes a quarter turn one way, then a quarter turn
    the other way. *)
Definition ex99_soa (q : quat f32) : transform (V4 f32) :=
  TR (tr_t (k1 nzero)) (Q4 (splat (qx q)) (splat (qy q)) (splat (qz q)) (splat (qw q))) (tr_s (k1 nzero)).
Definition ex99_blend (q : quat f32) : bres f32 :=
  blend_run (mk_bjob (Some one_joint) (Some (mk_bctx 0 0 nzero [])) nhalf
    [mk_layer [k1 nzero] nhalf []; mk_layer [ex99_soa q] nhalf []] [] (Some [k1 ntwo])).
Definition bounds_x (r : bres f32) : bool * bool :=
  match r with BOk (_, [t]) => (nlt nhalf (l0 (qx (tr_r t))), nlt (l0 (qx (tr_r t))) (nneg nhalf)) | _ => (false, false) end.
Theorem C99_rotation_jumps_refuted :
  exists q q' : quat f32,
    (forall c, Rabs (B2R (qcomp q c) - B2R (qcomp q' c)) <= / 2 ^ 19) /\
    (forall x, x = q \/ x = q' -> Rabs (sumsq x - 1) <= / 2 ^ 19) /\
    bounds_x (ex99_blend q) = (true, false) /\ bounds_x (ex99_blend q') = (false, true).
Proof.
  exists (Q4 none_ nzero nzero (f32_lit 1 (-20))), (Q4 none_ nzero nzero (f32_lit (-1) (-20))).
  destruct (fin_one : fin (none_ : f32) 1) as (_ & O), (fin_zero : fin (nzero : f32) 0) as (_ & Z).
  assert (E : B2R (f32_lit 1 (-20)) = / 2 ^ 20) by (destruct (f32_lit_exact 1 (-20) ltac:(simpl; lia) ltac:(lia)) as [_ ->]; simpl; lra).
  assert (E' : B2R (f32_lit (-1) (-20)) = - / 2 ^ 20) by (destruct (f32_lit_exact (-1) (-20) ltac:(simpl; lia) ltac:(lia)) as [_ ->]; simpl; lra).
  split; [|split; [|split; vm_compute; reflexivity]].
  - intros c. destruct c as [|[|[|c]]]; cbn [qcomp qx qy qz qw]; rewrite ?O, ?Z, ?E, ?E'; apply Rabs_le; lra.
  - intros x [-> | ->]; unfold sumsq; cbn [qx qy qz qw]; rewrite O, Z, ?E, ?E'; apply Rabs_le; lra.
Qed.
Print Assumptions C99_rotation_jumps_refuted.
