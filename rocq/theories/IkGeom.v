(** Geometry of the IK jobs, in real arithmetic: C49 C50 C59-C62. *)
From Coq Require Import Reals Lra Psatz.
From Verif Require Import Base Num NumR Math MathSpec MathProofs MathProps Ik IkSpec IkProofs.
Local Open Scope R_scope.

Lemma ok_inj {O} (a b : O) : Some (Ok tt, a) = Some (Ok tt, b) -> b = a.
Proof. intros H. injection H. auto. Qed.

(** ** C49 Corrections are unit quaternions on the short arc *)
Lemma lerp_unit_w (q : V4 R) w : 0 <= l3 q -> 0 <= w < 1 -> let l := fx4_lerp QUAT_UNIT q (splat w) in 0 < l3 l /\ norm2 (q_of l) <> 0.
Proof.
  intros Hq Hw l. assert (E : l3 l = w * (l3 q - 1) + 1) by (unfold l; rewrite QUAT_UNIT_R; reflexivity).
  assert (P : 0 < l3 l) by (rewrite E; nra). split; [exact P|]. unfold norm2, q_of. cbn [qx qy qz qw]. nra.
Qed.
Lemma max0_R w : w < 1 -> exists w', nmax (splat w) nzero = splat w' /\ 0 <= w' < 1 /\ (0 <= w -> w' = w).
Proof.
  intros H. exists (Rmax w 0). split.
  - lit4. unfold splat. nr. reflexivity.
  - split; [|intros; apply Rmax_left; lra]. split; [apply Rmax_r|]. apply Rmax_lub_lt; lra.
Qed.

(** Whatever the chain, the target and the trigonometry: with a weight below 1 both corrections
    are unit quaternions of positive real part. *)
Theorem C49_two_bone : forall acos aa (j : ik2_job R) o out,
  i2_weight j < 1 -> ik2_run_with acos aa j o = Some (Ok tt, out) ->
  unitq (q_of (o_start out)) /\ unitq (q_of (o_mid out)) /\ 0 < l3 (o_start out) /\ 0 < l3 (o_mid out).
Proof.
  intros acos aa j o out Hw. unfold ik2_run_with. destruct (negb (ik2_validate j)); [discriminate|].
  assert (UU : unitq (q_of QUAT_UNIT) /\ 0 < l3 (@QUAT_UNIT R Rnum)) by (rewrite QUAT_UNIT_R; split; [unfold unitq, norm2; cbn; ring|cbn; lra]).
  destruct (nle (i2_weight j) nzero).
  - intros H. apply ok_inj in H; subst out. cbn [o_start o_mid]. destruct UU as [U1 U2]. auto.
  - cbv zeta. destruct (ik2_soften j (ik2_setup j)) as [[reached t] t2]. destruct (ik2_mid_rot acos aa j _ t2) as [mid|]; [|discriminate].
    destruct (ik2_start_rot aa j _ mid t t2) as [start|]; [|discriminate]. unfold ik2_weight_output. cbv zeta. change (@num_arith R Rnum) with Rarith. rewrite !none_R.
    change (nlt (i2_weight j) 1) with (Rltb (i2_weight j) 1). destruct (Rltb_spec (i2_weight j) 1) as [_|]; [|lra].
    destruct (max0_R (i2_weight j) Hw) as (w & Ew & Rw & _). change (@num_arith R Rnum) with Rarith in Ew. rewrite Ew.
    intros H. apply ok_inj in H; subst out. cbn [o_start o_mid].
    destruct (lerp_unit_w (quat_positive_w start) w (proj1 (positive_w_R start)) Rw) as [P1 N1].
    destruct (lerp_unit_w (quat_positive_w mid) w (proj1 (positive_w_R mid)) Rw) as [P2 N2].
    set (a := fx4_lerp QUAT_UNIT (quat_positive_w start) (splat w)) in *. set (b := fx4_lerp QUAT_UNIT (quat_positive_w mid) (splat w)) in *.
    rewrite recip_lanes. cbn [l0 l1].
    assert (RS : forall x : V4 R, reduce_sum (x * x)%num = norm2 (q_of x)) by (intros [x0 x1 x2 x3]; reflexivity).
    change (@num_arith R Rnum) with Rarith in RS. rewrite !RS.
    assert (G : forall (x : V4 R) k, norm2 (q_of x) <> 0 -> 0 < l3 x -> k = / sqrt (norm2 (q_of x)) ->
       unitq (Q4 (l0 x * k) (l1 x * k) (l2 x * k) (l3 x * k)) /\ 0 < l3 x * k).
    { intros x k Hn Hp ->. assert (Pn : 0 < norm2 (q_of x)) by (unfold norm2, q_of in *; cbn [qx qy qz qw] in *; nra).
      pose proof (sqrt_lt_R0 _ Pn). split; [|apply Rmult_lt_0_compat; [exact Hp|apply Rinv_0_lt_compat; assumption]].
      unfold unitq. transitivity (norm2 (q_of x) * (/ sqrt (norm2 (q_of x)) * / sqrt (norm2 (q_of x)))); [unfold norm2, q_of; cbn [qx qy qz qw]; ring|].
      rewrite <- Rinv_mult, sqrt_sqrt by lra. field. lra. }
    destruct (G a _ N1 P1 eq_refl) as [A1 A2]. destruct (G b _ N2 P2 eq_refl) as [B1 B2].
    repeat split; assumption.
Qed.
Print Assumptions C49_two_bone.

Theorem C49_aim : forall aa (j : aim_job R) o out,
  am_weight j < 1 -> aim_run_with aa j o = Some (Ok tt, out) -> unitq (q_of (ao_corr out)) /\ 0 < l3 (ao_corr out).
Proof.
  intros aa j o out Hw. unfold aim_run_with. destruct (negb (aim_validate j)); [discriminate|]. cbv zeta.
  assert (UU : unitq (q_of QUAT_UNIT) /\ 0 < l3 (@QUAT_UNIT R Rnum)) by (rewrite QUAT_UNIT_R; split; [unfold unitq, norm2; cbn; ring|cbn; lra]).
  destruct (offsetted_forward _ _ _) as [of|]; [|intros H; apply ok_inj in H; subst out; exact UU].
  destruct (neq _ nzero); [intros H; apply ok_inj in H; subst out; exact UU|].
  destruct (aim_twisted _ _ _ _ _) as [tw|]; [|discriminate]. intros H. apply ok_inj in H; subst out. cbn [ao_corr].
  unfold aim_weighted. cbv zeta. change (@num_arith R Rnum) with Rarith. rewrite !none_R.
  change (nlt (am_weight j) 1) with (Rltb (am_weight j) 1). destruct (Rltb_spec (am_weight j) 1) as [_|]; [|lra].
  destruct (max0_R (am_weight j) Hw) as (w & Ew & Rw & _). change (@num_arith R Rnum) with Rarith in Ew. rewrite Ew.
  destruct (lerp_unit_w (quat_positive_w tw) w (proj1 (positive_w_R tw)) Rw) as [P1 N1].
  set (a := fx4_lerp QUAT_UNIT (quat_positive_w tw) (splat w)) in *. split; [apply quat_normalize_unit, N1|].
  assert (E : l3 (quat_normalize a) = l3 a * @nrecip R Rarith (sqrt (norm2 (q_of a)))) by (destruct a; reflexivity).
  rewrite E, nrecip_R. assert (Pn : 0 < norm2 (q_of a)) by (unfold norm2, q_of in *; cbn [qx qy qz qw] in *; nra).
  apply Rmult_lt_0_compat; [exact P1|]. apply Rinv_0_lt_compat, sqrt_lt_R0, Pn.
Qed.
Print Assumptions C49_aim.

(** ** The aim job *)
Section Aim.
  Context (aa : V4 R -> V4 R -> option (V4 R)) (j : aim_job R).
  Let J := am_joint j. Let f := v3_of (am_forward j). Let o := v3_of (am_offset j).
  Hypothesis (HJ : affine J) (HD : det4 J <> 0) (Htw : twist_known aa (am_twist j)).
  (** The target in joint space. *)
  Let t := pt (mat_invert J) (v3_of (am_target j)).

  Lemma aim_core out o0 : aim_run_with aa j o0 = Some (Ok tt, out) -> 1 <= am_weight j -> 0 < dot3 t t ->
    let ac2 := dot3 o o - dot3 f o * dot3 f o in
    (ao_reached out = false <-> dot3 t t < ac2) /\
    (ao_reached out = true -> exists of tv r, v3_of tv = t /\ ac2 <= dot3 t t /\
      v3_of of = plus3 o (scale3 (sqrt (dot3 t t - ac2) - dot3 f o) f) /\ about t r /\
      let e := q_of (quat_from_vectors of tv) in
      (forall v, rotate (q_of (ao_corr out)) v = rotate r (rotate e v)) /\ 0 <= l3 (ao_corr out) /\ unitq (q_of (ao_corr out)) /\
      (am_twist j = 0 -> let n := cross3 (rotate e (v3_of (am_up j))) t in let n0 := cross3 (lin (mat_invert J) (v3_of (am_pole j))) t in
         0 < dot3 n n -> 0 < dot3 n0 n0 -> rotate r n = scale3 (len3 n / len3 n0) n0)).
  Proof using Htw.
    intros HR Hw Ht ac2. unfold aim_run_with in HR. destruct (negb (aim_validate j)); [discriminate|]. cbv zeta in HR. fold J in HR.
    set (tv := transform_point (mat_invert J) (am_target j)) in *. assert (Et : v3_of tv = t) by apply transform_point_R.
    pose proof (offsetted_R (am_forward j) (am_offset j) tv) as OF. rewrite Et in OF. fold f o ac2 in OF.
    destruct (offsetted_forward (am_forward j) (am_offset j) tv) as [of|].
    - destruct OF as [Hac Eof]. rewrite len2_s_R, Et in HR. change (@num_arith R Rnum) with Rarith in HR. rewrite nzero_R in HR.
      change (neq (dot3 t t) 0) with (Reqb (dot3 t t) 0) in HR. destruct (Reqb_spec (dot3 t t) 0); [lra|].
      destruct (aim_twisted_R aa j (mat_invert J) tv of ltac:(rewrite Et; exact Ht) Htw) as (q & r & Eq & Ab & Hq & Al). rewrite Et in Ab, Al.
      rewrite Eq in HR. apply ok_inj in HR; subst out. cbn [ao_reached ao_corr]. split; [split; [discriminate|lra]|]. intros _.
      exists of, tv, r. split; [exact Et|]. split; [exact Hac|]. split; [exact Eof|]. split; [exact Ab|]. cbv zeta.
      unfold aim_weighted. cbv zeta. change (@num_arith R Rnum) with Rarith. rewrite !none_R. change (nlt (am_weight j) 1) with (Rltb (am_weight j) 1).
      destruct (Rltb_spec (am_weight j) 1); [lra|]. destruct (positive_w_R q) as (W0 & W1 & W2).
      split; [intros v; rewrite W2, Hq; apply rotate_compose|]. split; [exact W0|]. split; [|exact Al].
      unfold unitq. rewrite W1, Hq, hamilton_norm. destruct Ab as [Ur _]. rewrite Ur. rewrite (qfv_unit of tv). ring.
    - apply ok_inj in HR; subst out. cbn [ao_reached]. split; [split; auto|discriminate].
  Qed.
End Aim.

(** At full weight too (and whatever the twist, if its sine and cosine are exact). *)
Theorem C49_aim_full_weight : forall aa (j : aim_job R) o out,
  1 <= am_weight j -> twist_known aa (am_twist j) -> aim_run_with aa j o = Some (Ok tt, out) ->
  unitq (q_of (ao_corr out)) /\ 0 <= l3 (ao_corr out).
Proof.
  intros aa j o out Hw Htw HR.
  destruct (Rlt_dec 0 (dot3 (pt (mat_invert (am_joint j)) (v3_of (am_target j))) (pt (mat_invert (am_joint j)) (v3_of (am_target j))))) as [Ht|Ht].
  - destruct (aim_core aa j Htw out o HR Hw Ht) as [C1 C2]. destruct (ao_reached out) eqn:Er.
    + destruct (C2 eq_refl) as (of & tv & r & _ & _ & _ & _ & _ & W & U & _). auto.
    + unfold aim_run_with in HR. destruct (negb (aim_validate j)); [discriminate|]. cbv zeta in HR.
      destruct (offsetted_forward _ _ _); [destruct (neq _ nzero); [|destruct (aim_twisted _ _ _ _ _); [|discriminate]]|]; apply ok_inj in HR; subst out; try discriminate.
      cbn [ao_corr]. rewrite QUAT_UNIT_R. split; [unfold unitq, norm2; cbn; ring|cbn; lra].
  - unfold aim_run_with in HR. destruct (negb (aim_validate j)); [discriminate|]. cbv zeta in HR.
    rewrite len2_s_R, transform_point_R in HR. change (@num_arith R Rnum) with Rarith in HR. rewrite nzero_R in HR.
    pose proof (dot3_nonneg (pt (mat_invert (am_joint j)) (v3_of (am_target j)))).
    change (@neq R Rnum) with Reqb in HR. destruct (Reqb_spec (dot3 (pt (mat_invert (am_joint j)) (v3_of (am_target j))) (pt (mat_invert (am_joint j)) (v3_of (am_target j)))) 0); [|lra].
    destruct (offsetted_forward _ _ _); apply ok_inj in HR; subst out; cbn [ao_corr]; rewrite QUAT_UNIT_R; (split; [unfold unitq, norm2; cbn; ring|cbn; lra]).
Qed.
Print Assumptions C49_aim_full_weight.

(** ** C50 Aim IK aims at the target *)
(** [TH] is the crate's 1e-6 (see C46).  [t] is the target in joint space.  When the job reports
    [reached], the point [p] of the forward axis through the offset that is as far from the joint
    as the target is brought onto the target: exactly, unless [p] was almost opposite to it, in
    which case within sqrt(2 TH) (0.15%) of its distance. *)
Theorem C50_aims : forall aa (j : aim_job R) o0 out t,
  let f := v3_of (am_forward j) in let o := v3_of (am_offset j) in
  affine (am_joint j) -> det4 (am_joint j) <> 0 -> twist_known aa (am_twist j) -> 1 <= am_weight j ->
  dot3 f f = 1 -> pt (am_joint j) t = v3_of (am_target j) -> TH <= dot3 t t ->
  aim_run_with aa j o0 = Some (Ok tt, out) -> ao_reached out = true ->
  exists s, let p := plus3 o (scale3 s f) in
    let p' := pt (am_joint j) (rotate (q_of (ao_corr out)) p) in
    len3 p = len3 t /\ (dot3 o o <= dot3 t t -> 0 <= s) /\
    (TH * dot3 t t <= dot3 t t + dot3 p t \/ p = neg3 t -> p' = v3_of (am_target j)) /\
    (let d := minus3 (rotate (q_of (ao_corr out)) p) t in dot3 d d <= 2 * TH * dot3 t t).
Proof.
  intros aa j o0 out t f o HA HD Htw Hw Hf Ht HTH HR Hreach. pose proof TH_bound as TB.
  destruct (affine_inv _ HA HD) as (_ & _ & I2). 
  assert (Et : pt (mat_invert (am_joint j)) (v3_of (am_target j)) = t) by (rewrite <- Ht; apply I2).
  destruct (aim_core aa j Htw out o0 HR Hw ltac:(rewrite Et; lra)) as [_ C]. rewrite Et in C.
  destruct (C Hreach) as (of & tv & r & Etv & Hac & Eof & Ab & Hrot & _ & _ & _). fold f o in Hac, Eof.
  set (ac2 := dot3 o o - dot3 f o * dot3 f o) in *.
  exists (sqrt (dot3 t t - ac2) - dot3 f o). cbv zeta. set (p := plus3 o (scale3 (sqrt (dot3 t t - ac2) - dot3 f o) f)) in *.
  assert (Lp : dot3 p p = dot3 t t) by (apply offsetted_len; assumption).
  assert (Ll : len3 p = len3 t) by (unfold len3; rewrite Lp; reflexivity).
  split; [exact Ll|]. split.
  { intros H. assert (S : sqrt (dot3 t t - ac2) * sqrt (dot3 t t - ac2) = dot3 t t - ac2) by (apply sqrt_sqrt; lra).
    pose proof (sqrt_pos (dot3 t t - ac2)). unfold ac2 in S at 3. set (x := sqrt (dot3 t t - ac2)) in *. destruct (Rle_dec 0 (dot3 f o)); nra. }
  assert (Lt : len3 t * len3 t = dot3 t t) by apply len3_sq. assert (Pt : 0 < len3 t) by (apply sqrt_lt_R0; lra).
  destruct (C46_from_vectors_partial of tv) as (U & X1 & X2 & X3); [rewrite Etv, Eof, Ll, Lt; exact HTH|].
  rewrite transform_vector_rotate in X1, X2, X3 by exact U. rewrite Etv, Eof, Ll in *. set (e := q_of (quat_from_vectors of tv)) in *.
  assert (One : len3 t / len3 t = 1) by (field; lra). rewrite One, scale3_1 in X1, X2. destruct Ab as [Ur Fix].
  assert (Fx : rotate r t = t) by (rewrite <- (scale3_1 t) at 1; rewrite Fix; apply scale3_1).
  split.
  - intros H. rewrite Hrot. assert (E : rotate e p = t).
    { destruct H as [H|H]; [apply X1; rewrite Lt; exact H|]. apply X2. exists 1. split; [lra|]. rewrite H. clear. destruct t. v3s. f_equal; ring. }
    rewrite E, Fx. exact Ht.
  - cbv zeta. rewrite Hrot. assert (E : minus3 (rotate r (rotate e p)) t = rotate r (minus3 (rotate e p) t)) by (rewrite rotate_minus, Fx; reflexivity).
    rewrite E, rotate_dot by exact Ur.
    assert (K : minus3 (rotate e p) t = scale3 (len3 t) (minus3 (scale3 (/ len3 t) (rotate e p)) (scale3 (/ len3 t) t))) by (v3s; f_equal; field; lra).
    rewrite K, dot3_scale_l, dot3_scale_r, <- Rmult_assoc, Lt. rewrite (Rmult_comm (dot3 t t)). apply Rmult_le_compat_r; [lra|exact X3].
Qed.
Print Assumptions C50_aims.

(** When it does not report [reached], no rotation of the joint could bring the forward axis
    through the offset onto the target. *)
Theorem C50_unreachable : forall aa (j : aim_job R) o0 out t,
  let f := v3_of (am_forward j) in let o := v3_of (am_offset j) in
  affine (am_joint j) -> det4 (am_joint j) <> 0 -> dot3 f f = 1 -> pt (am_joint j) t = v3_of (am_target j) ->
  aim_run_with aa j o0 = Some (Ok tt, out) -> ao_reached out = false ->
  ao_corr out = mk4 0 0 0 1 /\ forall q s, unitq q -> rotate q (plus3 o (scale3 s f)) <> t.
Proof.
  intros aa j o0 out t f o HA HD Hf Ht HR Hreach.
  destruct (affine_inv _ HA HD) as (_ & _ & I2). 
  assert (Et : pt (mat_invert (am_joint j)) (v3_of (am_target j)) = t) by (rewrite <- Ht; apply I2).
  unfold aim_run_with in HR. destruct (negb (aim_validate j)); [discriminate|]. cbv zeta in HR.
  pose proof (offsetted_R (am_forward j) (am_offset j) (transform_point (mat_invert (am_joint j)) (am_target j))) as OF.
  rewrite transform_point_R, Et in OF. fold f o in OF.
  destruct (offsetted_forward _ _ _); [destruct (neq _ nzero); [|destruct (aim_twisted _ _ _ _ _); [|discriminate]]; apply ok_inj in HR; subst out; discriminate|].
  apply ok_inj in HR; subst out. cbn [ao_corr]. split; [apply QUAT_UNIT_R|]. intros q s U E.
  assert (D : dot3 (plus3 o (scale3 s f)) (plus3 o (scale3 s f)) = dot3 t t) by (rewrite <- (rotate_dot q) by exact U; rewrite E; reflexivity).
  rewrite dot3_plus_l, !dot3_plus_r, !dot3_scale_l, !dot3_scale_r, Hf, (dot3_comm o f) in D.
  pose proof (Rle_0_sqr (s + dot3 f o)) as Q. unfold Rsqr in Q. lra.
Qed.
Print Assumptions C50_unreachable.

(** ** C59 Aim IK turns the up axis towards the pole *)
(** The corrected up axis lies in the half-plane bounded by the joint-target line that contains
    the pole vector (all in model space, for any invertible joint matrix). *)
Theorem C59_aim_up : forall aa (j : aim_job R) o0 out t,
  let f := v3_of (am_forward j) in let o := v3_of (am_offset j) in
  affine (am_joint j) -> det4 (am_joint j) <> 0 -> am_twist j = 0 -> 1 <= am_weight j ->
  pt (am_joint j) t = v3_of (am_target j) -> 0 < dot3 t t ->
  aim_run_with aa j o0 = Some (Ok tt, out) -> ao_reached out = true ->
  let up := lin (am_joint j) (rotate (q_of (ao_corr out)) (v3_of (am_up j))) in
  let dir := minus3 (v3_of (am_target j)) (origin (am_joint j)) in
  (* the corrected up axis and the pole are not along the target direction *)
  (forall a, up <> scale3 a dir) -> (forall a, v3_of (am_pole j) <> scale3 a dir) ->
  exists a m, 0 < m /\ up = plus3 (scale3 a dir) (scale3 m (v3_of (am_pole j))).
Proof.
  intros aa j o0 out t f o HA HD Htw Hw Ht HTp HR Hreach up dir Hup Hpole.
  destruct (affine_inv _ HA HD) as (_ & _ & I2). destruct (lin_inv _ HA HD) as [L1 L2]. set (J := am_joint j) in *.
  assert (Et : pt (mat_invert J) (v3_of (am_target j)) = t) by (rewrite <- Ht; apply I2).
  destruct (aim_core aa j (or_introl Htw) out o0 HR Hw ltac:(fold J; rewrite Et; exact HTp)) as [_ C]. fold J in C. rewrite Et in C.
  destruct (C Hreach) as (of & tv & r & Etv & Hac & Eof & Ab & Hrot & _ & _ & Al). specialize (Al Htw). cbv zeta in Al.
  set (e := q_of (quat_from_vectors of tv)) in *. set (p := lin (mat_invert J) (v3_of (am_pole j))) in *.
  assert (Ep : lin J p = v3_of (am_pole j)) by apply L1.
  assert (Edir : lin J t = dir) by (unfold lin; rewrite Ht; reflexivity).
  set (u := rotate e (v3_of (am_up j))) in *. set (u' := rotate r u).
  assert (Eup : up = lin J u') by (unfold up, u'; rewrite Hrot; reflexivity).
  assert (PAR : forall v, dot3 (cross3 v t) (cross3 v t) = 0 -> v = scale3 (dot3 v t / dot3 t t) t).
  { intros w H. apply dot3_zero in H. assert (K : scale3 (dot3 t t) w = scale3 (dot3 w t) t).
    { transitivity (plus3 (scale3 (dot3 w t) t) (cross3 t (cross3 w t))); [v3s; f_equal; ring|]. rewrite H. v3s. f_equal; ring. }
    unfold Rdiv. rewrite Rmult_comm, <- scale3_scale, <- K, scale3_scale, Rinv_l by lra. symmetry. apply scale3_1. }
  assert (Ct : cross3 u' t = rotate r (cross3 u t)).
  { destruct Ab as [Ur Fix]. rewrite <- rotate_cross by exact Ur. f_equal. rewrite <- (scale3_1 t) at 2. rewrite Fix. symmetry. apply scale3_1. }
  destruct (Req_dec (dot3 (cross3 u t) (cross3 u t)) 0) as [Z|NZ].
  { exfalso. apply (Hup (dot3 u' t / dot3 t t)). rewrite Eup, <- Edir, <- lin_scale. f_equal. apply PAR. rewrite Ct, rotate_dot by apply Ab. exact Z. }
  destruct (Req_dec (dot3 (cross3 p t) (cross3 p t)) 0) as [Z0|NZ0].
  { exfalso. apply (Hpole (dot3 p t / dot3 t t)). rewrite <- Ep, <- Edir, <- lin_scale. f_equal. apply PAR, Z0. }
  pose proof (dot3_nonneg (cross3 u t)). pose proof (dot3_nonneg (cross3 p t)).
  specialize (Al ltac:(lra) ltac:(lra)). rewrite <- Ct in Al.
  set (m := len3 (cross3 u t) / len3 (cross3 p t)) in *.
  assert (Pm : 0 < m) by (apply Rdiv_lt_0_compat; apply sqrt_lt_R0; lra).
  assert (W := PAR (minus3 u' (scale3 m p))).
  exists (dot3 (minus3 u' (scale3 m p)) t / dot3 t t), m. split; [exact Pm|].
  rewrite Eup, <- Ep, <- Edir, <- !lin_scale, <- lin_plus. f_equal. rewrite <- W.
  - destruct u'. v3s. f_equal; ring.
  - replace (cross3 (minus3 u' (scale3 m p)) t) with (minus3 (cross3 u' t) (scale3 m (cross3 p t))) by (v3s; f_equal; ring). rewrite Al. v3s. ring.
Qed.
Print Assumptions C59_aim_up.

(** ** The two bone job *)
Lemma valid_axis (v : V4 R) : dot3 (v3_of v) (v3_of v) = 1 -> vec3_is_normalized v = true.
Proof.
  intros H. unfold vec3_is_normalized. cbv zeta.
  assert (E : (l0 v * l0 v + l1 v * l1 v + l2 v * l2 v)%num = 1) by exact H. change (@num_arith R Rnum) with Rarith in *. rewrite E.
  assert (B1 : @nlit R Rarith 8371831 (-23) < 1) by (cbn [nlit Rarith]; unfold powerRZ; simpl; lra). assert (B2 : 1 < @nlit R Rarith 8405385 (-23)) by (cbn [nlit Rarith]; unfold powerRZ; simpl; lra).
  change (Rltb (@nlit R Rarith 8371831 (-23)) 1 && Rltb 1 (@nlit R Rarith 8405385 (-23)) = true).
  destruct (Rltb_spec (@nlit R Rarith 8371831 (-23)) 1); [|lra]. destruct (Rltb_spec 1 (@nlit R Rarith 8405385 (-23))); [reflexivity|lra].
Qed.
Section TwoBone.
  Context (j : ik2_job R) (q1 q2 : quat R) (k1 k2 : R).
  Hypothesis (H1 : placed (i2_start j) q1 k1) (H2 : placed (i2_mid j) q2 k2).
  Let S := origin (i2_start j). Let M := origin (i2_mid j). Let E := origin (i2_end j). Let T := v3_of (i2_target j).
  Let l1 := dist S M. Let l2 := dist M E. Let d := dist S T.
  Let soft := softened l1 l2 (i2_soften j) d.
  Let D := clampR (Rabs (l1 - l2)) (l1 + l2) soft.
  Let axis := v3_of (i2_mid_axis j).
  Hypothesis (Hax : dot3 axis axis = 1).
  Hypothesis (Hp1 : dot3 (lin (i2_mid j) axis) (minus3 M S) = 0) (Hp2 : dot3 (lin (i2_mid j) axis) (minus3 E M) = 0).
  Hypothesis (Hl1 : 0 < l1) (Hl2 : 0 < l2) (Hd : 0 < d).
  Let pole := v3_of (i2_pole j).
  Hypothesis (Hpole : 0 < dot3 (cross3 (minus3 T S) pole) (cross3 (minus3 T S) pole)).
  Hypothesis (Hw : 1 <= i2_weight j).
  Let rho := k2 * / k1.
  Let rr := hamilton (conj q1) q2.
  Let s := ik2_setup j.
  Let u := v3_of (s_start_mid_ms s). Let v := v3_of (s_mid_end_ms s).
  (** The target direction in start space. *)
  Let T1 := scale3 (/ k1) (rotate (conj q1) (minus3 T S)).

  Lemma lin_mid_dot x y : dot3 (lin (i2_mid j) x) (lin (i2_mid j) y) = k2 * k2 * dot3 x y.
  Proof using H2. destruct (H2) as (_ & U & _). rewrite !(placed_lin _ _ _ _ H2), dot3_scale_l, dot3_scale_r, rotate_dot by exact U. ring. Qed.

  Lemma two_bone_core : forall o0, exists out mid r xf tv,
      ik2_run_with exact_acos4 exact_axis_angle j o0 = Some (Ok tt, out) /\
      (unitq (q_of (o_start out)) /\ unitq (q_of (o_mid out)) /\ 0 <= l3 (o_start out) /\ 0 <= l3 (o_mid out)) /\
      (o_reached out = true <-> Rabs (l1 - l2) < d /\ d <= (l1 + l2) * clampR 0 1 (i2_soften j)) /\
      (forall x, rotate (q_of (o_mid out)) x = rotate (q_of mid) x) /\ unitq (q_of mid) /\
      let w := plus3 u (rotate (q_of mid) v) in
      k2 * len3 w = D /\ 0 <= dot3 u (cross3 axis w) /\ dot3 axis w = 0 /\
      v3_of xf = scale3 rho (rotate rr w) /\ v3_of tv = scale3 (soft / d) T1 /\
      about (v3_of tv) r /\
      let e := q_of (quat_from_vectors xf tv) in
      (forall x, rotate (q_of (o_start out)) x = rotate r (rotate e x)) /\
      0 < soft /\ 0 < D /\
      let n := rotate e (scale3 rho (rotate rr axis)) in let n0 := cross3 (v3_of tv) (lin (s_inv_start s) pole) in
      (i2_twist j = 0 -> dot3 (v3_of tv) n = 0 -> rotate r n = scale3 (len3 n / len3 n0) n0) /\ 0 < len3 n /\ 0 < len3 n0.
  Proof using H1 H2 Hax Hp1 Hp2 Hl1 Hl2 Hd Hpole Hw.
    intros o0. destruct (tb_k j q1 q2 k1 k2 H1 H2) as [Pk1 Pk2]. pose proof (tb_rho j q1 q2 k1 k2 H1 H2) as Prho. fold rho in Prho.
    pose proof (tb_rr j q1 q2 k1 k2 H1 H2) as Urr. fold rr in Urr. pose proof TH_bound as TB.
    assert (Pi : 0 < / k1) by (apply Rinv_0_lt_compat, Pk1).
    unfold ik2_run_with. unfold ik2_validate. rewrite (valid_axis _ Hax). cbn [negb]. change (@num_arith R Rnum) with Rarith. rewrite nzero_R.
    change (nle (i2_weight j) 0) with (Rleb (i2_weight j) 0). destruct (Rleb_spec (i2_weight j) 0) as [X0|_]; [lra|]. cbv zeta. fold s.
    (* the target *)
    pose proof (soften_R j s) as SO. cbv zeta in SO. unfold s in SO. rewrite (tb_sqrt1 j q1 q2 k1 k2 H1 H2), (tb_sqrt2 j q1 q2 k1 k2 H1 H2), (tb_target_len j q1 k1 H1) in SO.
    fold S M E T l1 l2 d in SO. rewrite (tb_target j q1 k1 H1) in SO. fold S T T1 in SO. rewrite softened_scale in SO by exact Pi. fold soft in SO. fold s in SO.
    destruct (ik2_soften j s) as [[reached tv] t2]. destruct SO as (SR & ST & S2 & Snn & Sp).
    assert (Psoft : 0 < soft). { specialize (Sp ltac:(nra) ltac:(nra)). nra. }
    assert (ST' : v3_of tv = scale3 (soft / d) T1). { rewrite ST. f_equal. field. lra. }
    (* perpendicular axis *)
    assert (Au : dot3 axis u = 0). { assert (K := lin_mid_dot axis u). unfold u, s in K. rewrite (tb_u j q1 q2 k1 k2 H1 H2) in K. fold S M s u in K. rewrite Hp1 in K. assert (0 < k2 * k2) by nra. nra. }
    assert (Av : dot3 axis v = 0). { assert (K := lin_mid_dot axis v). unfold v, s in K. rewrite (tb_v j q1 q2 k1 k2 H1 H2) in K. fold E M s v in K. rewrite Hp2 in K. assert (0 < k2 * k2) by nra. nra. }
    assert (L1 : l1 = k2 * len3 u) by exact (tb_l1 j q1 q2 k1 k2 H1 H2). assert (L2 : l2 = k2 * len3 v) by exact (tb_l2 j q1 q2 k1 k2 H1 H2).
    assert (Lu : 0 < len3 u) by nra. assert (Lv : 0 < len3 v) by nra.
    destruct (mid_R j s t2 rho (/ k1 * soft) Hax Au Av Lu Lv Prho ltac:(nra) (tb_len1 j q1 q2 k1 k2 H1 H2) (tb_len2 j q1 q2 k1 k2 H1 H2) (tb_len3 j q1 q2 k1 k2 H1 H2) S2)
      as (mid & Em & Um & Hlen & Hside & Hperp). fold axis u v in Hlen, Hside, Hperp.
    rewrite Em. set (w := plus3 u (rotate (q_of mid) v)) in *.
    assert (Hlen' : k2 * len3 w = D).
    { replace (rho * len3 u) with (/ k1 * l1) in Hlen by (rewrite L1; unfold rho; ring). replace (rho * len3 v) with (/ k1 * l2) in Hlen by (rewrite L2; unfold rho; ring).
      replace (/ k1 * l1 - / k1 * l2) with (/ k1 * (l1 - l2)) in Hlen by ring. rewrite Rabs_mult, (Rabs_right (/ k1)), <- Rmult_plus_distr_l, clampR_scale in Hlen by lra. fold D in Hlen.
      unfold rho in Hlen. apply Rmult_eq_reg_l with (/ k1); lra. }
    assert (PD : 0 < D).
    { unfold D. assert (Ale : Rabs (l1 - l2) <= l1 + l2) by (unfold Rabs; destruct (Rcase_abs (l1 - l2)); lra).
      unfold clampR. apply Rlt_le_trans with (Rmin (l1 + l2) soft); [apply Rmin_glb_lt; lra|apply Rmax_r]. }
    (* the start rotation *)
    assert (T1l : len3 T1 = / k1 * d). { unfold T1. rewrite len3_sc by lra. rewrite rotate_len; [reflexivity|]. apply conj_unit. apply H1. }
    assert (Tl : len3 (v3_of tv) = / k1 * soft). { rewrite ST', len3_sc by (apply Rlt_le, Rdiv_lt_0_compat; assumption). rewrite T1l. field. lra. }
    assert (Ptv : 0 < dot3 (v3_of tv) (v3_of tv)) by (rewrite <- len3_sq, Tl; nra).
    assert (Et2 : l0 t2 = dot3 (v3_of tv) (v3_of tv)) by (rewrite S2, <- len3_sq, Tl; ring).
    assert (Epole : lin (s_inv_start s) pole = scale3 (/ k1) (rotate (conj q1) pole)).
    { destruct (placed_inv _ _ _ H1) as (_ & _ & LI). apply LI. }
    assert (Pn0 : 0 < dot3 (cross3 (v3_of tv) (lin (s_inv_start s) pole)) (cross3 (v3_of tv) (lin (s_inv_start s) pole))).
    { rewrite ST', Epole. unfold T1.
      assert (U1 : unitq (conj q1)) by (apply conj_unit, H1).
      set (a := soft / d). assert (Pa : 0 < a) by (apply Rdiv_lt_0_compat; assumption).
      assert (K : cross3 (scale3 a (scale3 (/ k1) (rotate (conj q1) (minus3 T S)))) (scale3 (/ k1) (rotate (conj q1) pole))
        = scale3 (a * / k1 * / k1) (rotate (conj q1) (cross3 (minus3 T S) pole))).
      { rewrite <- rotate_cross by exact U1. set (x := rotate (conj q1) (minus3 T S)). set (y := rotate (conj q1) pole). clear. v3s. f_equal; ring. }
      rewrite K, dot3_scale_l, dot3_scale_r, rotate_dot by exact U1. assert (Pc : 0 < a * / k1 * / k1) by (apply Rmult_lt_0_compat; [apply Rmult_lt_0_compat|]; assumption).
      apply Rmult_lt_0_compat; [exact Pc|]. apply Rmult_lt_0_compat; [exact Pc|exact Hpole]. }
    destruct (start_R exact_axis_angle j s mid tv t2 Ptv Et2 (or_intror eq_refl) Um Pn0) as (xf & st & r & Exf & Hst). cbv zeta in Hst.
    assert (Exf' : v3_of xf = scale3 rho (rotate rr w)).
    { rewrite Exf. fold v. rewrite (tb_M j q1 q2 k1 k2 H1 H2). unfold s at 1. rewrite (tb_start_mid_ss j q1 q2 k1 k2 H1 H2). fold s u rho rr. unfold w. rewrite rotate_plus. v3s. f_equal; ring. }
    set (e := q_of (quat_from_vectors xf tv)) in *.
    assert (Ue : unitq e) by apply qfv_unit.
    assert (EM : lin (s_inv_start s) (lin (i2_mid j) (v3_of (i2_mid_axis j))) = scale3 rho (rotate rr axis)) by exact (tb_M j q1 q2 k1 k2 H1 H2 axis).
    rewrite EM in Hst.
    set (n := rotate e (scale3 rho (rotate rr axis))) in *.
    assert (Pn : 0 < dot3 n n). { unfold n. rewrite rotate_dot by exact Ue. rewrite dot3_scale_l, dot3_scale_r, rotate_dot by exact Urr. rewrite Hax. nra. }
    destruct (Hst Pn) as (Est & Ab & Qst & Al). change (@num_arith R Rnum) with Rarith in Est. rewrite Est.
    unfold ik2_weight_output. cbv zeta. change (@num_arith R Rnum) with Rarith. rewrite !none_R. change (nlt (i2_weight j) 1) with (Rltb (i2_weight j) 1).
    destruct (Rltb_spec (i2_weight j) 1); [lra|]. change (nle 1 (i2_weight j)) with (Rleb 1 (i2_weight j)). destruct (Rleb_spec 1 (i2_weight j)); [|lra]. rewrite andb_true_r.
    eexists. exists mid, r, xf, tv. split; [reflexivity|]. cbn [o_reached o_mid o_start].
    split; [|split; [|split]].
    - destruct (positive_w_R st) as (W1 & W2 & _). destruct (positive_w_R mid) as (W3 & W4 & _). unfold unitq in *. rewrite W2, W4, Qst, hamilton_norm.
      destruct Ab as [Ur _]. unfold unitq in Ur. change (norm2 e) with (norm2 (q_of (quat_from_vectors xf tv))) in *. rewrite Ur, Ue, Um. repeat split; try assumption; ring.
    - rewrite SR. replace (/ k1 * l1 - / k1 * l2) with (/ k1 * (l1 - l2)) by ring. rewrite Rabs_mult, (Rabs_right (/ k1)), <- Rmult_plus_distr_l by lra.
      rewrite Rmult_assoc. split; intros [X Y]; (split; [nra|]); [apply Rmult_le_reg_l with (/ k1); assumption|apply Rmult_le_compat_l; lra].
    - intros x. apply positive_w_R.
    - split; [exact Um|]. split; [exact Hlen'|]. split; [exact Hside|]. split; [exact Hperp|]. split; [exact Exf'|]. split; [exact ST'|]. split; [exact Ab|].
      split; [intros x; rewrite (proj2 (proj2 (positive_w_R st))), Qst; apply rotate_compose|]. split; [exact Psoft|]. split; [exact PD|].
      split; [exact Al|]. split; apply sqrt_lt_R0; assumption.
  Qed.
End TwoBone.

(** Full weight: with exact trigonometry, joints placed by translations, rotations and uniform
    scales, a unit mid axis orthogonal to the bones, a target that is neither at the start joint
    nor on the pole line.  (Outside of these hypotheses the quaternion may not be a unit one: see
    [C49_degenerate_pole_refuted].) *)
Theorem C49_two_bone_full_weight : forall (j : ik2_job R) (q1 q2 : quat R) (k1 k2 : R) o out,
  let S := origin (i2_start j) in let M := origin (i2_mid j) in let E := origin (i2_end j) in
  let T := v3_of (i2_target j) in let axis := v3_of (i2_mid_axis j) in let pole := v3_of (i2_pole j) in
  placed (i2_start j) q1 k1 -> placed (i2_mid j) q2 k2 ->
  dot3 axis axis = 1 -> dot3 (lin (i2_mid j) axis) (minus3 M S) = 0 -> dot3 (lin (i2_mid j) axis) (minus3 E M) = 0 ->
  0 < dist S M -> 0 < dist M E -> 0 < dist S T -> 0 < dot3 (cross3 (minus3 T S) pole) (cross3 (minus3 T S) pole) ->
  1 <= i2_weight j -> ik2_run_with exact_acos4 exact_axis_angle j o = Some (Ok tt, out) ->
  unitq (q_of (o_start out)) /\ unitq (q_of (o_mid out)) /\ 0 <= l3 (o_start out) /\ 0 <= l3 (o_mid out).
Proof.
  intros j q1 q2 k1 k2 o out S M E T axis pole H1 H2 Hax Hp1 Hp2 Hl1 Hl2 Hd Hpole Hw HR.
  destruct (two_bone_core j q1 q2 k1 k2 H1 H2 Hax Hp1 Hp2 Hl1 Hl2 Hd Hpole Hw o) as (out' & _ & _ & _ & _ & HR' & U & _).
  rewrite HR in HR'. apply ok_inj in HR'. subst out'. exact U.
Qed.
Print Assumptions C49_two_bone_full_weight.

(** ** C60 Two bone IK brings the end joint to the target
    The joints are placed by translations, rotations and uniform scales; the mid axis is a unit
    vector orthogonal to both bones; the target is not at the start joint nor on the pole line.
    Sines, cosines and arc cosines are exact.  [D] is the distance from the start joint at which
    the end joint must end up: the (softened) target distance, or the nearest distance the bones
    allow.  After correction the end joint is on the line to the target at distance [D], exactly
    unless it was almost opposite to it (within sqrt(2 TH) of [D], 0.15%, otherwise).  [reached]
    holds exactly when the target is inside the unsoftened range, and then the end joint is on the
    target.  The twist angle plays no role. *)
Definition on_target_ray (S T : vec3 R) (D : R) : vec3 R := plus3 S (scale3 (D / dist S T) (minus3 T S)).

Theorem C60_two_bone : forall (j : ik2_job R) (q1 q2 : quat R) (k1 k2 : R) o0,
  let S := origin (i2_start j) in let M := origin (i2_mid j) in let E := origin (i2_end j) in
  let T := v3_of (i2_target j) in let axis := v3_of (i2_mid_axis j) in let pole := v3_of (i2_pole j) in
  let l1 := dist S M in let l2 := dist M E in let d := dist S T in
  let soft := softened l1 l2 (i2_soften j) d in
  let D := clampR (Rabs (l1 - l2)) (l1 + l2) soft in
  placed (i2_start j) q1 k1 -> placed (i2_mid j) q2 k2 ->
  dot3 axis axis = 1 -> dot3 (lin (i2_mid j) axis) (minus3 M S) = 0 -> dot3 (lin (i2_mid j) axis) (minus3 E M) = 0 ->
  0 < l1 -> 0 < l2 -> 0 < d -> 0 < dot3 (cross3 (minus3 T S) pole) (cross3 (minus3 T S) pole) ->
  1 <= i2_weight j -> TH * (k1 * k1) <= D * soft ->
  exists out E1 E2,
    ik2_run_with exact_acos4 exact_axis_angle j o0 = Some (Ok tt, out) /\
    mid_corrected (i2_mid j) (q_of (o_mid out)) E E1 /\ start_corrected (i2_start j) (q_of (o_start out)) E1 E2 /\
    dist S E1 = D /\ dist S E2 = D /\
    (let e := minus3 E2 (on_target_ray S T D) in dot3 e e <= 2 * TH * (D * D)) /\
    (TH * (D * d) <= D * d + dot3 (minus3 E1 S) (minus3 T S) \/ (exists c, 0 < c /\ minus3 T S = neg3 (scale3 c (minus3 E1 S))) ->
       E2 = on_target_ray S T D) /\
    (o_reached out = true <-> Rabs (l1 - l2) < d /\ d <= (l1 + l2) * clampR 0 1 (i2_soften j)) /\
    (o_reached out = true -> on_target_ray S T D = T).
Proof.
  intros j q1 q2 k1 k2 o0 S M E T axis pole b1 b2 d soft D H1 H2 Hax Hp1 Hp2 Hl1 Hl2 Hd Hpole Hw HTH.
  destruct (two_bone_core j q1 q2 k1 k2 H1 H2 Hax Hp1 Hp2 Hl1 Hl2 Hd Hpole Hw o0)
    as (out & mid & r & xf & tv & HR & UW & Hreach & Hmid & Um & Hlen & _ & _ & Exf & Etv & Ab & Hst & Psoft & PD & _).
  fold S M E T b1 b2 d soft D axis pole in Hreach, Hlen, Etv, Psoft, PD.
  destruct (tb_k j q1 q2 k1 k2 H1 H2) as [Pk1 Pk2]. assert (Pi : 0 < / k1) by (apply Rinv_0_lt_compat, Pk1).
  pose proof (tb_rho j q1 q2 k1 k2 H1 H2) as Prho. pose proof (tb_rr j q1 q2 k1 k2 H1 H2) as Urr.
  set (rho := k2 * / k1) in *. set (rr := hamilton (conj q1) q2) in *. set (s := ik2_setup j) in *.
  set (u := v3_of (s_start_mid_ms s)) in *. set (v := v3_of (s_mid_end_ms s)) in *. set (w := plus3 u (rotate (q_of mid) v)) in *.
  destruct (placed_inv _ _ _ H1) as (I1 & I1' & L1). destruct (placed_inv _ _ _ H2) as (I2 & _ & _).
  assert (U1 : unitq q1) by apply H1. assert (U1c : unitq (conj q1)) by (apply conj_unit, U1).
  set (sc := q_of (o_start out)) in *. set (e := q_of (quat_from_vectors xf tv)) in *.
  assert (Ue : unitq e) by apply qfv_unit.
  (* the end joint after the mid correction *)
  assert (Ev : pt (i2_mid j) v = E). { unfold v, s. cbn [ik2_setup s_mid_end_ms]. rewrite transform_point_R. apply I2. }
  set (E1 := pt (i2_mid j) (rotate (q_of mid) v)).
  assert (E1S : minus3 E1 S = lin (i2_mid j) w).
  { unfold w. rewrite lin_plus. unfold u, s. rewrite (tb_u j q1 q2 k1 k2 H1 H2). fold M S. unfold E1. rewrite pt_lin. fold M. v3s. f_equal; ring. }
  assert (Px : pt (i2_start j) (v3_of xf) = E1).
  { assert (Q : pt (mat_invert (i2_start j)) E1 = v3_of xf).
    { rewrite (tb_ss j q1 k1 H1). fold S. rewrite E1S, Exf. apply (tb_M j q1 q2 k1 k2 H1 H2). }
    rewrite <- Q. apply I1. }
  set (T1 := scale3 (/ k1) (rotate (conj q1) (minus3 T S))) in *.
  assert (ET : minus3 T S = scale3 k1 (rotate q1 T1)).
  { unfold T1. rewrite rotate_scale, rotate_conj_r, scale3_scale, Rinv_r by (try exact U1; lra). symmetry. apply scale3_1. }
  assert (EE1 : minus3 E1 S = scale3 k1 (rotate q1 (v3_of xf))).
  { rewrite <- Px. destruct (H1) as (_ & _ & _ & P). rewrite P. fold S. v3s. f_equal; ring. }
  exists out, E1, (pt (i2_start j) (rotate sc (v3_of xf))). split; [exact HR|].
  split; [exists v; split; [exact Ev|rewrite Hmid; reflexivity]|].
  split; [exists (v3_of xf); split; [exact Px|reflexivity]|].
  set (E2 := pt (i2_start j) (rotate sc (v3_of xf))).
  assert (E2S : minus3 E2 S = scale3 k1 (rotate q1 (rotate sc (v3_of xf)))).
  { unfold E2. destruct (H1) as (_ & _ & _ & P). rewrite P. fold S. v3s. f_equal; ring. }
  assert (Lxf : len3 (v3_of xf) = / k1 * D).
  { rewrite Exf, len3_sc by lra. rewrite rotate_len by exact Urr. rewrite <- Hlen. unfold rho. ring. }
  assert (Ltv : len3 (v3_of tv) = / k1 * soft).
  { rewrite Etv, len3_sc by (apply Rlt_le, Rdiv_lt_0_compat; assumption). unfold T1. rewrite len3_sc by lra. rewrite rotate_len by exact U1c. fold (dist S T). fold d. field. lra. }
  destruct Ab as [Ur Fix].
  split.
  { unfold dist. rewrite EE1, len3_sc by lra. rewrite rotate_len by exact U1. rewrite Lxf. field. lra. }
  split.
  { unfold dist. rewrite E2S, len3_sc by lra. rewrite rotate_len by exact U1. unfold sc. rewrite Hst, !rotate_len by assumption. rewrite Lxf. field. lra. }
  destruct (C46_from_vectors_partial xf tv) as (_ & X1 & X2 & X3).
  { rewrite Lxf, Ltv. apply Rmult_le_reg_r with (k1 * k1); [nra|]. replace (/ k1 * D * (/ k1 * soft) * (k1 * k1)) with (D * soft) by (field; lra). exact HTH. }
  rewrite transform_vector_rotate in X1, X2, X3 by exact Ue. fold e in X1, X2, X3. rewrite Lxf, Ltv in X1, X2, X3.
  (* the ray in start space *)
  assert (RAY : on_target_ray S T D = plus3 S (scale3 k1 (rotate q1 (scale3 (D / soft) (v3_of tv))))).
  { unfold on_target_ray. f_equal. fold d. rewrite ET, Etv, !scale3_scale, !rotate_scale, !scale3_scale. f_equal. field. lra. }
  assert (E2' : E2 = plus3 S (scale3 k1 (rotate q1 (rotate r (rotate e (v3_of xf)))))).
  { unfold sc in E2S. rewrite Hst in E2S. rewrite <- E2S. destruct E2, S. v3s. f_equal; ring. }
  assert (RATIO : / k1 * D / (/ k1 * soft) = D / soft) by (field; lra). rewrite RATIO in X1, X2.
  split; [|split; [|split; [exact Hreach|]]].
  - cbv zeta. rewrite E2', RAY, <- (Fix (D / soft)).
    set (y := rotate e (v3_of xf)) in *. set (z := scale3 (D / soft) (v3_of tv)).
    assert (K : minus3 (plus3 S (scale3 k1 (rotate q1 (rotate r y)))) (plus3 S (scale3 k1 (rotate q1 (rotate r z)))) = scale3 k1 (rotate q1 (rotate r (minus3 y z)))).
    { rewrite !rotate_minus. v3s. f_equal; ring. }
    rewrite K, dot3_scale_l, dot3_scale_r, !rotate_dot by assumption.
    assert (K2 : minus3 y z = scale3 (/ k1 * D) (minus3 (scale3 (/ (/ k1 * D)) y) (scale3 (/ (/ k1 * soft)) (v3_of tv)))).
    { unfold z. v3s. f_equal; field; lra. }
    rewrite K2, dot3_scale_l, dot3_scale_r. cbv zeta in X3. change (dot3 (minus3 (scale3 (/ (/ k1 * D)) y) (scale3 (/ (/ k1 * soft)) (v3_of tv))) (minus3 (scale3 (/ (/ k1 * D)) y) (scale3 (/ (/ k1 * soft)) (v3_of tv))) <= 2 * TH) in X3. revert X3. generalize (dot3 (minus3 (scale3 (/ (/ k1 * D)) y) (scale3 (/ (/ k1 * soft)) (v3_of tv))) (minus3 (scale3 (/ (/ k1 * D)) y) (scale3 (/ (/ k1 * soft)) (v3_of tv)))). intros q X3.
    replace (k1 * (k1 * (/ k1 * D * (/ k1 * D * q)))) with (q * (D * D)) by (field; lra). apply Rmult_le_compat_r; [nra|exact X3].
  - intros HC. assert (Y : rotate e (v3_of xf) = scale3 (D / soft) (v3_of tv)).
    { assert (TV : v3_of tv = scale3 (soft / d) T1) by exact Etv.
      destruct HC as [HC|(c & Pc & HC)].
      - apply X1. rewrite EE1, ET, dot3_scale_l, dot3_scale_r, rotate_dot in HC by exact U1.
        rewrite TV, dot3_scale_r. set (g := dot3 (v3_of xf) T1) in *.
        apply Rmult_le_reg_r with (k1 * k1 * (d / soft)); [apply Rmult_lt_0_compat; [nra|apply Rdiv_lt_0_compat; assumption]|].
        replace (TH * (/ k1 * D * (/ k1 * soft)) * (k1 * k1 * (d / soft))) with (TH * (D * d)) by (field; lra).
        replace ((/ k1 * D * (/ k1 * soft) + soft / d * g) * (k1 * k1 * (d / soft))) with (D * d + k1 * (k1 * g)) by (field; lra). exact HC.
      - apply X2. exists (c * (soft / d)). split; [apply Rmult_lt_0_compat; [exact Pc|apply Rdiv_lt_0_compat; assumption]|].
        rewrite TV. assert (T1' : T1 = neg3 (scale3 c (v3_of xf))).
        { assert (A : rotate (conj q1) (minus3 T S) = scale3 (- c) (scale3 k1 (v3_of xf))).
          { rewrite HC, EE1. unfold neg3. rewrite !scale3_scale, rotate_scale, rotate_conj_l by exact U1. f_equal. ring. }
          unfold T1. rewrite A. unfold neg3. rewrite !scale3_scale. f_equal. field. lra. }
        rewrite T1'. unfold neg3. rewrite !scale3_scale. f_equal. ring. }
    rewrite E2', RAY, Y, Fix. reflexivity.
  - intros HRe. apply Hreach in HRe. destruct HRe as [Q1 Q2].
    assert (Es : soft = d). { unfold soft, softened. destruct (Rlt_dec ((b1 + b2) * clampR 0 1 (i2_soften j)) d); [lra|reflexivity]. }
    assert (ED : D = d).
    { unfold D. rewrite Es. pose proof (clampR_bounds 0 1 (i2_soften j) ltac:(lra)). apply clampR_id. split; [lra|nra]. }
    unfold on_target_ray. fold d. rewrite ED. replace (d / d) with 1 by (field; lra). rewrite scale3_1. destruct T, S. v3s. f_equal; ring.
Qed.
Print Assumptions C60_two_bone.

(** ** C61 The pole vector chooses the bending side
    Same setting as C60, with no twist and an end joint not almost opposite to the target after the
    mid correction: the corrected mid joint lies in the half plane bounded by the start-target line
    that contains the pole vector. *)
Lemma half_plane t p y : 0 < dot3 (cross3 t p) (cross3 t p) -> dot3 y (cross3 t p) = 0 -> 0 <= dot3 y (cross3 (cross3 t p) t) ->
  exists a m, 0 <= m /\ y = plus3 (scale3 a t) (scale3 m p).
Proof.
  intros HN H0 H1. set (N2 := dot3 (cross3 t p) (cross3 t p)) in *.
  exists (dot3 y (cross3 p (cross3 t p)) / N2), (dot3 y (cross3 (cross3 t p) t) / N2). split; [apply Rmult_le_pos; [exact H1|]; apply Rlt_le, Rinv_0_lt_compat, HN|].
  assert (K : scale3 N2 y = plus3 (plus3 (scale3 (dot3 y (cross3 p (cross3 t p))) t) (scale3 (dot3 y (cross3 (cross3 t p) t)) p)) (scale3 (dot3 y (cross3 t p)) (cross3 t p))).
  { unfold N2. clear. destruct y, t, p. v3s. f_equal; ring. }
  rewrite H0 in K. set (A := dot3 y (cross3 p (cross3 t p))) in *. set (B := dot3 y (cross3 (cross3 t p) t)) in *.
  assert (E : y = scale3 (/ N2) (scale3 N2 y)) by (rewrite scale3_scale, Rinv_l, scale3_1 by lra; reflexivity).
  rewrite E, K. destruct t, p. v3s. f_equal; field; lra.
Qed.
Lemma mul_zero p x : 0 < p -> p * x = 0 -> x = 0.
Proof. intros H E. apply Rmult_integral in E. destruct E; [lra|assumption]. Qed.
Lemma mul_nn p x : 0 < p -> 0 <= p * x -> 0 <= x.
Proof. intros H E. apply Rmult_le_reg_l with p; [exact H|]. rewrite Rmult_0_r. exact E. Qed.
Lemma pt_inj m q k a b : placed m q k -> pt m a = pt m b -> a = b.
Proof. intros H E. destruct (placed_inv _ _ _ H) as (_ & I & _). rewrite <- (I a), <- (I b), E. reflexivity. Qed.

Theorem C61_pole : forall (j : ik2_job R) (q1 q2 : quat R) (k1 k2 : R) o0 out E1 M2,
  let S := origin (i2_start j) in let M := origin (i2_mid j) in let E := origin (i2_end j) in
  let T := v3_of (i2_target j) in let axis := v3_of (i2_mid_axis j) in let pole := v3_of (i2_pole j) in
  let l1 := dist S M in let l2 := dist M E in let d := dist S T in
  let soft := softened l1 l2 (i2_soften j) d in
  let D := clampR (Rabs (l1 - l2)) (l1 + l2) soft in
  placed (i2_start j) q1 k1 -> placed (i2_mid j) q2 k2 ->
  dot3 axis axis = 1 -> dot3 (lin (i2_mid j) axis) (minus3 M S) = 0 -> dot3 (lin (i2_mid j) axis) (minus3 E M) = 0 ->
  0 < l1 -> 0 < l2 -> 0 < d -> 0 < dot3 (cross3 (minus3 T S) pole) (cross3 (minus3 T S) pole) ->
  1 <= i2_weight j -> TH * (k1 * k1) <= D * soft -> i2_twist j = 0 ->
  ik2_run_with exact_acos4 exact_axis_angle j o0 = Some (Ok tt, out) ->
  mid_corrected (i2_mid j) (q_of (o_mid out)) E E1 -> start_corrected (i2_start j) (q_of (o_start out)) M M2 ->
  TH * (D * d) <= D * d + dot3 (minus3 E1 S) (minus3 T S) \/ (exists c, 0 < c /\ minus3 T S = neg3 (scale3 c (minus3 E1 S))) ->
  dist S M2 = l1 /\ exists a m, 0 <= m /\ M2 = plus3 S (plus3 (scale3 a (minus3 T S)) (scale3 m pole)).
Proof.
  intros j q1 q2 k1 k2 o0 out0 E1 M2 S M E T axis pole b1 b2 d soft D H1 H2 Hax Hp1 Hp2 Hl1 Hl2 Hd Hpole Hw HTH Htw HR0 HE1 HM2 HC.
  destruct (two_bone_core j q1 q2 k1 k2 H1 H2 Hax Hp1 Hp2 Hl1 Hl2 Hd Hpole Hw o0)
    as (out & mid & r & xf & tv & HR & _ & _ & Hmid & Um & Hlen & Hside & Hperp & Exf & Etv & Ab & Hst & Psoft & PD & Al & Pn & Pn0).
  rewrite HR in HR0. apply ok_inj in HR0. subst out0.
  fold S M E T b1 b2 d soft D axis pole in Hlen, Hside, Hperp, Etv, Psoft, PD, Al, Pn, Pn0.
  destruct (tb_k j q1 q2 k1 k2 H1 H2) as [Pk1 Pk2]. assert (Pi : 0 < / k1) by (apply Rinv_0_lt_compat, Pk1).
  pose proof (tb_rho j q1 q2 k1 k2 H1 H2) as Prho. pose proof (tb_rr j q1 q2 k1 k2 H1 H2) as Urr.
  set (rho := k2 * / k1) in *. set (rr := hamilton (conj q1) q2) in *. set (s := ik2_setup j) in *.
  set (u := v3_of (s_start_mid_ms s)) in *. set (v := v3_of (s_mid_end_ms s)) in *. set (w := plus3 u (rotate (q_of mid) v)) in *.
  destruct (placed_inv _ _ _ H1) as (I1 & I1' & L1). destruct (placed_inv _ _ _ H2) as (I2 & I2' & _).
  assert (U1 : unitq q1) by apply H1. assert (U1c : unitq (conj q1)) by (apply conj_unit, U1).
  set (sc := q_of (o_start out)) in *. set (e := q_of (quat_from_vectors xf tv)) in *.
  assert (Ue : unitq e) by apply qfv_unit. destruct Ab as [Ur Fix].
  assert (Ev : pt (i2_mid j) v = E). { unfold v, s. cbn [ik2_setup s_mid_end_ms]. rewrite transform_point_R. apply I2. }
  assert (EE : E1 = pt (i2_mid j) (rotate (q_of mid) v)).
  { destruct HE1 as (v' & Ev' & E1e). rewrite <- Ev in Ev'. apply (pt_inj _ _ _ _ _ H2) in Ev'. subst v'. rewrite E1e, Hmid. reflexivity. }
  assert (E1S : minus3 E1 S = lin (i2_mid j) w).
  { unfold w. rewrite lin_plus. unfold u, s. rewrite (tb_u j q1 q2 k1 k2 H1 H2). fold M S. rewrite EE. rewrite pt_lin. fold M. v3s. f_equal; ring. }
  assert (Px : pt (i2_start j) (v3_of xf) = E1).
  { assert (Q : pt (mat_invert (i2_start j)) E1 = v3_of xf).
    { rewrite (tb_ss j q1 k1 H1). fold S. rewrite E1S, Exf. apply (tb_M j q1 q2 k1 k2 H1 H2). }
    rewrite <- Q. apply I1. }
  (* the mid joint in start space *)
  set (m1 := scale3 rho (rotate rr u)).
  assert (Pm : pt (i2_start j) m1 = M).
  { assert (Q : pt (mat_invert (i2_start j)) M = m1).
    { rewrite (tb_ss j q1 k1 H1). fold S. unfold m1, rho, rr. rewrite <- (tb_M j q1 q2 k1 k2 H1 H2 u). f_equal. symmetry. exact (tb_u j q1 q2 k1 k2 H1 H2). }
    rewrite <- Q. apply I1. }
  assert (EM2 : minus3 M2 S = scale3 k1 (rotate q1 (rotate r (rotate e m1)))).
  { destruct HM2 as (x & Ex & EM2). rewrite <- Pm in Ex. apply (pt_inj _ _ _ _ _ H1) in Ex. subst x. rewrite EM2. unfold sc. rewrite Hst. destruct (H1) as (_ & _ & _ & P). rewrite P. fold S. v3s. f_equal; ring. }
  set (T1 := scale3 (/ k1) (rotate (conj q1) (minus3 T S))) in *.
  assert (ET : minus3 T S = scale3 k1 (rotate q1 T1)).
  { unfold T1. rewrite rotate_scale, rotate_conj_r, scale3_scale, Rinv_r by (try exact U1; lra). symmetry. apply scale3_1. }
  assert (EE1 : minus3 E1 S = scale3 k1 (rotate q1 (v3_of xf))).
  { rewrite <- Px. destruct (H1) as (_ & _ & _ & P). rewrite P. fold S. v3s. f_equal; ring. }
  assert (Lxf : len3 (v3_of xf) = / k1 * D).
  { rewrite Exf, len3_sc by lra. rewrite rotate_len by exact Urr. rewrite <- Hlen. unfold rho. ring. }
  assert (Ltv : len3 (v3_of tv) = / k1 * soft).
  { rewrite Etv, len3_sc by (apply Rlt_le, Rdiv_lt_0_compat; assumption). unfold T1. rewrite len3_sc by lra. rewrite rotate_len by exact U1c. fold (dist S T). fold d. field. lra. }
  assert (Y : rotate e (v3_of xf) = scale3 (D / soft) (v3_of tv)).
  { destruct (C46_from_vectors_partial xf tv) as (_ & X1 & X2 & _).
    { rewrite Lxf, Ltv. apply Rmult_le_reg_r with (k1 * k1); [nra|]. replace (/ k1 * D * (/ k1 * soft) * (k1 * k1)) with (D * soft) by (field; lra). exact HTH. }
    rewrite transform_vector_rotate in X1, X2 by exact Ue. fold e in X1, X2. rewrite Lxf, Ltv in X1, X2.
    assert (RATIO : / k1 * D / (/ k1 * soft) = D / soft) by (field; lra). rewrite RATIO in X1, X2.
    assert (TV : v3_of tv = scale3 (soft / d) T1) by exact Etv.
    destruct HC as [HC|(c & Pc & HC)].
    - apply X1. rewrite EE1, ET, dot3_scale_l, dot3_scale_r, rotate_dot in HC by exact U1.
      rewrite TV, dot3_scale_r. set (g := dot3 (v3_of xf) T1) in *.
      apply Rmult_le_reg_r with (k1 * k1 * (d / soft)); [apply Rmult_lt_0_compat; [nra|apply Rdiv_lt_0_compat; assumption]|].
      replace (TH * (/ k1 * D * (/ k1 * soft)) * (k1 * k1 * (d / soft))) with (TH * (D * d)) by (field; lra).
      replace ((/ k1 * D * (/ k1 * soft) + soft / d * g) * (k1 * k1 * (d / soft))) with (D * d + k1 * (k1 * g)) by (field; lra). exact HC.
    - apply X2. exists (c * (soft / d)). split; [apply Rmult_lt_0_compat; [exact Pc|apply Rdiv_lt_0_compat; assumption]|].
      rewrite TV. assert (T1' : T1 = neg3 (scale3 c (v3_of xf))).
      { assert (A : rotate (conj q1) (minus3 T S) = scale3 (- c) (scale3 k1 (v3_of xf))).
        { rewrite HC, EE1. unfold neg3. rewrite !scale3_scale, rotate_scale, rotate_conj_l by exact U1. f_equal. ring. }
        unfold T1. rewrite A. unfold neg3. rewrite !scale3_scale. f_equal. field. lra. }
      rewrite T1'. unfold neg3. rewrite !scale3_scale. f_equal. ring. }
  set (n := rotate e (scale3 rho (rotate rr axis))) in *. set (n0 := cross3 (v3_of tv) (lin (s_inv_start s) pole)) in *.
  set (c := D / soft) in *. assert (Pc : 0 < c) by (apply Rdiv_lt_0_compat; assumption).
  assert (Rn : rotate r n = scale3 (len3 n / len3 n0) n0).
  { apply Al; [exact Htw|]. assert (K : c * dot3 (v3_of tv) n = 0).
    { rewrite <- dot3_scale_l, <- Y. unfold n. rewrite rotate_dot by exact Ue. rewrite Exf, dot3_scale_l, dot3_scale_r, rotate_dot by exact Urr. rewrite (dot3_comm w axis), Hperp. ring. }
    exact (mul_zero _ _ Pc K). }
  set (kap := len3 n / len3 n0) in *. assert (Pkap : 0 < kap) by (apply Rdiv_lt_0_compat; assumption).
  set (y := rotate r (rotate e m1)) in *.
  assert (Axu : dot3 axis u = 0).
  { assert (K : dot3 (lin (i2_mid j) axis) (lin (i2_mid j) u) = 0) by (unfold u, s; rewrite (tb_u j q1 q2 k1 k2 H1 H2); exact Hp1).
    rewrite (lin_mid_dot j q2 k2 H2) in K. apply (mul_zero (k2 * k2)); [nra|exact K]. }
  assert (Y0 : dot3 y n0 = 0).
  { assert (K : kap * dot3 y n0 = 0).
    { rewrite <- dot3_scale_r, <- Rn. unfold y, n. rewrite !rotate_dot by assumption. unfold m1. rewrite dot3_scale_l, dot3_scale_r, rotate_dot by exact Urr. rewrite (dot3_comm u axis), Axu. ring. }
    exact (mul_zero _ _ Pkap K). }
  assert (Y1 : 0 <= dot3 y (cross3 n0 (v3_of tv))).
  { assert (K : kap * c * dot3 y (cross3 n0 (v3_of tv)) = rho * rho * rho * dot3 u (cross3 axis w)).
    { rewrite <- dot3_scale_r. replace (scale3 (kap * c) (cross3 n0 (v3_of tv))) with (cross3 (scale3 kap n0) (scale3 c (v3_of tv))) by (clear; destruct n0, (v3_of tv); v3s; f_equal; ring).
      rewrite <- Rn, <- (Fix c), <- Y, rotate_cross by exact Ur. unfold y, n. rewrite rotate_dot by exact Ur. rewrite rotate_cross, rotate_dot by exact Ue.
      unfold m1. rewrite Exf. replace (cross3 (scale3 rho (rotate rr axis)) (scale3 rho (rotate rr w))) with (scale3 (rho * rho) (cross3 (rotate rr axis) (rotate rr w))) by (clear; generalize (rotate rr axis), (rotate rr w); intros a b; destruct a, b; v3s; f_equal; ring).
      rewrite rotate_cross, dot3_scale_l, dot3_scale_r, rotate_dot by exact Urr. ring. }
    assert (0 <= rho * rho * rho * dot3 u (cross3 axis w)) by (apply Rmult_le_pos; [apply Rlt_le; repeat apply Rmult_lt_0_compat; assumption|exact Hside]).
    apply (mul_nn (kap * c)); [apply Rmult_lt_0_compat; assumption|rewrite K; assumption]. }
  (* back in model space *)
  set (a := soft / d) in *. assert (Pa : 0 < a) by (apply Rdiv_lt_0_compat; assumption).
  set (g := a * / k1 * / k1). assert (Pg : 0 < g) by (unfold g; apply Rmult_lt_0_compat; [apply Rmult_lt_0_compat|]; assumption).
  assert (Epole : lin (s_inv_start s) pole = scale3 (/ k1) (rotate (conj q1) pole)) by apply L1.
  assert (En0 : n0 = scale3 g (rotate (conj q1) (cross3 (minus3 T S) pole))).
  { unfold n0. rewrite Etv, Epole. unfold T1. rewrite <- rotate_cross by exact U1c. unfold g. clear. generalize (rotate (conj q1) (minus3 T S)), (rotate (conj q1) pole). intros x z. v3s. f_equal; ring. }
  assert (Etv' : v3_of tv = scale3 (a * / k1) (rotate (conj q1) (minus3 T S))) by (rewrite Etv; unfold T1; apply scale3_scale).
  assert (Ey : y = scale3 (/ k1) (rotate (conj q1) (minus3 M2 S))).
  { rewrite EM2, rotate_scale, rotate_conj_l, scale3_scale, Rinv_l, scale3_1 by (try exact U1; lra). reflexivity. }
  split.
  { unfold dist. rewrite EM2, len3_sc by lra. unfold y. rewrite !rotate_len by assumption. unfold m1. rewrite len3_sc, rotate_len by (try exact Urr; lra).
    change b1 with (dist (origin (i2_start j)) (origin (i2_mid j))). rewrite (tb_l1 j q1 q2 k1 k2 H1 H2). fold s u. unfold rho. field. lra. }
  destruct (half_plane (minus3 T S) pole (minus3 M2 S) Hpole) as (al & m & Pm0 & Em).
  - rewrite Ey, En0, dot3_scale_l, dot3_scale_r, rotate_dot in Y0 by exact U1c. apply (mul_zero (/ k1 * g)); [apply Rmult_lt_0_compat; assumption|rewrite Rmult_assoc; exact Y0].
  - rewrite Ey, En0, Etv' in Y1.
    replace (cross3 (scale3 g (rotate (conj q1) (cross3 (minus3 T S) pole))) (scale3 (a * / k1) (rotate (conj q1) (minus3 T S)))) with (scale3 (g * (a * / k1)) (rotate (conj q1) (cross3 (cross3 (minus3 T S) pole) (minus3 T S)))) in Y1
      by (rewrite <- rotate_cross by exact U1c; clear; generalize (rotate (conj q1) (cross3 (minus3 T S) pole)), (rotate (conj q1) (minus3 T S)); intros x z; v3s; f_equal; ring).
    rewrite dot3_scale_l, dot3_scale_r, rotate_dot in Y1 by exact U1c. apply (mul_nn (/ k1 * (g * (a * / k1)))); [apply Rmult_lt_0_compat; [exact Pi|apply Rmult_lt_0_compat; [exact Pg|apply Rmult_lt_0_compat; assumption]]|rewrite Rmult_assoc; exact Y1].
  - exists al, m. split; [exact Pm0|]. rewrite <- Em. destruct M2, S. v3s. f_equal; ring.
Qed.
Print Assumptions C61_pole.
