(** Blending in real arithmetic, joint by joint. *)
From Coq Require Import Reals Lra Psatz Permutation.
From Verif Require Import Base Num NumR Math MathSpec MathProofs Skeleton Blending BlendingProofs BlendingSpec.
Local Open Scope R_scope.
Notation soa := (transform (V4 R)).

(** ** One lane *)
Definition s_1st (t : transform R) (w : R) : transform R :=
  TR (v3_mul_num (tr_t t) w) (q_mul_num (tr_r t) w) (v3_mul_num (tr_s t) w).
Definition s_flip (b : bool) (q : quat R) : quat R := Q4 (flip b (qx q)) (flip b (qy q)) (flip b (qz q)) (flip b (qw q)).
Definition s_npass (t : transform R) (w : R) (o : transform R) : transform R :=
  TR (v3_add (tr_t o) (v3_mul_num (tr_t t) w))
     (q_add (tr_r o) (q_mul_num (s_flip (nlt (q_dot (tr_r o) (tr_r t)) nzero) (tr_r t)) w))
     (v3_add (tr_s o) (v3_mul_num (tr_s t) w)).
Definition s_norm (r : R) (t : transform R) : transform R :=
  TR (v3_mul_num (tr_t t) r) (q_normalize (tr_r t)) (v3_mul_num (tr_s t) r).
Definition s_interp (t : transform R) (w : R) : quat R :=
  let r := s_flip (nlt (qw (tr_r t)) nzero) (tr_r t) in
  Q4 (qx r * w) (qy r * w) (qz r * w) ((qw r - 1) * w + 1).
Definition s_add (t : transform R) (w : R) (o : transform R) : transform R :=
  TR (v3_add (tr_t o) (v3_mul_num (tr_t t) w))
     (q_mul (tr_r o) (q_normalize (s_interp t w)))
     (V3 (vx (tr_s o) * ((1 - w) + vx (tr_s t) * w))
         (vy (tr_s o) * ((1 - w) + vy (tr_s t) * w))
         (vz (tr_s o) * ((1 - w) + vz (tr_s t) * w))).
Definition s_sub (t : transform R) (w : R) (o : transform R) : transform R :=
  TR (v3_sub (tr_t o) (v3_mul_num (tr_t t) w))
     (q_mul (tr_r o) (q_conjugate (q_normalize (s_interp t w))))
     (V3 (vx (tr_s o) * / (vx (tr_s t) * w + (1 - w)))
         (vy (tr_s o) * / (vy (tr_s t) * w + (1 - w)))
         (vz (tr_s o) * / (vz (tr_s t) * w + (1 - w)))).

Ltac lanes j := destruct j as [|[|[|[|j]]]]; [..|lia].

Lemma lane_1st t w j : (j < 4)%nat -> lane_tr (blend_1st_pass t w) j = s_1st (lane_tr t j) (lane w j).
Proof. intros Hj. lanes j; reflexivity. Qed.
Lemma lane_npass t w o j : (j < 4)%nat ->
  lane_tr (blend_n_pass t w o) j = s_npass (lane_tr t j) (lane w j) (lane_tr o j).
Proof. intros Hj. lanes j; reflexivity. Qed.
Lemma lane_norm r t j : (j < 4)%nat -> lane_tr (normalize_one r t) j = s_norm (lane r j) (lane_tr t j).
Proof. intros Hj. lanes j; reflexivity. Qed.
Lemma lane_add t w o j : (j < 4)%nat ->
  lane_tr (blend_add_pass t w (nsub none_ w) o) j = s_add (lane_tr t j) (lane w j) (lane_tr o j).
Proof.
  intros Hj. unfold s_add, s_interp. rewrite <- none_R. lanes j; reflexivity.
Qed.
Lemma lane_sub t w o j : (j < 4)%nat ->
  lane_tr (blend_sub_pass t w (nsub none_ w) o) j = s_sub (lane_tr t j) (lane w j) (lane_tr o j).
Proof.
  intros Hj. unfold s_sub, s_interp. rewrite <- !nrecip_R, <- none_R. lanes j; reflexivity.
Qed.

(** ** Weights *)
Lemma eff_R (l : layer R) : eff l = Rltb 0 (ly_weight l).
Proof.
  unfold eff. change (@nle R Rnum) with Rleb. change (@num_arith R Rnum) with Rarith. rewrite nzero_R.
  destruct (Rleb_spec (ly_weight l) 0), (Rltb_spec 0 (ly_weight l)); cbn; auto; lra.
Qed.
Lemma wat_R w (l : layer R) i :
  lane (wat w l (i / 4)) (i mod 4) = w * mask (ly_joint_weights l) i.
Proof.
  pose proof (Nat.mod_upper_bound i 4 ltac:(lia)) as Hm. unfold wat, mask.
  destruct (ly_joint_weights l) as [|a ws].
  - generalize dependent (i mod 4)%nat. intros m Hm. rewrite Rmult_1_r. lanes m; reflexivity.
  - generalize dependent (i mod 4)%nat. intros m Hm. rewrite Rmax_comm.
    change (@num_arith R Rnum) with Rarith in *.
    assert (E : (0:R) = nzero) by (symmetry; apply nzero_R). rewrite E. lanes m; reflexivity.
Qed.
Lemma jw_eff (l : layer R) i : eff l = true -> joint_weight l i = ly_weight l * mask (ly_joint_weights l) i.
Proof.
  rewrite eff_R. destruct (Rltb_spec 0 (ly_weight l)); [|discriminate]. intros _. unfold joint_weight.
  rewrite Rmax_right by lra. reflexivity.
Qed.
Lemma jw_ineff (l : layer R) i : eff l = false -> joint_weight l i = 0.
Proof.
  rewrite eff_R. destruct (Rltb_spec 0 (ly_weight l)); [discriminate|]. intros _. unfold joint_weight.
  rewrite Rmax_left by lra. ring.
Qed.
Lemma mask_nonneg ws i : 0 <= mask ws i.
Proof. unfold mask. destruct ws; [lra|apply Rmax_l]. Qed.
Lemma jw_nonneg l i : 0 <= joint_weight l i.
Proof. unfold joint_weight. apply Rmult_le_pos; [apply Rmax_l|apply mask_nonneg]. Qed.
Lemma total_nonneg ls i : 0 <= total ls i.
Proof. unfold total, Rsum. induction ls; cbn; [lra|]. pose proof (jw_nonneg a i). lra. Qed.

(** ** The columns, one lane at a time *)
Definition s_step (i : nat) (a : option (R * transform R)) (l : layer R) : option (R * transform R) :=
  if eff l then
    let w := joint_weight l i in
    let t := joint (ly_transform l) i in
    match a with None => Some (w, s_1st t w) | Some (acc, o) => Some (acc + w, s_npass t w o) end
  else a.
Definition lane_of (i : nat) (p : V4 R * soa) : R * transform R := (lane (fst p) (i mod 4), lane_tr (snd p) (i mod 4)).

Lemma lane_step i a l : option_map (lane_of i) (col_step (i / 4) a l) = s_step i (option_map (lane_of i) a) l.
Proof.
  pose proof (Nat.mod_upper_bound i 4 ltac:(lia)) as Hm. unfold col_step, s_step.
  destruct (eff l) eqn:E; [|reflexivity]. rewrite jw_eff by exact E. rewrite <- wat_R.
  destruct a as [[acc o]|]; cbn [option_map]; unfold lane_of; cbn [fst snd]; f_equal; unfold joint.
  - rewrite lane_npass by exact Hm. f_equal. generalize (wat (ly_weight l) l (i / 4)). intros w.
    generalize dependent (i mod 4)%nat. intros m Hm. lanes m; reflexivity.
  - rewrite lane_1st by exact Hm. reflexivity.
Qed.
Definition s_cols (i : nat) (ls : list (layer R)) : option (R * transform R) := fold_left (s_step i) ls None.
Lemma lane_cols i ls : option_map (lane_of i) (cols (i / 4) ls None) = s_cols i ls.
Proof.
  unfold cols, s_cols. change (@None (R * transform R)) with (option_map (lane_of i) (@None (V4 R * soa))).
  generalize (@None (V4 R * soa)). induction ls as [|l ls IH]; intros a; [reflexivity|].
  cbn [fold_left]. rewrite IH, lane_step. reflexivity.
Qed.

Lemma lin_1st c t w : linear_component c -> c (s_1st t w) = w * c t.
Proof. intros H. destruct H; cbn; ring. Qed.
Lemma lin_npass c t w o : linear_component c -> c (s_npass t w o) = c o + w * c t.
Proof. intros H. destruct H; cbn; ring. Qed.
Lemma lin_norm c t r : linear_component c -> c (s_norm r t) = c t * r.
Proof. intros H. destruct H; cbn; ring. Qed.

(** [s_npass] and [s_1st] are the same on rotations up to the sign alignment. *)
Lemma rot_npass l s t w o : aligned_sum l s -> s = tr_r o ->
  aligned_sum (l ++ [(w, tr_r t)]) (tr_r (s_npass t w o)).
Proof.
  intros H ->. unfold s_npass. cbn [tr_r].
  change (@nlt R Rnum) with Rltb. change (@num_arith R Rnum) with Rarith. rewrite nzero_R.
  change (q_dot (tr_r o) (tr_r t)) with (qdot (tr_r o) (tr_r t)).
  destruct (Rltb_spec (qdot (tr_r o) (tr_r t)) 0) as [D|D].
  - replace (q_add _ _) with (qadd (tr_r o) (qscale (- w) (tr_r t))).
    + apply al_flip; assumption.
    + unfold q_add, qadd, qscale, q_mul_num, s_flip, flip. cbn. f_equal; f_equal; ring.
  - replace (q_add _ _) with (qadd (tr_r o) (qscale w (tr_r t))).
    + apply al_same; [assumption|lra].
    + unfold q_add, qadd, qscale, q_mul_num, s_flip, flip. cbn. f_equal; f_equal; ring.
Qed.
Lemma rot_1st t w : aligned_sum [(w, tr_r t)] (tr_r (s_1st t w)).
Proof.
  replace (tr_r (s_1st t w)) with (qadd (Q4 0 0 0 0) (qscale w (tr_r t))).
  - apply (al_same []); [constructor|]. unfold qdot. cbn. lra.
  - unfold qadd, qscale, s_1st, q_mul_num. cbn. f_equal; ring.
Qed.

Definition rterms (ls : list (layer R)) (i : nat) : list (R * quat R) :=
  map (fun l => (joint_weight l i, tr_r (joint (ly_transform l) i))) (filter eff ls).

(** The state after some layers, in terms of sums. *)
Definition col_inv (i : nat) (ls : list (layer R)) (a : option (R * transform R)) : Prop :=
  match a with
  | None => filter eff ls = []
  | Some (acc, o) =>
      acc = total ls i /\
      (forall c, linear_component c -> c o = Rsum (fun l => joint_weight l i * c (joint (ly_transform l) i)) ls) /\
      aligned_sum (rterms ls i) (tr_r o)
  end.
Lemma Rsum_app {A} (f : A -> R) l1 l2 : Rsum f (l1 ++ l2) = Rsum f l1 + Rsum f l2.
Proof. unfold Rsum. induction l1 as [|x l1 IH]; cbn; [lra|]. rewrite IH. lra. Qed.
Lemma Rsum_ineff f (ls : list (layer R)) : (forall l, eff l = false -> f l = 0) -> filter eff ls = [] -> Rsum f ls = 0.
Proof.
  intros Hf. unfold Rsum. induction ls as [|l ls IH]; intros H; cbn in *; [reflexivity|].
  destruct (eff l) eqn:E; [discriminate|]. rewrite IH by exact H. rewrite (Hf l E). lra.
Qed.
Lemma col_inv_step i ls a l : col_inv i ls a -> col_inv i (ls ++ [l]) (s_step i a l).
Proof.
  intros H. unfold s_step. destruct (eff l) eqn:E.
  - destruct a as [[acc o]|]; cbn [col_inv] in *.
    + destruct H as (Ha & Hc & Hr). split; [|split].
      * unfold total in *. rewrite Rsum_app, <- Ha. cbn. ring.
      * intros c Hl. rewrite (lin_npass c _ _ _ Hl), Rsum_app, <- (Hc c Hl). cbn. ring.
      * unfold rterms. rewrite filter_app. cbn [filter]. rewrite E, map_app. cbn [map].
        eapply rot_npass; [exact Hr|reflexivity].
    + split; [|split].
      * unfold total. rewrite Rsum_app. rewrite (Rsum_ineff _ ls) by (try exact H; intros; apply jw_ineff; assumption). cbn. ring.
      * intros c Hl. rewrite (lin_1st c _ _ Hl), Rsum_app. rewrite (Rsum_ineff _ ls).
        -- cbn. ring.
        -- intros l0 E0. rewrite (jw_ineff l0 i E0). ring.
        -- exact H.
      * unfold rterms. rewrite filter_app, H. cbn [filter]. rewrite E. cbn [app map]. apply rot_1st.
  - assert (F : filter eff (ls ++ [l]) = filter eff ls) by (rewrite filter_app; cbn; rewrite E; apply app_nil_r).
    destruct a as [[acc o]|]; cbn [col_inv] in *.
    + destruct H as (Ha & Hc & Hr). split; [|split].
      * unfold total in *. rewrite Rsum_app, <- Ha. cbn. rewrite (jw_ineff l i E). ring.
      * intros c Hl. rewrite Rsum_app, <- (Hc c Hl). cbn. rewrite (jw_ineff l i E). ring.
      * unfold rterms. rewrite F. exact Hr.
    + congruence.
Qed.
Lemma col_inv_all i ls : col_inv i ls (s_cols i ls).
Proof.
  unfold s_cols. assert (G : forall ls pre a, col_inv i pre a -> col_inv i (pre ++ ls) (fold_left (s_step i) ls a)).
  { clear. induction ls as [|l ls IH]; intros pre a H; [rewrite app_nil_r; exact H|].
    cbn [fold_left]. replace (pre ++ l :: ls) with ((pre ++ [l]) ++ ls) by (rewrite <- app_assoc; reflexivity).
    apply IH, col_inv_step, H. }
  apply (G ls []). cbn. reflexivity.
Qed.

Lemma sumw_R ls i : some_partial ls = false -> sumw ls (@nzero R (@num_arith R Rnum)) = total ls i.
Proof.
  unfold some_partial, sumw, total, Rsum. change (@num_arith R Rnum) with Rarith. rewrite nzero_R.
  assert (G : forall a, existsb (fun l => eff l && is_partial l) ls = false ->
    fold_left sum_step ls a = a + fold_right (fun l a => joint_weight l i + a) 0 ls).
  { induction ls as [|l ls IH]; intros a H; cbn in *; [lra|].
    apply orb_false_elim in H. destruct H as [H1 H2]. rewrite IH by exact H2. unfold sum_step.
    destruct (eff l) eqn:E; cbn [andb] in H1.
    - rewrite (jw_eff l i E). unfold mask. unfold is_partial in H1.
      destruct (ly_joint_weights l); [|discriminate]. cbn. ring.
    - rewrite (jw_ineff l i E). ring. }
  intros H. rewrite (G 0 H). ring.
Qed.

Lemma lane_recip (v : V4 R) m : (m < 4)%nat -> lane (nrecip v) m = / lane v m.
Proof.
  intros Hm. transitivity (nrecip (lane v m)); [lanes m; reflexivity|]. apply nrecip_R.
Qed.
Lemma lane_splat (x : R) m : (m < 4)%nat -> lane (splat x) m = x.
Proof. intros Hm. lanes m; reflexivity. Qed.
Lemma lane_max (a b : V4 R) m : (m < 4)%nat -> lane (nmax a b) m = Rmax (lane a m) (lane b m).
Proof. intros Hm. lanes m; reflexivity. Qed.
Lemma lane_minus (a b : V4 R) m : (m < 4)%nat -> lane (nsub a b) m = lane a m - lane b m.
Proof. intros Hm. lanes m; reflexivity. Qed.
Lemma lane_zero m : (m < 4)%nat -> lane (nzero : V4 R) m = 0.
Proof. intros Hm. transitivity (nzero : R); [lanes m; reflexivity|apply nzero_R]. Qed.

(** The unit quaternion in the direction of [s]. *)
Lemma q_normalize_R (s : quat R) : q_normalize s = qscale (/ sqrt (norm2 s)) s.
Proof.
  unfold q_normalize, qscale, norm2. rewrite nrecip_R. cbn. f_equal; apply Rmult_comm.
Qed.
Lemma q_normalize_scale k s : 0 < k -> q_normalize (qscale k s) = q_normalize s.
Proof.
  intros Hk. rewrite !q_normalize_R.
  assert (E : norm2 (qscale k s) = (k * k) * norm2 s) by (unfold norm2, qscale; cbn; ring).
  rewrite E, sqrt_mult_alt, sqrt_square by nra.
  destruct (Req_dec (norm2 s) 0) as [Z|Z].
  - assert (qx s = 0 /\ qy s = 0 /\ qz s = 0 /\ qw s = 0) as (A & B & C & D).
    { unfold norm2 in Z. repeat split; nra. }
    unfold qscale. cbn. rewrite A, B, C, D. f_equal; ring.
  - assert (0 < norm2 s) by (unfold norm2 in *; nra).
    assert (0 < sqrt (norm2 s)) by (apply sqrt_lt_R0; assumption).
    unfold qscale. cbn. f_equal; field; lra.
Qed.

(** What comes out for joint [i] before the additive layers. *)
Lemma aligned_zero l s q : aligned_sum l s -> aligned_sum (l ++ [(0, q)]) s.
Proof.
  intros H. destruct (Rlt_le_dec (qdot s q) 0) as [D|D].
  - replace s with (qadd s (qscale (- 0) q)) at 1; [apply al_flip; assumption|].
    destruct s. unfold qadd, qscale. cbn. f_equal; ring.
  - replace s with (qadd s (qscale 0 q)) at 1; [apply al_same; assumption|].
    destruct s. unfold qadd, qscale. cbn. f_equal; ring.
Qed.

Lemma base_R sk thr ls i : 0 < thr ->
  let o := lane_tr (base_col sk thr ls (i / 4)) (i mod 4) in
  (forall c, linear_component c -> c o = mean thr ls (sk_rest sk) i c) /\
  exists s, aligned_sum (terms thr ls (sk_rest sk) i) s /\ tr_r o = q_normalize s.
Proof.
  intros Ht o. pose proof (Nat.mod_upper_bound i 4 ltac:(lia)) as Hm.
  unfold o, base_col. rewrite lane_norm by exact Hm.
  pose proof (col_inv_all i ls) as HI. rewrite <- lane_cols in HI.
  assert (FE : filter (fun l : layer R => Rltb 0 (ly_weight l)) ls = filter eff ls).
  { apply filter_ext. intros l. symmetry. apply eff_R. }
  unfold terms. rewrite FE. fold (rterms ls i). pose proof (total_nonneg ls i) as TN.
  unfold rest_col. destruct (cols (i / 4) ls None) as [[acc oo]|]; cbn [option_map col_inv lane_of fst snd] in HI.
  - unfold lane_of in HI. cbn [fst snd] in HI. destruct HI as (Ha & Hc & Hr).
    destruct (some_partial ls) eqn:SP; cbn [fst snd].
    + rewrite lane_recip, lane_max, lane_splat, lane_npass, lane_max, lane_minus, lane_splat, lane_zero by exact Hm.
      rewrite Ha. rewrite (Rmax_comm (thr - total ls i) 0). split.
      * intros c Hl. rewrite (lin_norm c _ _ Hl), (lin_npass c _ _ _ Hl), (Hc c Hl). reflexivity.
      * eexists. split; [|reflexivity]. eapply rot_npass; [exact Hr|reflexivity].
    + rewrite (sumw_R ls i SP). change (@nlt R Rnum) with Rltb. change (@num_arith R Rnum) with Rarith. rewrite nzero_R.
      cbv zeta. change (nsub thr (total ls i)) with (thr - total ls i).
      destruct (Rltb_spec 0 (thr - total ls i)) as [B|B]; cbn [fst snd].
      * rewrite lane_recip, lane_npass, !lane_splat by exact Hm. split.
        -- intros c Hl. rewrite (lin_norm c _ _ Hl), (lin_npass c _ _ _ Hl), (Hc c Hl).
           unfold mean. rewrite Rmax_right by lra. rewrite (Rmax_left thr) by lra. reflexivity.
        -- eexists. split; [|reflexivity]. rewrite Rmax_right by lra. eapply rot_npass; [exact Hr|reflexivity].
      * rewrite lane_recip, !lane_splat by exact Hm. split.
        -- intros c Hl. rewrite (lin_norm c _ _ Hl), (Hc c Hl).
           unfold mean. rewrite Rmax_left by lra. rewrite (Rmax_right thr) by lra. unfold Rdiv. ring.
        -- eexists. split; [|reflexivity]. rewrite Rmax_left by lra. apply aligned_zero. exact Hr.
  - assert (T0 : total ls i = 0) by (apply Rsum_ineff; [intros; apply jw_ineff; assumption|exact HI]).
    cbn [fst snd]. rewrite lane_recip, lane_splat by exact Hm.
    fold (joint (sk_rest sk) i).
    change (@num_arith R Rnum) with Rarith. rewrite none_R. split.
    + intros c Hl. rewrite (lin_norm c _ _ Hl). unfold mean. rewrite T0, Rminus_0_r.
      rewrite (Rmax_right 0) by lra. rewrite (Rmax_left thr) by lra. rewrite Rsum_ineff; [field; lra| |exact HI].
      intros l E. rewrite (jw_ineff l i E). ring.
    + exists (qadd (Q4 0 0 0 0) (qscale thr (tr_r (joint (sk_rest sk) i)))). split.
      * unfold rterms. rewrite HI. cbn [map app]. rewrite T0, Rminus_0_r, Rmax_right by lra.
        apply (al_same []); [constructor|]. unfold qdot. cbn. lra.
      * replace (qadd _ _) with (qscale thr (tr_r (joint (sk_rest sk) i))).
        -- rewrite q_normalize_scale by exact Ht. reflexivity.
        -- unfold qadd, qscale. cbn. f_equal; ring.
Qed.

(** ** Unit rotations *)
Lemma normalize_unit s : norm2 s <> 0 -> unitq (q_normalize s).
Proof.
  intros H. rewrite q_normalize_R. unfold unitq.
  assert (P : 0 < norm2 s) by (unfold norm2 in *; nra).
  assert (S : 0 < sqrt (norm2 s)) by (apply sqrt_lt_R0; assumption).
  transitivity (/ sqrt (norm2 s) * / sqrt (norm2 s) * norm2 s); [unfold norm2, qscale; cbn; ring|].
  rewrite <- Rinv_mult, sqrt_sqrt by lra. field. lra.
Qed.
Lemma norm2_nonneg q : 0 <= norm2 q.
Proof. unfold norm2. nra. Qed.
(** A sum of aligned non-zero quaternions with non-negative weights, not all zero, is not zero. *)
Lemma aligned_pos l s : aligned_sum l s -> (forall w q, In (w, q) l -> 0 <= w /\ norm2 q <> 0) ->
  (exists w q, In (w, q) l /\ 0 < w) -> 0 < norm2 s.
Proof.
  intros H. induction H as [|l s w q H IH D|l s w q H IH D]; intros Hp He.
  - destruct He as (w & q & [] & _).
  - destruct (Hp w q) as [Hw Hq]; [apply in_or_app; right; left; reflexivity|].
    assert (E : norm2 (qadd s (qscale w q)) = norm2 s + 2 * w * qdot s q + w * w * norm2 q)
      by (unfold norm2, qadd, qscale, qdot; cbn; ring).
    rewrite E. pose proof (norm2_nonneg s). pose proof (norm2_nonneg q).
    assert (0 <= w * qdot s q) by nra.
    destruct (Rle_lt_dec w 0) as [Z|P].
    + assert (w = 0) by lra. subst w.
      assert (0 < norm2 s); [|nra]. apply IH.
      * intros w' q' I. apply Hp. apply in_or_app; left; exact I.
      * destruct He as (w' & q' & I & P). exists w', q'. split; [|exact P].
        apply in_app_or in I. destruct I as [I|[I|[]]]; [exact I|]. inversion I; subst; lra.
    + assert (0 < norm2 q) by (destruct (Rdichotomy _ _ Hq); lra). assert (0 < w * w * norm2 q) by (apply Rmult_lt_0_compat; nra). nra.
  - destruct (Hp w q) as [Hw Hq]; [apply in_or_app; right; left; reflexivity|].
    assert (E : norm2 (qadd s (qscale (- w) q)) = norm2 s - 2 * w * qdot s q + w * w * norm2 q)
      by (unfold norm2, qadd, qscale, qdot; cbn; ring).
    rewrite E. pose proof (norm2_nonneg s). pose proof (norm2_nonneg q).
    assert (0 <= w * - qdot s q) by nra.
    destruct (Rle_lt_dec w 0) as [Z|P].
    + assert (w = 0) by lra. subst w.
      assert (0 < norm2 s); [|nra]. apply IH.
      * intros w' q' I. apply Hp. apply in_or_app; left; exact I.
      * destruct He as (w' & q' & I & P). exists w', q'. split; [|exact P].
        apply in_app_or in I. destruct I as [I|[I|[]]]; [exact I|]. inversion I; subst; lra.
    + assert (0 < norm2 q) by (destruct (Rdichotomy _ _ Hq); lra). assert (0 < w * w * norm2 q) by (apply Rmult_lt_0_compat; nra). nra.
Qed.

(** The rotation an additive layer contributes is never zero. *)
Lemma flip_norm b q : norm2 (s_flip b q) = norm2 q.
Proof. unfold s_flip, flip, norm2. destruct b; cbn; ring. Qed.
Lemma interp_nonzero t w : unitq (tr_r t) -> norm2 (s_interp t w) <> 0.
Proof.
  intros U. unfold s_interp. change (@nlt R Rnum) with Rltb. change (@num_arith R Rnum) with Rarith. rewrite nzero_R.
  set (b := Rltb (qw (tr_r t)) 0). cbv zeta.
  assert (N : norm2 (s_flip b (tr_r t)) = 1) by (rewrite flip_norm; exact U).
  assert (P : 0 <= qw (s_flip b (tr_r t))).
  { unfold s_flip, flip, b. cbn. destruct (Rltb_spec (qw (tr_r t)) 0); cbn; lra. }
  generalize dependent (s_flip b (tr_r t)). intros q N P. unfold norm2 in *. cbn [qx qy qz qw].
  destruct q as [x y z s]. cbn [qx qy qz qw] in *. intros Z.
  assert (A : (s - 1) * w + 1 = 0) by nra.
  assert (B : x * w = 0 /\ y * w = 0 /\ z * w = 0) by (repeat split; nra).
  destruct B as (B1 & B2 & B3).
  destruct (Req_dec w 0) as [W|W]; [subst w; lra|].
  assert (x = 0) by nra. assert (y = 0) by nra. assert (z = 0) by nra. subst x y z.
  assert (s = 1) by nra. subst s. lra.
Qed.

Lemma s_mul_hamilton (a b : quat R) : q_mul a b = hamilton a b.
Proof. unfold q_mul, hamilton, hvec, cross3, dot3. cbn. f_equal; ring. Qed.
Lemma hamilton_conj (p q : quat R) : unitq q -> hamilton (hamilton p q) (conj q) = p.
Proof.
  intros U. transitivity (qscale (norm2 q) p).
  - destruct p, q. unfold qscale, norm2, hamilton, hvec, cross3, dot3, conj. cbn. f_equal; ring.
  - rewrite U. destruct p. unfold qscale. cbn. f_equal; ring.
Qed.

(** Adding then subtracting a layer. *)
Lemma add_sub t w o : unitq (tr_r t) ->
  vx (tr_s t) * w + (1 - w) <> 0 -> vy (tr_s t) * w + (1 - w) <> 0 -> vz (tr_s t) * w + (1 - w) <> 0 ->
  s_sub t w (s_add t w o) = o.
Proof.
  intros U Hx Hy Hz. pose proof (normalize_unit _ (interp_nonzero t w U)) as N.
  unfold s_sub, s_add. cbn [tr_t tr_r tr_s].
  rewrite !s_mul_hamilton. change (q_conjugate (q_normalize (s_interp t w))) with (conj (q_normalize (s_interp t w))).
  rewrite (hamilton_conj _ _ N). destruct o as [[a b c] q [d e f]]. cbn [tr_t tr_r tr_s vx vy vz].
  f_equal.
  - unfold v3_sub, v3_add, v3_mul_num. cbn. f_equal; ring.
  - f_equal; field; assumption.
Qed.
