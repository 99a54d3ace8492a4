(** C45: motion blending, in real arithmetic. *)
From Coq Require Import Reals Lra Psatz.
From Verif Require Import Base Num NumR Math MathSpec MathProofs Motion.
Local Open Scope R_scope.

(** ** What the job computes, in words *)
(** Sum over the layers of positive weight. *)
Fixpoint wsum (f : mlayer R -> R) (ls : list (mlayer R)) : R :=
  match ls with [] => 0 | l :: ls => (if Rlt_dec 0 (ml_weight l) then ml_weight l * f l else 0) + wsum f ls end.
Definition total_weight := wsum (fun _ => 1).
Definition mlen (l : mlayer R) : R := len3 (tr_t (ml_delta l)).
(** The unit direction of a layer's translation; zero for a zero translation. *)
Definition dir (l : mlayer R) : vec3 R := scale3 (/ mlen l) (tr_t (ml_delta l)).
Definition mean_dir (ls : list (mlayer R)) : vec3 R :=
  V3 (wsum (fun l => vx (dir l)) ls) (wsum (fun l => vy (dir l)) ls) (wsum (fun l => vz (dir l)) ls).
Definition id_transform : transform R := TR (V3 0 0 0) (Q4 0 0 0 1) (V3 1 1 1).
Definition scale_weight (k : R) (l : mlayer R) : mlayer R := mk_mlayer (k * ml_weight l) (ml_delta l).

(** ** Proofs *)
Lemma sq_nonneg3 v : 0 <= dot3 v v. Proof. unfold dot3. nra. Qed.
Lemma v3_len_R v : @v3_len R Rnum v = len3 v. Proof. reflexivity. Qed.
Lemma len3_0 v : len3 v = 0 -> v = V3 0 0 0.
Proof.
  intros H. apply sqrt_eq_0 in H; [|apply sq_nonneg3]. destruct v as [x y z]. unfold dot3 in H. cbn in H.
  assert (x = 0 /\ y = 0 /\ z = 0) as (-> & -> & ->) by (repeat split; nra). reflexivity.
Qed.
Lemma len3_nonneg v : 0 <= len3 v. Proof. apply sqrt_pos. Qed.
Lemma len3_scale k v : 0 <= k -> len3 (scale3 k v) = k * len3 v.
Proof.
  intros Hk. unfold len3. replace (dot3 (scale3 k v) (scale3 k v)) with (k * k * dot3 v v) by (unfold dot3, scale3; cbn; ring).
  rewrite sqrt_mult by (try apply sq_nonneg3; nra). rewrite sqrt_square by exact Hk. reflexivity.
Qed.

(** One step, at [R]. *)
Lemma mstep_R a l : mstep a l =
  if Rlt_dec 0 (ml_weight l) then
    mk_macc (a_w a + ml_weight l) (a_dl a + mlen l * ml_weight l)
      (plus3 (a_dt a) (scale3 (ml_weight l) (dir l)))
      (let r := tr_r (ml_delta l) in let s := if Rle_dec 0 (q_dot (a_dr a) r) then ml_weight l else - ml_weight l in
       q_add (a_dr a) (q_mul_num r s))
  else a.
Proof.
  unfold mstep. cbv zeta. change (@num_arith R Rnum) with Rarith. rewrite !nzero_R.
  change (nle (ml_weight l) 0) with (Rleb (ml_weight l) 0).
  destruct (Rleb_spec (ml_weight l) 0) as [W|W], (Rlt_dec 0 (ml_weight l)) as [W'|W']; try lra; [reflexivity|].
  rewrite v3_len_R. fold (mlen l).
  assert (Ea : @nabs R Rarith (ml_weight l) = ml_weight l) by (apply Rabs_right; lra). rewrite !Ea.
  assert (Ed : v3_mul_num (tr_t (ml_delta l)) (if neq (mlen l) 0 then 0 else (ml_weight l / mlen l)%num) = scale3 (ml_weight l) (dir l)).
  { change (neq (mlen l) 0) with (Reqb (mlen l) 0). destruct (Reqb_spec (mlen l) 0) as [E|E].
    - unfold dir. rewrite (len3_0 _ E). unfold scale3, v3_mul_num. cbn. f_equal; ring.
    - unfold dir, scale3, v3_mul_num. cbn. f_equal; field; exact E. }
  rewrite Ed. f_equal. cbv zeta.
  change (nle 0 (q_dot (a_dr a) (tr_r (ml_delta l)))) with (Rleb 0 (q_dot (a_dr a) (tr_r (ml_delta l)))).
  destruct (Rleb_spec 0 (q_dot (a_dr a) (tr_r (ml_delta l)))), (Rle_dec 0 (q_dot (a_dr a) (tr_r (ml_delta l)))); try lra; reflexivity.
Qed.

Lemma macc_sums ls : forall a, let r := fold_left mstep ls a in
  a_w r = a_w a + total_weight ls /\ a_dl r = a_dl a + wsum mlen ls /\ a_dt r = plus3 (a_dt a) (mean_dir ls).
Proof.
  induction ls as [|l ls IH]; intros a; cbn [fold_left].
  - cbv zeta. unfold total_weight, mean_dir, plus3. cbn. destruct (a_dt a). cbn. repeat split; try lra. f_equal; lra.
  - cbv zeta. destruct (IH (mstep a l)) as (H1 & H2 & H3). rewrite H1, H2, H3, mstep_R. unfold total_weight, mean_dir, plus3. cbn [wsum].
    destruct (Rlt_dec 0 (ml_weight l)); cbn [a_w a_dl a_dt vx vy vz plus3 scale3]; (split; [lra|]); (split; [lra|]).
    + unfold plus3, scale3. cbn [vx vy vz]. f_equal; ring.
    + f_equal; ring.
Qed.
Lemma wsum_nonneg f ls : (forall l, 0 <= f l) -> 0 <= wsum f ls.
Proof. intros H. induction ls as [|l ls IH]; cbn; [lra|]. specialize (H l). destruct (Rlt_dec 0 (ml_weight l)); nra. Qed.
Lemma macc0_R : macc0 = mk_macc 0 0 (V3 0 0 0) (Q4 0 0 0 0).
Proof. unfold macc0, v3_zero, v3_splat, q_zero. change (@num_arith R Rnum) with Rarith. rewrite nzero_R. reflexivity. Qed.

(** [mfinish] at [R]. *)
Lemma mfinish_R a : mfinish a =
  TR (scale3 (if Req_EM_T (len3 (a_dt a) * a_w a) 0 then 0 else a_dl a / (len3 (a_dt a) * a_w a)) (a_dt a))
     (if Req_EM_T (norm2 (a_dr a)) 0 then Q4 0 0 0 1 else q_normalize (a_dr a)) (V3 1 1 1).
Proof.
  unfold mfinish. cbv zeta. change (@num_arith R Rnum) with Rarith. rewrite !nzero_R, v3_len_R.
  change (neq (len3 (a_dt a) * a_w a)%num 0) with (Reqb (len3 (a_dt a) * a_w a) 0).
  change (neq (q_dot (a_dr a) (a_dr a)) 0) with (Reqb (norm2 (a_dr a)) 0). unfold Reqb.
  f_equal.
  - destruct (Req_EM_T (len3 (a_dt a) * a_w a) 0); unfold v3_mul_num, scale3; cbn; f_equal; ring.
  - destruct (Req_EM_T (norm2 (a_dr a)) 0); cbn [negb]; [|reflexivity]. unfold q_identity. rewrite nzero_R, none_R. reflexivity.
  - unfold v3_one, v3_splat. rewrite none_R. reflexivity.
Qed.
Lemma q_normalize_unit (q : quat R) : norm2 q <> 0 -> unitq (q_normalize q).
Proof.
  intros H. assert (0 < norm2 q) by (unfold norm2 in *; nra). unfold q_normalize. cbv zeta.
  change (@num_arith R Rnum) with Rarith. rewrite nrecip_R. unfold unitq, norm2. cbn.
  replace (qx q * qx q + qy q * qy q + qz q * qz q + qw q * qw q) with (norm2 q) by reflexivity.
  transitivity (norm2 q * (/ sqrt (norm2 q) * / sqrt (norm2 q))); [unfold norm2; ring|].
  rewrite <- Rinv_mult, sqrt_sqrt by lra. field. lra.
Qed.
Lemma q_normalize_scale (q : quat R) k : 0 < k -> q_normalize (q_mul_num q k) = q_normalize q.
Proof.
  intros Hk. unfold q_normalize. cbv zeta. change (@num_arith R Rnum) with Rarith. rewrite !nrecip_R.
  destruct q as [x y z w]. cbn. set (n := x * x + y * y + z * z + w * w).
  replace (x * k * (x * k) + y * k * (y * k) + z * k * (z * k) + w * k * (w * k)) with (k * k * n) by (unfold n; ring).
  destruct (Req_dec n 0) as [E|E].
  - assert (x = 0 /\ y = 0 /\ z = 0 /\ w = 0) as (-> & -> & -> & ->) by (unfold n in E; repeat split; nra). f_equal; ring.
  - assert (0 < n) by (unfold n in *; nra).
    assert (Es : sqrt (k * k * n) = k * sqrt n) by (rewrite sqrt_mult, sqrt_square by nra; reflexivity).
    pose proof (sqrt_lt_R0 n H). rewrite Es. f_equal; field; lra.
Qed.

(** ** C45 *)
(** No positive weight: the identity. *)
Theorem C45_no_weight (ls : list (mlayer R)) out : (forall l, In l ls -> ml_weight l <= 0) -> motion_run ls out = id_transform.
Proof.
  intros H. unfold motion_run.
  assert (E : forall a, fold_left mstep ls a = a).
  { induction ls as [|l ls IH]; intros a; [reflexivity|]. cbn [fold_left]. rewrite mstep_R.
    destruct (Rlt_dec 0 (ml_weight l)); [specialize (H l (or_introl eq_refl)); lra|]. apply IH. intros; apply H; right; assumption. }
  rewrite E, mfinish_R, macc0_R. cbn [a_w a_dl a_dt a_dr]. unfold id_transform. f_equal.
  - unfold scale3. cbn. f_equal; ring.
  - destruct (Req_EM_T (norm2 (Q4 0 0 0 0)) 0) as [|N]; [reflexivity|]. exfalso. apply N. unfold norm2. cbn. ring.
Qed.
Print Assumptions C45_no_weight.

(** The output translation: the mean length along the mean direction. *)
Theorem C45_translation (ls : list (mlayer R)) out : let d := mean_dir ls in let t := tr_t (motion_run ls out) in
  (d <> V3 0 0 0 -> t = scale3 (wsum mlen ls / total_weight ls) (scale3 (/ len3 d) d) /\ len3 t = wsum mlen ls / total_weight ls) /\
  (d = V3 0 0 0 -> t = V3 0 0 0).
Proof.
  intros d t. unfold t, motion_run. rewrite mfinish_R. destruct (macc_sums ls macc0) as (H1 & H2 & H3). rewrite macc0_R in *.
  cbn [tr_t a_w a_dl a_dt] in *. rewrite H1, H2, H3.
  replace (plus3 (V3 0 0 0) (mean_dir ls)) with d by (unfold d, plus3, mean_dir; cbn; f_equal; ring). rewrite !Rplus_0_l.
  split.
  - intros Hd. assert (L : 0 < len3 d). { destruct (len3_nonneg d) as [L|L]; [exact L|]. exfalso. apply Hd, len3_0. auto. }
    assert (W : 0 < total_weight ls).
    { destruct (wsum_nonneg (fun _ => 1) ls ltac:(intros; lra)) as [W|W]; [exact W|]. exfalso. apply Hd. fold (total_weight ls) in W.
      assert (Z : forall f, wsum f ls = 0).
      { unfold total_weight in W. clear - W. induction ls as [|l ls IH]; intros f; [reflexivity|]. cbn in *.
        assert (0 <= wsum (fun _ => 1) ls) by (apply wsum_nonneg; intros; lra).
        destruct (Rlt_dec 0 (ml_weight l)); [lra|]. rewrite IH by lra. ring. }
      unfold d, mean_dir. rewrite !Z. reflexivity. }
    destruct (Req_EM_T (len3 d * total_weight ls) 0) as [E|E]; [nra|].
    assert (Q : scale3 (wsum mlen ls / (len3 d * total_weight ls)) d = scale3 (wsum mlen ls / total_weight ls) (scale3 (/ len3 d) d)).
    { unfold scale3. cbn. f_equal; field; lra. }
    split; [exact Q|]. rewrite Q. rewrite !len3_scale.
    + field. lra.
    + apply Rlt_le, Rinv_0_lt_compat, L.
    + apply Rmult_le_pos; [apply wsum_nonneg; intros; apply len3_nonneg|]. apply Rlt_le, Rinv_0_lt_compat, W.
  - intros ->. unfold scale3. cbn. f_equal; ring.
Qed.
Print Assumptions C45_translation.

(** The rotation is a unit quaternion and the scale is 1, whatever the layers. *)
Theorem C45_unit_rotation (ls : list (mlayer R)) out : unitq (tr_r (motion_run ls out)) /\ tr_s (motion_run ls out) = V3 1 1 1.
Proof.
  unfold motion_run. rewrite mfinish_R. cbn [tr_r tr_s]. split; [|reflexivity].
  destruct (Req_EM_T _ 0) as [E|E]; [unfold unitq, norm2; cbn; ring|]. apply q_normalize_unit, E.
Qed.
Print Assumptions C45_unit_rotation.

(** Scaling every weight by a positive factor changes nothing. *)
Theorem C45_scale_invariant (ls : list (mlayer R)) k out : 0 < k -> motion_run (map (scale_weight k) ls) out = motion_run ls out.
Proof.
  intros Hk. unfold motion_run.
  assert (E : forall a b, a_w b = k * a_w a -> a_dl b = k * a_dl a -> a_dt b = scale3 k (a_dt a) -> a_dr b = q_mul_num (a_dr a) k ->
     let a' := fold_left mstep ls a in let b' := fold_left mstep (map (scale_weight k) ls) b in
     a_w b' = k * a_w a' /\ a_dl b' = k * a_dl a' /\ a_dt b' = scale3 k (a_dt a') /\ a_dr b' = q_mul_num (a_dr a') k).
  { induction ls as [|l ls IH]; intros a b E1 E2 E3 E4; [cbv zeta; auto|]. cbn [map fold_left]. apply IH; rewrite !mstep_R; unfold scale_weight; cbn [ml_weight ml_delta].
    all: destruct (Rlt_dec 0 (k * ml_weight l)) as [P|P], (Rlt_dec 0 (ml_weight l)) as [P'|P']; try (exfalso; nra); cbn [a_w a_dl a_dt a_dr]; try assumption.
    - rewrite E1. ring.
    - rewrite E2. unfold mlen. cbn. ring.
    - rewrite E3. unfold dir, mlen, plus3, scale3. cbn. f_equal; ring.
    - rewrite E4. cbv zeta.
      assert (D : q_dot (q_mul_num (a_dr a) k) (tr_r (ml_delta l)) = k * q_dot (a_dr a) (tr_r (ml_delta l))) by (unfold q_dot, q_mul_num; cbn; ring).
      rewrite D. destruct (Rle_dec 0 (k * q_dot (a_dr a) (tr_r (ml_delta l)))), (Rle_dec 0 (q_dot (a_dr a) (tr_r (ml_delta l)))); try (exfalso; nra);
        unfold q_add, q_mul_num; cbn; f_equal; ring. }
  destruct (E macc0 macc0) as (E1 & E2 & E3 & E4);
    [rewrite macc0_R; cbn; ring|rewrite macc0_R; cbn; ring|rewrite macc0_R; unfold scale3; cbn; f_equal; ring|rewrite macc0_R; unfold q_mul_num; cbn; f_equal; ring|].
  rewrite !mfinish_R, E1, E2, E3, E4. rewrite len3_scale by lra. rewrite q_normalize_scale by exact Hk.
  set (a := fold_left mstep ls macc0). f_equal.
  - destruct (Req_EM_T (k * len3 (a_dt a) * (k * a_w a)) 0) as [Z|Z], (Req_EM_T (len3 (a_dt a) * a_w a) 0) as [Z'|Z'].
    + unfold scale3. cbn. f_equal; ring.
    + exfalso. apply Z'. assert (k * k * (len3 (a_dt a) * a_w a) = 0) by lra. apply Rmult_integral in H. destruct H; [nra|assumption].
    + exfalso. apply Z. replace (k * len3 (a_dt a) * (k * a_w a)) with (k * k * (len3 (a_dt a) * a_w a)) by ring. rewrite Z'. ring.
    + assert (len3 (a_dt a) <> 0 /\ a_w a <> 0) as [N1 N2] by (split; intros N; apply Z'; rewrite N; ring).
      unfold scale3. cbn. f_equal; field; repeat split; try assumption; lra.
  - assert (Nk : norm2 (q_mul_num (a_dr a) k) = k * k * norm2 (a_dr a)) by (unfold norm2, q_mul_num; cbn; ring). rewrite Nk.
    destruct (Req_EM_T (k * k * norm2 (a_dr a)) 0) as [Z|Z], (Req_EM_T (norm2 (a_dr a)) 0) as [Z'|Z']; try reflexivity; exfalso.
    + apply Z'. apply Rmult_integral in Z. destruct Z; [nra|assumption].
    + apply Z. rewrite Z'. ring.
Qed.
Print Assumptions C45_scale_invariant.

(** Layers of non-positive weight have no effect; a single layer of positive weight returns its own
    delta (with scale 1). *)
Theorem C45_ignores (l1 l2 : list (mlayer R)) l out : ml_weight l <= 0 -> motion_run (l1 ++ l :: l2) out = motion_run (l1 ++ l2) out.
Proof.
  intros H. unfold motion_run. rewrite !fold_left_app. cbn [fold_left]. rewrite mstep_R. destruct (Rlt_dec 0 (ml_weight l)); [lra|reflexivity].
Qed.
Print Assumptions C45_ignores.
Theorem C45_single (l : mlayer R) out : 0 < ml_weight l -> unitq (tr_r (ml_delta l)) ->
  motion_run [l] out = TR (tr_t (ml_delta l)) (tr_r (ml_delta l)) (V3 1 1 1).
Proof.
  intros Hw U. unfold motion_run. cbn [fold_left]. rewrite mstep_R, macc0_R, mfinish_R. destruct (Rlt_dec 0 (ml_weight l)) as [_|]; [|lra].
  cbn [a_w a_dl a_dt a_dr]. cbv zeta. f_equal.
  - replace (plus3 (V3 0 0 0) (scale3 (ml_weight l) (dir l))) with (scale3 (ml_weight l) (dir l)) by (unfold plus3, scale3; cbn; f_equal; ring).
    rewrite len3_scale by lra. rewrite !Rplus_0_l. unfold dir.
    destruct (Req_dec (mlen l) 0) as [E|E].
    + rewrite (len3_0 _ E). unfold scale3. cbn. f_equal; ring.
    + assert (P : 0 < mlen l) by (destruct (len3_nonneg (tr_t (ml_delta l))) as [P|P]; [exact P|]; exfalso; apply E; unfold mlen; auto).
      rewrite len3_scale by (apply Rlt_le, Rinv_0_lt_compat, P). change (len3 (tr_t (ml_delta l))) with (mlen l).
      rewrite Rinv_l, Rmult_1_r by exact E. destruct (Req_EM_T (ml_weight l * ml_weight l) 0); [nra|].
      destruct (tr_t (ml_delta l)) as [x y z]. unfold scale3. cbn. f_equal; field; split; lra.
  - set (r := tr_r (ml_delta l)) in *.
    assert (D : q_dot (Q4 0 0 0 0) r = 0) by (unfold q_dot; cbn; ring). rewrite D. destruct (Rle_dec 0 0); [|lra].
    replace (q_add (Q4 0 0 0 0) (q_mul_num r (ml_weight l))) with (q_mul_num r (ml_weight l)) by (unfold q_add, q_mul_num; cbn; f_equal; ring).
    assert (Nk : norm2 (q_mul_num r (ml_weight l)) = ml_weight l * ml_weight l) by (transitivity (ml_weight l * ml_weight l * norm2 r); [unfold norm2, q_mul_num; cbn; ring|rewrite U; ring]).
    rewrite Nk. destruct (Req_EM_T _ 0); [nra|]. rewrite q_normalize_scale by exact Hw.
    unfold q_normalize. cbv zeta. change (@num_arith R Rnum) with Rarith. rewrite nrecip_R.
    change (qx r * qx r + qy r * qy r + qz r * qz r + qw r * qw r)%num with (norm2 r). rewrite U.
    change (@nsqrt R Rarith 1) with (sqrt 1). rewrite sqrt_1, Rinv_1. destruct r. cbn. f_equal; ring.
Qed.
Print Assumptions C45_single.

(** Rotations: the sign of a layer's quaternion (q and -q are the same rotation) changes the
    result at most by a sign. *)
Definition neg_rot (l : mlayer R) : mlayer R :=
  mk_mlayer (ml_weight l) (TR (tr_t (ml_delta l)) (q_mul_num (tr_r (ml_delta l)) (-1)) (tr_s (ml_delta l))).
Definition same_layer (l l' : mlayer R) : Prop := l' = l \/ l' = neg_rot l.
(** No layer is orthogonal to what has been accumulated before it (there the sign is a choice). *)
Fixpoint never_orthogonal (a : macc) (ls : list (mlayer R)) : Prop :=
  match ls with
  | [] => True
  | l :: ls => (0 < ml_weight l -> a_dr a = Q4 0 0 0 0 \/ q_dot (a_dr a) (tr_r (ml_delta l)) <> 0) /\ never_orthogonal (mstep a l) ls
  end.
Theorem C45_sign_invariant (ls ls' : list (mlayer R)) out : Forall2 same_layer ls ls' -> never_orthogonal macc0 ls ->
  tr_t (motion_run ls' out) = tr_t (motion_run ls out) /\
  (tr_r (motion_run ls' out) = tr_r (motion_run ls out) \/ tr_r (motion_run ls' out) = q_mul_num (tr_r (motion_run ls out)) (-1)).
Proof.
  intros HF HN. unfold motion_run.
  assert (E : forall a b, a_w b = a_w a -> a_dl b = a_dl a -> a_dt b = a_dt a -> (a_dr b = a_dr a \/ a_dr b = q_mul_num (a_dr a) (-1)) -> never_orthogonal a ls ->
     let a' := fold_left mstep ls a in let b' := fold_left mstep ls' b in
     a_w b' = a_w a' /\ a_dl b' = a_dl a' /\ a_dt b' = a_dt a' /\ (a_dr b' = a_dr a' \/ a_dr b' = q_mul_num (a_dr a') (-1))).
  { clear HN. induction HF as [|l l' ls ls' HS HF IH]; intros a b E1 E2 E3 E4 HN; [cbv zeta; auto|]. destruct HN as [HN1 HN2]. cbn [fold_left].
    assert (W : ml_weight l' = ml_weight l /\ mlen l' = mlen l /\ dir l' = dir l) by (destruct HS as [->| ->]; auto). destruct W as (W1 & W2 & W3).
    apply IH; [..|exact HN2]; rewrite !mstep_R, W1; destruct (Rlt_dec 0 (ml_weight l)) as [P|P]; cbn [a_w a_dl a_dt a_dr]; try assumption.
    - congruence.
    - congruence.
    - congruence.
    - cbv zeta. specialize (HN1 P). set (r := tr_r (ml_delta l)) in *. set (w := ml_weight l) in *. set (d := a_dr a) in *.
      assert (NEG : forall q r : quat R, q_dot q (q_mul_num r (-1)) = - q_dot q r) by (intros; unfold q_dot, q_mul_num; cbn; ring).
      assert (NEG' : forall q r : quat R, q_dot (q_mul_num q (-1)) r = - q_dot q r) by (intros; unfold q_dot, q_mul_num; cbn; ring).
      destruct HN1 as [Z|NZ].
      + (* nothing accumulated yet *)
        assert (Zb : a_dr b = Q4 0 0 0 0) by (destruct E4 as [->| ->]; rewrite Z; [reflexivity|unfold q_mul_num; cbn; f_equal; ring]).
        rewrite Zb, Z. assert (D : forall q : quat R, q_dot (Q4 0 0 0 0) q = 0) by (intros; unfold q_dot; cbn; ring). rewrite !D.
        destruct (Rle_dec 0 0); [|lra]. destruct HS as [->| ->]; [left; reflexivity|right]. unfold neg_rot, q_add, q_mul_num. cbn. unfold r, q_mul_num. cbn. f_equal; ring.
      + assert (R' : tr_r (ml_delta l') = r \/ tr_r (ml_delta l') = q_mul_num r (-1)) by (destruct HS as [->| ->]; [left|right]; reflexivity).
        destruct E4 as [-> | ->], R' as [-> | ->]; rewrite ?NEG, ?NEG', ?NEG;
          repeat match goal with |- context [Rle_dec ?a ?b] => destruct (Rle_dec a b) end; try (exfalso; lra);
          try (left; unfold q_add, q_mul_num; cbn; f_equal; ring); try (right; unfold q_add, q_mul_num; cbn; f_equal; ring). }
  destruct (E macc0 macc0 eq_refl eq_refl eq_refl (or_introl eq_refl) HN) as (E1 & E2 & E3 & E4).
  rewrite !mfinish_R. cbn [tr_t tr_r]. rewrite E1, E2, E3. split; [reflexivity|].
  destruct E4 as [E4|E4]; rewrite E4; [left; reflexivity|]. set (d := a_dr _).
  assert (Nn : norm2 (q_mul_num d (-1)) = norm2 d) by (unfold norm2, q_mul_num; cbn; ring). rewrite Nn.
  destruct (Req_EM_T (norm2 d) 0); [left; reflexivity|right]. unfold q_normalize. cbv zeta.
  change (qx (q_mul_num d (-1)) * qx (q_mul_num d (-1)) + qy (q_mul_num d (-1)) * qy (q_mul_num d (-1)) + qz (q_mul_num d (-1)) * qz (q_mul_num d (-1)) + qw (q_mul_num d (-1)) * qw (q_mul_num d (-1)))%num
    with (norm2 (q_mul_num d (-1))). rewrite Nn.
  change (qx d * qx d + qy d * qy d + qz d * qz d + qw d * qw d)%num with (norm2 d). unfold q_mul_num. cbn. f_equal; ring.
Qed.
Print Assumptions C45_sign_invariant.

(** ** Concrete case: two layers at right angles, one ignored *)
Definition idq : quat R := Q4 0 0 0 1.
Definition ex_layers : list (mlayer R) :=
  [mk_mlayer 1 (TR (V3 3 0 0) idq (V3 1 1 1)); mk_mlayer (-5) (TR (V3 9 9 9) idq (V3 1 1 1)); mk_mlayer 3 (TR (V3 0 0 5) (Q4 0 0 0 (-1)) (V3 1 1 1))].
Example ex_sums : total_weight ex_layers = 4 /\ wsum mlen ex_layers = 18 /\ mean_dir ex_layers = V3 1 0 3.
Proof.
  assert (L1 : len3 (V3 3 0 0) = 3) by (unfold len3, dot3; cbn; replace (3*3+0*0+0*0) with (3*3) by ring; apply sqrt_square; lra).
  assert (L2 : len3 (V3 0 0 5) = 5) by (unfold len3, dot3; cbn; replace (0*0+0*0+5*5) with (5*5) by ring; apply sqrt_square; lra).
  unfold total_weight, mean_dir, dir, mlen. cbn [ex_layers wsum ml_weight ml_delta tr_t scale3 vx vy vz].
  repeat match goal with |- context [Rlt_dec ?a ?b] => destruct (Rlt_dec a b); try (exfalso; lra) end. rewrite ?L1, ?L2.
  split; [lra|]. split; [lra|]. f_equal; field.
Qed.
Example ex_signs : never_orthogonal macc0 ex_layers.
Proof.
  rewrite macc0_R. cbn [ex_layers never_orthogonal]. split; [intros _; left; reflexivity|].
  rewrite mstep_R. cbn [ml_weight]. destruct (Rlt_dec 0 1); [|lra]. split; [cbn; intros; lra|].
  rewrite mstep_R. cbn [ml_weight]. destruct (Rlt_dec 0 (-5)); [lra|]. split; [|exact I]. intros _. right.
  cbn [a_dr ml_delta tr_r]. unfold idq, q_dot, q_add, q_mul_num. cbn. destruct (Rle_dec 0 _); lra.
Qed.
