(** C88: motion blending in single precision. *)
From Coq Require Import Reals Lra Psatz.
From Flocq Require Import IEEE754.BinarySingleNaN Core Relative.
From Verif Require Import Base Num NumF32 NumR F32Facts F32Err NormF32 BlendF32 Math MathSpec BlendingSpec QuatNorm
  Motion MotionProps MotionGlam MotionF32Spec MotionF32 MotionF32Proofs MotionF32Finish.
Local Open Scope R_scope.

Lemma run_inv o ls : (length ls <= 4096)%nat -> Forall usable_mlayer ls ->
  Inv (length ls) (total_weight (map real_mlayer ls)) (wsum mlen (map real_mlayer ls)) (mean_dir (map real_mlayer ls)) (fold_left (mstep_on o) ls macc0).
Proof.
  intros Hn U. pose proof (inv_run o ls U 0 0 0 (V3 0 0 0) macc0 ltac:(lia) inv_0) as I. cbv zeta in I. rewrite !Rplus_0_l in I.
  replace (plus3 (V3 0 0 0) (mean_dir (map real_mlayer ls))) with (mean_dir (map real_mlayer ls)) in I by (unfold plus3, mean_dir; cbn; f_equal; ring).
  exact I.
Qed.
Lemma finq_real q r : finq q r -> finite4 q /\ real4 q = r.
Proof. intros ((A & E0) & (B & E1) & (C & E2) & (D & E3)). split; [repeat split; assumption|]. unfold real4. rewrite E0, E1, E2, E3. destruct r. reflexivity. Qed.
Lemma fin3_real v r : fin3 v r -> finite3 v /\ real3 v = r.
Proof. intros ((A & E0) & (B & E1) & (C & E2)). split; [repeat split; assumption|]. unfold real3. rewrite E0, E1, E2. destruct r. reflexivity. Qed.

(** Whatever the layers in range, the rotation of the result is finite and of unit length to within
    2^-19, and the scale is exactly 1. *)
Theorem C88_unit_rotation o div (ls : list (mlayer f32)) out : (length ls <= 4096)%nat -> Forall usable_mlayer ls ->
  let t := motion_run_on o div ls out in
  finite4 (tr_r t) /\ Rabs (norm2 (real4 (tr_r t)) - 1) <= / 2 ^ 19 /\ finite3 (tr_s t) /\ real3 (tr_s t) = V3 1 1 1.
Proof.
  intros Hn U t. destruct (finish_rot o div _ _ _ _ _ (run_inv o ls Hn U)) as (r & Fr & Nr).
  change (mfinish_on o div (fold_left (mstep_on o) ls macc0)) with t in Fr. destruct (finq_real _ _ Fr) as (F & ->).
  split; [exact F|]. split; [eapply Rle_trans; [exact Nr|]; simpl; lra|].
  apply (fin3_real (tr_s t) (V3 1 1 1)). repeat split; apply fin_one.
Qed.
Print Assumptions C88_unit_rotation.

(** With no positive weight the result is the identity. *)
Theorem C88_no_weight o div (ls : list (mlayer f32)) out : (forall l, In l ls -> nle (ml_weight l) nzero = true) ->
  let t := motion_run_on o div ls out in finite3 (tr_t t) /\ finite4 (tr_r t) /\ finite3 (tr_s t) /\ real_delta t = id_transform.
Proof.
  intros H. assert (E : motion_run_on o div ls out = mfinish_on o div macc0).
  { unfold motion_run_on. f_equal. assert (G : forall a, fold_left (mstep_on o) ls a = a); [|apply G].
    induction ls as [|l ls IH]; intros a; [reflexivity|]. cbn [fold_left]. assert (mstep_on o a l = a) as ->.
    { unfold mstep_on. cbv zeta. change (@num_arith f32 f32num) with f32arith. rewrite (H l (or_introl eq_refl)). reflexivity. }
    apply IH. intros; apply H; right; assumption. }
  cbv zeta. rewrite E.
  assert (R : tr_r (mfinish_on o div macc0) = q_identity :> quat f32).
  { unfold mfinish_on. cbv zeta. cbn [tr_r a_dr macc0].
    assert (Z : neq (g_dot o (q_zero : quat f32) q_zero) nzero = true) by (destruct o; vm_compute; reflexivity).
    change (@num_arith f32 f32num) with f32arith in *. rewrite Z. reflexivity. }
  assert (T : fin3 (tr_t (mfinish_on o div macc0)) (V3 0 0 0)).
  { assert (T0 : exists s : bool, vx (tr_t (mfinish_on o div (@macc0 f32 _))) = B754_zero s) by (exists false; destruct o, div; vm_compute; reflexivity).
    assert (T1 : exists s : bool, vy (tr_t (mfinish_on o div (@macc0 f32 _))) = B754_zero s) by (exists false; destruct o, div; vm_compute; reflexivity).
    assert (T2 : exists s : bool, vz (tr_t (mfinish_on o div (@macc0 f32 _))) = B754_zero s) by (exists false; destruct o, div; vm_compute; reflexivity).
    destruct T0 as (s0 & T0). destruct T1 as (s1 & T1). destruct T2 as (s2 & T2). unfold fin3. rewrite T0, T1, T2. repeat split; reflexivity. }
  destruct (fin3_real _ _ T) as (F & E1). split; [exact F|]. rewrite R.
  destruct (finq_real (q_identity : quat f32) (Q4 0 0 0 1)) as (F4 & E4); [split; [apply fin_zero|split; [apply fin_zero|split; [apply fin_zero|apply fin_one]]]|].
  split; [exact F4|]. change (tr_s (mfinish_on o div macc0)) with (v3_one : vec3 f32).
  destruct (fin3_real (v3_one : vec3 f32) (V3 1 1 1)) as (F3 & E3); [repeat split; apply fin_one|]. split; [exact F3|].
  unfold real_delta, id_transform. rewrite E1, R, E4. change (tr_s (mfinish_on o div macc0)) with (v3_one : vec3 f32). rewrite E3. reflexivity.
Qed.
Print Assumptions C88_no_weight.

(** If the weighted directions do not cancel ([sg] is the length of their mean; at least 1/256), the
    length of the result is the mean length, and the result is the mean length along the mean
    direction, up to a relative error that grows with the number of layers. *)
Theorem C88_translation o div (ls : list (mlayer f32)) out sg : (length ls <= 4096)%nat -> Forall usable_mlayer ls ->
  let rs := map real_mlayer ls in 0 < total_weight rs -> / 256 <= sg <= 1 -> sg * total_weight rs <= len3 (mean_dir rs) ->
  let t := tr_t (motion_run_on o div ls out) in
  finite3 t /\ Rabs (len3 (real3 t) - mean_len rs) <= (INR (length ls) + 8) / 2 ^ 21 * mean_len rs /\
  len3 (plus3 (real3 t) (scale3 (-1) (mean_move rs))) <= (INR (length ls) + 8) / 2 ^ 20 / sg * mean_len rs.
Proof.
  intros Hn U rs HW Hs HT t.
  destruct (finish_move o div _ _ _ _ _ sg (run_inv o ls Hn U) Hn HW) as (r & Fr & L1 & L2); [replace (p2 (-8)) with (/ 256) by (simpl; lra); exact Hs|exact HT|].
  change (mfinish_on o div (fold_left (mstep_on o) ls macc0)) with (motion_run_on o div ls out) in Fr. fold t in Fr.
  destruct (fin3_real _ _ Fr) as (F & ->). split; [exact F|].
  replace (p2 (-21)) with (/ 2 ^ 21) in L1 by (simpl; lra). replace (p2 (-20)) with (/ 2 ^ 20) in L2 by (simpl; lra). split; [exact L1|exact L2].
Qed.
Print Assumptions C88_translation.

(** If no two rotations are more than about 150 degrees apart (the dot product of any two is at least
    a quarter), the result is the normalised weighted sum, up to an error that grows with the number of
    layers. *)
Theorem C88_mean_rotation o div (ls : list (mlayer f32)) out : (length ls <= 4096)%nat -> Forall usable_mlayer ls ->
  let rs := map real_mlayer ls in 0 < total_weight rs ->
  (forall l l', In l rs -> In l' rs -> 0 < ml_weight l -> 0 < ml_weight l' -> / 4 <= qdot (tr_r (ml_delta l)) (tr_r (ml_delta l'))) ->
  let q := real4 (tr_r (motion_run_on o div ls out)) in
  0 < qn (mean_rot rs) /\ qn (qsub q (qscale (/ qn (mean_rot rs)) (mean_rot rs))) <= (INR (length ls) + 8) / 2 ^ 20.
Proof.
  intros Hn U rs HW HP q.
  assert (R0 : RInv 0 0 (Q4 0 0 0 0) macc0).
  { constructor; [cbn; lra|unfold norm2; cbn; lra|repeat split; cbn; rewrite Rabs_R0; lra|left; repeat split; reflexivity]. }
  pose proof (rinv_run o ls U) as I. specialize (I ltac:(intros l l' H H' P P'; exact (HP _ _ (in_map _ _ _ H) (in_map _ _ _ H') P P'))).
  specialize (I 0%nat 0 _ _ ltac:(lia) R0). specialize (I ltac:(intros; unfold qdot; cbn; lra)). cbv zeta in I. rewrite Rplus_0_l in I.
  replace (qadd (Q4 0 0 0 0) (mean_rot (map real_mlayer ls))) with (mean_rot rs) in I by (unfold qadd, mean_rot, rs; cbn; f_equal; ring).
  destruct (finish_turn o div _ _ _ _ I Hn HW) as (r & Fr & Er). change (mfinish_on o div (fold_left (mstep_on o) ls macc0)) with (motion_run_on o div ls out) in Fr.
  destruct (finq_real _ _ Fr) as (_ & E). unfold q. rewrite E. split.
  - pose proof (rN _ _ _ _ I) as N. apply sqrt_lt_R0. fold rs in N. cbn [Nat.add] in *. nra.
  - replace (p2 (-20)) with (/ 2 ^ 20) in Er by (simpl; lra). exact Er.
Qed.
Print Assumptions C88_mean_rotation.

(** ** A concrete case *)
Definition lit (m e : Z) : f32 := f32_lit m e.
Definition exl1 : mlayer f32 := mk_mlayer (lit 3 (-2)) (TR (V3 (lit 3 0) (lit 4 0) (lit 0 0)) (Q4 (lit 0 0) (lit 0 0) (lit 0 0) (lit 1 0)) v3_one).
Definition exl2 : mlayer f32 := mk_mlayer (lit 1 (-2)) (TR (V3 (lit 0 0) (lit 0 0) (lit 2 0)) (Q4 (lit 39 (-6)) (lit 0 0) (lit 0 0) (lit 51 (-6))) v3_one).
Definition exl3 : mlayer f32 := mk_mlayer (lit (-1) 0) (TR (V3 (lit 7 0) (lit 0 0) (lit 2 0)) (Q4 (lit 5 0) (lit 0 0) (lit 0 0) (lit 5 0)) v3_one).
Lemma v_lit m e : (Z.abs m <= 2 ^ 24)%Z -> (-149 <= e <= 103)%Z -> is_finite (lit m e) = true /\ B2R (lit m e) = IZR m * bpow radix2 e.
Proof. intros H1 H2. exact (fin_lit m e H1 H2). Qed.
Ltac lits := rewrite ?(proj2 (v_lit 3 (-2) ltac:(lia) ltac:(lia))), ?(proj2 (v_lit 3 0 ltac:(lia) ltac:(lia))), ?(proj2 (v_lit 4 0 ltac:(lia) ltac:(lia))),
  ?(proj2 (v_lit 0 0 ltac:(lia) ltac:(lia))), ?(proj2 (v_lit 1 0 ltac:(lia) ltac:(lia))), ?(proj2 (v_lit 1 (-2) ltac:(lia) ltac:(lia))),
  ?(proj2 (v_lit 2 0 ltac:(lia) ltac:(lia))), ?(proj2 (v_lit 39 (-6) ltac:(lia) ltac:(lia))), ?(proj2 (v_lit 51 (-6) ltac:(lia) ltac:(lia))),
  ?(proj2 (v_lit (-1) 0 ltac:(lia) ltac:(lia))), ?(proj2 (v_lit 1 (-80) ltac:(lia) ltac:(lia))), ?(proj2 (v_lit 5 0 ltac:(lia) ltac:(lia))), ?(proj2 (v_lit 7 0 ltac:(lia) ltac:(lia))).
Lemma real_exl1 : real_mlayer exl1 = mk_mlayer 0.75 (TR (V3 3 4 0) (Q4 0 0 0 1) (V3 1 1 1)).
Proof. unfold real_mlayer, exl1, real_delta, real3, real4. cbn [ml_weight ml_delta tr_t tr_r tr_s vx vy vz qx qy qz qw v3_one v3_splat]. rewrite !(proj2 fin_one). lits. simpl bpow. f_equal; [lra|]. f_equal; f_equal; lra. Qed.
Lemma real_exl2 : real_mlayer exl2 = mk_mlayer 0.25 (TR (V3 0 0 2) (Q4 (39 / 64) 0 0 (51 / 64)) (V3 1 1 1)).
Proof. unfold real_mlayer, exl2, real_delta, real3, real4. cbn [ml_weight ml_delta tr_t tr_r tr_s vx vy vz qx qy qz qw v3_one v3_splat]. rewrite !(proj2 fin_one). lits. simpl bpow. f_equal; [lra|]. f_equal; f_equal; lra. Qed.
Lemma len345 : len3 (V3 3 4 0) = 5.
Proof. unfold len3, dot3. cbn. replace (3 * 3 + 4 * 4 + 0 * 0) with (5 * 5) by ring. apply sqrt_square. lra. Qed.
Lemma len002 : len3 (V3 0 0 2) = 2.
Proof. unfold len3, dot3. cbn. replace (0 * 0 + 0 * 0 + 2 * 2) with (2 * 2) by ring. apply sqrt_square. lra. Qed.

Lemma ex_usable : Forall usable_mlayer [exl1; exl2; exl3].
Proof.
  assert (U : forall l r, real_mlayer l = r -> (is_finite (ml_weight l) && is_finite (vx (tr_t (ml_delta l))) && is_finite (vy (tr_t (ml_delta l))) &&
      is_finite (vz (tr_t (ml_delta l))) && is_finite (qx (tr_r (ml_delta l))) && is_finite (qy (tr_r (ml_delta l))) && is_finite (qz (tr_r (ml_delta l))) &&
      is_finite (qw (tr_r (ml_delta l))))%bool = true -> / 4 <= ml_weight r <= 4 -> 1 <= mlen r <= 8 -> Rabs (norm2 (tr_r (ml_delta r)) - 1) <= / 100 -> usable_mlayer l).
  { intros l r <- F B1 B2 B3. repeat (apply andb_prop in F; destruct F as [F ?]). right.
    split; [assumption|]. split; [cbn in B1; simpl; lra|]. split; [repeat split; assumption|]. split; [right; cbn in B2; unfold mlen in B2; cbn in B2; simpl; lra|].
    split; [repeat split; assumption|exact B3]. }
  constructor; [|constructor; [|constructor; [|constructor]]].
  - apply (U _ _ real_exl1); [vm_compute; reflexivity|cbn; lra|unfold mlen; cbn [ml_delta tr_t]; rewrite len345; lra|].
    unfold norm2. cbn. apply Rabs_le. lra.
  - apply (U _ _ real_exl2); [vm_compute; reflexivity|cbn; lra|unfold mlen; cbn [ml_delta tr_t]; rewrite len002; lra|].
    unfold norm2. cbn. apply Rabs_le. lra.
  - left. vm_compute. reflexivity.
Qed.
Lemma ex_skip f ls : wsum f (real_mlayer exl3 :: ls) = wsum f ls.
Proof.
  cbn [wsum]. assert (N : ml_weight (real_mlayer exl3) < 0) by (cbn [real_mlayer exl3 ml_weight]; lits; simpl bpow; lra).
  destruct (Rlt_dec 0 (ml_weight (real_mlayer exl3))); [lra|ring].
Qed.
Lemma ex_wsum f : wsum f (map real_mlayer [exl1; exl2; exl3]) =
  0.75 * f (mk_mlayer 0.75 (TR (V3 3 4 0) (Q4 0 0 0 1) (V3 1 1 1))) + 0.25 * f (mk_mlayer 0.25 (TR (V3 0 0 2) (Q4 (39 / 64) 0 0 (51 / 64)) (V3 1 1 1))).
Proof.
  cbn [map]. rewrite real_exl1, real_exl2. cbn [wsum ml_weight]. change ((if Rlt_dec 0 (ml_weight (real_mlayer exl3)) then ml_weight (real_mlayer exl3) * f (real_mlayer exl3) else 0) + 0) with (wsum f [real_mlayer exl3]).
  rewrite ex_skip. cbn [wsum]. destruct (Rlt_dec 0 0.75); [|lra]. destruct (Rlt_dec 0 0.25); [|lra]. ring.
Qed.
(** Two layers of weights 3/4 and 1/4 moving by (3, 4, 0) and (0, 0, 2), and a third of negative weight:
    the mean length is 17/4, the mean direction is (9/20, 3/5, 1/4), and the hypotheses of the theorems
    hold with [sg] one half. *)
Example C88_example :
  let ls := [exl1; exl2; exl3] in let rs := map real_mlayer ls in
  Forall usable_mlayer ls /\ total_weight rs = 1 /\ mean_len rs = 17 / 4 /\ mean_dir rs = V3 (9 / 20) (3 / 5) (1 / 4) /\
  / 2 * total_weight rs <= len3 (mean_dir rs) /\
  (forall l l', In l rs -> In l' rs -> 0 < ml_weight l -> 0 < ml_weight l' -> / 4 <= qdot (tr_r (ml_delta l)) (tr_r (ml_delta l'))) /\
  (let t := motion_run_on Alternate true ls (TR v3_zero q_identity v3_one) in
   (f32_to_bits (vx (tr_t t)), f32_to_bits (vy (tr_t t)), f32_to_bits (vz (tr_t t)),
    f32_to_bits (qx (tr_r t)), f32_to_bits (qw (tr_r t)))) = (1075499835, 1078882042, 1068238629, 1042433251, 1065141227)%N.
Proof.
  cbv zeta. split; [exact ex_usable|].
  assert (TW : total_weight (map real_mlayer [exl1; exl2; exl3]) = 1) by (unfold total_weight; rewrite ex_wsum; lra).
  assert (MD : mean_dir (map real_mlayer [exl1; exl2; exl3]) = V3 (9 / 20) (3 / 5) (1 / 4)).
  { unfold mean_dir. rewrite !ex_wsum. unfold dir, mlen. cbn [ml_delta tr_t]. rewrite len345, len002. unfold scale3. cbn. f_equal; lra. }
  split; [exact TW|]. split; [|split; [exact MD|split; [|split]]].
  - unfold mean_len. rewrite TW, ex_wsum. unfold mlen. cbn [ml_delta tr_t]. rewrite len345, len002. lra.
  - rewrite TW, MD. unfold len3, dot3. cbn. rewrite <- (sqrt_square (/ 2 * 1)) by lra. apply sqrt_le_1_alt. lra.
  - cbn [map]. rewrite real_exl1, real_exl2. assert (N : ml_weight (real_mlayer exl3) = -1) by (cbn [real_mlayer exl3 ml_weight]; lits; simpl bpow; lra).
    intros l l' [<-|[<-|[<-|[]]]] [<-|[<-|[<-|[]]]] P P'; try (rewrite N in P; lra); try (rewrite N in P'; lra); unfold qdot; cbn; lra.
  - vm_compute. reflexivity.
Qed.

(** ** Cancelling directions *)
Definition opp1 : mlayer f32 := mk_mlayer (lit 1 0) (TR (V3 (lit 1 0) (lit 1 (-80)) (lit 0 0)) (Q4 (lit 0 0) (lit 0 0) (lit 0 0) (lit 1 0)) v3_one).
Definition opp2 : mlayer f32 := mk_mlayer (lit 1 0) (TR (V3 (lit (-1) 0) (lit 0 0) (lit 0 0)) (Q4 (lit 0 0) (lit 0 0) (lit 0 0) (lit 1 0)) v3_one).
Lemma real_opp1 : real_mlayer opp1 = mk_mlayer 1 (TR (V3 1 (p2 (-80)) 0) (Q4 0 0 0 1) (V3 1 1 1)).
Proof. unfold real_mlayer, opp1, real_delta, real3, real4. cbn [ml_weight ml_delta tr_t tr_r tr_s vx vy vz qx qy qz qw v3_one v3_splat]. rewrite !(proj2 fin_one). lits. change (p2 0) with 1. f_equal; [lra|]. f_equal; f_equal; lra. Qed.
Lemma real_opp2 : real_mlayer opp2 = mk_mlayer 1 (TR (V3 (-1) 0 0) (Q4 0 0 0 1) (V3 1 1 1)).
Proof. unfold real_mlayer, opp2, real_delta, real3, real4. cbn [ml_weight ml_delta tr_t tr_r tr_s vx vy vz qx qy qz qw v3_one v3_splat]. rewrite !(proj2 fin_one). lits. change (p2 0) with 1. f_equal; [lra|]. f_equal; f_equal; lra. Qed.
Definition is_zero (x : f32) : bool := match x with B754_zero _ => true | _ => false end.
Lemma is_zero_R x : is_zero x = true -> B2R x = 0.
Proof. destruct x; try discriminate. reflexivity. Qed.
Lemma tiny_turn : 1 <= len3 (V3 1 (p2 (-80)) 0) <= 2.
Proof.
  assert (P : 0 < p2 (-80) <= 1) by (split; [apply p2_pos|change 1 with (p2 0); apply bpow_le; lia]). unfold len3, dot3. cbn [vx vy vz]. split.
  - rewrite <- sqrt_1 at 1. apply sqrt_le_1_alt. nra.
  - rewrite <- (sqrt_square 2) by lra. apply sqrt_le_1_alt. nra.
Qed.
Lemma len_back : len3 (V3 (-1) 0 0) = 1.
Proof. unfold len3, dot3. cbn. replace (-1 * -1 + 0 * 0 + 0 * 0) with 1 by ring. apply sqrt_1. Qed.

(** Without the condition on the directions it is false that the result has the mean length: two layers
    that move by one unit in almost opposite directions.  The exact result moves by at least one unit;
    the job does not move at all, because the length of the tiny sum of directions underflows to 0. *)
Theorem C88_translation_refuted : exists ls : list (mlayer f32), Forall usable_mlayer ls /\
  (forall out, 1 <= len3 (tr_t (motion_run (map real_mlayer ls) out))) /\
  (forall o div out, real3 (tr_t (motion_run_on o div ls out)) = V3 0 0 0).
Proof.
  exists [opp1; opp2]. split; [|split].
  - assert (U : forall l r, real_mlayer l = r -> (is_finite (ml_weight l) && is_finite (vx (tr_t (ml_delta l))) && is_finite (vy (tr_t (ml_delta l))) &&
      is_finite (vz (tr_t (ml_delta l))) && is_finite (qx (tr_r (ml_delta l))) && is_finite (qy (tr_r (ml_delta l))) && is_finite (qz (tr_r (ml_delta l))) &&
      is_finite (qw (tr_r (ml_delta l))))%bool = true -> / 4 <= ml_weight r <= 4 -> 1 <= mlen r <= 8 -> Rabs (norm2 (tr_r (ml_delta r)) - 1) <= / 100 -> usable_mlayer l).
    { intros l r <- F B1 B2 B3. repeat (apply andb_prop in F; destruct F as [F ?]). right.
      split; [assumption|]. split; [cbn in B1; simpl; lra|]. split; [repeat split; assumption|]. split; [right; cbn in B2; unfold mlen in B2; cbn in B2; simpl; lra|].
      split; [repeat split; assumption|exact B3]. }
    pose proof tiny_turn. pose proof len_back.
    constructor; [|constructor; [|constructor]].
    + apply (U _ _ real_opp1); [vm_compute; reflexivity|cbn; lra|unfold mlen; cbn [ml_delta tr_t]; lra|]. unfold norm2. cbn. apply Rabs_le. lra.
    + apply (U _ _ real_opp2); [vm_compute; reflexivity|cbn; lra|unfold mlen; cbn [ml_delta tr_t]; lra|]. unfold norm2. cbn. apply Rabs_le. lra.
  - intros out. cbn [map]. rewrite real_opp1, real_opp2. pose proof tiny_turn as T. pose proof len_back as B. pose proof (p2_pos (-80)) as P.
    set (a := p2 (-80)) in *. set (rs := [mk_mlayer 1 (TR (V3 1 a 0) (Q4 0 0 0 1) (V3 1 1 1)); mk_mlayer 1 (TR (V3 (-1) 0 0) (Q4 0 0 0 1) (V3 1 1 1))]).
    assert (WS : forall f, wsum f rs = f (mk_mlayer 1 (TR (V3 1 a 0) (Q4 0 0 0 1) (V3 1 1 1))) + f (mk_mlayer 1 (TR (V3 (-1) 0 0) (Q4 0 0 0 1) (V3 1 1 1)))).
    { intros f. unfold rs. cbn [wsum ml_weight]. destruct (Rlt_dec 0 1); [ring|lra]. }
    destruct (C45_translation rs out) as [L _]. destruct L as [_ L].
    + intros E. apply (f_equal vy) in E. unfold mean_dir in E. cbn [vy] in E. rewrite WS in E. unfold dir, mlen in E. cbn [ml_delta tr_t] in E. rewrite B in E.
      unfold scale3 in E. cbn [vx vy vz] in E. assert (0 < / len3 (V3 1 a 0)) by (apply Rinv_0_lt_compat; lra). nra.
    + rewrite L. unfold total_weight. rewrite !WS. unfold mlen. cbn [ml_delta tr_t]. rewrite B. lra.
  - intros o div out. unfold real3. f_equal; apply is_zero_R; destruct o, div; vm_compute; reflexivity.
Qed.
Print Assumptions C88_translation_refuted.
