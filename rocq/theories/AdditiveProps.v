(** C85: additive layers. *)
From Coq Require Import Reals Lra Psatz.
From Flocq Require Import IEEE754.BinarySingleNaN Core.
From Verif Require Import Base Num NumR NumF32 F32Facts F32Err Math MathSpec KeysSpec Skeleton Blending BlendingSpec BlendingProofs BlendingProps.
From Verif Require Import NormF32 BlendLane BlendF32 BlendF32Spec BlendF32Proofs BlendMean BlendF32Props AdditiveSpec AdditiveProofs QuatNorm AdditiveF32 AdditiveSteps.
Local Open Scope R_scope.

(** C85, in real arithmetic.  A job with additive layers gives, at every joint, what the job without
    them gives, then changed by each additive layer in turn: the weighted translation is added, the
    pose is turned by the weighted rotation, each scale component is multiplied by 1 + w (s - 1); a
    layer of negative weight undoes the same. *)
Theorem C85_additive_layers :
  forall (sk : skeleton R) ctx ctx' thr ls adds out out' c o c' o',
    rest_sized sk ->
    blend_run (mk_bjob (Some sk) (Some ctx) thr ls [] (Some out)) = BOk (c, o) ->
    blend_run (mk_bjob (Some sk) (Some ctx') thr ls adds (Some out')) = BOk (c', o') ->
    forall i, (i < 4 * num_soa_joints sk)%nat -> joint o' i = with_layers i (joint o i) adds.
Proof.
  intros sk ctx ctx' thr ls adds out out' c o c' o' Hr H H' i Hi.
  destruct (ok_inv _ _ _ _ _ _ _ _ Hr H) as (_ & _ & _ & P & _). destruct (ok_inv _ _ _ _ _ _ _ _ Hr H') as (_ & _ & _ & P' & _).
  assert (K : (i / 4 < num_soa_joints sk)%nat) by (apply Nat.div_lt_upper_bound; lia).
  unfold joint. rewrite P, P' by exact K. rewrite gl_full. unfold with_layers.
  generalize (lane_tr (full_col sk thr ls [] (i / 4)) (i mod 4)). clear. induction adds as [|l adds IH]; intros p; cbn [fold_left]; [reflexivity|].
  rewrite ga_step_R. apply IH.
Qed.
Print Assumptions C85_additive_layers.

Lemma joint_steps (sk : skeleton f32) ctx ctx' thr ls adds out out' c o c' o' i :
  rest_sized sk ->
  blend_run (mk_bjob (Some sk) (Some ctx) thr ls [] (Some out)) = BOk (c, o) ->
  blend_run (mk_bjob (Some sk) (Some ctx') thr ls adds (Some out')) = BOk (c', o') ->
  (i < 4 * num_soa_joints sk)%nat -> joint o' i = fold_left (ga_step i) adds (joint o i).
Proof.
  intros Hr H H' Hi. destruct (ok_inv32 _ _ _ _ _ _ _ _ Hr H) as (_ & _ & P & _). destruct (ok_inv32 _ _ _ _ _ _ _ _ Hr H') as (_ & _ & P' & _).
  assert (K : (i / 4 < num_soa_joints sk)%nat) by (apply Nat.div_lt_upper_bound; lia).
  unfold joint. rewrite P, P' by exact K. apply gl_full.
Qed.
Lemma INR_le n k : (n <= k)%nat -> INR n <= INR k. Proof. apply le_INR. Qed.
Lemma INR_2048 : INR 2048 = 2048. Proof. rewrite INR_IZR_INZ. f_equal. Qed.

(** C85 in single precision, rotations.  [o] is the pose without the additive layers (unit by C74).
    With n of them its length has changed by at most n 2^-18, and it is within n 2^-17 of the exact
    composition. *)
Theorem C85_rotation :
  forall (sk : skeleton f32) ctx ctx' thr ls adds out out' c o c' o',
    rest_sized sk ->
    blend_run (mk_bjob (Some sk) (Some ctx) thr ls [] (Some out)) = BOk (c, o) ->
    blend_run (mk_bjob (Some sk) (Some ctx') thr ls adds (Some out')) = BOk (c', o') ->
    (length adds <= 2048)%nat ->
    forall i, (i < 4 * num_soa_joints sk)%nat -> Forall (usable_additive i) adds ->
      (forall k, is_finite (qcomp (tr_r (joint o i)) k) = true) -> Rabs (sumsq (tr_r (joint o i)) - 1) <= / 1024 ->
      let n := INR (length adds) in
      (forall k, is_finite (qcomp (tr_r (joint o' i)) k) = true) /\
      Rabs (sumsq (tr_r (joint o' i)) - sumsq (tr_r (joint o i))) <= n / 2 ^ 18 /\
      qdist (tr_r (exact (joint o' i))) (tr_r (with_layers i (exact (joint o i)) (map real_layer adds))) <= n / 2 ^ 17.
Proof.
  intros sk ctx ctx' thr ls adds out out' c o c' o' Hr H H' Hn i Hi U Fq N n.
  rewrite (joint_steps _ _ _ _ _ _ _ _ _ _ _ _ _ Hr H H' Hi). set (b := joint o i) in *. clearbody b. clear - Hn U Fq N.
  assert (N0 : 0 <= n <= 2048) by (split; [apply pos_INR|rewrite <- INR_2048; apply INR_le, Hn]).
  set (m := qn (tr_r (exact b))).
  assert (M2 : m * m = sumsq (tr_r b)) by apply qn_sq. assert (M0 : 0 <= m) by apply qn_pos.
  assert (M1 : Rabs (m - 1) <= / 1000).
  { rewrite <- M2 in N. apply Rabs_le_inv in N. apply Rabs_le. split.
    - apply Rnot_lt_le. intros L. assert (m * m <= 0.999 * 0.999) by (apply Rmult_le_compat; lra). lra.
    - apply Rnot_lt_le. intros L. assert (1.001 * 1.001 <= m * m) by (apply Rmult_le_compat; lra). lra. }
  assert (Fb : finq (tr_r b) (tr_r (exact b))).
  { pose proof (Fq 0%nat). pose proof (Fq 1%nat). pose proof (Fq 2%nat). pose proof (Fq 3%nat). repeat split; assumption. }
  assert (Z : qn (qsub (tr_r (exact b)) (tr_r (exact b))) = 0).
  { unfold qn. rewrite <- sqrt_0. f_equal. unfold norm2, qsub, qadd, qscale. cbn. ring. }
  destruct (rot_steps i adds U 0 b (exact b) (tr_r (exact b)) m) as (a & Fa & E1 & E2); auto; try lra.
  { fold n. lra. }
  { fold m. replace (m - m) with 0 by ring. rewrite Rabs_R0. lra. }
  fold n in E1, E2. rewrite Rplus_0_l in E1, E2. set (r := fold_left (ga_step i) adds b) in *. clearbody r.
  destruct Fa as ((A0 & B0) & (A1 & B1) & (A2 & B2) & (A3 & B3)).
  assert (EA : tr_r (exact r) = a) by (unfold exact; cbn [tr_r]; rewrite B0, B1, B2, B3; destruct a; reflexivity).
  split; [|split].
  - intros [|[|[|k]]]; cbn [qcomp]; assumption.
  - change (sumsq (tr_r r)) with (norm2 (tr_r (exact r))). rewrite EA, <- M2, <- qn_sq.
    replace (qn a * qn a - m * m) with ((qn a - m) * (qn a + m)) by ring. rewrite Rabs_mult.
    pose proof (qn_pos a) as P. rewrite (Rabs_pos_eq (qn a + m)) by lra.
    assert (Q : qn a + m <= 2.01).
    { apply Rabs_le_inv in E1. apply Rabs_le_inv in M1. unfold eps in E1. lra. }
    apply Rle_trans with (n * (25.5 * eps) * 2.01); [apply Rmult_le_compat; try lra; apply Rabs_pos|]. unfold eps. simpl. lra.
  - rewrite EA. change (qdist a ?x) with (qn (qsub a x)). eapply Rle_trans; [exact E2|]. unfold eps. simpl. lra.
Qed.
Print Assumptions C85_rotation.

(** Translations: within (n + 3) 2^-23 of the exact value, relative to the total of the magnitudes
    added up. *)
Theorem C85_translation :
  forall (sk : skeleton f32) ctx ctx' thr ls adds out out' c o c' o',
    rest_sized sk ->
    blend_run (mk_bjob (Some sk) (Some ctx) thr ls [] (Some out)) = BOk (c, o) ->
    blend_run (mk_bjob (Some sk) (Some ctx') thr ls adds (Some out')) = BOk (c', o') ->
    (length adds <= 2048)%nat ->
    forall i, (i < 4 * num_soa_joints sk)%nat -> Forall (usable_additive i) adds ->
      forall k, (k < 3)%nat ->
      is_finite (linear (joint o i) k) = true -> Rabs (B2R (linear (joint o i) k)) <= 2 ^ 60 ->
      let n := INR (length adds) in
      let magnitude := Rabs (B2R (linear (joint o i) k))
        + Rsum (fun l => additive_weight l i * Rabs (rlinear k (joint (ly_transform l) i))) (map real_layer adds) in
      is_finite (linear (joint o' i) k) = true /\
      Rabs (B2R (linear (joint o' i) k) - rlinear k (with_layers i (exact (joint o i)) (map real_layer adds)))
      <= (n + 3) / 2 ^ 23 * magnitude + / 2 ^ 90.
Proof.
  intros sk ctx ctx' thr ls adds out out' c o c' o' Hr H H' Hn i Hi U k Hk F B n mag.
  rewrite (joint_steps _ _ _ _ _ _ _ _ _ _ _ _ _ Hr H H' Hi). set (b := joint o i) in *. clearbody b. clear - Hn U F B Hk.
  assert (N0 : 0 <= n <= 2048) by (split; [apply pos_INR|rewrite <- INR_2048; apply INR_le, Hn]).
  set (x := B2R (linear b k)) in *. pose proof (Rabs_pos x) as X0.
  assert (EM : mag = Rabs x + Rsum (moved i k) adds).
  { unfold mag. f_equal. clear. induction adds as [|l adds IH]; cbn; [reflexivity|]. unfold Rsum in IH. rewrite IH. f_equal.
    unfold moved. change (ly_transform (real_layer l)) with (map real_soa (ly_transform l)). rewrite joint_real. reflexivity. }
  assert (P60 : p2 60 = 2 ^ 60) by (rewrite p2_pow by lia; f_equal; lia).
  assert (P62 : p2 62 = 4 * p2 60) by (change 62%Z with (2 + 60)%Z; apply (p2_shift 2); simpl; lra).
  assert (P42 : p2 60 = 262144 * p2 42) by (change 60%Z with (18 + 42)%Z; apply (p2_shift 18); simpl; lra).
  assert (P40 : p2 42 = 4 * p2 40) by (change 42%Z with (2 + 40)%Z; apply (p2_shift 2); simpl; lra).
  pose proof (p2_pos 40) as P0.
  assert (SB : Rsum (moved i k) adds <= INR (length adds) * p2 42).
  { clear - U P40 P0. induction U as [|l adds U _ IH]; [simpl; lra|]. change (Rsum (moved i k) (l :: adds)) with (moved i k l + Rsum (moved i k) adds).
    cbn [length]. rewrite S_INR. assert (M : moved i k l <= p2 42); [|lra].
    destruct (step_cases i tr_identity tr_identity l U) as [(Z & _)|(w & W' & _ & R & _ & _ & UT & _)].
    - unfold moved. rewrite aw_eq, Z, Rabs_R0. lra.
    - destruct (usable_lin _ k UT) as [_ Bx]. unfold moved. rewrite P40. apply Rmult_le_compat; try lra. apply Rabs_pos. }
  fold n in SB.
  destruct (tr_steps i k adds Hk U 0 b (exact b) x (Rabs x)) as (r & (Fr & Br) & E); try lra.
  { fold n. lra. }
  { split; [exact F|reflexivity]. }
  { rewrite rlin_exact. fold x. lra. }
  { apply Rle_trans with (p2 60 + n * p2 42); [lra|]. assert (n * p2 42 <= 2048 * p2 42) by (apply Rmult_le_compat_r; lra). lra. }
  { rewrite rlin_exact. fold x. replace (x - x) with 0 by ring. rewrite Rabs_R0. unfold eps. lra. }
  fold n in E. rewrite Rplus_0_l in E. rewrite <- EM in E. split; [exact Fr|]. rewrite Br. eapply Rle_trans; [exact E|].
  assert (M0 : 0 <= mag) by (rewrite EM; pose proof (sum_nonneg i k adds); lra).
  apply Rplus_le_compat.
  - apply Rmult_le_compat_r; [exact M0|]. unfold eps. simpl. lra.
  - apply Rle_trans with (2048 * p2 (-107)); [apply Rmult_le_compat_r; [apply Rlt_le, p2_pos|lra]|].
    assert (Q : p2 (-96) = 2048 * p2 (-107)) by (change (-96)%Z with (11 + -107)%Z; apply (p2_shift 11); simpl; lra). rewrite <- Q.
    replace (/ 2 ^ 90) with (p2 (-90)) by (change (p2 (-90)) with (p2 (- (90))%Z); rewrite p2_inv by lia; f_equal; f_equal; lia).
    apply bpow_le. lia.
Qed.
Print Assumptions C85_translation.

(** Scales, when each of up to 64 layers at most doubles or halves the component: within n 2^-18 of
    the exact product, relatively. *)
Theorem C85_scale :
  forall (sk : skeleton f32) ctx ctx' thr ls adds out out' c o c' o',
    rest_sized sk ->
    blend_run (mk_bjob (Some sk) (Some ctx) thr ls [] (Some out)) = BOk (c, o) ->
    blend_run (mk_bjob (Some sk) (Some ctx') thr ls adds (Some out')) = BOk (c', o') ->
    (length adds <= 64)%nat ->
    forall i, (i < 4 * num_soa_joints sk)%nat -> Forall (usable_additive i) adds ->
      forall k, (3 <= k)%nat -> Forall (moderate_scale i k) (map real_layer adds) ->
      is_finite (linear (joint o i) k) = true ->
      (B2R (linear (joint o i) k) = 0 \/ / 2 ^ 40 <= Rabs (B2R (linear (joint o i) k)) <= 2 ^ 41) ->
      let n := INR (length adds) in
      let s := rlinear k (with_layers i (exact (joint o i)) (map real_layer adds)) in
      is_finite (linear (joint o' i) k) = true /\ Rabs (B2R (linear (joint o' i) k) - s) <= n / 2 ^ 18 * Rabs s.
Proof.
  intros sk ctx ctx' thr ls adds out out' c o c' o' Hr H H' Hn i Hi U k Hk M F B n s.
  unfold s. clear s. rewrite (joint_steps _ _ _ _ _ _ _ _ _ _ _ _ _ Hr H H' Hi). set (b := joint o i) in *. clearbody b. clear - Hn U F B Hk M.
  assert (M' : Forall (fun l => moderate_scale i k (real_layer l)) adds) by (apply Forall_map; exact M).
  destruct (scale_steps i k adds Hk U M' 0%nat b (exact b) (B2R (linear b k))) as (r & (Fr & Br) & E).
  - lia.
  - split; [exact F|reflexivity].
  - rewrite rlin_exact. destruct B as [B|B]; [left; exact B|right]. change (Z.of_nat 0) with 0%Z. rewrite !Z.add_0_r.
    rewrite p2_inv, p2_pow by lia. exact B.
  - rewrite rlin_exact. replace (_ - _) with 0 by ring. rewrite Rabs_R0. cbn [INR]. lra.
  - cbv zeta in E. rewrite Nat.add_0_l in E. fold n in E. split; [exact Fr|]. rewrite Br. eapply Rle_trans; [exact E|].
    apply Rmult_le_compat_r; [apply Rabs_pos|]. pose proof (pos_INR (length adds)). fold n in H. unfold eps. simpl. lra.
Qed.
Print Assumptions C85_scale.

(** ** A concrete job *)
(** A half turn about x that moves by 2 and doubles: half of it is added, then all of it is taken away
    from the joints of the second layer's mask; a layer of weight zero is full of NaNs. *)
Definition turner : transform (V4 f32) :=
  TR (V3 (splat ntwo) (splat nzero) (splat nzero)) (Q4 (splat none_) (splat nzero) (splat nzero) (splat nzero))
     (V3 (splat ntwo) (splat ntwo) (splat ntwo)).
Definition ex_adds : list (layer f32) :=
  [mk_layer [turner] nhalf []; mk_layer [turner] (nneg none_) [mk4 none_ nzero nhalf (nneg none_)]; mk_layer [nan_soa] nzero []].
Lemma usable_turner i : (i < 4)%nat -> usable_transform (joint [turner] i).
Proof.
  intros Hi. pose proof (fin_one : fin (none_ : f32) 1) as [F1 B1]. pose proof (fin_zero : fin (nzero : f32) 0) as [F0 B0]. pose proof fin_two as [F2 B2].
  assert (P40 : 2 <= 2 ^ 40) by (replace 2 with (2 ^ 1) at 1 by ring; apply Rle_pow; [lra|lia]).
  unfold joint. rewrite Nat.div_small, Nat.mod_small by exact Hi. cbn [nth].
  assert (S : lane_tr turner i = TR (V3 ntwo nzero nzero) (Q4 none_ nzero nzero nzero) (V3 ntwo ntwo ntwo)).
  { destruct i as [|[|[|[|i]]]]; [..|lia]; reflexivity. }
  rewrite S. split; [|split].
  - intros c. destruct c as [|[|[|[|[|c]]]]]; cbn [linear tr_t tr_s vx vy vz];
      (split; [assumption|]); rewrite ?B0, ?B2; rewrite ?Rabs_R0; try lra; rewrite Rabs_pos_eq; lra.
  - intros c. destruct c as [|[|[|c]]]; cbn [qcomp tr_r qx qy qz qw]; assumption.
  - unfold sumsq. cbn [tr_r qx qy qz qw]. rewrite B0, B1. replace (_ - 1) with 0 by ring. rewrite Rabs_R0. lra.
Qed.
Lemma fin_mone : fin (nneg none_ : f32) (-1).
Proof. replace (-1) with (- (1)) by ring. apply fin_neg, fin_one. Qed.
Lemma ex_additive i : (i < 4)%nat -> Forall (usable_additive i) ex_adds.
Proof.
  intros Hi. unfold ex_adds. repeat apply Forall_cons; [| | |apply Forall_nil]; unfold usable_additive; cbn [ly_weight ly_transform ly_joint_weights].
  - split; [apply fin_half|]. rewrite (proj2 fin_half), Rabs_pos_eq by lra. split; [lra|]. intros _.
    split; [apply usable_turner, Hi|]. intros N. contradiction.
  - split; [apply fin_mone|]. rewrite (proj2 fin_mone), Rabs_left by lra. split; [lra|]. intros _.
    split; [apply usable_turner, Hi|]. intros _.
    rewrite Nat.div_small, Nat.mod_small by exact Hi. cbn [nth]. destruct i as [|[|[|[|i]]]]; [..|lia]; cbn [lane l0 l1 l2 l3].
    + split; [apply fin_one|rewrite (proj2 fin_one); lra].
    + split; [apply fin_zero|rewrite (proj2 fin_zero); lra].
    + split; [apply fin_half|rewrite (proj2 fin_half); lra].
    + split; [apply fin_mone|rewrite (proj2 fin_mone); lra].
  - split; [apply fin_zero|]. rewrite (proj2 fin_zero), Rabs_R0. split; [lra|]. intros N. contradiction.
Qed.
Lemma eq_fin (x : f32) y v : fin y v -> nle x y = true -> nle y x = true -> fin x v.
Proof.
  intros [Fy By] A B. change (Bleb x y = true) in A. change (Bleb y x = true) in B.
  assert (Fx : is_finite x = true).
  { destruct x as [s|s| |s m e h]; try reflexivity; try (destruct s); destruct y as [s'|s'| |s' m' e' h']; try discriminate; destruct s'; discriminate. }
  split; [exact Fx|]. rewrite Bleb_correct in A, B by assumption. rewrite By in A, B.
  destruct (Rle_bool_spec (B2R x) v) as [A'|A']; [|discriminate]. destruct (Rle_bool_spec v (B2R x)) as [B'|B']; [|discriminate]. lra.
Qed.
Definition is_val (x y : f32) : bool := nle x y && nle y x.
Definition is_rest (r : bres f32) (i : nat) : bool :=
  match r with
  | BOk (_, o) => is_val (linear (joint o i) 0) nzero && is_val (linear (joint o i) 3) none_
      && is_val (qx (tr_r (joint o i))) nzero && is_val (qy (tr_r (joint o i))) nzero
      && is_val (qz (tr_r (joint o i))) nzero && is_val (qw (tr_r (joint o i))) none_
  | _ => false
  end.
Lemma turner_1 : joint (map real_soa [turner]) 1 = TR (V3 2 0 0) (Q4 1 0 0 0) (V3 2 2 2).
Proof.
  rewrite joint_exact. unfold exact.
  change (joint [turner] 1) with (TR (V3 ntwo nzero nzero) (Q4 none_ nzero nzero nzero) (V3 ntwo ntwo ntwo : vec3 f32)). cbn [tr_t tr_r tr_s vx vy vz qx qy qz qw].
  rewrite (proj2 fin_one), (proj2 fin_two), (proj2 fin_zero). reflexivity.
Qed.
Lemma weight_1 (l : list (transform (V4 f32))) m : additive_weight (real_layer (mk_layer l (nneg none_) [mk4 m nzero nhalf (nneg none_)])) 1 = 0.
Proof.
  unfold additive_weight, real_layer, mask. cbn [ly_weight ly_joint_weights map nth Nat.div Nat.modulo Nat.divmod fst snd Nat.sub map4 lane l1].
  rewrite (proj2 fin_zero), Rmax_left by lra. ring.
Qed.
Lemma weight_0 (l : list (transform (V4 f32))) : additive_weight (real_layer (mk_layer l nhalf [])) 1 = / 2.
Proof. unfold additive_weight, real_layer, mask. cbn [ly_weight ly_joint_weights map]. rewrite (proj2 fin_half), Rabs_pos_eq; lra. Qed.
Lemma turn_half : partial_turn (/ 2) (Q4 1 0 0 0) = Q4 (/ sqrt 2) 0 0 (/ sqrt 2).
Proof.
  unfold partial_turn, nearer. cbn [qw]. destruct (Rlt_dec 0 0) as [N|_]; [exfalso; lra|].
  assert (S : norm2 (qadd (qscale (1 - / 2) (Q4 0 0 0 1)) (qscale (/ 2) (Q4 1 0 0 0))) = / 2) by (unfold norm2, qadd, qscale; cbn; field).
  cbv zeta. rewrite S, sqrt_inv, Rinv_inv. unfold qadd, qscale. cbn.
  assert (Q : sqrt 2 * sqrt 2 = 2) by (apply sqrt_sqrt; lra). assert (P : 0 < sqrt 2) by (apply sqrt_lt_R0; lra).
  assert (I : sqrt 2 * / 2 = / sqrt 2) by (rewrite <- Q at 2; field; lra).
  f_equal; try ring; rewrite <- I; lra.
Qed.
Lemma turn_none : partial_turn 0 (Q4 1 0 0 0) = Q4 0 0 0 1.
Proof.
  unfold partial_turn, nearer. cbn [qw]. destruct (Rlt_dec 0 0) as [N|_]; [exfalso; lra|].
  assert (S : norm2 (qadd (qscale (1 - 0) (Q4 0 0 0 1)) (qscale 0 (Q4 1 0 0 0))) = 1) by (unfold norm2, qadd, qscale; cbn; ring).
  cbv zeta. rewrite S, sqrt_1, Rinv_1. unfold qadd, qscale. cbn. f_equal; ring.
Qed.
(** The exact pose of joint 1: half the half turn is a quarter turn, half the move is 1, half of the
    doubling is a factor 3/2; the mask keeps the second layer away and the third is switched off. *)
Lemma ex_layers_1 p : tr_r p = Q4 0 0 0 1 -> vx (tr_t p) = 0 -> vx (tr_s p) = 1 ->
  let q := with_layers 1 p (map real_layer ex_adds) in
  tr_r q = Q4 (/ sqrt 2) 0 0 (/ sqrt 2) /\ vx (tr_t q) = 1 /\ vx (tr_s q) = 3 / 2.
Proof.
  intros Hr Ht Hs. unfold with_layers, ex_adds. cbn [map fold_left].
  set (a := added 1 p _). assert (A : tr_r a = Q4 (/ sqrt 2) 0 0 (/ sqrt 2) /\ vx (tr_t a) = 1 /\ vx (tr_s a) = 3 / 2).
  { unfold a, added. rewrite weight_0. change (ly_transform (real_layer (mk_layer [turner] nhalf []))) with (map real_soa [turner]). rewrite turner_1.
    change (ly_weight (real_layer (mk_layer [turner] nhalf []))) with (B2R (nhalf : f32)). rewrite (proj2 fin_half).
    destruct (Rlt_dec 0 (/ 2)) as [_|N]; [|exfalso; lra]. cbn [tr_t tr_r tr_s plus3 scale3 vx vy vz]. rewrite turn_half, Hr, Ht, Hs.
    split; [unfold hamilton, hvec, cross3, dot3; cbn [qx qy qz qw vx vy vz]; f_equal; ring|split; [lra|unfold partial_scale; lra]]. }
  clearbody a. destruct A as (A1 & A2 & A3).
  set (b := added 1 a _). assert (B : tr_r b = Q4 (/ sqrt 2) 0 0 (/ sqrt 2) /\ vx (tr_t b) = 1 /\ vx (tr_s b) = 3 / 2).
  { unfold b, added. rewrite weight_1. change (ly_transform (real_layer (mk_layer [turner] (nneg none_) ?m))) with (map real_soa [turner]). rewrite turner_1.
    change (ly_weight (real_layer (mk_layer [turner] (nneg none_) ?m))) with (B2R (nneg none_ : f32)). rewrite (proj2 fin_mone).
    destruct (Rlt_dec 0 (-1)) as [N|_]; [exfalso; lra|]. destruct (Rlt_dec (-1) 0) as [_|N]; [|exfalso; lra].
    cbn [tr_t tr_r tr_s minus3 scale3 vx vy vz]. rewrite turn_none, A1, A2, A3.
    split; [unfold hamilton, conj, hvec, cross3, dot3; cbn [qx qy qz qw vx vy vz]; f_equal; ring|split; [lra|unfold partial_scale; field]]. }
  clearbody b. unfold added. change (ly_weight (real_layer (mk_layer [nan_soa] nzero []))) with (B2R (nzero : f32)). rewrite (proj2 fin_zero).
  destruct (Rlt_dec 0 0) as [N|_]; [exfalso; lra|]. exact B.
Qed.
Lemma ex_moderate : Forall (moderate_scale 1 3) (map real_layer ex_adds).
Proof.
  unfold ex_adds. cbn [map]. repeat apply Forall_cons; [| | |apply Forall_nil]; unfold moderate_scale.
  - rewrite weight_0. change (ly_transform (real_layer (mk_layer [turner] nhalf []))) with (map real_soa [turner]). rewrite turner_1. cbn. unfold partial_scale. lra.
  - rewrite weight_1. unfold partial_scale. lra.
  - replace (additive_weight _ 1) with 0; [unfold partial_scale; lra|]. unfold additive_weight.
    change (ly_weight (real_layer (mk_layer [nan_soa] nzero []))) with (B2R (nzero : f32)). rewrite (proj2 fin_zero), Rabs_R0. ring.
Qed.
(** All three theorems apply: joint 1 ends at x = 1, scaled by 3/2 along x, a quarter turn about x. *)
Example C85_example :
  exists c o,
    blend_run (mk_bjob (Some one_joint) (Some (mk_bctx 0 0 nzero [])) nhalf [] ex_adds (Some [k1 ntwo])) = BOk (c, o) /\
    qdist (tr_r (exact (joint o 1))) (Q4 (/ sqrt 2) 0 0 (/ sqrt 2)) <= 3 / 2 ^ 17 /\
    Rabs (B2R (vx (tr_t (joint o 1))) - 1) <= 6 / 2 ^ 23 + / 2 ^ 90 /\
    Rabs (B2R (vx (tr_s (joint o 1))) - 3 / 2) <= 3 / 2 ^ 18 * (3 / 2).
Proof.
  set (j := mk_bjob _ _ _ _ _ _). assert (K : is_bok (blend_run j) = true) by (vm_compute; reflexivity).
  destruct (blend_run j) as [[c' o']|e s|] eqn:E'; [|discriminate|discriminate]. clear K. unfold j in E'. clear j.
  set (j := mk_bjob (Some one_joint) (Some (mk_bctx 0 0 nzero [])) nhalf [] [] (Some [k1 ntwo])).
  assert (K : is_rest (blend_run j) 1 = true) by (vm_compute; reflexivity).
  destruct (blend_run j) as [[c o]|e s|] eqn:E; [|discriminate|discriminate]. cbn [is_rest] in K.
  do 5 (apply andb_prop in K; destruct K as [K ?K]).
  assert (V : forall x y v, fin y v -> is_val x y = true -> fin x v).
  { intros x y v F I. apply andb_prop in I. destruct I. eapply eq_fin; eauto. }
  apply (V _ _ _ fin_zero) in K. apply (V _ _ _ fin_one) in K4. apply (V _ _ _ fin_zero) in K3. apply (V _ _ _ fin_zero) in K2.
  apply (V _ _ _ fin_zero) in K1. apply (V _ _ _ fin_one) in K0. destruct K as [FT BT], K4 as [FS BS], K3 as [F0 B0], K2 as [F1 B1], K1 as [F2 B2], K0 as [F3 B3].
  exists c', o'. split; [reflexivity|].
  assert (P60 : 1 <= 2 ^ 60) by (apply pow_R1_Rle; lra).
  destruct (ex_layers_1 (exact (joint o 1))) as (L1 & L2 & L3).
  { unfold exact. cbn [tr_r]. rewrite B0, B1, B2, B3. reflexivity. }
  { exact BT. }
  { exact BS. }
  set (q := with_layers 1 (exact (joint o 1)) (map real_layer ex_adds)) in *.
  destruct (C85_rotation one_joint _ _ _ _ _ _ _ _ _ _ _ eq_refl E E' ltac:(cbn; lia) 1%nat ltac:(cbn; lia) (ex_additive 1 ltac:(lia))) as (_ & _ & H1).
  { intros [|[|[|k]]]; cbn [qcomp]; assumption. }
  { unfold sumsq. rewrite B0, B1, B2, B3. replace (_ - 1) with 0 by ring. rewrite Rabs_R0. lra. }
  destruct (C85_translation one_joint _ _ _ _ _ _ _ _ _ _ _ eq_refl E E' ltac:(cbn; lia) 1%nat ltac:(cbn; lia) (ex_additive 1 ltac:(lia)) 0%nat ltac:(lia) FT) as (_ & H2).
  { rewrite BT, Rabs_R0. lra. }
  destruct (C85_scale one_joint _ _ _ _ _ _ _ _ _ _ _ eq_refl E E' ltac:(cbn; lia) 1%nat ltac:(cbn; lia) (ex_additive 1 ltac:(lia)) 3%nat ltac:(lia) ex_moderate FS) as (_ & H3).
  { right. rewrite BS, Rabs_R1. assert (1 <= 2 ^ 40) by (apply pow_R1_Rle; lra). assert (1 <= 2 ^ 41) by (apply pow_R1_Rle; lra). split; [|lra].
    rewrite <- Rinv_1. apply Rinv_le_contravar; lra. }
  fold q in H1, H2, H3. rewrite L1 in H1. change (rlinear 0 q) with (vx (tr_t q)) in H2. change (rlinear 3 q) with (vx (tr_s q)) in H3. rewrite L2 in H2. rewrite L3 in H3.
  cbn [ex_adds length INR] in H1, H2, H3. change (linear (joint o' 1) 0) with (vx (tr_t (joint o' 1))) in H2. change (linear (joint o' 1) 3) with (vx (tr_s (joint o' 1))) in H3.
  split; [|split].
  - replace 3 with (1 + 1 + 1) by ring. exact H1.
  - eapply Rle_trans; [exact H2|]. rewrite BT, Rabs_R0. unfold ex_adds, Rsum. cbn [map fold_right]. rewrite weight_0, weight_1.
    replace (additive_weight (real_layer (mk_layer [nan_soa] nzero [])) 1) with 0.
    2: { unfold additive_weight. change (ly_weight (real_layer (mk_layer [nan_soa] nzero []))) with (B2R (nzero : f32)). rewrite (proj2 fin_zero), Rabs_R0. ring. }
    change (ly_transform (real_layer (mk_layer [turner] nhalf []))) with (map real_soa [turner]). rewrite turner_1. cbn [rlinear tr_t vx].
    rewrite Rabs_pos_eq by lra. simpl. lra.
  - eapply Rle_trans; [exact H3|]. rewrite (Rabs_pos_eq (3 / 2)) by lra. simpl. lra.
Qed.
Print Assumptions C85_example.

(** ** The ranges are needed *)
Definition sx_bits (r : bres f32) : option (list N) :=
  match r with BOk (_, o) => Some (map (fun t => f32_to_bits (l0 (vx (tr_s t)))) o) | _ => None end.
Definition flat : transform (V4 f32) :=
  TR (V3 (splat nzero) (splat nzero) (splat nzero)) (Q4 (splat nzero) (splat nzero) (splat nzero) (splat none_))
     (V3 (splat nzero) (splat nzero) (splat nzero)).
(** Subtracting a layer whose scale is zero divides by zero: the job returns Ok and the scale is infinite. *)
Theorem C85_subtract_zero_scale_refuted :
  exists w, nle (nneg none_) w = true /\ nle w nzero = true /\
    sx_bits (blend_run (mk_bjob (Some one_joint) (Some (mk_bctx 0 0 nzero [])) nhalf [] [mk_layer [flat] w []] (Some [k1 ntwo])))
    = Some [2139095040%N].
Proof. exists (nneg none_). vm_compute. repeat split. Qed.
Print Assumptions C85_subtract_zero_scale_refuted.
