(** Properties C20, C26-C28, C46, C47, C51, C52 of the math layer. *)
From Coq Require Import Reals Lra Psatz.
From Flocq Require Import IEEE754.BinarySingleNaN Core.
From Verif Require Import Base Num NumF32 NumR Math F32Facts F32Err Keys KeysSpec KeysUnit MathSpec MathProofs MathF32 SamplingOrd.
Local Open Scope R_scope.

(** ** C20 Decoded rotations are unit quaternions *)
(** For every 48-bit key (index of the largest component [g], its sign bit [s], three 15-bit
    values [v]), decoded with binary32 rounding. *)
Theorem C20_decoded_unit : forall (g s : N) (v : vec3 N),
  (g < 4)%N -> (s < 2)%N -> (vx v < 32768)%N -> (vy v < 32768)%N -> (vz v < 32768)%N ->
  let q := quat_decompress (pack g s v) in
  (* no component is NaN or infinite *)
  (forall i, (i < 4)%nat -> is_finite (qcomp q i) = true) /\
  (* the three stored components come out in order, within 2^-21 of their exact value and
     at most 0.7071069 in magnitude *)
  (forall j, (j < 3)%nat ->
     let c := B2R (qcomp q (place (N.to_nat g) j)) in
     Rabs (c - dequantized (stored v j)) <= / 2097152 /\ Rabs c <= 0.7071069) /\
  (* the restored component carries the stored sign *)
  Bsign (qcomp q (N.to_nat g)) = (s =? 1)%N /\
  (* the squared norm is never below 1 - 2^-20, and within 2^-20 of 1 as soon as the three
     stored components are those of a unit quaternion *)
  1 - / 1048576 <= sumsq q /\
  (let c := B2R (qcomp q (N.to_nat g)) in sumsq q - c * c <= 1 -> sumsq q <= 1 + / 1048576).
Proof.
  intros g s v Hg Hs H0 H1 H2. cbv zeta.
  destruct (decompress_unit g s v Hg Hs H0 H1 H2) as (A & B & C & D & E).
  split; [exact A|]. split; [|split; [exact C|split; [exact D|exact E]]].
  intros j Hj. rewrite (B j Hj).
  assert (Hn : (vec3_at v j < 32768)%N) by (destruct j as [|[|j]]; assumption).
  replace (stored v j) with (vec3_at v j) by (destruct j as [|[|j]]; reflexivity).
  split; [apply component_close, Hn|].
  destruct (component_fin _ Hn) as (r & [_ F] & K). rewrite F. unfold KR in K. lra.
Qed.
Print Assumptions C20_decoded_unit.
(** A key whose stored components have norm below 1: all three in the middle of the range. *)
Example C20_example :
  let q := quat_decompress (pack 2 1 (V3 16384 16384 16384)%N) in
  Bsign (qz q) = true /\ f32_to_bits (qz q) = 3212836864%N (* -1.0 *).
Proof. split; vm_compute; reflexivity. Qed.

(** ** C26 SoA to AoS matrix transposition *)
Theorem C26_to_aos_exact : forall (A : Type) (m : mat4 (V4 A)) k r c,
  (k < 4)%nat -> (r < 4)%nat -> (c < 4)%nat ->
  ent (lane (to_aos m) k) r c = lane (ent m r c) k.
Proof. intros. apply to_aos_lane; assumption. Qed.
Print Assumptions C26_to_aos_exact.
Example C26_example :
  let m := build4 (fun c => build4 (fun r => build4 (fun l => (100 * c + 10 * r + l)%nat))) in
  to_aos m = build4 (fun l => build4 (fun c => build4 (fun r => (100 * c + 10 * r + l)%nat))).
Proof. reflexivity. Qed.

(** ** C27 Affine matrix of a transform *)
(** Lane [k] of the matrix built from translation, rotation and scale registers, extracted as
    the job does ([to_aos]). *)
Theorem C27_affine : forall (t s : vec3 (V4 R)) (q : quat (V4 R)) k p,
  (k < 4)%nat -> unitq (lane_q q k) ->
  let m := lane (to_aos (from_affine t q s)) k in
  V3 (apply_point m p 0) (apply_point m p 1) (apply_point m p 2)
    = plus3 (lane_v3 t k) (rotate (lane_q q k) (hadamard (lane_v3 s k) p)) /\
  (ent m 3 0 = 0 /\ ent m 3 1 = 0 /\ ent m 3 2 = 0 /\ ent m 3 3 = 1).
Proof.
  intros t s q k p Hk U. cbv zeta.
  assert (E : lane (to_aos (from_affine t q s)) k = from_affine (lane_v3 t k) (lane_q q k) (lane_v3 s k)).
  { destruct k as [|[|[|[|k]]]]; try reflexivity; exfalso; lia. }
  rewrite E. apply (from_affine_point _ _ _ p U).
Qed.
Print Assumptions C27_affine.
(** [AosMat4::transform_point] and [transform_vector] apply that matrix. *)
Theorem C27_transform_point : forall (m : mat4 R) (p : V4 R) i, (i < 4)%nat ->
  lane (transform_point m p) i = apply_point m (v3_of p) i /\
  lane (transform_vector m p) i = apply_point m (v3_of p) i - ent m i 3.
Proof.
  intros [[? ? ? ?] [? ? ? ?] [? ? ? ?] [? ? ? ?]] [? ? ? ?] i Hi.
  destruct i as [|[|[|[|i]]]]; try (exfalso; lia);
    unfold transform_point, transform_vector, apply_point, ent, v3_of; nr; split; ring.
Qed.
Print Assumptions C27_transform_point.
(** Half a turn about z, scale 2 on x, translation (1,0,0): (3,0,0) goes to (-5,0,0). *)
Example C27_example : unitq (Q4 0 0 1 0) /\
  plus3 (V3 1 0 0) (rotate (Q4 0 0 1 0) (hadamard (V3 2 1 1) (V3 3 0 0))) = V3 (-5) 0 0.
Proof.
  split; [unfold unitq, norm2; cbn; ring|]. rewrite rotate_explicit. unfold plus3, hadamard. cbn. f_equal; ring.
Qed.

(** ** C28 Matrix product and inversion *)
Theorem C28_mul : forall a b : mat4 R, is_product a b (mat_mul a b).
Proof. exact mat_mul_product. Qed.
Print Assumptions C28_mul.
Theorem C28_invert : forall m : mat4 R,
  (det4 m <> 0 -> is_inverse m (mat_invert m)) /\
  (det4 m = 0 -> forall i j, (i < 4)%nat -> (j < 4)%nat -> ent (mat_invert m) i j = 0).
Proof. exact invert_correct. Qed.
Print Assumptions C28_invert.
Example C28_example :
  det4 (mk4 (mk4 2 0 0 0) (mk4 0 3 0 0) (mk4 0 0 4 0) (mk4 1 1 1 1)) = 24 /\
  det4 (mk4 (mk4 1 2 3 4) (mk4 2 4 6 8) (mk4 0 0 4 0) (mk4 1 1 1 1)) = 0.
Proof. unfold det4, det3, det2, skip, ent. cbn. split; ring. Qed.

(** ** C46 Rotation between vectors *)
(** TH is the real value of the literal 1.0e-6.  Proved: whenever the product of the lengths is
    at least that, the result is a unit quaternion; it rotates [a] exactly onto the direction of
    [b] if [b] is exactly opposite or not almost opposite; in the remaining cases the direction
    is missed by at most sqrt (2 TH) (about 0.0015 rad).  Missing from the full claim: see the two
    refutations below. *)
Theorem C46_from_vectors_partial : forall from to : V4 R,
  let a := v3_of from in let b := v3_of to in
  TH <= len3 a * len3 b ->
  let q := quat_from_vectors from to in
  let r := v3_of (quat_transform_vector q from) in
  unitq (q_of q) /\
  (TH * (len3 a * len3 b) <= len3 a * len3 b + dot3 a b -> r = scale3 (len3 a / len3 b) b) /\
  ((exists k, 0 < k /\ b = neg3 (scale3 k a)) -> r = scale3 (len3 a / len3 b) b) /\
  (let d := minus3 (scale3 (/ len3 a) r) (scale3 (/ len3 b) b) in dot3 d d <= 2 * TH).
Proof.
  intros from to a b Hn q r.
  assert (Hnn : TH <= sqrt (dot3 a a * dot3 b b)) by (unfold a, b; rewrite nn_len; exact Hn).
  destruct (len_pos from to Hnn) as [La Lb]. fold a b in La, Lb.
  pose proof TH_bound as T.
  assert (Q : q = quat_normalize
      (if Rltb (len3 a * len3 b + dot3 a b) (TH * (len3 a * len3 b))
       then if Rltb (Rabs (vz a)) (Rabs (vx a)) then mk4 (- vy a) (vx a) 0 0 else mk4 0 (- vz a) (vy a) 0
       else mk4 (vx (cross3 a b)) (vy (cross3 a b)) (vz (cross3 a b)) (len3 a * len3 b + dot3 a b))).
  { unfold q. rewrite qfv_eq. rewrite (nn_len from to). fold a b.
    destruct (Rltb_spec (len3 a * len3 b) TH); [lra|reflexivity]. }
  destruct (Rltb_spec (len3 a * len3 b + dot3 a b) (TH * (len3 a * len3 b))) as [L|L].
  - (* almost opposite *)
    set (q0 := if Rltb (Rabs (vz a)) (Rabs (vx a)) then _ else _) in Q.
    destruct (opposite_branch from to Hnn q0 eq_refl) as [N E]. fold a in E.
    destruct (quat_normalize_unit q0 N) as [U Rt].
    assert (Er : r = neg3 a).
    { unfold r. rewrite transform_vector_rotate by (rewrite Q; exact U). rewrite Q, Rt. exact E. }
    split; [rewrite Q; exact U|]. split; [intros H; lra|]. split.
    + intros (k & Hk & Eb). rewrite Er.
      assert (Lb' : len3 b = k * len3 a).
      { rewrite Eb. unfold len3. replace (dot3 (neg3 (scale3 k a)) (neg3 (scale3 k a))) with (k * k * dot3 a a)
          by (unfold dot3, neg3, scale3; cbn; ring).
        rewrite sqrt_mult by (try apply dot_nonneg; nra). rewrite sqrt_square by lra. reflexivity. }
      rewrite Lb', Eb. unfold neg3, scale3. cbn [vx vy vz]. f_equal; field; lra.
    + cbv zeta. rewrite Er.
      assert (D : dot3 (minus3 (scale3 (/ len3 a) (neg3 a)) (scale3 (/ len3 b) b))
                       (minus3 (scale3 (/ len3 a) (neg3 a)) (scale3 (/ len3 b) b))
                = 2 * ((len3 a * len3 b + dot3 a b) / (len3 a * len3 b))).
      { transitivity (dot3 a a / (len3 a * len3 a) + dot3 b b / (len3 b * len3 b) + 2 * (dot3 a b / (len3 a * len3 b))).
        - unfold minus3, scale3, neg3, dot3. cbn [vx vy vz]. unfold scale3. cbn [vx vy vz]. field. lra.
        - rewrite <- !len_sq. field. lra. }
      rewrite D. apply Rmult_le_compat_l; [lra|].
      apply Rmult_le_reg_r with (len3 a * len3 b); [nra|].
      unfold Rdiv. rewrite Rmult_assoc, Rinv_l by nra. lra.
  - (* general case *)
    destruct (main_branch from to Hnn) as [N E].
    { rewrite (nn_len from to). fold a b. lra. }
    rewrite (nn_len from to) in N, E. fold a b in N, E.
    destruct (quat_normalize_unit _ N) as [U Rt].
    assert (Er : r = scale3 (len3 a / len3 b) b).
    { unfold r. rewrite transform_vector_rotate by (rewrite Q; exact U). rewrite Q, Rt. exact E. }
    split; [rewrite Q; exact U|]. split; [intros _; exact Er|]. split; [intros _; exact Er|].
    cbv zeta. rewrite Er.
    replace (minus3 (scale3 (/ len3 a) (scale3 (len3 a / len3 b) b)) (scale3 (/ len3 b) b)) with (V3 0 0 0).
    + unfold dot3. cbn. lra.
    + unfold minus3, scale3. cbn [vx vy vz]. f_equal; field; lra.
Qed.
Print Assumptions C46_from_vectors_partial.

(** Short vectors (product of lengths below 1e-6) are left unrotated: finding. *)
Theorem C46_short_vectors_refuted : exists from to : V4 R,
  0 < len3 (v3_of from) /\ 0 < len3 (v3_of to) /\
  forall k, 0 < k -> v3_of (quat_transform_vector (quat_from_vectors from to) from) <> scale3 k (v3_of to).
Proof.
  exists (mk4 (/ 2048) 0 0 0), (mk4 0 (/ 2048) 0 0).
  assert (L : forall x, 0 < x -> sqrt (x * x) = x) by (intros; apply sqrt_square; lra).
  assert (S : sqrt (dot3 (v3_of (mk4 (/ 2048) 0 0 0)) (v3_of (mk4 (/ 2048) 0 0 0)) *
                    dot3 (v3_of (mk4 0 (/ 2048) 0 0)) (v3_of (mk4 0 (/ 2048) 0 0))) = / 4194304).
  { rewrite <- (L (/ 4194304)) by lra. f_equal. unfold dot3, v3_of. cbn. field. }
  split; [|split].
  - unfold len3, v3_of, dot3. cbn. apply sqrt_lt_R0. lra.
  - unfold len3, v3_of, dot3. cbn. apply sqrt_lt_R0. lra.
  - intros k Hk H. rewrite qfv_eq, S in H. pose proof TH_bound.
    destruct (Rltb_spec (/ 4194304) TH); [|lra].
    rewrite transform_vector_rotate in H.
    + rewrite rotate_explicit in H. unfold QUAT_UNIT, q_of, v3_of, scale3 in H. lits.
      cbn [l0 l1 l2 l3 qx qy qz qw vx vy vz] in H. injection H as H1 H2 H3. lra.
    + unfold unitq, norm2, QUAT_UNIT, q_of. lits. cbn [l0 l1 l2 l3 qx qy qz qw]. ring.
Qed.
Print Assumptions C46_short_vectors_refuted.

(** Almost opposite vectors: [a] is rotated onto [-a], not onto the direction of [b]: finding. *)
Theorem C46_near_opposite_refuted : exists from to : V4 R,
  1 <= len3 (v3_of from) /\ 1 <= len3 (v3_of to) /\
  forall k, 0 < k -> v3_of (quat_transform_vector (quat_from_vectors from to) from) <> scale3 k (v3_of to).
Proof.
  set (f := mk4 1 0 0 0). set (t := mk4 (-1) (/ 1024) 0 0). exists f, t.
  set (n := sqrt (1 + / 1048576)).
  assert (Sn : n * n = 1 + / 1048576) by (unfold n; apply sqrt_sqrt; lra).
  assert (Pn : 0 <= n) by apply sqrt_pos.
  assert (Bn : 1 <= n < 1 + 5 / 10000000) by (split; nra).
  assert (S : sqrt (dot3 (v3_of f) (v3_of f) * dot3 (v3_of t) (v3_of t)) = n).
  { unfold n. f_equal. unfold dot3, v3_of, f, t. cbn. field. }
  pose proof TH_bound as T.
  assert (A1 : 1 <= len3 (v3_of f)).
  { unfold len3. rewrite <- sqrt_1. apply sqrt_le_1_alt. unfold dot3, v3_of, f. cbn. lra. }
  assert (A2 : 1 <= len3 (v3_of t)).
  { unfold len3. rewrite <- sqrt_1. apply sqrt_le_1_alt. unfold dot3, v3_of, t. cbn. lra. }
  split; [exact A1|]. split; [exact A2|].
  intros k Hk H. rewrite qfv_eq, S in H.
  destruct (Rltb_spec n TH); [lra|].
  assert (Hd : dot3 (v3_of f) (v3_of t) = -1) by (unfold dot3, v3_of, f, t; cbn; ring).
  rewrite Hd in H. destruct (Rltb_spec (n + -1) (TH * n)) as [_|L]; [|nra].
  assert (Hnn : TH <= sqrt (dot3 (v3_of f) (v3_of f) * dot3 (v3_of t) (v3_of t))) by (rewrite S; lra).
  match type of H with context [quat_normalize ?x] => set (q0 := x) in H end.
  destruct (opposite_branch f t Hnn q0 eq_refl) as [N E].
  destruct (quat_normalize_unit q0 N) as [U Rt].
  rewrite transform_vector_rotate in H by exact U. rewrite Rt, E in H.
  unfold neg3, scale3, v3_of, f, t in H. cbn [l0 l1 l2 l3 vx vy vz] in H. injection H as H1 H2 H3. lra.
Qed.
Print Assumptions C46_near_opposite_refuted.
(** Exactly opposite vectors and a right angle meet the hypotheses. *)
Example C46_example :
  TH <= len3 (V3 0 2 0) * len3 (V3 0 (-2) 0) /\ (exists k, 0 < k /\ V3 0 (-2) 0 = neg3 (scale3 k (V3 0 2 0))) /\
  TH * (len3 (V3 0 2 0) * len3 (V3 2 0 0)) <= len3 (V3 0 2 0) * len3 (V3 2 0 0) + dot3 (V3 0 2 0) (V3 2 0 0).
Proof.
  assert (E1 : len3 (V3 0 2 0) = 2) by (unfold len3, dot3; cbn; replace (0 * 0 + 2 * 2 + 0 * 0) with (2 * 2) by ring; apply sqrt_square; lra).
  assert (E2 : len3 (V3 0 (-2) 0) = 2) by (unfold len3, dot3; cbn; replace (0 * 0 + -2 * -2 + 0 * 0) with (2 * 2) by ring; apply sqrt_square; lra).
  assert (E3 : len3 (V3 2 0 0) = 2) by (unfold len3, dot3; cbn; replace (2 * 2 + 0 * 0 + 0 * 0) with (2 * 2) by ring; apply sqrt_square; lra).
  rewrite E1, E2, E3. pose proof TH_bound. split; [lra|]. split.
  - exists 1. split; [lra|]. unfold neg3, scale3. cbn. f_equal; ring.
  - unfold dot3. cbn. lra.
Qed.

(** ** C47 Quaternion product *)
Theorem C47_hamilton : forall a b : V4 R, q_of (quat_mul a b) = hamilton (q_of a) (q_of b).
Proof. exact quat_mul_hamilton. Qed.
Print Assumptions C47_hamilton.
Theorem C47_soa_agrees : forall (a b : quat (V4 R)) k (a' b' : V4 R), (k < 4)%nat ->
  q_of a' = lane_q a k -> q_of b' = lane_q b k -> lane_q (q_mul a b) k = q_of (quat_mul a' b').
Proof.
  intros a b k a' b' Hk Ea Eb. rewrite soa_mul_hamilton, quat_mul_hamilton, Ea, Eb by exact Hk. reflexivity.
Qed.
Print Assumptions C47_soa_agrees.
Theorem C47_assoc_norm : forall a b c : V4 R,
  quat_mul a (quat_mul b c) = quat_mul (quat_mul a b) c /\
  norm2 (q_of (quat_mul a b)) = norm2 (q_of a) * norm2 (q_of b).
Proof.
  intros a b c. split.
  - assert (I : forall u v : V4 R, q_of u = q_of v -> u = v).
    { intros [? ? ? ?] [? ? ? ?] H. injection H as -> -> -> ->. reflexivity. }
    apply I. rewrite !quat_mul_hamilton. apply hamilton_assoc.
  - rewrite quat_mul_hamilton. apply hamilton_norm.
Qed.
Print Assumptions C47_assoc_norm.
Theorem C47_composes : forall a b v : V4 R, unitq (q_of a) -> unitq (q_of b) ->
  v3_of (quat_transform_vector (quat_mul a b) v)
    = v3_of (quat_transform_vector a (quat_transform_vector b v)) /\
  v3_of (quat_transform_vector a v) = rotate (q_of a) (v3_of v).
Proof.
  intros a b v Ua Ub. split; [|apply transform_vector_rotate, Ua].
  rewrite !transform_vector_rotate; try assumption.
  - rewrite quat_mul_hamilton. apply rotate_compose.
  - unfold unitq in *. rewrite quat_mul_hamilton, hamilton_norm, Ua, Ub. ring.
Qed.
Print Assumptions C47_composes.
Example C47_example : unitq (q_of (mk4 (3/5) 0 0 (4/5))) /\ unitq (q_of (mk4 0 (4/5) (3/5) 0)) /\
  q_of (quat_mul (mk4 (3/5) 0 0 (4/5)) (mk4 0 (4/5) (3/5) 0)) = Q4 0 (7/25) (24/25) 0.
Proof.
  repeat split; try (unfold unitq, norm2, q_of; cbn; field).
  rewrite quat_mul_hamilton. unfold hamilton, hvec, cross3, dot3, q_of. cbn. f_equal; field.
Qed.

(** ** C51 Clamping helpers (binary32; -0 and +0 compare equal) *)
Theorem C51_clamp_or_max : forall v lo hi : f32, nle lo hi = true ->
  let y := f32_clamp_or_max v lo hi in
  nle lo y = true /\ nle y hi = true /\
  (nle lo v = true -> nle v hi = true -> y = v) /\
  (nlt v lo = true -> y = lo) /\ (nlt hi v = true -> y = hi) /\
  (is_nan v = true -> y = hi).
Proof.
  intros v lo hi H. apply (clamp_facts v lo hi); auto; apply (Bleb_notnan _ _ H).
Qed.
Print Assumptions C51_clamp_or_max.
Theorem C51_clamp_or_min : forall v lo hi : f32, nle lo hi = true ->
  let y := f32_clamp_or_min v lo hi in
  nle lo y = true /\ nle y hi = true /\
  (nle lo v = true -> nle v hi = true -> y = v) /\
  (nlt v lo = true -> y = lo) /\ (nlt hi v = true -> y = hi) /\
  (is_nan v = true -> y = lo).
Proof.
  intros v lo hi H. apply (clamp_min_facts v lo hi); auto; apply (Bleb_notnan _ _ H).
Qed.
Print Assumptions C51_clamp_or_min.
Theorem C51_simd_agrees : forall (v lo hi : V4 f32) k,
  lane (fx4_clamp_or_max v lo hi) k = f32_clamp_or_max (lane v k) (lane lo k) (lane hi k) /\
  lane (fx4_clamp_or_min v lo hi) k = f32_clamp_or_min (lane v k) (lane lo k) (lane hi k).
Proof. intros v lo hi [|[|[|k]]]; split; reflexivity. Qed.
Print Assumptions C51_simd_agrees.
Example C51_example :
  nle (f32_lit 0 0) (f32_lit 1 0) = true /\
  f32_to_bits (f32_clamp_or_max B754_nan (f32_lit 0 0) (f32_lit 1 0)) = f32_to_bits (f32_lit 1 0) /\
  f32_to_bits (f32_clamp_or_min B754_nan (f32_lit 0 0) (f32_lit 1 0)) = 0%N /\
  f32_to_bits (f32_clamp_or_max (f32_lit 7 (-4)) (f32_lit 0 0) (f32_lit 1 0)) = f32_to_bits (f32_lit 7 (-4)).
Proof. repeat split; vm_compute; reflexivity. Qed.

(** ** C52 Trigonometric symmetries and domain *)
Definition neg4 (v : V4 f32) : V4 f32 := map4 (fun x => nneg x) v.
(** Lanes neither zero nor NaN; at +0 and -0 the results are equal, see [C52_zero]. *)
Definition nonzero4 (v : V4 f32) : Prop := forall k, (k < 4)%nat -> nonzero (lane v k).
Theorem C52_sin_odd_cos_even : forall v : V4 f32, nonzero4 v ->
  fx4_sin_cos (neg4 v) =
  match fx4_sin_cos v with Some (s, c) => Some (neg4 s, c) | None => None end.
Proof.
  intros v Z. unfold fx4_sin_cos, neg4, map4. cbn [l0 l1 l2 l3].
  pose proof (sin_cos_neg _ (Z 0%nat ltac:(lia))) as H0. pose proof (sin_cos_neg _ (Z 1%nat ltac:(lia))) as H1.
  pose proof (sin_cos_neg _ (Z 2%nat ltac:(lia))) as H2. pose proof (sin_cos_neg _ (Z 3%nat ltac:(lia))) as H3.
  cbn [lane] in *.
  change (@num_arith f32 f32num) with f32arith in *. rewrite H0, H1, H2, H3.
  destruct (sin_cos_lane (l0 v)), (sin_cos_lane (l1 v)), (sin_cos_lane (l2 v)), (sin_cos_lane (l3 v)); reflexivity.
Qed.
Print Assumptions C52_sin_odd_cos_even.
Theorem C52_asin_odd : forall v : V4 f32, nonzero4 v -> fx4_asin (neg4 v) = neg4 (fx4_asin v).
Proof.
  intros v Z. apply V4_ext. intros k Hk. unfold fx4_asin, neg4. rewrite !lane_map4. apply asin_neg, Z, Hk.
Qed.
Print Assumptions C52_asin_odd.
Theorem C52_asin_saturates : forall (v : V4 f32) k, (k < 4)%nat ->
  (nlt none_ (lane v k) = true -> lane (fx4_asin v) k = lane (fx4_asin (splat none_)) k) /\
  (nlt (lane v k) (nneg none_) = true -> lane (fx4_asin v) k = lane (fx4_asin (splat (nneg none_))) k).
Proof. intros v k Hk. unfold fx4_asin. rewrite !lane_map4, !lane_splat. apply asin_saturates. Qed.
Print Assumptions C52_asin_saturates.
Theorem C52_zero : forall s : bool,
  match sin_cos_lane (B754_zero s) with
  | Some (sn, cs) => f32_to_bits sn = 0%N /\ f32_to_bits cs = f32_to_bits (f32_lit 1 0)
  | None => False
  end /\ f32_to_bits (asin_lane (B754_zero s)) = 0%N.
Proof. intros []; vm_compute; repeat split. Qed.
Print Assumptions C52_zero.
(** Proved part of "defined for every input": every angle of magnitude at most 2^31. *)
Theorem C52_sin_cos_defined_partial : forall v : V4 f32,
  (forall k, (k < 4)%nat -> is_finite (lane v k) = true /\ Rabs (B2R (lane v k)) <= 2147483648) ->
  exists s c, fx4_sin_cos v = Some (s, c).
Proof.
  intros v H. unfold fx4_sin_cos.
  destruct (sin_cos_defined (l0 v)) as (s0 & c0 & E0); [apply (H 0%nat); lia|apply (H 0%nat); lia|].
  destruct (sin_cos_defined (l1 v)) as (s1 & c1 & E1); [apply (H 1%nat); lia|apply (H 1%nat); lia|].
  destruct (sin_cos_defined (l2 v)) as (s2 & c2 & E2); [apply (H 2%nat); lia|apply (H 2%nat); lia|].
  destruct (sin_cos_defined (l3 v)) as (s3 & c3 & E3); [apply (H 3%nat); lia|apply (H 3%nat); lia|].
  rewrite E0, E1, E2, E3. eauto.
Qed.
Print Assumptions C52_sin_cos_defined_partial.
(** Beyond, the conversion of the quadrant to an integer is undefined behaviour: finding.
    f32_lit 1 32 is 2^32; also infinities and NaN. *)
Theorem C52_sin_cos_defined_refuted :
  fx4_sin_cos (splat (f32_lit 1 32)) = None /\ fx4_sin_cos (splat (B754_infinity false)) = None /\
  fx4_sin_cos (splat B754_nan) = None.
Proof. repeat split; vm_compute; reflexivity. Qed.
Print Assumptions C52_sin_cos_defined_refuted.
Example C52_example : nonzero4 (splat (f32_lit 3 0)) /\ nlt none_ (f32_lit 3 0) = true.
Proof.
  split; [|vm_compute; reflexivity]. intros k Hk. rewrite lane_splat.
  assert (N : is_nan (f32_lit 3 0) = false) by (vm_compute; reflexivity).
  assert (B : f32_to_bits (f32_lit 3 0) = 1077936128%N) by (vm_compute; reflexivity).
  destruct (f32_lit 3 0) as [[]|s| |]; try exact I; discriminate.
Qed.
