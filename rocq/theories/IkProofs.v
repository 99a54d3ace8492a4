(** Lemmas for the IK jobs, in real arithmetic. *)
From Coq Require Import Reals Lra Psatz.
From Verif Require Import Base Num NumR Math MathSpec MathProofs MathProps Ik IkSpec.
Local Open Scope R_scope.

Ltac v3s := unfold minus3, plus3, neg3, scale3, cross3, dot3 in *; cbn [vx vy vz] in *.

(** ** Vectors *)
Lemma V3_eta (v : vec3 R) : V3 (vx v) (vy v) (vz v) = v. Proof. destruct v; reflexivity. Qed.
Lemma scale3_1 v : scale3 1 v = v. Proof. destruct v. v3s. f_equal; ring. Qed.
Lemma scale3_scale a b v : scale3 a (scale3 b v) = scale3 (a * b) v. Proof. v3s. f_equal; ring. Qed.
Lemma dot3_comm a b : dot3 a b = dot3 b a. Proof. v3s. ring. Qed.
Lemma dot3_scale_l k a b : dot3 (scale3 k a) b = k * dot3 a b. Proof. v3s. ring. Qed.
Lemma dot3_scale_r k a b : dot3 a (scale3 k b) = k * dot3 a b. Proof. v3s. ring. Qed.
Lemma dot3_plus_l a b c : dot3 (plus3 a b) c = dot3 a c + dot3 b c. Proof. v3s. ring. Qed.
Lemma dot3_plus_r a b c : dot3 c (plus3 a b) = dot3 c a + dot3 c b. Proof. v3s. ring. Qed.
Lemma dot3_nonneg v : 0 <= dot3 v v. Proof. v3s. nra. Qed.
Lemma dot3_zero v : dot3 v v = 0 -> v = V3 0 0 0.
Proof. destruct v as [x y z]. v3s. intros H. assert (x = 0 /\ y = 0 /\ z = 0) as (-> & -> & ->) by (repeat split; nra). reflexivity. Qed.
Lemma len3_sq v : len3 v * len3 v = dot3 v v. Proof. apply sqrt_sqrt, dot3_nonneg. Qed.
Lemma len3_nn v : 0 <= len3 v. Proof. apply sqrt_pos. Qed.
Lemma len3_pos v : dot3 v v <> 0 -> 0 < len3 v.
Proof. intros H. apply sqrt_lt_R0. pose proof (dot3_nonneg v). lra. Qed.
Lemma len3_sc k v : 0 <= k -> len3 (scale3 k v) = k * len3 v.
Proof.
  intros Hk. unfold len3. rewrite dot3_scale_l, dot3_scale_r, <- Rmult_assoc. rewrite sqrt_mult by (try apply dot3_nonneg; nra). rewrite sqrt_square by exact Hk. reflexivity.
Qed.
Lemma cauchy a b : dot3 a b * dot3 a b <= dot3 a a * dot3 b b.
Proof.
  assert (E : dot3 a a * dot3 b b - dot3 a b * dot3 a b = dot3 (cross3 a b) (cross3 a b)) by (v3s; ring).
  pose proof (dot3_nonneg (cross3 a b)). lra.
Qed.
Lemma abs_le_sq x y : 0 <= y -> x * x <= y * y -> - y <= x <= y.
Proof. intros. split; nra. Qed.
Lemma sq_eq x y : 0 <= x -> 0 <= y -> x * x = y * y -> x = y.
Proof. intros. nra. Qed.

Lemma v3_cross_R a b : v3_of (vec3_cross a b) = cross3 (v3_of a) (v3_of b).
Proof. destruct a, b. unfold vec3_cross, v3_of, cross3. nr. f_equal; ring. Qed.
Lemma dot_s_R a b : l0 (vec3_dot_s a b) = dot3 (v3_of a) (v3_of b).
Proof. destruct a, b. unfold vec3_dot_s, v3_of, dot3. nr. ring. Qed.
Lemma len2_s_R a : l0 (vec3_length2_s a) = dot3 (v3_of a) (v3_of a). Proof. apply dot_s_R. Qed.
Lemma v3_splat_x a b : v3_of (a * splat_x b)%num = scale3 (l0 b) (v3_of a).
Proof. destruct a, b. unfold splat_x, v3_of, scale3. nr. f_equal; ring. Qed.
Lemma v3_splat_y a b : v3_of (a * splat_y b)%num = scale3 (l1 b) (v3_of a).
Proof. destruct a, b. unfold splat_y, v3_of, scale3. nr. f_equal; ring. Qed.
Lemma v3_splat_z a b : v3_of (a * splat_z b)%num = scale3 (l2 b) (v3_of a).
Proof. destruct a, b. unfold splat_z, v3_of, scale3. nr. f_equal; ring. Qed.
Lemma v3_add_R a b : v3_of (a + b)%num = plus3 (v3_of a) (v3_of b).
Proof. destruct a, b. reflexivity. Qed.
Lemma v3_sub_R a b : v3_of (a - b)%num = minus3 (v3_of a) (v3_of b).
Proof. destruct a, b. reflexivity. Qed.
Lemma v3_neg_R a : v3_of (- a)%num = neg3 (v3_of a).
Proof. destruct a. unfold v3_of, neg3, scale3. nr. f_equal; ring. Qed.
Definition sgn (b : bool) : R := if b then -1 else 1.
Lemma sgn_sq b : sgn b * sgn b = 1. Proof. destruct b; cbn; ring. Qed.
Lemma v3_flip x a : v3_of (flip4 (fx4_sign (splat_x x)) a) = scale3 (sgn (Rltb (l0 x) 0)) (v3_of a).
Proof.
  destruct a as [a0 a1 a2 a3], x as [x x1 x2 x3]. unfold v3_of, scale3, sgn.
  change (V3 (flip (Rltb x (@nzero R Rarith)) a0) (flip (Rltb x (@nzero R Rarith)) a1) (flip (Rltb x (@nzero R Rarith)) a2)
    = V3 (sgn (Rltb x 0) * a0) (sgn (Rltb x 0) * a1) (sgn (Rltb x 0) * a2)).
  rewrite !nzero_R. unfold sgn, flip. destruct (Rltb x 0); cbn; f_equal; ring.
Qed.

(** ** Rotations *)
(** The quaternion of axis [a], half-angle sine [s] and cosine [c]. *)
Definition qaxis (a : vec3 R) (s c : R) : quat R := Q4 (s * vx a) (s * vy a) (s * vz a) c.
Lemma qaxis_norm a s c : norm2 (qaxis a s c) = s * s * dot3 a a + c * c.
Proof. unfold norm2, qaxis. cbn [qx qy qz qw]. v3s. ring. Qed.
Lemma qaxis_rotate a s c v : dot3 a a = 1 -> s * s + c * c = 1 ->
  rotate (qaxis a s c) v = plus3 v (plus3 (scale3 (2 * s * c) (cross3 a v)) (scale3 (2 * (s * s)) (cross3 a (cross3 a v)))).
Proof.
  intros Ha Hs. rewrite rotate_explicit. unfold qaxis. cbn [qx qy qz qw].
  assert (Hc : c * c = 1 - s * s * dot3 a a) by (rewrite Ha; lra).
  destruct a as [a0 a1 a2], v as [v0 v1 v2]. v3s. f_equal; ring [Hc].
Qed.
(** Along the axis: unchanged. *)
Lemma qaxis_rotate_axis a s c k : dot3 a a = 1 -> s * s + c * c = 1 -> rotate (qaxis a s c) (scale3 k a) = scale3 k a.
Proof. intros Ha Hs. rewrite qaxis_rotate by assumption. destruct a. v3s. f_equal; ring. Qed.
(** Orthogonally to the axis: a plane rotation. *)
Lemma qaxis_rotate_perp a s c v : dot3 a a = 1 -> s * s + c * c = 1 -> dot3 a v = 0 ->
  rotate (qaxis a s c) v = plus3 (scale3 (1 - 2 * (s * s)) v) (scale3 (2 * s * c) (cross3 a v)).
Proof.
  intros Ha Hs Hp. rewrite qaxis_rotate by assumption.
  assert (E : cross3 a (cross3 a v) = scale3 (-1) v).
  { transitivity (minus3 (scale3 (dot3 a v) a) (scale3 (dot3 a a) v)); [v3s; f_equal; ring|]. rewrite Ha, Hp. v3s. f_equal; ring. }
  rewrite E. v3s. f_equal; ring.
Qed.
Lemma rotate_neg q v : rotate (Q4 (- qx q) (- qy q) (- qz q) (- qw q)) v = rotate q v.
Proof. rewrite !rotate_explicit. cbn. f_equal; ring. Qed.
Lemma rotate_scale q k v : rotate q (scale3 k v) = scale3 k (rotate q v).
Proof. rewrite !rotate_explicit. v3s. f_equal; ring. Qed.
Lemma rotate_plus q u v : rotate q (plus3 u v) = plus3 (rotate q u) (rotate q v).
Proof. rewrite !rotate_explicit. v3s. f_equal; ring. Qed.
Lemma rotate_minus q u v : rotate q (minus3 u v) = minus3 (rotate q u) (rotate q v).
Proof. rewrite !rotate_explicit. v3s. f_equal; ring. Qed.
Lemma rotate_one v : rotate (Q4 0 0 0 1) v = v.
Proof. rewrite rotate_explicit. destruct v. cbn. f_equal; ring. Qed.
Lemma rotate_cross q u v : unitq q -> cross3 (rotate q u) (rotate q v) = rotate q (cross3 u v).
Proof.
  intros U. destruct q as [x y z w]. assert (H : w * w = 1 - x * x - y * y - z * z) by (unfold unitq, norm2 in U; cbn in U; lra).
  rewrite !rotate_explicit. destruct u as [u0 u1 u2], v as [v0 v1 v2]. unfold cross3. cbn [vx vy vz qx qy qz qw]. f_equal; ring [H].
Qed.
Lemma rotate_len q v : unitq q -> len3 (rotate q v) = len3 v.
Proof. intros U. unfold len3. rewrite rotate_dot by exact U. reflexivity. Qed.
Lemma conj_unit q : unitq q -> unitq (conj q).
Proof. unfold unitq, norm2, conj. cbn. intros. lra. Qed.
Lemma rotate_conj_l q v : unitq q -> rotate (conj q) (rotate q v) = v.
Proof.
  intros U. rewrite <- rotate_compose. replace (hamilton (conj q) q) with (Q4 0 0 0 1).
  - apply rotate_one.
  - unfold unitq, norm2 in U. unfold hamilton, conj, hvec, cross3, dot3. cbn. f_equal; try ring. lra.
Qed.
Lemma rotate_conj_r q v : unitq q -> rotate q (rotate (conj q) v) = v.
Proof.
  intros U. rewrite <- rotate_compose. replace (hamilton q (conj q)) with (Q4 0 0 0 1).
  - apply rotate_one.
  - unfold unitq, norm2 in U. unfold hamilton, conj, hvec, cross3, dot3. cbn. f_equal; try ring. lra.
Qed.

(** [quat_positive_w]: same rotation, non-negative real part, same norm. *)
Lemma positive_w_R q : let q' := quat_positive_w q in
  0 <= l3 q' /\ norm2 (q_of q') = norm2 (q_of q) /\ forall v, rotate (q_of q') v = rotate (q_of q) v.
Proof.
  destruct q as [x y z w]. unfold quat_positive_w.
  change (flip4 (lt4 (splat_w (mk4 x y z w)) nzero) (mk4 x y z w)) with
    (mk4 (flip (Rltb w (@nzero R Rarith)) x) (flip (Rltb w (@nzero R Rarith)) y) (flip (Rltb w (@nzero R Rarith)) z) (flip (Rltb w (@nzero R Rarith)) w)).
  rewrite nzero_R. unfold flip. change (@num_arith R Rnum) with Rarith. cbv zeta.
  destruct (Rltb_spec w 0); cbn [l3 q_of].
  - split; [cbn; lra|]. split; [unfold norm2, q_of; cbn; ring|]. intros v. exact (rotate_neg (Q4 x y z w) v).
  - split; [lra|]. split; [reflexivity|reflexivity].
Qed.

(** [simd_clamp] at R. *)
Lemma nmone_R : @nmone R Rarith = -1. Proof. unfold nmone. cbn. lra. Qed.
Lemma simd_clamp_R v : l0 (simd_clamp v nmone none_) = clampR (-1) 1 (l0 v).
Proof.
  destruct v as [x y z w]. unfold simd_clamp.
  change (l0 (select4 (lt4 none_ (select4 (lt4 (mk4 x y z w) nmone) nmone (mk4 x y z w))) none_ (select4 (lt4 (mk4 x y z w) nmone) nmone (mk4 x y z w))))
    with (let a := if Rltb x (@nmone R Rarith) then @nmone R Rarith else x in if Rltb (@none_ R Rarith) a then @none_ R Rarith else a).
  cbv zeta. rewrite none_R, nmone_R. unfold clampR, Rmax, Rmin. cbn [l0].
  destruct (Rltb_spec x (-1)); [destruct (Rltb_spec 1 (-1)); [lra|]|destruct (Rltb_spec 1 x)];
    destruct (Rle_dec 1 x); try destruct (Rle_dec (-1) 1); try destruct (Rle_dec (-1) x); try lra.
Qed.
Lemma clampR_id lo hi x : lo <= x <= hi -> clampR lo hi x = x.
Proof. intros. unfold clampR. rewrite Rmin_right, Rmax_right by lra. reflexivity. Qed.
Lemma clampR_bounds lo hi x : lo <= hi -> lo <= clampR lo hi x <= hi.
Proof. intros. unfold clampR, Rmax, Rmin. destruct (Rle_dec hi x); destruct (Rle_dec lo _); lra. Qed.
Lemma nmin_max_R x lo hi : lo <= hi -> Rmin (Rmax x lo) hi = clampR lo hi x.
Proof. intros. unfold clampR. apply (Rmax_case_strong x lo); apply (Rmin_case_strong hi x); intros; unfold Rmin, Rmax; repeat match goal with |- context [Rle_dec ?a ?b] => destruct (Rle_dec a b) end; lra. Qed.

(** [quat_from_cos_angle] at R. *)
Ltac lit4 :=
  repeat match goal with
  | |- context [@none_ (V4 R) ?i] => change (@none_ (V4 R) i) with (splat (@none_ R Rarith))
  | |- context [@nhalf (V4 R) ?i] => change (@nhalf (V4 R) i) with (splat (@nhalf R Rarith))
  | |- context [@nzero (V4 R) ?i] => change (@nzero (V4 R) i) with (splat (@nzero R Rarith))
  | |- context [@nmone (V4 R) ?i] => change (@nmone (V4 R) i) with (splat (@nmone R Rarith))
  | |- context [@nthree (V4 R) ?i] => change (@nthree (V4 R) i) with (splat (@nthree R Rarith))
  end;
  change (@num_arith R Rnum) with Rarith;
  rewrite ?none_R, ?nhalf_R, ?nzero_R, ?nmone_R.
Lemma from_cos_angle_R axis cos : let c := l0 cos in -1 <= c <= 1 ->
  q_of (quat_from_cos_angle axis cos) = qaxis (v3_of axis) (sqrt ((1 - c) / 2)) (sqrt ((1 + c) / 2)).
Proof.
  intros c Hc. unfold quat_from_cos_angle. destruct axis as [x y z w], cos as [c0 c1 c2 c3]. cbn [l0] in c. unfold c in *.
  unfold q_of, qaxis, v3_of, set_w, set_y, splat_y. lit4. nr.
  replace (1 - (1 + c0) * / 2) with ((1 - c0) / 2) by field. replace ((1 + c0) * / 2) with ((1 + c0) / 2) by field.
  f_equal; ring.
Qed.

(** ** Turning one plane onto another
    [n] and [n0] are orthogonal to [t]; the axis is [t] normalised, negated when [sg] is. *)
Lemma ortho_decomp a n m : dot3 a a = 1 -> dot3 a n = 0 -> dot3 a m = 0 ->
  scale3 (dot3 n n) m = plus3 (scale3 (dot3 n m) n) (scale3 (dot3 a (cross3 n m)) (cross3 a n)).
Proof.
  intros Ha Hn Hm.
  assert (P : cross3 n m = scale3 (dot3 a (cross3 n m)) a).
  { transitivity (scale3 (dot3 a a) (cross3 n m)); [rewrite Ha, scale3_1; reflexivity|].
    transitivity (minus3 (scale3 (dot3 a (cross3 n m)) a) (cross3 a (minus3 (scale3 (dot3 a m) n) (scale3 (dot3 a n) m)))).
    - v3s. f_equal; ring.
    - rewrite Hm, Hn. v3s. f_equal; ring. }
  transitivity (plus3 (scale3 (dot3 n m) n) (cross3 (cross3 n m) n)); [v3s; f_equal; ring|].
  f_equal. rewrite P at 1. v3s. f_equal; ring.
Qed.
Lemma half_angles c : -1 <= c <= 1 -> let s := sqrt ((1 - c) / 2) in let h := sqrt ((1 + c) / 2) in
  s * s + h * h = 1 /\ 1 - 2 * (s * s) = c /\ 0 <= 2 * s * h /\ (2 * s * h) * (2 * s * h) = 1 - c * c.
Proof.
  intros Hc s h. assert (S : s * s = (1 - c) / 2) by (apply sqrt_sqrt; lra). assert (H : h * h = (1 + c) / 2) by (apply sqrt_sqrt; lra).
  assert (0 <= s) by apply sqrt_pos. assert (0 <= h) by apply sqrt_pos.
  split; [lra|]. split; [lra|]. split; [nra|]. replace (2 * s * h * (2 * s * h)) with (4 * (s * s) * (h * h)) by ring. rewrite S, H. field.
Qed.
Lemma cos_range n n0 : 0 < len3 n -> 0 < len3 n0 -> -1 <= dot3 n n0 / (len3 n * len3 n0) <= 1.
Proof.
  intros L L0. set (c := dot3 n n0 / (len3 n * len3 n0)).
  assert (E : c * (len3 n * len3 n0) = dot3 n n0) by (unfold c; field; lra).
  pose proof (cauchy n n0) as K. rewrite <- E, <- !len3_sq in K. assert (0 < len3 n * len3 n0) by nra.
  apply abs_le_sq; [lra|]. set (p := len3 n * len3 n0) in *.
  replace (len3 n * len3 n * (len3 n0 * len3 n0)) with (p * p) in K by (unfold p; ring).
  destruct (Rle_dec (c * c) (1 * 1)) as [|N]; [assumption|]. exfalso. assert (0 < (c * c - 1) * (p * p)) by (apply Rmult_lt_0_compat; nra). nra.
Qed.
Lemma plane_rotation a n n0 sg : dot3 a a = 1 -> dot3 a n = 0 -> dot3 a n0 = 0 -> 0 < len3 n -> 0 < len3 n0 ->
  (sg = 1 \/ sg = -1) -> 0 <= sg * dot3 a (cross3 n n0) ->
  let c := dot3 n n0 / (len3 n * len3 n0) in
  rotate (qaxis (scale3 sg a) (sqrt ((1 - c) / 2)) (sqrt ((1 + c) / 2))) n = scale3 (len3 n / len3 n0) n0.
Proof.
  intros Ha Hn Hn0 L L0 Hsg Hs c. pose proof (cos_range n n0 L L0) as Rc. fold c in Rc.
  destruct (half_angles c Rc) as (U & C & S0 & S1). set (s := sqrt ((1 - c) / 2)) in *. set (h := sqrt ((1 + c) / 2)) in *.
  assert (Sg : sg * sg = 1) by (destruct Hsg; subst; ring).
  rewrite qaxis_rotate_perp; [|rewrite dot3_scale_l, dot3_scale_r; nra|exact U|rewrite dot3_scale_l, Hn; ring].
  rewrite C. set (S := 2 * s * h) in *. set (m := scale3 (len3 n / len3 n0) n0).
  assert (Hm : dot3 a m = 0) by (unfold m; rewrite dot3_scale_r, Hn0; ring).
  pose proof (ortho_decomp a n m Ha Hn Hm) as D.
  assert (Nm : dot3 n m = c * dot3 n n).
  { unfold m, c. rewrite dot3_scale_r, <- (len3_sq n). field. lra. }
  assert (Mm : dot3 m m = dot3 n n).
  { unfold m. rewrite dot3_scale_l, dot3_scale_r, <- (len3_sq n), <- (len3_sq n0). field. lra. }
  set (d := dot3 a (cross3 n m)) in *. pose proof (len3_sq n) as Ln.
  assert (Pn : 0 < dot3 n n) by nra.
  assert (K : d * d = (1 - c * c) * (dot3 n n * dot3 n n)).
  { assert (E : dot3 n n * dot3 m m = dot3 n m * dot3 n m + d * d).
    { assert (X : dot3 (scale3 (dot3 n n) m) m = dot3 n m * dot3 n m + d * dot3 (cross3 a n) m).
      { rewrite D, dot3_plus_l, !dot3_scale_l. ring. }
      rewrite dot3_scale_l in X. rewrite X. f_equal. f_equal. unfold d. v3s. ring. }
    rewrite Mm, Nm in E. nra. }
  assert (Sd : 0 <= sg * d).
  { unfold d, m. replace (dot3 a (cross3 n (scale3 (len3 n / len3 n0) n0))) with (len3 n / len3 n0 * dot3 a (cross3 n n0)) by (v3s; ring).
    assert (0 < len3 n / len3 n0) by (apply Rdiv_lt_0_compat; assumption). nra. }
  assert (E : sg * d = S * dot3 n n).
  { apply sq_eq; [exact Sd|nra|]. replace (sg * d * (sg * d)) with (sg * sg * (d * d)) by ring. rewrite Sg, K.
    replace (S * dot3 n n * (S * dot3 n n)) with (S * S * (dot3 n n * dot3 n n)) by ring. rewrite S1. ring. }
  assert (Ed : d = sg * S * dot3 n n) by (replace d with (sg * sg * d) by (rewrite Sg; ring); rewrite Rmult_assoc, E; ring).
  assert (F : scale3 (dot3 n n) m = scale3 (dot3 n n) (plus3 (scale3 c n) (scale3 S (cross3 (scale3 sg a) n)))).
  { rewrite D, Nm, Ed. v3s. f_equal; ring. }
  assert (G : forall u v, scale3 (dot3 n n) u = scale3 (dot3 n n) v -> u = v).
  { intros [u0 u1 u2] [w0 w1 w2] H. unfold scale3 in H. cbn [vx vy vz] in H. injection H as H0 H1 H2. f_equal; eapply Rmult_eq_reg_l; try eassumption; lra. }
  symmetry. apply G, F.
Qed.

(** ** Placed joints and their inverses *)
Lemma pt_lin m v : pt m v = plus3 (origin m) (lin m v).
Proof. unfold lin. destruct (pt m v), (origin m). v3s. f_equal; ring. Qed.
Lemma affine_inv m : affine m -> det4 m <> 0 ->
  affine (mat_invert m) /\ (forall p, pt m (pt (mat_invert m) p) = p) /\ (forall x, pt (mat_invert m) (pt m x) = x).
Proof.
  intros (A0 & A1 & A2 & A3) D. destruct (C28_invert m) as [I _]. specialize (I D).
  assert (B : forall j, (j < 4)%nat -> ent (mat_invert m) 3 j = delta 3 j).
  { intros j Hj. destruct (I 3%nat j ltac:(lia) Hj) as [I1 _]. unfold sum4 in I1. rewrite A0, A1, A2, A3 in I1. lra. }
  assert (B0 := B 0%nat ltac:(lia)). assert (B1 := B 1%nat ltac:(lia)). assert (B2 := B 2%nat ltac:(lia)). assert (B3 := B 3%nat ltac:(lia)).
  unfold delta in B0, B1, B2, B3. cbn [Nat.eqb] in B0, B1, B2, B3. set (im := mat_invert m) in *.
  split; [unfold affine; auto|].
  assert (E1 : forall i j, (i < 4)%nat -> (j < 4)%nat -> sum4 (fun k => ent m i k * ent im k j) = delta i j) by (intros; apply I; assumption).
  assert (E2 : forall i j, (i < 4)%nat -> (j < 4)%nat -> sum4 (fun k => ent im i k * ent m k j) = delta i j) by (intros; apply I; assumption).
  unfold sum4 in E1, E2. 
  assert (G : forall a b, (forall i j, (i < 4)%nat -> (j < 4)%nat -> ent a i 0 * ent b 0 j + ent a i 1 * ent b 1 j + ent a i 2 * ent b 2 j + ent a i 3 * ent b 3 j = delta i j) ->
     ent b 3 0 = 0 -> ent b 3 1 = 0 -> ent b 3 2 = 0 -> ent b 3 3 = 1 -> forall p, pt a (pt b p) = p).
  { intros a b E Z0 Z1 Z2 Z3 p. unfold pt. destruct p as [x y z]. unfold apply_point. cbn [vx vy vz].
    assert (H : forall i, (i < 3)%nat -> ent a i 0 * (ent b 0 0 * x + ent b 0 1 * y + ent b 0 2 * z + ent b 0 3) +
       ent a i 1 * (ent b 1 0 * x + ent b 1 1 * y + ent b 1 2 * z + ent b 1 3) + ent a i 2 * (ent b 2 0 * x + ent b 2 1 * y + ent b 2 2 * z + ent b 2 3) + ent a i 3
       = delta i 0 * x + delta i 1 * y + delta i 2 * z + delta i 3).
    { intros i Hi. rewrite <- !E by lia. rewrite Z0, Z1, Z2, Z3. ring. }
    rewrite !H by lia. unfold delta. cbn [Nat.eqb]. f_equal; ring. }
  split; [apply (G m im E1); assumption|apply (G im m E2); assumption].
Qed.
Lemma transform_point_R m p : v3_of (transform_point m p) = pt m (v3_of p).
Proof.
  unfold pt. destruct (C27_transform_point m p 0%nat ltac:(lia)) as [<- _].
  destruct (C27_transform_point m p 1%nat ltac:(lia)) as [<- _]. destruct (C27_transform_point m p 2%nat ltac:(lia)) as [<- _]. reflexivity.
Qed.
Lemma transform_vector_R m p : v3_of (transform_vector m p) = lin m (v3_of p).
Proof.
  unfold lin, pt, minus3, origin. cbn [vx vy vz]. 
  destruct (C27_transform_point m p 0%nat ltac:(lia)) as [_ E0]. destruct (C27_transform_point m p 1%nat ltac:(lia)) as [_ E1]. destruct (C27_transform_point m p 2%nat ltac:(lia)) as [_ E2].
  unfold v3_of at 1. change (l0 (transform_vector m p)) with (lane (transform_vector m p) 0). change (l1 (transform_vector m p)) with (lane (transform_vector m p) 1).
  change (l2 (transform_vector m p)) with (lane (transform_vector m p) 2). rewrite E0, E1, E2. reflexivity.
Qed.
Lemma lin_plus m u v : lin m (plus3 u v) = plus3 (lin m u) (lin m v).
Proof. destruct m as [[? ? ? ?] [? ? ? ?] [? ? ? ?] [? ? ? ?]]. unfold lin, pt, origin, apply_point, ent, v3_of. v3s. cbn. f_equal; ring. Qed.
Lemma lin_minus m u v : lin m (minus3 u v) = minus3 (pt m u) (pt m v).
Proof. destruct m as [[? ? ? ?] [? ? ? ?] [? ? ? ?] [? ? ? ?]]. unfold lin, pt, origin, apply_point, ent, v3_of. v3s. cbn. f_equal; ring. Qed.
Lemma lin_scale m k v : lin m (scale3 k v) = scale3 k (lin m v).
Proof. destruct m as [[? ? ? ?] [? ? ? ?] [? ? ? ?] [? ? ? ?]]. unfold lin, pt, origin, apply_point, ent, v3_of. v3s. cbn. f_equal; ring. Qed.
Lemma lin_inv m : affine m -> det4 m <> 0 -> (forall v, lin m (lin (mat_invert m) v) = v) /\ (forall v, lin (mat_invert m) (lin m v) = v).
Proof.
  intros A D. destruct (affine_inv m A D) as (_ & I1 & I2).
  assert (G : forall a b v, (forall p, pt a (pt b p) = p) -> lin a (lin b v) = v).
  { intros a b v H. unfold lin at 2. rewrite lin_minus, H.
    assert (O : origin b = pt b (V3 0 0 0)) by (destruct b as [[? ? ? ?] [? ? ? ?] [? ? ? ?] [? ? ? ?]]; unfold origin, pt, apply_point, ent, v3_of; cbn; f_equal; ring).
    rewrite O, H. destruct v. v3s. f_equal; ring. }
  split; intros; apply G; assumption.
Qed.
Lemma placed_det m q k : placed m q k -> det4 m = k * k * k.
Proof.
  intros ((A0 & A1 & A2 & A3) & U & Hk & P).
  pose proof (P (V3 1 0 0)) as P0. pose proof (P (V3 0 1 0)) as P1. pose proof (P (V3 0 0 1)) as P2. clear P.
  destruct m as [[m00 m10 m20 m30] [m01 m11 m21 m31] [m02 m12 m22 m32] [m03 m13 m23 m33]]. destruct q as [x y z w].
  rewrite rotate_explicit in P0, P1, P2. unfold pt, apply_point, ent, origin, v3_of in *. cbn [lane l0 l1 l2 l3] in *. v3s. cbn [qx qy qz qw] in *.
  injection P0 as Q00 Q10 Q20. injection P1 as Q01 Q11 Q21. injection P2 as Q02 Q12 Q22. subst m30 m31 m32 m33.
  unfold unitq, norm2 in U. cbn [qx qy qz qw] in U.
  assert (R00 : m00 = k * (w * w + x * x - y * y - z * z)) by lra. assert (R10 : m10 = k * (2 * (x * y + z * w))) by lra.
  assert (R20 : m20 = k * (2 * (x * z - y * w))) by lra. assert (R01 : m01 = k * (2 * (x * y - z * w))) by lra.
  assert (R11 : m11 = k * (w * w - x * x + y * y - z * z)) by lra. assert (R21 : m21 = k * (2 * (y * z + x * w))) by lra.
  assert (R02 : m02 = k * (2 * (x * z + y * w))) by lra. assert (R12 : m12 = k * (2 * (y * z - x * w))) by lra.
  assert (R22 : m22 = k * (w * w - x * x - y * y + z * z)) by lra. clear - U R00 R10 R20 R01 R11 R21 R02 R12 R22.
  transitivity (k * k * k * (x * x + y * y + z * z + w * w) * (x * x + y * y + z * z + w * w) * (x * x + y * y + z * z + w * w)); [|rewrite U; ring].
  subst. unfold det4, det3, det2, skip, ent. cbn. ring.
Qed.
Lemma placed_lin m q k v : placed m q k -> lin m v = scale3 k (rotate q v).
Proof. intros (_ & _ & _ & P). unfold lin. rewrite P. destruct (origin m), (scale3 k (rotate q v)). v3s. f_equal; ring. Qed.
Lemma placed_inv m q k : placed m q k ->
  (forall p, pt m (pt (mat_invert m) p) = p) /\ (forall x, pt (mat_invert m) (pt m x) = x) /\
  (forall v, lin (mat_invert m) v = scale3 (/ k) (rotate (conj q) v)).
Proof.
  intros H. pose proof (placed_det m q k H) as D. pose proof H as (A & U & Hk & P).
  assert (Dn : det4 m <> 0) by (rewrite D; repeat apply Rmult_integral_contrapositive_currified; lra).
  destruct (affine_inv m A Dn) as (_ & I1 & I2). destruct (lin_inv m A Dn) as (_ & J2).
  split; [exact I1|]. split; [exact I2|]. intros v.
  assert (E : v = lin m (scale3 (/ k) (rotate (conj q) v))).
  { rewrite lin_scale, (placed_lin m q k _ H), rotate_conj_r by exact U. rewrite scale3_scale, Rinv_l by lra. symmetry. apply scale3_1. }
  rewrite E at 1. apply J2.
Qed.

(** ** Aim job *)
Lemma offsetted_R f o t : 
  match offsetted_forward f o t with
  | None => dot3 (v3_of t) (v3_of t) < dot3 (v3_of o) (v3_of o) - dot3 (v3_of f) (v3_of o) * dot3 (v3_of f) (v3_of o)
  | Some r => 
    let ac2 := dot3 (v3_of o) (v3_of o) - dot3 (v3_of f) (v3_of o) * dot3 (v3_of f) (v3_of o) in
    ac2 <= dot3 (v3_of t) (v3_of t) /\
    v3_of r = plus3 (v3_of o) (scale3 (sqrt (dot3 (v3_of t) (v3_of t) - ac2) - dot3 (v3_of f) (v3_of o)) (v3_of f))
  end.
Proof.
  unfold offsetted_forward. cbv zeta. change (@num_arith R Rnum) with Rarith.
  assert (L : l0 (vec3_length2_s o - vec3_dot_s f o * vec3_dot_s f o)%num = dot3 (v3_of o) (v3_of o) - dot3 (v3_of f) (v3_of o) * dot3 (v3_of f) (v3_of o)).
  { rewrite <- !dot_s_R. reflexivity. }
  rewrite L, len2_s_R. change (@nlt R Rnum) with Rltb. destruct (Rltb_spec (dot3 (v3_of t) (v3_of t)) (dot3 (v3_of o) (v3_of o) - dot3 (v3_of f) (v3_of o) * dot3 (v3_of f) (v3_of o))) as [C|C]; [exact C|].
  split; [lra|]. rewrite v3_add_R, v3_splat_x.
  assert (E : l0 (nsqrt (vec3_length2_s t - (vec3_length2_s o - vec3_dot_s f o * vec3_dot_s f o)) - vec3_dot_s f o)%num
    = sqrt (l0 (vec3_length2_s t) - l0 (vec3_length2_s o - vec3_dot_s f o * vec3_dot_s f o)%num) - l0 (vec3_dot_s f o)) by reflexivity.
  rewrite L, len2_s_R, dot_s_R in E. change (@num_arith R Rnum) with Rarith in *. rewrite E. reflexivity.
Qed.
(** With a unit forward the offsetted forward reaches the target's distance. *)
Lemma offsetted_len f o r2 : dot3 f f = 1 -> let ac2 := dot3 o o - dot3 f o * dot3 f o in ac2 <= r2 ->
  dot3 (plus3 o (scale3 (sqrt (r2 - ac2) - dot3 f o) f)) (plus3 o (scale3 (sqrt (r2 - ac2) - dot3 f o) f)) = r2.
Proof.
  intros Hf ac2 H. assert (S : sqrt (r2 - ac2) * sqrt (r2 - ac2) = r2 - ac2) by (apply sqrt_sqrt; lra). set (s := sqrt (r2 - ac2)) in *.
  rewrite dot3_plus_l, !dot3_plus_r, !dot3_scale_l, !dot3_scale_r, Hf, (dot3_comm o f). unfold ac2 in S. lra.
Qed.

(** [quat_from_vectors] is always a unit quaternion; what it does to [from]. *)
Lemma qfv_unit a b : unitq (q_of (quat_from_vectors a b)).
Proof.
  destruct (Rle_dec TH (len3 (v3_of a) * len3 (v3_of b))) as [H|H].
  - apply (C46_from_vectors_partial a b H).
  - rewrite qfv_eq, nn_len. destruct (Rltb_spec (len3 (v3_of a) * len3 (v3_of b)) TH) as [L|L]; [|lra].
    unfold QUAT_UNIT. change (@num_arith R Rnum) with Rarith. rewrite nzero_R, none_R. unfold unitq, norm2. cbn. ring.
Qed.
Lemma QUAT_UNIT_R : QUAT_UNIT = mk4 0 0 0 1.
Proof. unfold QUAT_UNIT. change (@num_arith R Rnum) with Rarith. rewrite nzero_R, none_R. reflexivity. Qed.

(** The plane rotation of the aim job: it turns about the target direction. *)
Lemma recip_lanes v : nrecip (nsqrt v) = mk4 (/ sqrt (l0 v)) (/ sqrt (l1 v)) (/ sqrt (l2 v)) (/ sqrt (l3 v)).
Proof.
  destruct v as [a b c d]. change (nrecip (nsqrt (mk4 a b c d))) with (mk4 (@nrecip R Rarith (sqrt a)) (@nrecip R Rarith (sqrt b)) (@nrecip R Rarith (sqrt c)) (@nrecip R Rarith (sqrt d))).
  rewrite !nrecip_R. reflexivity.
Qed.
Lemma set_yz_lanes (a b c : V4 R) : set_z (set_y a b) c = mk4 (l0 a) (l0 b) (l0 c) (l3 a).
Proof. destruct a, b, c. reflexivity. Qed.
(** Normalising a vector. *)
Lemma unit_scaled v : 0 < dot3 v v -> dot3 (scale3 (/ sqrt (dot3 v v)) v) (scale3 (/ sqrt (dot3 v v)) v) = 1.
Proof.
  intros H. rewrite dot3_scale_l, dot3_scale_r. pose proof (sqrt_lt_R0 _ H). pose proof (sqrt_sqrt (dot3 v v) ltac:(lra)).
  rewrite <- Rmult_assoc, <- Rinv_mult, H1. field. lra.
Qed.
Lemma sgn_axis b v : dot3 v v = 1 -> dot3 (scale3 (sgn b) v) (scale3 (sgn b) v) = 1.
Proof. intros H. rewrite dot3_scale_l, dot3_scale_r, H. rewrite <- Rmult_assoc, sgn_sq. ring. Qed.

(** A rotation about [v]: unit and fixing every multiple of [v]. *)
Definition about (v : vec3 R) (q : quat R) : Prop := unitq q /\ forall k, rotate q (scale3 k v) = scale3 k v.
Lemma about_qaxis v a s c m : dot3 a a = 1 -> s * s + c * c = 1 -> v = scale3 m a -> about v (qaxis a s c).
Proof.
  intros Ha Hs Hv. split; [unfold unitq; rewrite qaxis_norm, Ha; lra|]. intros k. rewrite Hv, scale3_scale. apply qaxis_rotate_axis; assumption.
Qed.
Lemma about_hamilton v p q : about v p -> about v q -> about v (hamilton p q).
Proof.
  intros [U1 A1] [U2 A2]. split; [unfold unitq; rewrite hamilton_norm, U1, U2; ring|]. intros k. rewrite rotate_compose, A2. apply A1.
Qed.
Lemma about_one v : about v (Q4 0 0 0 1).
Proof. split; [unfold unitq, norm2; cbn; ring|]. intros k. apply rotate_one. Qed.

Definition twist_known (aa : V4 R -> V4 R -> option (V4 R)) (twist : R) : Prop := twist = 0 \/ aa = exact_axis_angle.
Lemma exact_axis_angle_R axis angle : exists q, exact_axis_angle axis angle = Some q /\
  q_of q = qaxis (v3_of axis) (sin (l0 angle / 2)) (cos (l0 angle / 2)).
Proof. eexists. split; [reflexivity|]. reflexivity. Qed.
Lemma sin_cos_unit x : sin x * sin x + cos x * cos x = 1.
Proof. pose proof (sin2_cos2 x). unfold Rsqr in *. lra. Qed.

Lemma aim_twisted_R aa (j : aim_job R) inv t of : let T := v3_of t in
  0 < dot3 T T -> twist_known aa (am_twist j) ->
  let tt := q_of (quat_from_vectors of t) in
  exists q r, aim_twisted aa j inv t of = Some q /\ about T r /\ q_of q = hamilton r tt /\
    (am_twist j = 0 -> let n := cross3 (rotate tt (v3_of (am_up j))) T in let n0 := cross3 (lin inv (v3_of (am_pole j))) T in
      0 < dot3 n n -> 0 < dot3 n0 n0 -> rotate r n = scale3 (len3 n / len3 n0) n0).
Proof.
  intros T HT Htw tt. unfold aim_twisted. cbv zeta. change (@num_arith R Rnum) with Rarith.
  set (cup := quat_transform_vector (quat_from_vectors of t) (am_up j)).
  set (ref := vec3_cross (transform_vector inv (am_pole j)) t). set (nrm := vec3_cross cup t).
  assert (Ut : unitq tt) by apply qfv_unit.
  assert (Ec : v3_of cup = rotate tt (v3_of (am_up j))) by (apply transform_vector_rotate, Ut).
  assert (En : v3_of nrm = cross3 (rotate tt (v3_of (am_up j))) T) by (unfold nrm; rewrite v3_cross_R, Ec; reflexivity).
  assert (Er : v3_of ref = cross3 (lin inv (v3_of (am_pole j))) T) by (unfold ref; rewrite v3_cross_R, transform_vector_R; reflexivity).
  set (n := cross3 (rotate tt (v3_of (am_up j))) T) in *. set (n0 := cross3 (lin inv (v3_of (am_pole j))) T) in *.
  rewrite set_yz_lanes, !len2_s_R, En, Er, !recip_lanes. cbn [l0 l1 l2 l3]. fold T.
  change (@neq R Rnum) with Reqb. rewrite !nzero_R.
  destruct (Reqb_spec (dot3 T T) 0) as [Z|_]; [lra|]. cbn [negb andb].
  set (T1 := scale3 (/ sqrt (dot3 T T)) T). assert (U1 : dot3 T1 T1 = 1) by (apply unit_scaled, HT).
  pose proof (sqrt_lt_R0 _ HT) as HsT.
  assert (TT1 : T = scale3 (sqrt (dot3 T T)) T1) by (unfold T1; rewrite scale3_scale, Rinv_r by lra; symmetry; apply scale3_1).
  (* finish: from an axis and a plane rotation about T *)
  assert (FIN : forall axis rp, v3_of axis = T1 -> about T (q_of rp) ->
     ((am_twist j = 0) -> 0 < dot3 n n -> 0 < dot3 n0 n0 -> rotate (q_of rp) n = scale3 (len3 n / len3 n0) n0) ->
     exists q r, (if negb (Reqb (am_twist j) 0) then match aa axis (splat (am_twist j)) with
        | Some twist => Some (quat_mul (quat_mul twist rp) (quat_from_vectors of t)) | None => None end
        else Some (quat_mul rp (quat_from_vectors of t))) = Some q /\ about T r /\ q_of q = hamilton r tt /\
       (am_twist j = 0 -> 0 < dot3 n n -> 0 < dot3 n0 n0 -> rotate r n = scale3 (len3 n / len3 n0) n0)).
  { intros axis rp Ha Hrp HN. destruct (Reqb_spec (am_twist j) 0) as [Z|NZ]; cbn [negb].
    - eexists. exists (q_of rp). split; [reflexivity|]. split; [exact Hrp|]. split; [apply quat_mul_hamilton|]. intros _. apply HN, Z.
    - destruct Htw as [|Haa]; [contradiction|]. subst aa. destruct (exact_axis_angle_R axis (splat (am_twist j))) as (w & Ew & Qw).
      rewrite Ew. eexists. exists (hamilton (q_of w) (q_of rp)). split; [reflexivity|]. split; [|split].
      + apply about_hamilton; [|exact Hrp]. rewrite Qw, Ha. eapply about_qaxis; [exact U1|apply sin_cos_unit|exact TT1].
      + rewrite !quat_mul_hamilton. reflexivity.
      + intros; contradiction. }
  destruct (negb (Reqb (dot3 n n) 0) && negb (Reqb (dot3 n0 n0) 0)) eqn:Hb.
  - apply andb_true_iff in Hb. destruct Hb as [Hb1 Hb2].
    destruct (Reqb_spec (dot3 n n) 0) as [|Z1]; [discriminate|]. destruct (Reqb_spec (dot3 n0 n0) 0) as [|Z2]; [discriminate|]. clear Hb1 Hb2.
    set (rs := mk4 (/ sqrt (dot3 T T)) (/ sqrt (dot3 n n)) (/ sqrt (dot3 n0 n0)) (/ sqrt (l3 (vec3_length2_s t)))).
    assert (Ax : v3_of (t * splat_x rs)%num = T1) by (rewrite v3_splat_x; reflexivity).
    apply FIN; [exact Ax| |].
    + rewrite from_cos_angle_R; rewrite simd_clamp_R; [|apply clampR_bounds; lra].
      rewrite v3_flip. change (@num_arith R Rnum) with Rarith in Ax. rewrite Ax. set (c := clampR _ _ _).
      assert (Rc : -1 <= c <= 1) by (apply clampR_bounds; lra). destruct (half_angles c Rc) as (U & _).
      set (b := Rltb _ _). eapply about_qaxis with (m := sqrt (dot3 T T) * sgn b); [apply sgn_axis, U1|exact U|].
      rewrite <- scale3_scale. rewrite (scale3_scale (sgn b) (sgn b)), sgn_sq, scale3_1. exact TT1.
    + intros _ P1 P2.
      assert (L1 : 0 < len3 n) by (apply sqrt_lt_R0, P1). assert (L2 : 0 < len3 n0) by (apply sqrt_lt_R0, P2).
      rewrite from_cos_angle_R; rewrite simd_clamp_R; [|apply clampR_bounds; lra].
      rewrite v3_flip. change (@num_arith R Rnum) with Rarith in Ax. rewrite Ax. rewrite !dot_s_R, Ec, Er.
      change (@V4_arith R Rarith) with (@V4_arith R (@num_arith R Rnum)). rewrite v3_splat_y, v3_splat_z, En, Er. cbn [rs l1 l2].
      change (sqrt (dot3 n n)) with (len3 n). change (sqrt (dot3 n0 n0)) with (len3 n0).
      replace (dot3 (scale3 (/ len3 n) n) (scale3 (/ len3 n0) n0)) with (dot3 n n0 / (len3 n * len3 n0)) by (rewrite dot3_scale_l, dot3_scale_r; field; lra).
      rewrite clampR_id by (apply cos_range; assumption).
      apply plane_rotation; try assumption.
      * unfold T1, n. rewrite dot3_scale_l. replace (dot3 T (cross3 (rotate tt (v3_of (am_up j))) T)) with 0 by (v3s; ring). ring.
      * unfold T1, n0. rewrite dot3_scale_l. replace (dot3 T (cross3 (lin inv (v3_of (am_pole j))) T)) with 0 by (v3s; ring). ring.
      * unfold sgn. destruct (Rltb _ 0); [right|left]; reflexivity.
      * set (u := rotate tt (v3_of (am_up j))) in *.
        assert (X : dot3 T1 (cross3 n n0) = sqrt (dot3 T T) * dot3 n0 u).
        { assert (Y : cross3 n n0 = scale3 (dot3 n0 u) T) by (unfold n, n0; set (p := lin inv _); v3s; f_equal; ring).
          rewrite Y, dot3_scale_r. rewrite TT1 at 1. rewrite dot3_scale_r, U1. ring. }
        rewrite X. unfold sgn. destruct (Rltb_spec (dot3 n0 u) 0); nra.
  - apply FIN.
    + change (@V4_arith R Rarith) with (@V4_arith R (@num_arith R Rnum)). rewrite v3_splat_x. reflexivity.
    + rewrite QUAT_UNIT_R. apply about_one.
    + intros _ P1 P2. exfalso. destruct (Reqb_spec (dot3 n n) 0); [lra|]. destruct (Reqb_spec (dot3 n0 n0) 0); [lra|]. discriminate.
Qed.

(** ** Two bone job *)
Lemma nthree_R : @nthree R Rarith = 3. Proof. unfold nthree. cbn. lra. Qed.
Lemma soften_R (j : ik2_job R) (s : setup R) :
  let o := v3_of (transform_point (s_inv_start s) (i2_target j)) in
  let a := sqrt (l0 (s_start_mid_len2 s)) in let b := sqrt (l0 (s_mid_end_len2 s)) in let d := len3 o in
  let '(reached, t, t2) := ik2_soften j s in
  (reached = true <-> Rabs (a - b) < d /\ d <= (a + b) * clampR 0 1 (i2_soften j)) /\
  v3_of t = scale3 (softened a b (i2_soften j) d / d) o /\
  l0 t2 = softened a b (i2_soften j) d * softened a b (i2_soften j) d /\
  0 <= softened a b (i2_soften j) d /\ (0 < d -> 0 < a + b -> 0 < softened a b (i2_soften j) d).
Proof.
  intros o a b d. unfold ik2_soften. cbv zeta. change (@num_arith R Rnum) with Rarith.
  set (orig := transform_point (s_inv_start s) (i2_target j)) in *.
  assert (E0 : l0 (vec3_length2_s orig) = dot3 o o) by apply len2_s_R.
  set (o2 := vec3_length2_s orig) in *. destruct o2 as [d2 o21 o22 o23]. cbn [l0] in E0. subst d2.
  destruct (s_start_mid_len2 s) as [A A1 A2 A3], (s_mid_end_len2 s) as [B B1 B2 B3]. cbn [l0] in a, b.
  rewrite set_yz_lanes. cbn [l0 l3].
  assert (La : 0 <= a) by apply sqrt_pos. assert (Lb : 0 <= b) by apply sqrt_pos. assert (Ld : 0 <= d) by apply sqrt_pos.
  pose proof (clampR_bounds 0 1 (i2_soften j) ltac:(lra)) as CB.
  set (cl := clampR 0 1 (i2_soften j)) in *.
  (* the lanes *)
  change (nsqrt (mk4 A B (dot3 o o) A3)) with (mk4 a b d (sqrt A3)). set (w := sqrt A3).
  assert (Eda : ((mk4 a b d w + splat_y (mk4 a b d w)) * fx4_clamp_or_min (mk4 (i2_soften j) nzero nzero nzero) nzero none_)%num
     = mk4 ((a + b) * cl) 0 0 0).
  { unfold fx4_clamp_or_min. lit4. unfold splat, splat_y. nr. rewrite !nmin_max_R by lra.
    rewrite (clampR_id 0 1 0) by lra. fold cl. f_equal; ring. }
  change (@num_arith R Rnum) with Rarith in Eda. rewrite Eda.
  assert (Eds : ((mk4 a b d w + splat_y (mk4 a b d w)) - mk4 ((a + b) * cl)%R 0 0 0)%num = mk4 ((a + b) - (a + b) * cl) (b + b - 0) (d + b - 0) (w + b - 0)) by reflexivity.
  change (@num_arith R Rnum) with Rarith in Eds. rewrite Eds. clear Eda Eds.
  set (da := (a + b) * cl). set (ds := a + b - da).
  assert (Egt : lt4 (set_z (mk4 da 0 0 0) (nabs (mk4 a b d w - splat_y (mk4 a b d w))%num)) (set_w (splat_z (mk4 a b d w)) (mk4 ds (b + b - 0) (d + b - 0) (w + b - 0)))
    = mk4 (Rltb da d) (Rltb 0 d) (Rltb (Rabs (a - b)) d) (Rltb 0 ds)) by reflexivity.
  change (@num_arith R Rnum) with Rarith in Egt. rewrite Egt. clear Egt. cbn [l0 l1 l2 l3].
  assert (Dpos : 0 <= da) by (unfold da; nra). assert (Hds : 0 <= ds) by (unfold ds, da; nra).
  assert (REACH : (Rltb (Rabs (a - b)) d && negb (Rltb da d) = true) <-> Rabs (a - b) < d /\ d <= da).
  { destruct (Rltb_spec (Rabs (a - b)) d), (Rltb_spec da d); cbn; split; intros; try discriminate; try lra; auto. }
  assert (ORIG : orig = mk4 (vx o) (vy o) (vz o) (l3 orig)) by (unfold o; destruct orig; reflexivity).
  assert (ID : scale3 (d / d) o = o).
  { destruct (Req_dec d 0) as [Z|Z].
    - assert (Zo : o = V3 0 0 0) by (apply dot3_zero; rewrite <- len3_sq; fold d; rewrite Z; ring). rewrite Zo. unfold scale3. cbn. f_equal; ring.
    - replace (d / d) with 1 by (field; exact Z). apply scale3_1. }
  assert (DD : dot3 o o = d * d) by (symmetry; apply len3_sq).
  unfold softened. fold cl da ds.
  destruct (Rltb_spec da d) as [H1|H1]; cbn [andb]; cbv zeta.
  2:{ destruct (Rlt_dec da d); [lra|]. split; [exact REACH|]. split; [rewrite ID; reflexivity|]. split; [exact DD|]. split; [exact Ld|intros; assumption]. }
  destruct (Rlt_dec da d) as [_|]; [|lra].
  destruct (Rltb_spec 0 d) as [H2|H2]; [|lra]. destruct (Rlt_dec 0 d) as [_|]; [|lra]. cbn [andb].
  destruct (Rltb_spec 0 ds) as [H3|H3].
  2:{ destruct (Rlt_dec 0 ds); [lra|]. split; [exact REACH|]. split; [rewrite ID; reflexivity|]. split; [exact DD|]. split; [exact Ld|intros; assumption]. }
  destruct (Rlt_dec 0 ds) as [_|]; [|lra].
  set (al := (d - da) / ds). assert (Hal : 0 < al) by (apply Rdiv_lt_0_compat; lra).
  set (len := da + ds - ds * (81 / (al + 3) ^ 4)).
  assert (P4 : 81 < (al + 3) ^ 4).
  { assert (9 < (al + 3) * (al + 3)) by nra. replace ((al + 3) ^ 4) with (((al + 3) * (al + 3)) * ((al + 3) * (al + 3))) by ring. nra. }
  assert (F : 81 / (al + 3) ^ 4 < 1) by (apply Rmult_lt_reg_r with ((al + 3) ^ 4); [lra|]; unfold Rdiv; rewrite Rmult_assoc, Rinv_l by lra; lra).
  assert (Lpos : da < len) by (unfold len; nra).
  (* lane 0 of the eased length *)
  match goal with |- context [v3_of (orig * splat_x (?L * nrecip ?O))%num] => set (LEN := L); set (OL := O) end.
  assert (EL : l0 LEN = len).
  { unfold LEN, len, al, splat_y, splat_z, set_y. unfold nrecip. lit4.
    change (@nthree (V4 R) V4_arith) with (splat (@nthree R Rarith)). rewrite nthree_R. unfold splat. nr.
    replace ((3 + (d - da) * (1 / ds))) with ((d - da) / ds + 3) by (field; lra).
    replace ((d - da) * (1 / ds) + 3) with ((d - da) / ds + 3) by (field; lra). fold al. field. lra. }
  split; [exact REACH|]. split.
  - change (@V4_arith R Rarith) with (@V4_arith R (@num_arith R Rnum)). rewrite v3_splat_x. fold o. f_equal.
    assert (E2 : l0 (LEN * nrecip OL)%num = l0 LEN * @nrecip R Rarith (l0 OL)) by (unfold nrecip; destruct LEN, OL; reflexivity).
    transitivity (l0 LEN * @nrecip R Rarith (l0 OL)); [exact E2|]. rewrite nrecip_R, EL. reflexivity.
  - split; [|split].
    + assert (E2 : l0 (LEN * LEN)%num = l0 LEN * l0 LEN) by (destruct LEN; reflexivity).
      change (@num_arith R Rnum) with Rarith in E2. rewrite E2, EL. reflexivity.
    + lra.
    + intros; lra.
Qed.

Lemma clamp_R4 (v : V4 R) : let c := fx4_clamp_or_min v nmone none_ in l0 c = clampR (-1) 1 (l0 v) /\ l1 c = clampR (-1) 1 (l1 v).
Proof.
  destruct v as [x y z w]. unfold fx4_clamp_or_min. lit4. unfold splat. nr. rewrite !nmin_max_R by lra. split; reflexivity.
Qed.
(** The law of cosines, with the clamp. *)
Lemma law_of_cosines p r S : 0 < p -> 0 < r -> 0 <= S ->
  p * p + r * r - 2 * p * r * clampR (-1) 1 ((p * p + r * r - S * S) * (/ 2 * / (p * r)))
  = clampR (Rabs (p - r)) (p + r) S * clampR (Rabs (p - r)) (p + r) S.
Proof.
  intros Hp Hr HS. set (c := (p * p + r * r - S * S) * (/ 2 * / (p * r))).
  assert (E : 2 * p * r * c = p * p + r * r - S * S) by (unfold c; field; lra).
  assert (Hpr : 0 < p * r) by nra.
  assert (A : Rabs (p - r) * Rabs (p - r) = (p - r) * (p - r)) by (rewrite <- Rabs_mult; apply Rabs_right, Rle_ge, Rle_0_sqr).
  assert (A0 : 0 <= Rabs (p - r)) by apply Rabs_pos.
  assert (Ale : Rabs (p - r) <= p + r) by (unfold Rabs; destruct (Rcase_abs (p - r)); lra).
  destruct (Rle_dec c 1) as [C1|C1].
  - destruct (Rle_dec (-1) c) as [C2|C2].
    + rewrite (clampR_id (-1) 1 c) by lra. rewrite E.
      assert (S * S <= (p + r) * (p + r)) by nra. assert (Rabs (p - r) * Rabs (p - r) <= S * S) by (rewrite A; nra).
      rewrite clampR_id by (split; nra). lra.
    + unfold clampR at 1. rewrite Rmin_right, Rmax_left by lra. assert ((p + r) * (p + r) < S * S) by nra. assert (p + r < S) by nra.
      unfold clampR. rewrite Rmin_left, Rmax_right by lra. ring.
  - unfold clampR at 1. rewrite Rmin_left, Rmax_right by lra. assert (S * S < (p - r) * (p - r)) by nra.
    assert (S < Rabs (p - r)) by (rewrite <- A in H; nra). unfold clampR. rewrite Rmin_right, Rmax_left by lra. rewrite A. ring.
Qed.
Lemma acos_facts x : -1 <= x <= 1 -> cos (acos x) = x /\ 0 <= sin (acos x) /\ sin (acos x) * sin (acos x) = 1 - x * x.
Proof.
  intros H. assert (E := cos_acos x H). destruct (acos_bound x) as [B0 B1]. pose proof (sin_ge_0 (acos x) B0 B1).
  split; [exact E|]. split; [assumption|]. pose proof (sin2_cos2 (acos x)) as K. unfold Rsqr in K. rewrite E in K. lra.
Qed.

Lemma mid_R (j : ik2_job R) (s : setup R) t2 rho S :
  let u := v3_of (s_start_mid_ms s) in let v := v3_of (s_mid_end_ms s) in let A := v3_of (i2_mid_axis j) in
  dot3 A A = 1 -> dot3 A u = 0 -> dot3 A v = 0 -> 0 < len3 u -> 0 < len3 v -> 0 < rho -> 0 <= S ->
  l0 (s_start_mid_len2 s) = rho * rho * dot3 u u -> l0 (s_mid_end_len2 s) = rho * rho * dot3 v v ->
  l0 (s_start_end_len2 s) = rho * rho * dot3 (plus3 u v) (plus3 u v) -> l0 t2 = S * S ->
  exists q, ik2_mid_rot exact_acos4 exact_axis_angle j s t2 = Some q /\ unitq (q_of q) /\
    let w := plus3 u (rotate (q_of q) v) in
    rho * len3 w = clampR (Rabs (rho * len3 u - rho * len3 v)) (rho * len3 u + rho * len3 v) S /\
    0 <= dot3 u (cross3 A w) /\ dot3 A w = 0.
Proof.
  intros u v A HA Hu Hv Lu Lv Hr HS E1 E2 E3 Et. unfold ik2_mid_rot. cbv zeta. change (@num_arith R Rnum) with Rarith.
  set (p := rho * len3 u). set (r := rho * len3 v). assert (Hp : 0 < p) by (unfold p; nra). assert (Hr' : 0 < r) by (unfold r; nra).
  assert (P2 : rho * rho * dot3 u u = p * p) by (unfold p; rewrite <- len3_sq; ring).
  assert (R2 : rho * rho * dot3 v v = r * r) by (unfold r; rewrite <- len3_sq; ring). rewrite P2 in E1. rewrite R2 in E2.
  (* the two cosines *)
  match goal with |- context [fx4_clamp_or_min ?x _ _] => set (X := x) end.
  assert (HR : @nrecip R Rarith (sqrt (p * p * (r * r))) = / (p * r)).
  { rewrite nrecip_R. replace (p * p * (r * r)) with ((p * r) * (p * r)) by ring. rewrite sqrt_square by nra. reflexivity. }
  assert (X0 : l0 X = (p * p + r * r - S * S) * (/ 2 * / (p * r))).
  { transitivity ((l0 (s_start_mid_len2 s) + l0 (s_mid_end_len2 s) - l0 t2) * (@nhalf R Rarith * @nrecip R Rarith (sqrt (l0 (s_start_mid_len2 s) * l0 (s_mid_end_len2 s))))).
    - unfold X, nrecip. lit4. unfold splat_x, set_y, splat. destruct (s_start_mid_len2 s), (s_mid_end_len2 s), t2. nr. rewrite ?nhalf_R, ?none_R. reflexivity.
    - rewrite E1, E2, Et, HR, nhalf_R. reflexivity. }
  assert (X1 : l1 X = - (dot3 u v / (len3 u * len3 v))).
  { transitivity ((l0 (s_start_mid_len2 s) + l0 (s_mid_end_len2 s) - l0 (s_start_end_len2 s)) * (@nhalf R Rarith * @nrecip R Rarith (sqrt (l0 (s_start_mid_len2 s) * l0 (s_mid_end_len2 s))))).
    - unfold X, nrecip. lit4. unfold splat_x, set_y, splat. destruct (s_start_mid_len2 s), (s_mid_end_len2 s), (s_start_end_len2 s), t2. nr. rewrite ?nhalf_R, ?none_R. reflexivity.
    - rewrite E1, E2, E3, HR, nhalf_R. rewrite <- P2, <- R2. unfold p, r.
      replace (dot3 (plus3 u v) (plus3 u v)) with (dot3 u u + dot3 v v + 2 * dot3 u v) by (v3s; ring). field. lra. }
  destruct (clamp_R4 X) as [C0 C1]. set (cl := fx4_clamp_or_min X nmone none_) in *. 
  pose proof (cos_range u v Lu Lv) as Rg. rewrite X1, clampR_id in C1 by lra. rewrite X0 in C0.
  set (c := clampR (-1) 1 ((p * p + r * r - S * S) * (/ 2 * / (p * r)))) in *.
  assert (Rc : -1 <= c <= 1) by (apply clampR_bounds; lra).
  set (c0 := - (dot3 u v / (len3 u * len3 v))) in *. assert (Rc0 : -1 <= c0 <= 1) by (unfold c0; lra).
  destruct (acos_facts c Rc) as (Ca & Sa & Qa). destruct (acos_facts c0 Rc0) as (Cb & Sb & Qb).
  set (al := acos c) in *. set (al0 := acos c0) in *.
  set (B := dot3 (cross3 u A) v).
  (* the angle *)
  match goal with |- context [exact_axis_angle _ ?x] => set (DF := x) end.
  assert (ED : l0 DF = al - sgn (Rltb B 0) * al0).
  { transitivity (acos (l0 cl) - flip (Rltb (l0 (vec3_dot_s (vec3_cross (s_start_mid_ms s) (i2_mid_axis j)) (s_mid_end_ms s))) (@nzero R Rarith)) (acos (l1 cl))).
    - reflexivity.
    - rewrite C0, C1, dot_s_R, v3_cross_R, nzero_R. fold u v A B al al0. unfold flip, sgn. change (@num_arith R Rnum) with Rarith. destruct (Rltb B 0); cbn; ring. }
  destruct (exact_axis_angle_R (i2_mid_axis j) DF) as (q & Eq & Qq). exists q. split; [exact Eq|].
  fold A in Qq. rewrite ED in Qq. set (sg := sgn (Rltb B 0)) in *. set (th := al - sg * al0) in *.
  pose proof (sin_cos_unit (th / 2)) as U.
  split; [unfold unitq; rewrite Qq, qaxis_norm, HA; lra|].
  assert (RV : rotate (q_of q) v = plus3 (scale3 (cos th) v) (scale3 (sin th) (cross3 A v))).
  { rewrite Qq, qaxis_rotate_perp by assumption.
    replace (1 - 2 * (sin (th / 2) * sin (th / 2))) with (cos th).
    - replace (2 * sin (th / 2) * cos (th / 2)) with (sin th); [reflexivity|]. replace th with (2 * (th / 2)) at 1 by field. apply sin_2a.
    - replace th with (2 * (th / 2)) at 1 by field. rewrite cos_2a_sin. ring. }
  cbv zeta.
  (* the frame *)
  assert (Luv : 0 < len3 u * len3 v) by nra.
  assert (UV : dot3 u v = - (len3 u * len3 v) * c0) by (unfold c0; field; lra).
  assert (UB : dot3 u (cross3 A v) = B) by (unfold B; v3s; ring).
  assert (BB : B = sg * (len3 u * len3 v) * sin al0).
  { assert (K : B * B = (len3 u * len3 v * sin al0) * (len3 u * len3 v * sin al0)).
    { replace ((len3 u * len3 v * sin al0) * (len3 u * len3 v * sin al0)) with ((len3 u * len3 u) * (len3 v * len3 v) * (sin al0 * sin al0)) by ring.
      rewrite Qb, !len3_sq. transitivity (dot3 u u * dot3 v v - dot3 u v * dot3 u v).
      - pose proof (ortho_decomp A u v HA Hu Hv) as D.
        assert (DV : dot3 (scale3 (dot3 u u) v) v = dot3 u v * dot3 u v + dot3 A (cross3 u v) * dot3 (cross3 A u) v) by (rewrite D, dot3_plus_l, !dot3_scale_l; ring).
        rewrite dot3_scale_l in DV. rewrite DV. replace (dot3 A (cross3 u v)) with (- B) by (unfold B; v3s; ring). replace (dot3 (cross3 A u) v) with (- B) by (unfold B; v3s; ring). ring.
      - rewrite UV. rewrite <- (len3_sq u), <- (len3_sq v). ring. }
    assert (N : 0 <= len3 u * len3 v * sin al0) by nra. unfold sg, sgn. destruct (Rltb_spec B 0) as [L|L].
    - assert (- B = len3 u * len3 v * sin al0) by (apply sq_eq; [lra|exact N|rewrite <- K; ring]). lra.
    - assert (B = len3 u * len3 v * sin al0) by (apply sq_eq; [lra|exact N|exact K]). lra. }
  assert (Csg : cos (sg * al0) = cos al0) by (unfold sg, sgn; destruct (Rltb B 0); [replace (-1 * al0) with (- al0) by ring; apply cos_neg|rewrite Rmult_1_l; reflexivity]).
  assert (Ssg : sin (sg * al0) = sg * sin al0) by (unfold sg, sgn; destruct (Rltb B 0); [replace (-1 * al0) with (- al0) by ring; rewrite sin_neg; ring|rewrite !Rmult_1_l; reflexivity]).
  assert (Eal : al = th + sg * al0) by (unfold th; ring).
  assert (UR : dot3 u (rotate (q_of q) v) = - (len3 u * len3 v) * cos al).
  { rewrite RV, dot3_plus_r, !dot3_scale_r, UB, UV, BB, Eal, cos_plus, Csg, Ssg, Cb. ring. }
  assert (Uq : unitq (q_of q)) by (unfold unitq; rewrite Qq, qaxis_norm, HA; lra).
  assert (VV : dot3 (rotate (q_of q) v) (rotate (q_of q) v) = dot3 v v) by (apply rotate_dot, Uq).
  split; [|split].
  - apply sq_eq.
    + apply Rmult_le_pos; [lra|apply len3_nn].
    + assert (Ale : Rabs (p - r) <= p + r) by (unfold Rabs; destruct (Rcase_abs (p - r)); lra).
      pose proof (clampR_bounds (Rabs (p - r)) (p + r) S Ale). pose proof (Rabs_pos (p - r)). lra.
    + fold p r. rewrite <- law_of_cosines by assumption. fold c.
      set (w := plus3 u (rotate (q_of q) v)). replace (rho * len3 w * (rho * len3 w)) with (rho * rho * (len3 w * len3 w)) by ring. rewrite len3_sq. unfold w.
      rewrite dot3_plus_l, !dot3_plus_r, (dot3_comm (rotate (q_of q) v) u), UR, VV, Ca.
      rewrite <- P2, <- R2. unfold p, r. ring.
  - assert (Z : dot3 u (cross3 A (plus3 u (rotate (q_of q) v))) = dot3 u (cross3 A (rotate (q_of q) v))) by (v3s; ring). rewrite Z, RV.
    assert (Y : dot3 u (cross3 A (plus3 (scale3 (cos th) v) (scale3 (sin th) (cross3 A v)))) = cos th * dot3 u (cross3 A v) + sin th * (dot3 A v * dot3 u A - dot3 A A * dot3 u v)) by (v3s; ring).
    rewrite Y, UB, HA, Hv, UV, BB. 
    replace (cos th * (sg * (len3 u * len3 v) * sin al0) + sin th * (0 * dot3 u A - 1 * (- (len3 u * len3 v) * c0)))
      with ((len3 u * len3 v) * (sin th * cos al0 + cos th * (sg * sin al0))) by (rewrite Cb; ring).
    rewrite <- Csg, <- Ssg, <- sin_plus, <- Eal. nra.
  - rewrite dot3_plus_r, Hu, RV, dot3_plus_r, !dot3_scale_r, Hv. replace (dot3 A (cross3 A v)) with 0 by (v3s; ring). ring.
Qed.

Lemma start_R aa (j : ik2_job R) (s : setup R) mid_rot t t2 :
  let T := v3_of t in let inv := s_inv_start s in
  0 < dot3 T T -> l0 t2 = dot3 T T -> twist_known aa (i2_twist j) -> unitq (q_of mid_rot) ->
  let X := plus3 (v3_of (s_start_mid_ss s)) (lin inv (lin (i2_mid j) (rotate (q_of mid_rot) (v3_of (s_mid_end_ms s))))) in
  let n0 := cross3 T (lin inv (v3_of (i2_pole j))) in
  0 < dot3 n0 n0 ->
  exists x q r, v3_of x = X /\
    let e2t := q_of (quat_from_vectors x t) in let n := rotate e2t (lin inv (lin (i2_mid j) (v3_of (i2_mid_axis j)))) in
    (0 < dot3 n n ->
    ik2_start_rot aa j s mid_rot t t2 = Some q /\ about T r /\ q_of q = hamilton r e2t /\
    (i2_twist j = 0 -> dot3 T n = 0 -> rotate r n = scale3 (len3 n / len3 n0) n0)).
Proof.
  intros T inv HT Ht2 Htw Um X n0 Hn0. unfold ik2_start_rot. cbv zeta. change (@num_arith R Rnum) with Rarith. fold inv.
  match goal with |- context [quat_from_vectors ?x t] => set (xf := x) end.
  assert (EX : v3_of xf = X).
  { unfold xf. change (@V4_arith R Rarith) with (@V4_arith R (@num_arith R Rnum)). rewrite v3_add_R, !transform_vector_R, transform_vector_rotate by exact Um. reflexivity. }
  set (e2t := q_of (quat_from_vectors xf t)). assert (Ue : unitq e2t) by apply qfv_unit.
  set (ref := vec3_cross t (transform_vector inv (i2_pole j))).
  assert (Er : v3_of ref = n0) by (unfold ref; rewrite v3_cross_R, transform_vector_R; reflexivity).
  set (jn := quat_transform_vector (quat_from_vectors xf t) (transform_vector inv (transform_vector (i2_mid j) (i2_mid_axis j)))).
  set (n := rotate e2t (lin inv (lin (i2_mid j) (v3_of (i2_mid_axis j))))).
  assert (En : v3_of jn = n) by (unfold jn; rewrite transform_vector_rotate by exact Ue; rewrite !transform_vector_R; reflexivity).
  set (T1 := scale3 (/ sqrt (dot3 T T)) T). assert (U1 : dot3 T1 T1 = 1) by (apply unit_scaled, HT).
  pose proof (sqrt_lt_R0 _ HT) as HsT.
  assert (TT1 : T = scale3 (sqrt (dot3 T T)) T1) by (unfold T1; rewrite scale3_scale, Rinv_r by lra; symmetry; apply scale3_1).
  rewrite set_yz_lanes, !len2_s_R, Er, En, Ht2, !recip_lanes. cbn [l0 l1 l2 l3]. 
  change (@nlt R Rnum) with Rltb. change (@neq R Rnum) with Reqb. rewrite !nzero_R. destruct (Rltb_spec 0 (dot3 T T)) as [_|]; [|lra].
  set (rs := mk4 (/ sqrt (dot3 T T)) (/ sqrt (dot3 n0 n0)) (/ sqrt (dot3 n n)) (/ sqrt (l3 t2))).
  assert (Ax : v3_of (t * splat_x rs)%num = T1) by (rewrite v3_splat_x; reflexivity). change (@num_arith R Rnum) with Rarith in Ax.
  match goal with |- context [quat_from_cos_angle ?a ?b] => set (rp := quat_from_cos_angle a b) end.
  assert (Q : exists b c, q_of rp = qaxis (scale3 (sgn b) T1) (sqrt ((1 - c) / 2)) (sqrt ((1 + c) / 2)) /\ -1 <= c <= 1 /\
     b = Rltb (dot3 n (lin inv (v3_of (i2_pole j)))) 0 /\ (0 < dot3 n n -> c = dot3 n n0 / (len3 n * len3 n0))).
  { unfold rp. rewrite from_cos_angle_R; rewrite simd_clamp_R; [|apply clampR_bounds; lra].
    rewrite v3_flip, Ax, !dot_s_R, En, transform_vector_R. eexists. eexists. split; [reflexivity|]. split; [apply clampR_bounds; lra|]. split; [reflexivity|].
    intros Hn. assert (L1 : 0 < len3 n) by (apply sqrt_lt_R0, Hn). assert (L2 : 0 < len3 n0) by (apply sqrt_lt_R0, Hn0).
    change (@V4_arith R Rarith) with (@V4_arith R (@num_arith R Rnum)). rewrite v3_splat_y, v3_splat_z, En, Er. cbn [rs l1 l2].
    change (sqrt (dot3 n n)) with (len3 n). change (sqrt (dot3 n0 n0)) with (len3 n0).
    replace (dot3 (scale3 (/ len3 n0) n0) (scale3 (/ len3 n) n)) with (dot3 n n0 / (len3 n * len3 n0)) by (rewrite dot3_scale_l, dot3_scale_r, (dot3_comm n0 n); field; lra).
    apply clampR_id, cos_range; assumption. }
  destruct Q as (b & c & Qrp & Rc & Hb & Hc). destruct (half_angles c Rc) as (U & _).
  assert (AB : about T (q_of rp)).
  { rewrite Qrp. eapply about_qaxis with (m := sqrt (dot3 T T) * sgn b); [apply sgn_axis, U1|exact U|].
    rewrite <- scale3_scale. rewrite (scale3_scale (sgn b) (sgn b)), sgn_sq, scale3_1. exact TT1. }
  exists xf. destruct (Reqb_spec (i2_twist j) 0) as [Z|NZ]; cbn [negb].
  - exists (quat_mul rp (quat_from_vectors xf t)), (q_of rp). split; [exact EX|]. intros Hn. fold e2t n in Hn. split; [reflexivity|]. split; [exact AB|].
    split; [apply quat_mul_hamilton|]. intros _ Hp. change (dot3 T n = 0) in Hp. change (rotate (q_of rp) n = scale3 (len3 n / len3 n0) n0). rewrite Qrp, (Hc Hn).
    apply plane_rotation; try assumption.
    + unfold T1. rewrite dot3_scale_l, Hp. ring.
    + unfold T1, n0. rewrite dot3_scale_l. replace (dot3 T (cross3 T (lin inv (v3_of (i2_pole j))))) with 0 by (v3s; ring). ring.
    + apply sqrt_lt_R0, Hn.
    + apply sqrt_lt_R0, Hn0.
    + unfold sgn. destruct b; [right|left]; reflexivity.
    + set (p := lin inv (v3_of (i2_pole j))) in *.
      assert (Y : dot3 T1 (cross3 n n0) = sqrt (dot3 T T) * dot3 n p).
      { assert (Y : cross3 n n0 = minus3 (scale3 (dot3 n p) T) (scale3 (dot3 T n) p)) by (unfold n0; v3s; f_equal; ring).
        rewrite Y, Hp. replace (minus3 (scale3 (dot3 n p) T) (scale3 0 p)) with (scale3 (dot3 n p) T) by (v3s; f_equal; ring).
        rewrite dot3_scale_r. rewrite TT1 at 1. rewrite dot3_scale_r, U1. ring. }
      rewrite Y, Hb. unfold sgn. destruct (Rltb_spec (dot3 n p) 0); nra.
  - destruct Htw as [|Haa]; [contradiction|]. subst aa.
    destruct (exact_axis_angle_R (t * splat_x rs)%num (splat (i2_twist j))) as (w & Ew & Qw). change (@num_arith R Rnum) with Rarith in Ew, Qw. rewrite Ew.
    exists (quat_mul (quat_mul w rp) (quat_from_vectors xf t)), (hamilton (q_of w) (q_of rp)). split; [exact EX|]. intros Hn. split; [reflexivity|]. split; [|split].
    + apply about_hamilton; [|exact AB]. rewrite Qw, Ax. eapply about_qaxis; [exact U1|apply sin_cos_unit|exact TT1].
    + rewrite !quat_mul_hamilton. reflexivity.
    + intros; contradiction.
Qed.

(** ** The constant setup of placed joints *)
Lemma pt_inv_origin m q k : placed m q k -> pt (mat_invert m) (origin m) = V3 0 0 0.
Proof.
  intros H. destruct (placed_inv m q k H) as (_ & I2 & _).
  assert (O : origin m = pt m (V3 0 0 0)) by (destruct m as [[? ? ? ?] [? ? ? ?] [? ? ? ?] [? ? ? ?]]; unfold origin, pt, apply_point, ent, v3_of; cbn; f_equal; ring).
  rewrite O, I2. reflexivity.
Qed.
Lemma pt_minus m q k a b : placed m q k -> minus3 (pt (mat_invert m) a) (pt (mat_invert m) b) = scale3 (/ k) (rotate (conj q) (minus3 a b)).
Proof. intros H. destruct (placed_inv m q k H) as (_ & _ & L). rewrite <- lin_minus. apply L. Qed.
Lemma minus3_0 a : minus3 a (V3 0 0 0) = a. Proof. destruct a. v3s. f_equal; ring. Qed.
Lemma softened_scale a b s d k : 0 < k -> softened (k * a) (k * b) s (k * d) = k * softened a b s d.
Proof.
  intros Hk. unfold softened. set (c := clampR 0 1 s).
  replace ((k * a + k * b) * c) with (k * ((a + b) * c)) by ring. set (da := (a + b) * c).
  replace (k * a + k * b - k * da) with (k * (a + b - da)) by ring. set (ds := a + b - da).
  assert (I : forall x y, k * x < k * y <-> x < y) by (intros; split; intros; nra).
  assert (I0 : forall y, 0 < k * y <-> 0 < y) by (intros; split; intros; nra).
  destruct (Rlt_dec (k * da) (k * d)) as [A|A], (Rlt_dec da d) as [A'|A']; try (exfalso; exact (A' (proj1 (I _ _) A))); try (exfalso; exact (A (proj2 (I _ _) A'))); [|reflexivity].
  destruct (Rlt_dec 0 (k * d)) as [B|B], (Rlt_dec 0 d) as [B'|B']; try (exfalso; exact (B' (proj1 (I0 _) B))); try (exfalso; exact (B (proj2 (I0 _) B'))); [|reflexivity].
  destruct (Rlt_dec 0 (k * ds)) as [C|C], (Rlt_dec 0 ds) as [C'|C']; try (exfalso; exact (C' (proj1 (I0 _) C))); try (exfalso; exact (C (proj2 (I0 _) C'))); [|reflexivity].
  replace ((k * d - k * da) / (k * ds)) with ((d - da) / ds) by (field; lra).
  assert (0 < (d - da) / ds) by (apply Rdiv_lt_0_compat; lra). field. split; lra.
Qed.
Lemma clampR_scale lo hi x k : 0 < k -> clampR (k * lo) (k * hi) (k * x) = k * clampR lo hi x.
Proof.
  intros Hk. unfold clampR.
  assert (E : Rmin (k * hi) (k * x) = k * Rmin hi x) by (unfold Rmin; destruct (Rle_dec (k * hi) (k * x)), (Rle_dec hi x); try reflexivity; exfalso; nra).
  rewrite E. apply RmaxRmult. lra.
Qed.

Section TwoBone.
  Context (j : ik2_job R) (q1 q2 : quat R) (k1 k2 : R).
  Hypothesis (H1 : placed (i2_start j) q1 k1) (H2 : placed (i2_mid j) q2 k2).
  Let S := origin (i2_start j). Let M := origin (i2_mid j). Let E := origin (i2_end j). Let T := v3_of (i2_target j).
  Let s := ik2_setup j.
  Let rho := k2 * / k1.
  Let rr := hamilton (conj q1) q2.
  Let u := v3_of (s_start_mid_ms s). Let v := v3_of (s_mid_end_ms s).

  Lemma tb_k : 0 < k1 /\ 0 < k2. Proof using H1 H2. destruct H1 as (_ & _ & ? & _), H2 as (_ & _ & ? & _). auto. Qed.
  Lemma tb_rho : 0 < rho. Proof using H1 H2. destruct tb_k. apply Rmult_lt_0_compat; [assumption|apply Rinv_0_lt_compat; assumption]. Qed.
  Lemma tb_rr : unitq rr.
  Proof using H1 H2. destruct H1 as (_ & U1 & _), H2 as (_ & U2 & _). unfold rr, unitq. rewrite hamilton_norm, U2. rewrite (conj_unit q1 U1). ring. Qed.
  Lemma tb_M x : lin (s_inv_start s) (lin (i2_mid j) x) = scale3 rho (rotate rr x).
  Proof using H1 H2.
    destruct (placed_inv _ _ _ H1) as (_ & _ & L). cbn [s ik2_setup s_inv_start]. rewrite L, (placed_lin _ _ _ x H2), rotate_scale, <- rotate_compose, scale3_scale.
    unfold rho. f_equal. ring.
  Qed.
  Lemma tb_u : lin (i2_mid j) u = minus3 M S.
  Proof using H1 H2.
    destruct (placed_inv _ _ _ H2) as (I1 & _ & _). unfold u. cbn [s ik2_setup s_start_mid_ms]. rewrite v3_neg_R, transform_point_R.
    unfold neg3. rewrite lin_scale. unfold lin. rewrite I1. fold M. change (v3_of (l3 (i2_start j))) with S. v3s. f_equal; ring.
  Qed.
  Lemma tb_v : lin (i2_mid j) v = minus3 E M.
  Proof using H1 H2.
    destruct (placed_inv _ _ _ H2) as (I1 & _ & _). unfold v. cbn [s ik2_setup s_mid_end_ms]. rewrite transform_point_R. unfold lin. rewrite I1. reflexivity.
  Qed.
  Lemma tb_lin_len x : len3 (lin (i2_mid j) x) = k2 * len3 x.
  Proof using H2. destruct H2 as (_ & U & Hk & _). rewrite (placed_lin _ _ _ x H2), len3_sc, rotate_len by (try exact U; lra). reflexivity. Qed.
  Lemma tb_l1 : dist S M = k2 * len3 u. Proof using H1 H2. unfold dist. rewrite <- tb_u. apply tb_lin_len. Qed.
  Lemma tb_l2 : dist M E = k2 * len3 v. Proof using H1 H2. unfold dist. rewrite <- tb_v. apply tb_lin_len. Qed.
  Lemma tb_pt_S : pt (s_inv_start s) S = V3 0 0 0. Proof using H1. exact (pt_inv_origin _ _ _ H1). Qed.
  Lemma tb_ss x : pt (s_inv_start s) x = lin (s_inv_start s) (minus3 x S).
  Proof using H1. rewrite lin_minus, tb_pt_S, minus3_0. reflexivity. Qed.
  Lemma tb_start_mid_ss : v3_of (s_start_mid_ss s) = scale3 rho (rotate rr u).
  Proof using H1 H2.
    rewrite <- tb_M, tb_u. cbn [s ik2_setup s_start_mid_ss]. rewrite transform_point_R. exact (tb_ss M).
  Qed.
  Lemma tb_dot_M x y : dot3 (scale3 rho (rotate rr x)) (scale3 rho (rotate rr y)) = rho * rho * dot3 x y.
  Proof using H1 H2. rewrite dot3_scale_l, dot3_scale_r, rotate_dot by exact tb_rr. ring. Qed.
  Lemma tb_len1 : l0 (s_start_mid_len2 s) = rho * rho * dot3 u u.
  Proof using H1 H2. cbn [s ik2_setup s_start_mid_len2]. rewrite len2_s_R. rewrite <- tb_dot_M, <- tb_start_mid_ss. reflexivity. Qed.
  Lemma tb_end_ss : pt (s_inv_start s) E = scale3 rho (rotate rr (plus3 u v)).
  Proof using H1 H2.
    rewrite tb_ss, <- tb_M, lin_plus, tb_u, tb_v. f_equal. v3s. f_equal; ring.
  Qed.
  Lemma tb_len2 : l0 (s_mid_end_len2 s) = rho * rho * dot3 v v.
  Proof using H1 H2.
    cbn [s ik2_setup s_mid_end_len2]. rewrite len2_s_R, v3_sub_R, !transform_point_R. change (v3_of (l3 (i2_end j))) with E. change (v3_of (l3 (i2_mid j))) with M.
    change (mat_invert (i2_start j)) with (s_inv_start s). rewrite <- lin_minus, <- tb_v, tb_M. apply tb_dot_M.
  Qed.
  Lemma tb_len3 : l0 (s_start_end_len2 s) = rho * rho * dot3 (plus3 u v) (plus3 u v).
  Proof using H1 H2.
    cbn [s ik2_setup s_start_end_len2]. rewrite len2_s_R, transform_point_R. change (v3_of (l3 (i2_end j))) with E. change (mat_invert (i2_start j)) with (s_inv_start s).
    rewrite tb_end_ss. apply tb_dot_M.
  Qed.
  (** Lengths in start space are model-space lengths over k1. *)
  Lemma tb_target : v3_of (transform_point (s_inv_start s) (i2_target j)) = scale3 (/ k1) (rotate (conj q1) (minus3 T S)).
  Proof using H1. rewrite transform_point_R, tb_ss. destruct (placed_inv _ _ _ H1) as (_ & _ & L). apply L. Qed.
  Lemma tb_target_len : len3 (v3_of (transform_point (s_inv_start s) (i2_target j))) = / k1 * dist S T.
  Proof using H1.
    destruct H1 as (_ & U & Hk & _). rewrite tb_target, len3_sc by (apply Rlt_le, Rinv_0_lt_compat, Hk). rewrite rotate_len by (apply conj_unit, U). reflexivity.
  Qed.
  Lemma tb_sqrt1 : sqrt (l0 (s_start_mid_len2 s)) = / k1 * dist S M.
  Proof using H1 H2.
    destruct tb_k. rewrite tb_len1, tb_l1, sqrt_mult, sqrt_square by (try apply dot3_nonneg; pose proof tb_rho; nra). unfold rho, len3. ring.
  Qed.
  Lemma tb_sqrt2 : sqrt (l0 (s_mid_end_len2 s)) = / k1 * dist M E.
  Proof using H1 H2.
    destruct tb_k. rewrite tb_len2, tb_l2, sqrt_mult, sqrt_square by (try apply dot3_nonneg; pose proof tb_rho; nra). unfold rho, len3. ring.
  Qed.
End TwoBone.
