(** Lengths of vectors, and how far rotations by nearby quaternions differ. *)
From Coq Require Import Reals Lra Psatz.
From Flocq Require Import Core.
From Verif Require Import Base Num NumR Math MathSpec MathProofs MathProps Ik IkSpec IkProofs BlendingSpec AdditiveSpec QuatNorm.
Local Open Scope R_scope.

Lemma pn v : qn (pure v) = len3 v.
Proof. unfold qn, len3, norm2, pure, dot3. cbn [qx qy qz qw]. f_equal. ring. Qed.
Lemma pure_plus a b : pure (plus3 a b) = qadd (pure a) (pure b). Proof. unfold pure, plus3, qadd. cbn. f_equal. ring. Qed.
Lemma pure_minus a b : pure (minus3 a b) = qsub (pure a) (pure b). Proof. unfold pure, minus3, qsub, qadd, qscale. cbn. f_equal; ring. Qed.
Lemma pure_scale k a : pure (scale3 k a) = qscale k (pure a). Proof. unfold pure, scale3, qscale. cbn. f_equal; ring. Qed.
Lemma len3_tri a b : len3 (plus3 a b) <= len3 a + len3 b. Proof. rewrite <- !pn, pure_plus. apply qn_tri. Qed.
Lemma len3_mtri a b c : len3 (minus3 a c) <= len3 (minus3 a b) + len3 (minus3 b c). Proof. rewrite <- !pn, !pure_minus. apply qsub_tri. Qed.
Lemma len3_diff a b : Rabs (len3 a - len3 b) <= len3 (minus3 a b). Proof. rewrite <- !pn, pure_minus. apply qn_diff. Qed.
Lemma len3_msym a b : len3 (minus3 a b) = len3 (minus3 b a). Proof. rewrite <- !pn, !pure_minus. apply qsub_sym. Qed.
Lemma len3_abs k a : len3 (scale3 k a) = Rabs k * len3 a. Proof. rewrite <- !pn, pure_scale. apply qn_scale. Qed.
Lemma len3_neg a : len3 (neg3 a) = len3 a. Proof. unfold neg3. rewrite len3_abs, Rabs_left by lra. ring. Qed.
Lemma len3_of_sq a b : 0 <= b -> dot3 a a <= b * b -> len3 a <= b.
Proof. intros Hb H. unfold len3. rewrite <- (sqrt_square b) by exact Hb. apply sqrt_le_1; auto using dot3_nonneg. nra. Qed.
Lemma len3_le a e : 0 <= e -> Rabs (vx a) <= e -> Rabs (vy a) <= e -> Rabs (vz a) <= e -> len3 a <= 1.7321 * e.
Proof.
  intros He H0 H1 H2. apply len3_of_sq; [lra|]. apply Rabs_le_inv in H0. apply Rabs_le_inv in H1. apply Rabs_le_inv in H2. unfold dot3. nra.
Qed.
Lemma dot3_abs a b : Rabs (vx a * vx b) + Rabs (vy a * vy b) + Rabs (vz a * vz b) <= len3 a * len3 b.
Proof.
  set (a' := V3 (Rabs (vx a)) (Rabs (vy a)) (Rabs (vz a))). set (b' := V3 (Rabs (vx b)) (Rabs (vy b)) (Rabs (vz b))).
  assert (S : forall x, Rabs x * Rabs x = x * x) by (intros x; rewrite <- Rabs_mult; apply Rabs_pos_eq; nra).
  assert (La : dot3 a' a' = dot3 a a) by (unfold dot3, a'; cbn [vx vy vz]; rewrite !S; reflexivity).
  assert (Lb : dot3 b' b' = dot3 b b) by (unfold dot3, b'; cbn [vx vy vz]; rewrite !S; reflexivity).
  pose proof (cauchy a' b') as C. rewrite La, Lb, <- (len3_sq a), <- (len3_sq b) in C. rewrite !Rabs_mult. change (dot3 a' b' <= len3 a * len3 b).
  pose proof (len3_nn a). pose proof (len3_nn b). assert (0 <= len3 a * len3 b) by nra.
  assert (C' : dot3 a' b' * dot3 a' b' <= (len3 a * len3 b) * (len3 a * len3 b)) by lra.
  apply abs_le_sq in C'; [lra|assumption].
Qed.
Lemma dot3_le a b : Rabs (dot3 a b) <= len3 a * len3 b.
Proof. eapply Rle_trans; [|apply dot3_abs]. unfold dot3. eapply Rle_trans; [apply Rabs_triang|]. apply Rplus_le_compat_r, Rabs_triang. Qed.
Lemma pair_abs p q r s n m : 0 <= n -> 0 <= m -> p * p + q * q <= n * n -> r * r + s * s <= m * m -> Rabs (p * s) + Rabs (q * r) <= n * m.
Proof.
  intros Hn Hm H1 H2. rewrite !Rabs_mult. assert (S : forall x, Rabs x * Rabs x = x * x) by (intros x; rewrite <- Rabs_mult; apply Rabs_pos_eq; nra).
  pose proof (S p) as Sp. pose proof (S q) as Sq. pose proof (S r) as Sr. pose proof (S s) as Ss. set (a := Rabs p) in *. set (b := Rabs q) in *. set (c := Rabs r) in *. set (d := Rabs s) in *.
  assert (0 <= n * m) by nra. assert (Q : (a * d + b * c) * (a * d + b * c) <= (n * m) * (n * m)).
  { apply Rle_trans with ((a * a + b * b) * (c * c + d * d)).
    - pose proof (Rle_0_sqr (a * c - b * d)) as K. unfold Rsqr in K. lra.
    - rewrite Sp, Sq, Sr, Ss. replace (n * m * (n * m)) with ((n * n) * (m * m)) by ring. apply Rmult_le_compat; nra. }
  apply abs_le_sq in Q; [lra|assumption].
Qed.
Lemma cross3_abs a b : Rabs (vy a * vz b) + Rabs (vz a * vy b) <= len3 a * len3 b /\ Rabs (vz a * vx b) + Rabs (vx a * vz b) <= len3 a * len3 b /\
  Rabs (vx a * vy b) + Rabs (vy a * vx b) <= len3 a * len3 b.
Proof.
  pose proof (len3_nn a). pose proof (len3_nn b). pose proof (len3_sq a) as Sa. pose proof (len3_sq b) as Sb. unfold dot3 in Sa, Sb.
  pose proof (Rle_0_sqr (vx a)). pose proof (Rle_0_sqr (vy a)). pose proof (Rle_0_sqr (vz a)). pose proof (Rle_0_sqr (vx b)). pose proof (Rle_0_sqr (vy b)). pose proof (Rle_0_sqr (vz b)). unfold Rsqr in *.
  repeat split; apply pair_abs; lra.
Qed.

(** ** Rotating *)
Lemma pure_rotate q v : pure (rotate q v) = hamilton (hamilton q (pure v)) (conj q).
Proof. unfold rotate, pure, hamilton, hvec, conj, cross3, dot3. cbn. f_equal. ring. Qed.
Lemma rot_len q v : len3 (rotate q v) = norm2 q * len3 v.
Proof. rewrite <- !pn, pure_rotate, !qn_ham, qn_conj, <- qn_sq. ring. Qed.
Lemma rot_sub a b v : len3 (minus3 (rotate a v) (rotate b v)) <= (qn a + qn b) * qn (qsub a b) * len3 v.
Proof.
  rewrite <- !pn, pure_minus, !pure_rotate. eapply Rle_trans; [apply ham_sub|]. rewrite conj_sub, qn_conj, qn_ham.
  assert (H : qn (qsub (hamilton a (pure v)) (hamilton b (pure v))) <= qn (qsub a b) * qn (pure v)).
  { eapply Rle_trans; [apply ham_sub|]. replace (qn (qsub (pure v) (pure v))) with 0; [lra|].
    unfold qn, norm2, qsub, qadd, qscale, pure. cbn [qx qy qz qw]. replace (_ + _) with 0 by ring. rewrite sqrt_0. reflexivity. }
  pose proof (qn_pos a). pose proof (qn_pos b). pose proof (qn_pos (qsub a b)). pose proof (qn_pos (pure v)).
  apply Rle_trans with (qn (qsub a b) * qn (pure v) * qn a + qn b * qn (pure v) * qn (qsub a b)); [|lra].
  apply Rplus_le_compat_r, Rmult_le_compat_r; assumption.
Qed.
Lemma rotate_qscale k q v : rotate (qscale k q) v = scale3 (k * k) (rotate q v).
Proof. rewrite !rotate_explicit. unfold qscale, scale3. cbn [qx qy qz qw vx vy vz]. f_equal; ring. Qed.

(** ** The rotation taking one vector onto another *)
Definition onto (u v : vec3 R) : quat R :=
  Q4 (vx (cross3 u v)) (vy (cross3 u v)) (vz (cross3 u v)) (len3 u * len3 v + dot3 u v).
Lemma onto_norm u v : norm2 (onto u v) = 2 * (len3 u * len3 v) * (len3 u * len3 v + dot3 u v).
Proof.
  assert (E : (len3 u * len3 v) * (len3 u * len3 v) = dot3 u u * dot3 v v) by (rewrite <- !len3_sq; ring).
  unfold norm2, onto. cbn [qx qy qz qw]. set (p := len3 u * len3 v) in *.
  replace (2 * p * (p + dot3 u v)) with (p * p + p * p + 2 * (p * dot3 u v)) by ring.
  replace ((p + dot3 u v) * (p + dot3 u v)) with (p * p + 2 * (p * dot3 u v) + dot3 u v * dot3 u v) by ring.
  rewrite E. clearbody p. unfold cross3, dot3. cbn [vx vy vz]. ring.
Qed.
Lemma onto_rotate u v : 0 < len3 u -> 0 < len3 v -> rotate (onto u v) u = scale3 (norm2 (onto u v) * (len3 u / len3 v)) v.
Proof.
  intros Hu Hv. rewrite onto_norm. replace (2 * (len3 u * len3 v) * (len3 u * len3 v + dot3 u v) * (len3 u / len3 v)) with (2 * (len3 u * len3 u) * (len3 u * len3 v + dot3 u v)) by (field; lra).
  rewrite len3_sq. rewrite rotate_explicit. unfold onto. cbn [qx qy qz qw].
  assert (E : (len3 u * len3 v) * (len3 u * len3 v) = dot3 u u * dot3 v v) by (rewrite <- !len3_sq; ring). set (p := len3 u * len3 v) in *. clearbody p.
  destruct u as [u0 u1 u2], v as [v0 v1 v2]. unfold cross3, scale3, dot3 in *. cbn [vx vy vz] in *. f_equal; ring [E].
Qed.
Lemma onto_unit u v : 0 < len3 u -> 0 < len3 v -> 0 < qn (onto u v) -> rotate (qscale (/ qn (onto u v)) (onto u v)) u = scale3 (len3 u / len3 v) v.
Proof.
  intros Hu Hv Hq. rewrite rotate_qscale, onto_rotate, scale3_scale by assumption. rewrite <- qn_sq. f_equal. field. lra.
Qed.
(** A half turn about an axis across [u]. *)
Lemma half_turn c u : qw c = 0 -> norm2 c = 1 -> qx c * vx u + qy c * vy u + qz c * vz u = 0 -> rotate c u = neg3 u.
Proof.
  intros W N P. rewrite rotate_explicit. destruct c as [x y z w], u as [u0 u1 u2]. unfold norm2, neg3, scale3 in *. cbn [qx qy qz qw vx vy vz] in *. subst w.
  set (d := x * u0 + y * u1 + z * u2) in *. set (n := x * x + y * y + z * z + 0 * 0) in *.
  f_equal; [replace (-1 * u0) with (2 * x * d - n * u0) by (rewrite P, N; ring)|replace (-1 * u1) with (2 * y * d - n * u1) by (rewrite P, N; ring)
    |replace (-1 * u2) with (2 * z * d - n * u2) by (rewrite P, N; ring)]; unfold d, n; ring.
Qed.
Lemma opposite u v : 0 < len3 u -> 0 < len3 v ->
  len3 (minus3 (neg3 u) (scale3 (len3 u / len3 v) v)) * len3 (minus3 (neg3 u) (scale3 (len3 u / len3 v) v)) = 2 * len3 u / len3 v * (len3 u * len3 v + dot3 u v).
Proof.
  intros Hu Hv. rewrite len3_sq. set (k := len3 u / len3 v).
  replace (dot3 (minus3 (neg3 u) (scale3 k v)) (minus3 (neg3 u) (scale3 k v))) with (dot3 u u + 2 * k * dot3 u v + k * k * dot3 v v) by (v3s; ring).
  rewrite <- !len3_sq. unfold k. field. lra.
Qed.
