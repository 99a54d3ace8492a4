(** The length of a quaternion. *)
From Coq Require Import Reals Lra Psatz.
From Flocq Require Import Core.
From Verif Require Import Base Num NumR Math MathSpec MathProofs BlendingSpec AdditiveSpec.
Local Open Scope R_scope.

Definition qn (q : quat R) : R := sqrt (norm2 q).
Definition qsub (a b : quat R) : quat R := qadd a (qscale (-1) b).
Lemma n2_nonneg q : 0 <= norm2 q. Proof. unfold norm2. nra. Qed.
Lemma qn_pos q : 0 <= qn q. Proof. apply sqrt_pos. Qed.
Lemma qn_sq q : qn q * qn q = norm2 q. Proof. apply sqrt_sqrt, n2_nonneg. Qed.
Lemma qn_ham a b : qn (hamilton a b) = qn a * qn b.
Proof. unfold qn. rewrite hamilton_norm. apply sqrt_mult; apply n2_nonneg. Qed.
Lemma n2_conj a : norm2 (conj a) = norm2 a. Proof. unfold norm2, conj. cbn. ring. Qed.
Lemma qn_conj a : qn (conj a) = qn a. Proof. unfold qn. rewrite n2_conj. reflexivity. Qed.
Lemma qn_scale k a : qn (qscale k a) = Rabs k * qn a.
Proof.
  unfold qn. replace (norm2 (qscale k a)) with ((k * k) * norm2 a) by (unfold norm2, qscale; cbn; ring).
  rewrite sqrt_mult by (try apply n2_nonneg; nra). f_equal. apply sqrt_Rsqr_abs.
Qed.
Lemma qdot_le a b : Rabs (qdot a b) <= qn a * qn b.
Proof.
  rewrite <- qn_conj, <- qn_ham. unfold qn. rewrite <- sqrt_Rsqr_abs. apply sqrt_le_1_alt. unfold Rsqr.
  replace (qdot a b) with (qw (hamilton (conj a) b)).
  - unfold norm2. generalize (hamilton (conj a) b). intros q. nra.
  - destruct a, b. unfold qdot, hamilton, hvec, cross3, dot3, conj. cbn. ring.
Qed.
Lemma qn_tri a b : qn (qadd a b) <= qn a + qn b.
Proof.
  pose proof (qdot_le a b) as D. pose proof (qn_pos a). pose proof (qn_pos b). pose proof (qn_pos (qadd a b)).
  pose proof (qn_sq a). pose proof (qn_sq b). pose proof (qn_sq (qadd a b)).
  assert (E : norm2 (qadd a b) = norm2 a + norm2 b + 2 * qdot a b) by (unfold norm2, qadd, qdot; cbn; ring).
  pose proof (Rle_abs (qdot a b)). set (x := qn a) in *. set (y := qn b) in *. set (z := qn (qadd a b)) in *. clearbody x y z.
  apply Rnot_lt_le. intros L. assert ((x + y) * (x + y) < z * z) by nra. nra.
Qed.
Lemma qn_comp q : Rabs (qx q) <= qn q /\ Rabs (qy q) <= qn q /\ Rabs (qz q) <= qn q /\ Rabs (qw q) <= qn q.
Proof.
  unfold qn. rewrite <- !(sqrt_Rsqr_abs). unfold Rsqr, norm2. repeat split; apply sqrt_le_1_alt; nra.
Qed.
Lemma qn_le q e : 0 <= e -> Rabs (qx q) <= e -> Rabs (qy q) <= e -> Rabs (qz q) <= e -> Rabs (qw q) <= e -> qn q <= 2 * e.
Proof.
  intros E A B C D. unfold qn. rewrite <- (sqrt_square (2 * e)) by lra. apply sqrt_le_1_alt. unfold norm2.
  assert (S : forall x, Rabs x <= e -> x * x <= e * e).
  { intros x Hx. apply Rabs_le_inv in Hx. nra. }
  pose proof (S _ A). pose proof (S _ B). pose proof (S _ C). pose proof (S _ D). lra.
Qed.
Lemma qsub_add a b : qadd (qsub a b) b = a.
Proof. destruct a, b. unfold qsub, qadd, qscale. cbn. f_equal; ring. Qed.
Lemma qsub_tri a b c : qn (qsub a c) <= qn (qsub a b) + qn (qsub b c).
Proof.
  replace (qsub a c) with (qadd (qsub a b) (qsub b c)); [apply qn_tri|].
  destruct a, b, c. unfold qsub, qadd, qscale. cbn. f_equal; ring.
Qed.
Lemma qsub_sym a b : qn (qsub a b) = qn (qsub b a).
Proof. unfold qn. f_equal. unfold norm2, qsub, qadd, qscale. cbn. ring. Qed.
Lemma qn_diff a b : Rabs (qn a - qn b) <= qn (qsub a b).
Proof.
  pose proof (qn_tri (qsub a b) b) as T1. rewrite qsub_add in T1.
  pose proof (qn_tri (qsub b a) a) as T2. rewrite qsub_add in T2. rewrite <- qsub_sym in T2.
  apply Rabs_le. lra.
Qed.
Lemma ham_sub a b c d : qn (qsub (hamilton a b) (hamilton c d)) <= qn (qsub a c) * qn b + qn c * qn (qsub b d).
Proof.
  rewrite <- !qn_ham. eapply Rle_trans; [|apply qn_tri]. apply Req_le. f_equal.
  destruct a, b, c, d. unfold qsub, qadd, qscale, hamilton, hvec, cross3, dot3. cbn. f_equal; ring.
Qed.
Lemma conj_sub a b : qn (qsub (conj a) (conj b)) = qn (qsub a b).
Proof. unfold qn. f_equal. unfold norm2, qsub, qadd, qscale, conj. cbn. ring. Qed.
(** Normalising changes a distance by at most twice its ratio to the length. *)
Lemma unit_sub a b : 0 < qn a -> 0 < qn b ->
  qn (qsub (qscale (/ qn a) a) (qscale (/ qn b) b)) <= 2 * qn (qsub a b) / qn b.
Proof.
  intros A B. set (d := qn (qsub a b)).
  assert (S1 : qn (qsub (qscale (/ qn a) a) (qscale (/ qn b) a)) <= d / qn b).
  { replace (qsub (qscale (/ qn a) a) (qscale (/ qn b) a)) with (qscale (/ qn a - / qn b) a).
    2: { destruct a. unfold qsub, qadd, qscale. cbn. f_equal; ring. }
    rewrite qn_scale. replace (/ qn a - / qn b) with ((qn b - qn a) * (/ qn a * / qn b)) by (field; lra).
    rewrite Rabs_mult. assert (0 < / qn a) by (apply Rinv_0_lt_compat, A). assert (0 < / qn b) by (apply Rinv_0_lt_compat, B).
    rewrite (Rabs_pos_eq (/ qn a * / qn b)) by nra.
    replace (Rabs (qn b - qn a) * (/ qn a * / qn b) * qn a) with (Rabs (qn b - qn a) * / qn b) by (field; lra).
    apply Rmult_le_compat_r; [lra|]. pose proof (qn_diff b a) as Q. rewrite qsub_sym in Q. exact Q. }
  assert (S2 : qn (qsub (qscale (/ qn b) a) (qscale (/ qn b) b)) = d / qn b).
  { replace (qsub (qscale (/ qn b) a) (qscale (/ qn b) b)) with (qscale (/ qn b) (qsub a b)).
    2: { destruct a, b. unfold qsub, qadd, qscale. cbn. f_equal; ring. }
    rewrite qn_scale, Rabs_pos_eq by (apply Rlt_le, Rinv_0_lt_compat, B). unfold d. field. lra. }
  eapply Rle_trans; [apply (qsub_tri _ (qscale (/ qn b) a))|]. rewrite S2. unfold Rdiv in *. lra.
Qed.
Lemma qn_unit a : 0 < qn a -> qn (qscale (/ qn a) a) = 1.
Proof. intros A. rewrite qn_scale, Rabs_pos_eq by (apply Rlt_le, Rinv_0_lt_compat, A). field. lra. Qed.
