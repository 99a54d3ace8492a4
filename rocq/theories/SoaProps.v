(** C91: a SoA value is four independent values, and its operators are the usual ones on each of them. *)
From Coq Require Import Reals Lra.
From Flocq Require Import IEEE754.BinarySingleNaN.
From Verif Require Import Base Num NumF32 NumR Math MathSpec MathProofs Soa SoaSpec.

(** ** Reading and writing *)
Lemma lane_set {A} (v : V4 A) i j x : (i < 4)%nat -> (j < 4)%nat -> lane (set_lane v j x) i = if Nat.eq_dec j i then x else lane v i.
Proof. intros Hi Hj. destruct v. do 4 (destruct i as [|i]; [do 4 (destruct j as [|j]; [reflexivity|]); lia|]); lia. Qed.
Lemma lane_splat {A} (x : A) i : lane (splat x) i = x.
Proof. do 4 (destruct i as [|i]; [reflexivity|]). reflexivity. Qed.
Lemma lane_set_tr {A} (t : transform (V4 A)) i j x : (i < 4)%nat -> (j < 4)%nat -> lane_tr (set_tr t j x) i = if Nat.eq_dec j i then x else lane_tr t i.
Proof.
  intros Hi Hj. destruct t as [[a1 a2 a3] [a4 a5 a6 a7] [a8 a9 a10]], x as [[b1 b2 b3] [b4 b5 b6 b7] [b8 b9 b10]]. unfold lane_tr, lane_v3, lane_q, set_tr, set_v3, set_q. cbn [tr_t tr_r tr_s vx vy vz qx qy qz qw].
  rewrite !lane_set by assumption. destruct (Nat.eq_dec j i); reflexivity.
Qed.
Lemma set_below {A} (t : transform (V4 A)) j x : (j < 4)%nat -> soa_set_transform t j x = Ok (set_tr t j x).
Proof. intros H. apply Nat.ltb_lt in H. unfold soa_set_transform, soa_set_vec3, soa_set_quat. rewrite H. reflexivity. Qed.
Lemma set_above {A} (t : transform (V4 A)) j x : ~ (j < 4)%nat -> soa_set_transform t j x = Panic.
Proof. intros H. apply Nat.ltb_nlt in H. unfold soa_set_transform, soa_set_vec3. rewrite H. reflexivity. Qed.
Lemma read_below {A} (t : transform (V4 A)) i : (i < 4)%nat -> soa_transform t i = Ok (lane_tr t i).
Proof. intros H. apply Nat.ltb_lt in H. unfold soa_transform, soa_vec3, soa_quat. rewrite H. reflexivity. Qed.

(** ** C91
    After any history of writes, reading index [i] gives the last value written there; nothing else changes it.  A write
    at an index from four on panics, and nothing else does. *)
Theorem C91_last_write : forall {A} (t : transform (V4 A)) ops,
  (indices_ok ops -> exists t', soa_exec t ops = Ok t' /\
     forall i x0, soa_transform t i = Ok x0 -> soa_transform t' i = Ok (last_at i x0 ops)) /\
  (~ indices_ok ops -> soa_exec t ops = Panic).
Proof.
  intros A t ops. revert t. induction ops as [|o ops IH]; intros t; split.
  - intros _. exists t. split; [reflexivity|]. intros i x0 H. exact H.
  - intros H. destruct H. intros j y [].
  - intros H. assert (H' : indices_ok ops) by (intros j y Hj; apply (H j y); right; exact Hj).
    cbn [soa_exec soa_apply bind]. destruct o as [j x|x]; cbn [soa_apply].
    + assert (Hj : (j < 4)%nat) by (apply (H j x); left; reflexivity). rewrite (set_below t j x Hj). cbn [bind].
      destruct (proj1 (IH (set_tr t j x)) H') as (t' & E & R). exists t'. split; [exact E|]. intros i x0 Hx.
      assert (Hi : (i < 4)%nat) by (unfold soa_transform, soa_vec3 in Hx; destruct (i <? 4)%nat eqn:Ei; [apply Nat.ltb_lt; exact Ei|discriminate Hx]).
      unfold last_at. cbn [fold_left]. apply R. rewrite read_below in Hx |- * by exact Hi. rewrite lane_set_tr by assumption.
      injection Hx as ->. destruct (Nat.eq_dec j i); reflexivity.
    + cbn [bind]. destruct (proj1 (IH (splat_tr x)) H') as (t' & E & R). exists t'. split; [exact E|]. intros i x0 Hx.
      assert (Hi : (i < 4)%nat) by (unfold soa_transform, soa_vec3 in Hx; destruct (i <? 4)%nat eqn:Ei; [apply Nat.ltb_lt; exact Ei|discriminate Hx]).
      unfold last_at. cbn [fold_left]. apply R. rewrite read_below by exact Hi. destruct x as [[b1 b2 b3] [b4 b5 b6 b7] [b8 b9 b10]].
      unfold lane_tr, lane_v3, lane_q, splat_tr, splat_v3, splat_q. cbn [tr_t tr_r tr_s vx vy vz qx qy qz qw]. rewrite !lane_splat. reflexivity.
  - intros H. cbn [soa_exec]. destruct o as [j x|x]; cbn [soa_apply].
    + destruct (lt_dec j 4) as [Hj|Hj].
      * rewrite (set_below t j x Hj). cbn [bind]. apply (proj2 (IH _)). intros H'. apply H. intros k y [E|Hk]; [injection E as <- <-; exact Hj|exact (H' k y Hk)].
      * rewrite (set_above t j x Hj). reflexivity.
    + cbn [bind]. apply (proj2 (IH _)). intros H'. apply H. intros k y [E|Hk]; [discriminate E|exact (H' k y Hk)].
Qed.
Print Assumptions C91_last_write.

(** Every operator acts on each index by itself: the value at index [i] of the result is the operator on the values at
    index [i], bit for bit. *)
Theorem C91_independent : forall {F} {NF : Num F} (a b : vec3 (V4 F)) (p q : quat (V4 F)) (f : V4 F) i, (i < 4)%nat ->
  (lane_v3 (v3_neg a) i = v3_neg (lane_v3 a i) /\ lane_v3 (v3_add a b) i = v3_add (lane_v3 a i) (lane_v3 b i) /\
   lane_v3 (v3_sub a b) i = v3_sub (lane_v3 a i) (lane_v3 b i) /\ lane_v3 (v3_mul_num a f) i = v3_mul_num (lane_v3 a i) (lane f i) /\
   lane_v3 (v3_lerp a b f) i = v3_lerp (lane_v3 a i) (lane_v3 b i) (lane f i)) /\
  (lane_q (q_conjugate p) i = q_conjugate (lane_q p i) /\ lane_q (q_add p q) i = q_add (lane_q p i) (lane_q q i) /\
   lane_q (q_mul p q) i = q_mul (lane_q p i) (lane_q q i) /\ lane_q (q_mul_num p f) i = q_mul_num (lane_q p i) (lane f i) /\
   lane_q (q_normalize p) i = q_normalize (lane_q p i) /\ lane (q_dot p q) i = q_dot (lane_q p i) (lane_q q i) /\
   lane_q (q_nlerp p q f) i = q_nlerp (lane_q p i) (lane_q q i) (lane f i)).
Proof.
  intros F NF a b p q f i Hi. destruct a as [[] [] []], b as [[] [] []], p as [[] [] [] []], q as [[] [] [] []], f.
  do 4 (destruct i as [|i]; [repeat split; reflexivity|]). lia.
Qed.
Print Assumptions C91_independent.

Local Open Scope R_scope.
(** With rounding ignored, the operators are the usual ones: negation, sum, difference, product with a number, the point a
    share of the way, conjugate, Hamilton's product, normalisation, dot product, normalised interpolation, and the sign
    change that makes the scalar part non-negative. *)
Theorem C91_values : forall (a b : vec3 R) (p q : quat R) (f : R),
  v3_neg a = neg3 a /\ v3_add a b = plus3 a b /\ v3_sub a b = minus3 a b /\ v3_mul_num a f = scale3 f a /\
  v3_lerp a b f = plus3 (scale3 (1 - f) a) (scale3 f b) /\
  q_conjugate p = conj p /\ q_add p q = qplus p q /\ q_mul p q = hamilton p q /\ q_mul_num p f = qtimes f p /\
  q_dot p q = qx p * qx q + qy p * qy q + qz p * qz q + qw p * qw q /\
  (0 < norm2 p -> q_normalize p = qtimes (/ qlen p) p /\ qlen (q_normalize p) = 1) /\
  (let m := qplus (qtimes (1 - f) p) (qtimes f q) in 0 < norm2 m -> q_nlerp p q f = qtimes (/ qlen m) m).
Proof.
  intros [a1 a2 a3] [b1 b2 b3] [p1 p2 p3 p4] [q1 q2 q3 q4] f. unfold v3_neg, v3_add, v3_sub, v3_mul_num, v3_lerp, q_conjugate, q_add, q_mul, q_mul_num, q_dot, q_normalize, q_nlerp, nrecip,
    neg3, plus3, minus3, scale3, conj, qplus, hamilton, hvec, cross3, dot3, qtimes, qlen, norm2. cbn [vx vy vz qx qy qz qw]. lits.
  cbv beta iota delta [nneg nadd nsub nmul ndiv nsqrt Rarith].
  repeat match goal with |- _ /\ _ => split end; try (f_equal; ring); try ring; try reflexivity.
  - intros H. split.
    + f_equal; field; apply Rgt_not_eq, sqrt_lt_R0; exact H.
    + set (n := sqrt (p1 * p1 + p2 * p2 + p3 * p3 + p4 * p4)). assert (Hn : n <> 0) by (apply Rgt_not_eq, sqrt_lt_R0; exact H).
      assert (N : n * n = p1 * p1 + p2 * p2 + p3 * p3 + p4 * p4) by (apply sqrt_sqrt; lra).
      match goal with |- sqrt ?e = 1 => replace e with 1; [apply sqrt_1|] end.
      match goal with |- 1 = ?e => replace e with ((p1 * p1 + p2 * p2 + p3 * p3 + p4 * p4) * (1 / n * (1 / n))) by ring end. rewrite <- N. field. exact Hn.
  - cbv zeta. intros H.
    replace ((q1 - p1) * f + p1) with ((1 - f) * p1 + f * q1) by ring. replace ((q2 - p2) * f + p2) with ((1 - f) * p2 + f * q2) by ring.
    replace ((q3 - p3) * f + p3) with ((1 - f) * p3 + f * q3) by ring. replace ((q4 - p4) * f + p4) with ((1 - f) * p4 + f * q4) by ring.
    f_equal; field; apply Rgt_not_eq, sqrt_lt_R0; exact H.
Qed.
Print Assumptions C91_values.

(** [positive_w] keeps a rotation or negates it, so that its scalar part is not negative. *)
Theorem C91_positive_w : forall (q : quat (V4 R)) i, (i < 4)%nat ->
  lane_q (q_positive_w q) i = q_abs_w (lane_q q i) /\ 0 <= qw (lane_q (q_positive_w q) i).
Proof.
  assert (K : forall q : quat R, (let s := nlt (qw q) nzero in Q4 (flip s (qx q)) (flip s (qy q)) (flip s (qz q)) (flip s (qw q))) = q_abs_w q /\ 0 <= qw (q_abs_w q)).
  { intros [x y z w]. unfold q_abs_w, qtimes, flip. cbn [qx qy qz qw]. lits. change (nlt w 0) with (Rltb w 0). unfold Rltb.
    destruct (Rlt_dec w 0) as [L|L]; cbv zeta iota; cbn [qw]; (split; [|lra]); [f_equal; change (@nneg R Rarith) with Ropp; ring|reflexivity]. }
  intros q i Hi. assert (E : lane_q (q_positive_w q) i = q_abs_w (lane_q q i)).
  { rewrite <- (proj1 (K (lane_q q i))). destruct q as [[] [] [] []]. do 4 (destruct i as [|i]; [reflexivity|]). lia. }
  split; [exact E|]. rewrite E. apply K.
Qed.
Print Assumptions C91_positive_w.

(** The constants, at every index: the axes, zero, one and the identities. *)
Theorem C91_constants : forall i, (i < 4)%nat ->
  let c (v : vec3 (V4 R)) := soa_vec3 v i in
  c SOA_X = Ok (V3 1 0 0) /\ c SOA_Y = Ok (V3 0 1 0) /\ c SOA_Z = Ok (V3 0 0 1) /\
  c SOA_NEG_X = Ok (V3 (-1) 0 0) /\ c SOA_NEG_Y = Ok (V3 0 (-1) 0) /\ c SOA_NEG_Z = Ok (V3 0 0 (-1)) /\
  c SOA_ZERO = Ok (V3 0 0 0) /\ c SOA_ONE = Ok (V3 1 1 1) /\ c SOA_NEG_ONE = Ok (V3 (-1) (-1) (-1)) /\
  soa_quat SOA_Q_IDENTITY i = Ok (Q4 0 0 0 1) /\ soa_transform SOA_T_IDENTITY i = Ok (TR (V3 0 0 0) (Q4 0 0 0 1) (V3 1 1 1)).
Proof.
  assert (M : @nmone R (@num_arith R Rnum) = -1) by (unfold nmone; cbn; lra).
  intros i Hi. do 4 (destruct i as [|i]; [cbv beta zeta; unfold SOA_T_IDENTITY, soa_transform, soa_vec3, soa_quat, SOA_X, SOA_Y, SOA_Z, SOA_NEG_X, SOA_NEG_Y, SOA_NEG_Z, SOA_ZERO, SOA_ONE, SOA_NEG_ONE, SOA_Q_IDENTITY, soa_splat, splat_v3, splat_q, lane_v3, lane_q, splat;
    cbn [Nat.ltb Nat.leb vx vy vz qx qy qz qw lane l0 l1 l2 l3 bind tr_t tr_r tr_s]; rewrite ?M; lits; repeat split; reflexivity|]). lia.
Qed.
Print Assumptions C91_constants.

Local Open Scope nat_scope.
(** ** A concrete history: every value set, the second one written twice, one out of range *)
Definition ex_tr (k : nat) : transform nat := TR (V3 k (k + 1) (k + 2)) (Q4 (k + 3) (k + 4) (k + 5) (k + 6)) (V3 (k + 7) (k + 8) (k + 9)).
Definition ex_ops := [SplatAll (ex_tr 10); SetOne 1 (ex_tr 20); SetOne 3 (ex_tr 40); SetOne 1 (ex_tr 50)].
Example C91_example : indices_ok ex_ops /\ ~ indices_ok (ex_ops ++ [SetOne 4 (ex_tr 0)]) /\
  (let* t := soa_exec (splat_tr (ex_tr 0)) ex_ops in let* a := soa_transform t 0 in let* b := soa_transform t 1 in let* c := soa_transform t 3 in Ok [a; b; c]) =
  Ok [ex_tr 10; ex_tr 50; ex_tr 40].
Proof.
  split; [|split; [|reflexivity]].
  - intros j y H. repeat destruct H as [H|H]; try discriminate H; try (injection H as <- _; lia). destruct H.
  - intros H. specialize (H 4%nat (ex_tr 0)). assert (In (SetOne 4 (ex_tr 0)) (ex_ops ++ [SetOne 4 (ex_tr 0)])) as I0 by (apply in_or_app; right; left; reflexivity). specialize (H I0). lia.
Qed.
Local Open Scope R_scope.
(** The quaternion (1, -2, 3, -4) and the one after it, at index 2. *)
Example C91_example_mul : let p := splat_q (Q4 1 (-2) 3 (-4)) in let q := set_q p 2 (Q4 2 1 0 5) in
  lane_q (q_mul p q) 2 = Q4 (-6) (-8) 20 (-20) /\ lane_q (q_positive_w p) 2 = Q4 (-1) 2 (-3) 4.
Proof.
  cbv zeta. destruct (C91_positive_w (splat_q (Q4 1 (-2) 3 (-4))) 2 ltac:(lia)) as (W & _). rewrite W.
  destruct (C91_independent (v3_zero : vec3 (V4 R)) v3_zero (splat_q (Q4 1 (-2) 3 (-4))) (set_q (splat_q (Q4 1 (-2) 3 (-4))) 2 (Q4 2 1 0 5)) (splat 0) 2 ltac:(lia)) as (_ & _ & _ & E & _).
  change (@num_arith R Rnum) with Rarith in *. rewrite E. change (lane_q (splat_q (Q4 1 (-2) 3 (-4))) 2) with (Q4 1 (-2) 3 (-4)). change (lane_q (set_q (splat_q (Q4 1 (-2) 3 (-4))) 2 (Q4 2 1 0 5)) 2) with (Q4 2 1 0 5).
  destruct (C91_values (V3 0 0 0) (V3 0 0 0) (Q4 1 (-2) 3 (-4)) (Q4 2 1 0 5) 0) as (_ & _ & _ & _ & _ & _ & _ & M & _). change (@num_arith R Rnum) with Rarith. rewrite M.
  split; [unfold hamilton, hvec, cross3, dot3; cbn [vx vy vz qx qy qz qw]; f_equal; ring|].
  unfold q_abs_w, qtimes. cbn [qx qy qz qw]. destruct (Rlt_dec (-4) 0); [f_equal; ring|lra].
Qed.
