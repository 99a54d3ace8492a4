(** Rounding errors of linear interpolation in binary32. *)
From Coq Require Import Reals Lra Psatz.
From Flocq Require Import IEEE754.BinarySingleNaN Core Relative Plus_error.
From Verif Require Import Base Num NumF32 F32Facts F32Err.
Local Open Scope R_scope.

Notation fmt := (generic_format radix2 (SpecFloat.fexp 24 128)).
Lemma fin_fmt x a : fin x a -> fmt a.
Proof. intros [_ <-]. apply generic_format_B2R. Qed.
Lemma rnd_fmt x : fmt (rnd32 x).
Proof. apply generic_format_round; [apply fexp_correct; reflexivity|apply valid_rnd_N]. Qed.
Lemma fmt_rnd x : fmt x -> rnd32 x = x.
Proof. intros H. apply round_generic; [apply valid_rnd_N|exact H]. Qed.

(** Sums and differences have a pure relative error. *)
Lemma rnd_add_rel a b : fmt a -> fmt b -> exists e, Rabs e <= eps /\ rnd32 (a + b) = (a + b) * (1 + e).
Proof.
  intros Fa Fb.
  destruct (FLT_plus_error_N_ex radix2 (-149) 24 (fun x => negb (Z.even x)) a b Fa Fb) as (e & He & E).
  exists e. split; [|exact E]. eapply Rle_trans; [exact He|].
  eapply Rle_trans; [apply u_rod1pu_ro_le_u_ro|]. unfold u_ro, eps. simpl. lra.
Qed.
Lemma rnd_sub_rel a b : fmt a -> fmt b -> exists e, Rabs e <= eps /\ rnd32 (a - b) = (a - b) * (1 + e).
Proof. intros Fa Fb. apply (rnd_add_rel a (- b)); [exact Fa|apply generic_format_opp, Fb]. Qed.
Lemma rnd_rel x : exists e t, Rabs e <= eps /\ Rabs t <= tiny /\ rnd32 x = x * (1 + e) + t.
Proof.
  destruct (error_N_FLT radix2 (-149) 24 ltac:(reflexivity) (fun x => negb (Z.even x)) x) as (e & t & He & Ht & _ & E).
  exists e, t. split; [|split; [|exact E]].
  - eapply Rle_trans; [exact He|]. unfold eps. simpl. lra.
  - eapply Rle_trans; [exact Ht|]. unfold tiny. change (-150)%Z with (-1 + -149)%Z. rewrite bpow_plus. simpl (bpow radix2 (-1)). lra.
Qed.
Lemma eps_val : eps = / 16777216. Proof. reflexivity. Qed.
Lemma eps_inv e : Rabs e <= eps -> - / 16777216 <= e <= / 16777216.
Proof. intros H. apply Rabs_le_inv in H. unfold eps in H. lra. Qed.

(** ** The position of a ratio between two times *)
Section Alpha.
  Variables tl tr : R.
  Hypotheses (Fl : fmt tl) (Fr : fmt tr) (Hl : 0 <= tl) (Hlr : tl < tr) (Hr : tr <= 1).
  (** What the code computes. *)
  Definition alpha_r (r : R) := rnd32 (rnd32 (r - tl) / rnd32 (tr - tl)).

  Lemma den_pos : 0 < rnd32 (tr - tl) <= 1.
  Proof.
    destruct (rnd_sub_rel tr tl Fr Fl) as (e & He & E). apply eps_inv in He.
    split; [rewrite E; apply Rmult_lt_0_compat; lra|].
    rewrite <- (fmt_rnd 1); [apply rnd32_le; lra|].
    change 1 with (bpow radix2 0). apply generic_format_bpow. vm_compute. discriminate.
  Qed.
  Lemma num_range r : tl <= r <= tr -> 0 <= rnd32 (r - tl) <= rnd32 (tr - tl).
  Proof. intros H. split; [apply rnd32_ge0; lra|apply rnd32_le; lra]. Qed.
  Lemma quot_range r : tl <= r <= tr -> 0 <= rnd32 (r - tl) / rnd32 (tr - tl) <= 1.
  Proof.
    intros H. pose proof den_pos as D. pose proof (num_range r H) as N. split.
    - apply Rmult_le_pos; [apply N|]. left. apply Rinv_0_lt_compat, D.
    - apply Rmult_le_reg_r with (rnd32 (tr - tl)); [apply D|].
      unfold Rdiv. rewrite Rmult_assoc, Rinv_l by lra. lra.
  Qed.
  Lemma fmt1 : fmt 1.
  Proof. change 1 with (bpow radix2 0). apply generic_format_bpow. vm_compute. discriminate. Qed.
  Lemma alpha_range r : tl <= r <= tr -> 0 <= alpha_r r <= 1.
  Proof.
    intros H. pose proof (quot_range r H) as Q. unfold alpha_r. split; [apply rnd32_ge0, Q|].
    rewrite <- (fmt_rnd 1 fmt1). apply rnd32_le, Q.
  Qed.
  Lemma alpha_left : alpha_r tl = 0.
  Proof. unfold alpha_r. rewrite Rminus_diag_eq, rnd32_0 by reflexivity. unfold Rdiv. rewrite Rmult_0_l. apply rnd32_0. Qed.
  Lemma alpha_right : alpha_r tr = 1.
  Proof. unfold alpha_r. pose proof den_pos. unfold Rdiv. rewrite Rinv_r by lra. apply fmt_rnd, fmt1. Qed.
  Lemma alpha_mono r r' : r <= r' -> alpha_r r <= alpha_r r'.
  Proof.
    intros H. unfold alpha_r. apply rnd32_le. apply Rmult_le_compat_r.
    - left. apply Rinv_0_lt_compat, den_pos.
    - apply rnd32_le. lra.
  Qed.
  Lemma alpha_close r : fmt r -> tl <= r <= tr -> Rabs (alpha_r r - (r - tl) / (tr - tl)) <= 4 * eps.
  Proof.
    intros Fx H. unfold alpha_r.
    destruct (rnd_sub_rel tr tl Fr Fl) as (e1 & He1 & E1). apply eps_inv in He1.
    destruct (rnd_sub_rel r tl Fx Fl) as (e2 & He2 & E2). apply eps_inv in He2.
    pose proof (quot_range r H) as Q.
    eapply Rle_trans.
    { replace (rnd32 (rnd32 (r - tl) / rnd32 (tr - tl)) - (r - tl) / (tr - tl)) with
        ((rnd32 (rnd32 (r - tl) / rnd32 (tr - tl)) - rnd32 (r - tl) / rnd32 (tr - tl)) +
         (rnd32 (r - tl) / rnd32 (tr - tl) - (r - tl) / (tr - tl))) by ring.
      apply Rabs_triang. }
    assert (A : Rabs (rnd32 (rnd32 (r - tl) / rnd32 (tr - tl)) - rnd32 (r - tl) / rnd32 (tr - tl)) <= eps * 1 + tiny).
    { apply rnd_close. rewrite Rabs_pos_eq; apply Q. }
    assert (B : Rabs (rnd32 (r - tl) / rnd32 (tr - tl) - (r - tl) / (tr - tl)) <= 2.5 * eps).
    { rewrite E1, E2. set (x := (r - tl) / (tr - tl)).
      assert (X : 0 <= x <= 1).
      { unfold x. split; [apply Rmult_le_pos; [lra|left; apply Rinv_0_lt_compat; lra]|].
        apply Rmult_le_reg_r with (tr - tl); [lra|]. unfold Rdiv. rewrite Rmult_assoc, Rinv_l by lra. lra. }
      replace ((r - tl) * (1 + e2) / ((tr - tl) * (1 + e1)) - x) with (x * ((e2 - e1) / (1 + e1))) by (unfold x; field; lra).
      rewrite Rabs_mult, (Rabs_pos_eq x) by apply X.
      assert (G : Rabs ((e2 - e1) / (1 + e1)) <= 2.5 * eps).
      { unfold Rdiv. rewrite Rabs_mult, Rabs_inv, (Rabs_pos_eq (1 + e1)) by lra.
        apply Rmult_le_reg_r with (1 + e1); [lra|]. rewrite Rmult_assoc, Rinv_l by lra.
        rewrite Rmult_1_r. unfold eps. apply Rabs_le. split; nra. }
      pose proof (Rabs_pos ((e2 - e1) / (1 + e1))). nra. }
    pose proof tiny_small. unfold eps in *. simpl in *. lra.
  Qed.
End Alpha.

(** ** Linear interpolation *)
Section Lerp.
  Variables (a b : R).
  Hypotheses (Fa : fmt a) (Fb : fmt b).
  Let M := Rmax (Rabs a) (Rabs b).
  (** What the code computes. *)
  Definition lerp_r (t : R) := rnd32 (rnd32 (rnd32 (b - a) * t) + a).

  Lemma lerp_0 : lerp_r 0 = a.
  Proof. unfold lerp_r. rewrite Rmult_0_r, rnd32_0, Rplus_0_l. apply fmt_rnd, Fa. Qed.
  Lemma lerp_mono_up t t' : a <= b -> t <= t' -> lerp_r t <= lerp_r t'.
  Proof.
    intros H T. unfold lerp_r. apply rnd32_le, Rplus_le_compat_r, rnd32_le, Rmult_le_compat_l; [|exact T].
    apply rnd32_ge0. lra.
  Qed.
  Lemma rnd32_le0 x : x <= 0 -> rnd32 x <= 0.
  Proof. intros H. rewrite <- rnd32_0. apply rnd32_le, H. Qed.
  Lemma lerp_mono_down t t' : b <= a -> t <= t' -> lerp_r t' <= lerp_r t.
  Proof.
    intros H T. unfold lerp_r. apply rnd32_le, Rplus_le_compat_r, rnd32_le.
    apply Rmult_le_compat_neg_l; [|exact T]. apply rnd32_le0. lra.
  Qed.
  Lemma M_bounds : Rabs a <= M /\ Rabs b <= M.
  Proof. unfold M. split; [apply Rmax_l|apply Rmax_r]. Qed.
  Lemma lerp_1 : Rabs (lerp_r 1 - b) <= 4 * eps * M.
  Proof.
    unfold lerp_r. rewrite Rmult_1_r, (fmt_rnd (rnd32 (b - a))) by apply rnd_fmt.
    destruct (rnd_sub_rel b a Fb Fa) as (e1 & He1 & E1).
    destruct (rnd_add_rel (rnd32 (b - a)) a (rnd_fmt _) Fa) as (e2 & He2 & E2). rewrite E2, E1.
    apply eps_inv in He1. apply eps_inv in He2. destruct M_bounds as [Ma Mb].
    apply Rabs_le_inv in Ma. apply Rabs_le_inv in Mb. rewrite eps_val.
    replace (((b - a) * (1 + e1) + a) * (1 + e2) - b) with ((b - a) * (e1 * (1 + e2)) + b * e2) by ring.
    apply Rabs_le.
    assert (- / 16777215 <= e1 * (1 + e2) <= / 16777215) as G by nra.
    set (g := e1 * (1 + e2)) in *. split; nra.
  Qed.
  (** Never outside the two values, but for the rounding of the far end. *)
  Lemma lerp_hull t : 0 <= t <= 1 -> Rmin a b - 4 * eps * M <= lerp_r t <= Rmax a b + 4 * eps * M.
  Proof.
    intros T. pose proof lerp_1 as L1. apply Rabs_le_inv in L1. pose proof lerp_0 as L0.
    assert (0 <= 4 * eps * M).
    { destruct M_bounds as [Ma _]. pose proof (Rabs_pos a). unfold eps. nra. }
    destruct (Rle_or_lt a b) as [H'|H'].
    - rewrite Rmin_left, Rmax_right by exact H'.
      pose proof (lerp_mono_up 0 t H' (proj1 T)). pose proof (lerp_mono_up t 1 H' (proj2 T)). lra.
    - assert (H2 : b <= a) by lra. rewrite Rmin_right, Rmax_left by exact H2.
      pose proof (lerp_mono_down 0 t H2 (proj1 T)). pose proof (lerp_mono_down t 1 H2 (proj2 T)). lra.
  Qed.
  (** Accuracy. *)
  Lemma lerp_close t x d : 0 <= t <= 1 -> Rabs (t - x) <= d -> 0 <= d <= 1 ->
    Rabs (lerp_r t - (a + (b - a) * x)) <= (8 * eps + 2 * d) * M + 2 * tiny.
  Proof.
    intros T D D1. unfold lerp_r.
    destruct (rnd_sub_rel b a Fb Fa) as (e1 & He1 & E1). rewrite E1.
    destruct (rnd_rel ((b - a) * (1 + e1) * t)) as (e2 & n & He2 & Hn & E2).
    destruct (rnd_add_rel (rnd32 ((b - a) * (1 + e1) * t)) a (rnd_fmt _) Fa) as (e3 & He3 & E3). rewrite E3, E2.
    apply eps_inv in He1. apply eps_inv in He2. apply eps_inv in He3. apply Rabs_le_inv in Hn.
    destruct M_bounds as [Ma Mb]. apply Rabs_le_inv in Ma. apply Rabs_le_inv in Mb. apply Rabs_le_inv in D.
    pose proof tiny_small as TS.
    replace (((b - a) * (1 + e1) * t * (1 + e2) + n + a) * (1 + e3) - (a + (b - a) * x)) with
      ((b - a) * (t * ((1 + e1) * (1 + e2) * (1 + e3) - 1)) + (b - a) * (t - x) + a * e3 + n * (1 + e3)) by ring.
    assert (G : - (31 / 160000000) <= (1 + e1) * (1 + e2) * (1 + e3) - 1 <= 31 / 160000000).
    { assert (G12 : - (20 / 160000000) <= (1 + e1) * (1 + e2) - 1 <= 20 / 160000000) by (split; nra).
      set (g := (1 + e1) * (1 + e2)) in *. split; nra. }
    set (g := (1 + e1) * (1 + e2) * (1 + e3) - 1) in *.
    assert (G2 : - (31 / 160000000) <= t * g <= 31 / 160000000) by (split; nra).
    set (h := t * g) in *. set (y := t - x) in *.
    assert (B : - (2 * M) <= b - a <= 2 * M) by lra. set (c := b - a) in *.
    assert (A1 : - (2 * M * (31 / 160000000)) <= c * h <= 2 * M * (31 / 160000000)) by (split; nra).
    assert (A2 : - (2 * M * d) <= c * y <= 2 * M * d) by (split; nra).
    assert (A3 : - (M * / 16777216) <= a * e3 <= M * / 16777216) by (split; nra).
    assert (A4 : - (2 * tiny) <= n * (1 + e3) <= 2 * tiny) by (split; nra).
    rewrite eps_val. apply Rabs_le. split; nra.
  Qed.
  Lemma lerp_fin (x y t : f32) u : Rabs a <= 65536 -> Rabs b <= 65536 ->
    fin x a -> fin y b -> fin t u -> 0 <= u <= 1 -> fin (nadd (nmul (nsub y x) t) x) (lerp_r u).
  Proof.
    intros Ba Bb Fx Fy Ft T.
    pose proof HUGE_big as HB. apply Rabs_le_inv in Ba. apply Rabs_le_inv in Bb.
    destruct (rnd_sub_rel b a Fb Fa) as (e1 & He1 & E1). apply eps_inv in He1.
    assert (B1 : - 140000 <= rnd32 (b - a) <= 140000) by (rewrite E1; split; nra).
    destruct (rnd_rel (rnd32 (b - a) * u)) as (e2 & n & He2 & Hn & E2). apply eps_inv in He2. apply Rabs_le_inv in Hn.
    assert (B2 : - 140000 <= rnd32 (b - a) * u <= 140000) by (split; nra).
    pose proof tiny_small as TS.
    assert (TS1 : tiny <= 1). { simpl in TS. lra. }
    assert (B3 : - 150000 <= rnd32 (rnd32 (b - a) * u) <= 150000).
    { rewrite E2. split; nra. }
    unfold lerp_r. apply fin_add; [apply fin_mul; [apply fin_sub|..]|..]; try assumption; apply Rabs_le; lra.
  Qed.
End Lerp.

(** ** Normalisation of four components *)
Lemma tiny_eps : tiny <= eps / 1000000.
Proof. pose proof tiny_small. unfold eps. simpl in *. lra. Qed.
Lemma tiny_pos : 0 < tiny. Proof. apply tiny_small. Qed.
Lemma HUGE_ok x : -1000000 <= x <= 1000000 -> Rabs x <= HUGE.
Proof. intros H. pose proof HUGE_big. apply Rabs_le. lra. Qed.

(** One more rounding on a value known to a relative error [k] and an absolute one [t]. *)
Lemma rel_step u v e k t : 0 <= v -> 0 <= k <= / 1000000 -> 0 <= t -> Rabs e <= eps ->
  v * (1 - k) - t <= u <= v * (1 + k) + t ->
  v * (1 - (k + 1.001 * eps)) - 1.001 * t <= u * (1 + e) <= v * (1 + (k + 1.001 * eps)) + 1.001 * t.
Proof.
  intros Hv Hk Ht He [Lo Hi]. apply eps_inv in He. rewrite eps_val. split.
  - apply Rle_trans with ((v * (1 - k) - t) * (1 + e)); [|apply Rmult_le_compat_r; lra].
    assert (A : v * ((1 - k) * (1 + e)) >= v * (1 - (k + 1.001 * / 16777216))) by (apply Rle_ge, Rmult_le_compat_l; [exact Hv|nra]).
    assert (B : t * (1 + e) <= 1.001 * t) by nra. nra.
  - apply Rle_trans with ((v * (1 + k) + t) * (1 + e)); [apply Rmult_le_compat_r; lra|].
    assert (A : v * ((1 + k) * (1 + e)) <= v * (1 + (k + 1.001 * / 16777216))) by (apply Rmult_le_compat_l; [exact Hv|nra]).
    assert (B : t * (1 + e) <= 1.001 * t) by nra. nra.
Qed.
Lemma rel_weaken u v k k' t t' : 0 <= v -> k <= k' -> t <= t' ->
  v * (1 - k) - t <= u <= v * (1 + k) + t -> v * (1 - k') - t' <= u <= v * (1 + k') + t'.
Proof. intros Hv Hk Ht. assert (v * k <= v * k') by (apply Rmult_le_compat_l; assumption). lra. Qed.
(** An absolute error is a relative one when the value is not small. *)
Lemma rel_absorb u v k t : 0.4 <= v -> t <= 0.0001 * eps -> v * (1 - k) - t <= u <= v * (1 + k) + t ->
  v * (1 - (k + 0.001 * eps)) <= u <= v * (1 + (k + 0.001 * eps)).
Proof. intros Hv Ht H. rewrite eps_val in *. assert (0.4 * (0.001 * / 16777216) <= v * (0.001 * / 16777216)) by (apply Rmult_le_compat_r; lra). lra. Qed.
Lemma rel_plus u u' v v' k t t' : 
  v * (1 - k) - t <= u <= v * (1 + k) + t -> v' * (1 - k) - t' <= u' <= v' * (1 + k) + t' ->
  (v + v') * (1 - k) - (t + t') <= u + u' <= (v + v') * (1 + k) + (t + t').
Proof. lra. Qed.
Lemma rel_bound u v k t : 0 <= v <= 16 -> 0 <= k <= / 1000000 -> 0 <= t <= 1 -> v * (1 - k) - t <= u <= v * (1 + k) + t -> -100 <= u <= 100.
Proof. intros. split; nra. Qed.

Section Normalize.
  Variables (x y z w : f32) (a b c d : R).
  Hypotheses (Fx : fin x a) (Fy : fin y b) (Fz : fin z c) (Fw : fin w d).
  Hypotheses (Ba : Rabs a <= 2) (Bb : Rabs b <= 2) (Bc : Rabs c <= 2) (Bd : Rabs d <= 2).
  Let S := a * a + b * b + c * c + d * d.
  Hypothesis HS : 0.4 <= S.
  Let n := sqrt S.

  Lemma sq_fin u r : fin u r -> Rabs r <= 2 -> exists e, fin (nmul u u) (r * r * (1 + e) + (rnd32 (r * r) - r * r * (1 + e))) /\
    Rabs e <= eps /\ Rabs (rnd32 (r * r) - r * r * (1 + e)) <= tiny.
  Proof.
    intros F B. destruct (rnd_rel (r * r)) as (e & t & He & Ht & E). exists e.
    replace (r * r * (1 + e) + (rnd32 (r * r) - r * r * (1 + e))) with (rnd32 (r * r)) by ring.
    split; [|split; [exact He|]].
    - apply fin_mul; auto. apply Rabs_le_inv in B. apply HUGE_ok. split; nra.
    - rewrite E. replace (r * r * (1 + e) + t - r * r * (1 + e)) with t by ring. exact Ht.
  Qed.

  (** The computed squared length. *)
  Lemma sq_rel u r : fin u r -> Rabs r <= 2 -> exists q, fin (nmul u u) q /\
    r * r * (1 - 1.001 * eps) - tiny <= q <= r * r * (1 + 1.001 * eps) + tiny.
  Proof.
    intros F B. destruct (sq_fin u r F B) as (e & F' & He & Ht).
    exists (r * r * (1 + e) + (rnd32 (r * r) - r * r * (1 + e))). split; [exact F'|].
    assert (P : 0 <= r * r) by nra. set (q := r * r) in *. set (t := rnd32 q - q * (1 + e)) in *.
    apply eps_inv in He. apply Rabs_le_inv in Ht. clearbody q t. rewrite eps_val.
    assert (q * - / 16777216 <= q * e) by (apply Rmult_le_compat_l; lra).
    assert (q * e <= q * / 16777216) by (apply Rmult_le_compat_l; lra). lra.
  Qed.
  Lemma sq_range r : Rabs r <= 2 -> 0 <= r * r <= 4.
  Proof. intros B. apply Rabs_le_inv in B. split; nra. Qed.
  Lemma add_rel u u' q q' v v' k t t' : fin u q -> fin u' q' -> 0 <= v -> 0 <= v' -> v + v' <= 16 -> 0 <= k <= / 10000000 * 5 ->
    0 <= t <= 10 * tiny -> 0 <= t' <= 10 * tiny ->
    v * (1 - k) - t <= q <= v * (1 + k) + t -> v' * (1 - k) - t' <= q' <= v' * (1 + k) + t' ->
    exists s, fin (nadd u u') s /\
      (v + v') * (1 - (k + 1.001 * eps)) - 1.001 * (t + t') <= s <= (v + v') * (1 + (k + 1.001 * eps)) + 1.001 * (t + t').
  Proof.
    intros F F' V V' VV K T T' H H'. pose proof (rel_plus _ _ _ _ _ _ _ H H') as P.
    destruct (rnd_add_rel q q' (fin_fmt _ _ F) (fin_fmt _ _ F')) as (e & He & E).
    exists (rnd32 (q + q')). pose proof tiny_eps as TE. rewrite eps_val in TE. split.
    - apply fin_add; auto. apply HUGE_ok.
      assert (-100 <= q + q' <= 100) by (apply (rel_bound _ (v + v') k (t + t')); auto; try lra). lra.
    - rewrite E. apply rel_step; auto; lra.
  Qed.
  Lemma len2_fin : exists L, fin (nadd (nadd (nadd (nmul x x) (nmul y y)) (nmul z z)) (nmul w w)) L /\
    S * (1 - 4.1 * eps) <= L <= S * (1 + 4.1 * eps).
  Proof.
    destruct (sq_rel x a Fx Ba) as (q0 & F0 & B0). destruct (sq_rel y b Fy Bb) as (q1 & F1 & B1).
    destruct (sq_rel z c Fz Bc) as (q2 & F2 & B2). destruct (sq_rel w d Fw Bd) as (q3 & F3 & B3).
    pose proof tiny_eps as TE. pose proof tiny_pos as TP.
    pose proof (sq_range a Ba) as Qa. pose proof (sq_range b Bb) as Qb. pose proof (sq_range c Bc) as Qc. pose proof (sq_range d Bd) as Qd.
    unfold S in *. set (A := a * a) in *. set (B := b * b) in *. set (C := c * c) in *. set (D := d * d) in *.
    clearbody A B C D. 
    destruct (add_rel _ _ _ _ A B (1.001 * eps) tiny tiny F0 F1) as (s1 & G1 & H1); try assumption; try (rewrite ?eps_val; lra).
    destruct (add_rel _ _ _ _ (A + B) C (2.002 * eps) (2.002 * tiny) tiny G1 F2) as (s2 & G2 & H2); try (unfold eps in *; lra).
    destruct (add_rel _ _ _ _ (A + B + C) D (3.003 * eps) (4 * tiny) tiny G2 F3) as (s3 & G3 & H3); try (unfold eps in *; lra).
    exists s3. split; [exact G3|].
    apply (rel_weaken _ _ _ (4.004 * eps) _ (0.0001 * eps)) in H3; try (unfold eps in *; lra).
  Qed.

  Lemma S_range : 0.4 <= S <= 16.
  Proof.
    split; [exact HS|]. apply Rabs_le_inv in Ba. apply Rabs_le_inv in Bb. apply Rabs_le_inv in Bc. apply Rabs_le_inv in Bd. unfold S. nra.
  Qed.
  Lemma n_range : 0.63 <= n <= 4.
  Proof.
    pose proof S_range. unfold n. split.
    - replace 0.63 with (sqrt (0.63 * 0.63)) by (apply sqrt_square; lra). apply sqrt_le_1; lra.
    - replace 4 with (sqrt (4 * 4)) by (apply sqrt_square; lra). apply sqrt_le_1; lra.
  Qed.
  Lemma n_sq : n * n = S. Proof. apply sqrt_sqrt. pose proof S_range. lra. Qed.

  (** The computed reciprocal length. *)
  Lemma inv_fin : exists i, fin (nrecip (nsqrt (nadd (nadd (nadd (nmul x x) (nmul y y)) (nmul z z)) (nmul w w)))) i /\
    / n * (1 - 4.3 * eps) <= i <= / n * (1 + 4.3 * eps).
  Proof.
    destruct len2_fin as (L & FL & BL). pose proof n_range as Hn. pose proof n_sq as Nn. pose proof S_range as HSr.
    pose proof tiny_eps as TE. pose proof tiny_pos as TP. rewrite eps_val in *.
    assert (L0 : 0 <= L) by nra.
    assert (R1 : n * (1 - 2.06 * / 16777216) <= sqrt L <= n * (1 + 2.06 * / 16777216)).
    { split.
      - rewrite <- (sqrt_square (n * (1 - 2.06 * / 16777216))) by nra. apply sqrt_le_1; nra.
      - rewrite <- (sqrt_square (n * (1 + 2.06 * / 16777216))) by nra. apply sqrt_le_1; nra. }
    pose proof (fin_sqrt _ _ FL L0) as F1.
    destruct (rnd_rel (sqrt L)) as (e1 & t1 & He1 & Ht1 & E1). apply eps_inv in He1. apply Rabs_le_inv in Ht1.
    assert (R2 : n * (1 - 3.1 * / 16777216) <= rnd32 (sqrt L) <= n * (1 + 3.1 * / 16777216)).
    { rewrite E1. set (q := sqrt L) in *. clearbody q. split; nra. }
    set (s := rnd32 (sqrt L)) in *. clearbody s.
    assert (Is : / n * (1 - 3.12 * / 16777216) <= 1 / s <= / n * (1 + 3.12 * / 16777216)).
    { assert (0 < s) by nra. unfold Rdiv. rewrite Rmult_1_l. split.
      - apply Rmult_le_reg_r with (s * n); [nra|]. replace (/ s * (s * n)) with n by (field; lra).
        replace (/ n * (1 - 3.12 * / 16777216) * (s * n)) with ((1 - 3.12 * / 16777216) * s) by (field; lra). nra.
      - apply Rmult_le_reg_r with (s * n); [nra|]. replace (/ s * (s * n)) with n by (field; lra).
        replace (/ n * (1 + 3.12 * / 16777216) * (s * n)) with ((1 + 3.12 * / 16777216) * s) by (field; lra). nra. }
    assert (In : 0.25 <= / n <= 1.6).
    { split; [|].
      - apply Rmult_le_reg_r with n; [lra|]. rewrite Rinv_l by lra. lra.
      - apply Rmult_le_reg_r with n; [lra|]. rewrite Rinv_l by lra. lra. }
    pose proof (fin_div none_ _ _ _ fin_one F1) as F2.
    assert (s <> 0) by nra. specialize (F2 H).
    assert (Rabs (1 / s) <= HUGE) as HH by (apply HUGE_ok; split; nra). specialize (F2 HH).
    exists (rnd32 (1 / s)). split; [exact F2|].
    destruct (rnd_rel (1 / s)) as (e2 & t2 & He2 & Ht2 & E2). apply eps_inv in He2. apply Rabs_le_inv in Ht2. rewrite E2.
    set (k := 1 / s) in *. set (m := / n) in *. clearbody k m. split; nra.
  Qed.

  Definition inv_len := nrecip (nsqrt (nadd (nadd (nadd (nmul x x) (nmul y y)) (nmul z z)) (nmul w w))).
  (** One normalised component. *)
  Lemma component_norm u r : fin u r -> r * r <= S ->
    exists v, fin (nmul u inv_len) v /\ Rabs (v - r / n) <= 5.5 * eps.
  Proof.
    intros F B. destruct inv_fin as (i & Fi & Bi). pose proof n_range as Hn. pose proof n_sq as Nn.
    pose proof tiny_eps as TE. pose proof tiny_pos as TP. rewrite eps_val in *.
    set (q := r / n).
    assert (Q : -1 <= q <= 1).
    { assert (q * q <= 1).
      { unfold q. replace (r / n * (r / n)) with (r * r / (n * n)) by (field; lra). rewrite Nn.
        apply Rmult_le_reg_r with S; [lra|]. unfold Rdiv. rewrite Rmult_assoc, Rinv_l by lra. lra. }
      split; nra. }
    assert (P : Rabs (r * i - q) <= 4.3 * / 16777216).
    { replace (r * i - q) with (q * (n * i - 1)) by (unfold q; field; lra).
      assert (G : - (4.3 * / 16777216) <= n * i - 1 <= 4.3 * / 16777216).
      { assert (E : n * / n = 1) by (apply Rinv_r; lra). set (m := / n) in *. clearbody m. split; nra. }
      set (g := n * i - 1) in *. apply Rabs_le. split; nra. }
    apply Rabs_le_inv in P.
    exists (rnd32 (r * i)). split.
    - apply fin_mul; auto. apply HUGE_ok. split; nra.
    - destruct (rnd_rel (r * i)) as (e & t & He & Ht & E). apply eps_inv in He. apply Rabs_le_inv in Ht. rewrite E.
      set (p := r * i) in *. assert (PB : Rabs p <= 1.001) by (apply Rabs_le; lra).
      assert (PE : Rabs (p * e) <= 1.001 * / 16777216).
      { rewrite Rabs_mult. apply Rmult_le_compat; try apply Rabs_pos; [exact PB|]. apply Rabs_le. lra. }
      apply Rabs_le_inv in PE. clearbody p q. clear - P PE Ht TE. apply Rabs_le. lra.
  Qed.

  Lemma normalized : exists r0 r1 r2 r3,
    fin (nmul x inv_len) r0 /\ fin (nmul y inv_len) r1 /\ fin (nmul z inv_len) r2 /\ fin (nmul w inv_len) r3 /\
    Rabs (r0 - a / n) <= 5.5 * eps /\ Rabs (r1 - b / n) <= 5.5 * eps /\
    Rabs (r2 - c / n) <= 5.5 * eps /\ Rabs (r3 - d / n) <= 5.5 * eps /\
    Rabs (r0 * r0 + r1 * r1 + r2 * r2 + r3 * r3 - 1) <= / 524288.
  Proof.
    pose proof n_range as Hn. pose proof n_sq as Nn.
    assert (Qa : a * a <= S) by (unfold S; nra). assert (Qb : b * b <= S) by (unfold S; nra).
    assert (Qc : c * c <= S) by (unfold S; nra). assert (Qd : d * d <= S) by (unfold S; nra).
    destruct (component_norm x a Fx Qa) as (r0 & F0 & B0). destruct (component_norm y b Fy Qb) as (r1 & F1 & B1).
    destruct (component_norm z c Fz Qc) as (r2 & F2 & B2). destruct (component_norm w d Fw Qd) as (r3 & F3 & B3).
    exists r0, r1, r2, r3. repeat (split; [assumption|]).
    assert (U : a / n * (a / n) + b / n * (b / n) + c / n * (c / n) + d / n * (d / n) = 1).
    { replace (a / n * (a / n) + b / n * (b / n) + c / n * (c / n) + d / n * (d / n)) with (S / (n * n)) by (unfold S; field; lra).
      rewrite Nn. unfold Rdiv. apply Rinv_r. pose proof S_range. lra. }
    set (p0 := a / n) in *. set (p1 := b / n) in *. set (p2 := c / n) in *. set (p3 := d / n) in *.
    assert (SB : forall p, p * p <= 1 -> -1 <= p <= 1) by (intros; split; nra).
    assert (K0 : -1 <= p0 <= 1) by (apply SB; nra). assert (K1 : -1 <= p1 <= 1) by (apply SB; nra).
    assert (K2 : -1 <= p2 <= 1) by (apply SB; nra). assert (K3 : -1 <= p3 <= 1) by (apply SB; nra).
    rewrite eps_val in *.
    apply Rabs_le_inv in B0. apply Rabs_le_inv in B1. apply Rabs_le_inv in B2. apply Rabs_le_inv in B3.
    assert (SQ : forall r p, -1 <= p <= 1 -> - (5.5 * / 16777216) <= r - p <= 5.5 * / 16777216 ->
              p * p + 2 * (p * (r - p)) <= r * r <= p * p + 2 * (p * (r - p)) + / 1000000000).
    { intros r p Hp Hr. set (e := r - p) in *. replace r with (p + e) by (unfold e; ring). clearbody e. clear - Hr.
      assert (E2 : 0 <= e * e <= / 1000000000) by (split; nra). replace ((p + e) * (p + e)) with (p * p + 2 * (p * e) + e * e) by ring. lra. }
    pose proof (SQ _ _ K0 B0) as Q0. pose proof (SQ _ _ K1 B1) as Q1. pose proof (SQ _ _ K2 B2) as Q2. pose proof (SQ _ _ K3 B3) as Q3.
    set (d0 := r0 - p0) in *. set (d1 := r1 - p1) in *. set (d2 := r2 - p2) in *. set (d3 := r3 - p3) in *.
    (* sum p_i d_i <= (sum |p_i|) 5.5 eps <= 2 * 5.5 eps *)
    assert (H4 : Rabs p0 + Rabs p1 + Rabs p2 + Rabs p3 <= 2).
    { assert (E : forall q, q * q = Rabs q * Rabs q) by (intros q; rewrite <- Rabs_mult, Rabs_pos_eq; [reflexivity|nra]).
      rewrite (E p0), (E p1), (E p2), (E p3) in U.
      set (u0 := Rabs p0) in *. set (u1 := Rabs p1) in *. set (u2 := Rabs p2) in *. set (u3 := Rabs p3) in *.
      pose proof (Rle_0_sqr (u0 - 1/2)). pose proof (Rle_0_sqr (u1 - 1/2)). pose proof (Rle_0_sqr (u2 - 1/2)). pose proof (Rle_0_sqr (u3 - 1/2)).
      unfold Rsqr in *. lra. }
    assert (PD : forall p q, - (5.5 * / 16777216) <= q <= 5.5 * / 16777216 -> - (Rabs p * (5.5 * / 16777216)) <= p * q <= Rabs p * (5.5 * / 16777216)).
    { intros p q Hq. apply Rabs_le_inv. rewrite Rabs_mult. apply Rmult_le_compat_l; [apply Rabs_pos|]. apply Rabs_le. exact Hq. }
    pose proof (PD p0 d0 B0). pose proof (PD p1 d1 B1). pose proof (PD p2 d2 B2). pose proof (PD p3 d3 B3).
    apply Rabs_le. split; lra.
  Qed.
End Normalize.
