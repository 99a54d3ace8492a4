(** Interpolation of vectors and rotations in single precision. *)
From Coq Require Import Reals Lra Psatz.
From Flocq Require Import IEEE754.BinarySingleNaN Core.
From Verif Require Import Base Num NumF32 NumR F32Facts F32Err InterpF32 NormF32 BlendF32 BlendF32Proofs PoseProofs Math MathSpec BlendingSpec QuatNorm.
From Verif Require Import Tracks TracksSpec TracksProofs TracksProps BlendF32Props TrackCurveProps.
From Verif Require Import Motion MotionGlam MotionF32Spec MotionF32 MotionF32Proofs MotionF32Props TrackValues TrackValuesSpec.
Local Open Scope R_scope.

Definition lerp1_r (m : lerp_form) (a b u : R) : R :=
  match m with Delta => lerp_r a b u | Weighted => rnd32 (rnd32 (a * rnd32 (1 - u)) + rnd32 (b * u)) end.

Lemma lerp1_fin m (x y k : f32) a b u : Rabs a <= p2 100 -> Rabs b <= p2 100 -> fin x a -> fin y b -> fin k u -> 0 <= u <= 1 ->
  fin (lerp1 m x y k) (lerp1_r m a b u).
Proof.
  intros Ba Bb Fx Fy Fk Hu. destruct m; [exact (lerp_fin100 x y k a b u Ba Bb Fx Fy Fk Hu)|].
  assert (B1 : Rabs (1 - u) <= p2 0) by (simpl; apply Rabs_le; lra).
  pose proof (fin_sub _ _ _ _ fin_one Fk (p2_le_HUGE 0 _ ltac:(lia) B1)) as F1. pose proof (rnd_abs_le 0 _ ltac:(lia) B1) as B1'. simpl (p2 0) in B1'.
  assert (B2 : Rabs (a * rnd32 (1 - u)) <= p2 100) by (rewrite Rabs_mult, <- (Rmult_1_r (p2 100)); apply Rmult_le_compat; try apply Rabs_pos; lra).
  assert (B3 : Rabs (b * u) <= p2 100) by (rewrite Rabs_mult, <- (Rmult_1_r (p2 100)), (Rabs_pos_eq u) by lra; apply Rmult_le_compat; try apply Rabs_pos; lra).
  pose proof (fin_mul _ _ _ _ Fx F1 (p2_le_HUGE 100 _ ltac:(lia) B2)) as F2. pose proof (rnd_abs_le 100 _ ltac:(lia) B2) as B2'.
  pose proof (fin_mul _ _ _ _ Fy Fk (p2_le_HUGE 100 _ ltac:(lia) B3)) as F3. pose proof (rnd_abs_le 100 _ ltac:(lia) B3) as B3'.
  unfold lerp1, lerp1_r. apply fin_add; [exact F2|exact F3|].
  apply (p2_le_HUGE 101); [lia|]. change 101%Z with (1 + 100)%Z. rewrite (p2_shift 1 100 2) by (simpl; lra).
  eapply Rle_trans; [apply Rabs_triang|]. lra.
Qed.
Lemma lerp1_0 m a b : fmt a -> lerp1_r m a b 0 = a.
Proof.
  intros Fa. destruct m; [apply lerp_0, Fa|]. unfold lerp1_r. rewrite Rminus_0_r, (fmt_rnd 1 fmt1), Rmult_1_r, Rmult_0_r, rnd32_0, Rplus_0_r, (fmt_rnd a Fa).
  apply fmt_rnd, Fa.
Qed.
(** [a * (1 - u) + b * u] with its rounding errors. *)
Lemma weighted_err a b u : 0 <= u <= 1 -> let M := Rmax (Rabs a) (Rabs b) in
  Rabs (lerp1_r Weighted a b u - (a * (1 - u) + b * u)) <= 3.5 * eps * M + 4 * tiny.
Proof.
  intros Hu M. unfold lerp1_r.
  assert (Ma : Rabs a <= M) by apply Rmax_l. assert (Mb : Rabs b <= M) by apply Rmax_r. pose proof (Rabs_pos a) as Pa. pose proof (Rabs_pos b) as Pb.
  pose proof tiny_eps as TE. pose proof tiny_pos as TP. unfold eps in *.
  assert (W : 0 <= rnd32 (1 - u) <= 1).
  { split; [apply rnd_nonneg; lra|]. apply Rle_trans with (rnd32 1); [apply rnd_mono; lra|]. rewrite (fmt_rnd 1 fmt1). lra. }
  pose proof (rnd_err (1 - u)) as E0. rewrite (Rabs_pos_eq (1 - u)) in E0 by lra. rewrite eps_val in E0. set (w := rnd32 (1 - u)) in *. clearbody w.
  pose proof (rnd_err (a * w)) as E1. pose proof (rnd_err (b * u)) as E2. rewrite Rabs_mult, (Rabs_pos_eq w) in E1 by lra. rewrite Rabs_mult, (Rabs_pos_eq u) in E2 by lra.
  rewrite eps_val in E1, E2. set (x := rnd32 (a * w)) in *. set (y := rnd32 (b * u)) in *. clearbody x y.
  pose proof (rnd_err (x + y)) as E3. rewrite eps_val in E3. set (z := rnd32 (x + y)) in *. clearbody z.
  assert (W1 : Rabs a * w <= M * w) by (apply Rmult_le_compat_r; lra). assert (U1 : Rabs b * u <= M * u) by (apply Rmult_le_compat_r; lra).
  assert (M0 : 0 <= M) by lra.
  assert (D0 : Rabs (a * w - a * (1 - u)) <= M * (1.0001 * / 16777216)).
  { rewrite <- Rmult_minus_distr_l, Rabs_mult. apply Rmult_le_compat; try apply Rabs_pos; [exact Ma|lra]. }
  apply Rabs_le_inv in E0.
  assert (WU : M * w + M * u <= 1.001 * M) by (rewrite <- Rmult_plus_distr_l, (Rmult_comm 1.001 M); apply Rmult_le_compat_l; lra).
  assert (AW : Rabs (a * w) <= M * w) by (rewrite Rabs_mult, (Rabs_pos_eq w) by lra; exact W1).
  assert (BU : Rabs (b * u) <= M * u) by (rewrite Rabs_mult, (Rabs_pos_eq u) by lra; exact U1).
  assert (XY : Rabs (x + y) <= 1.01 * M + 3 * tiny).
  { apply Rabs_le_inv in AW. apply Rabs_le_inv in BU. apply Rabs_le_inv in E1. apply Rabs_le_inv in E2. apply Rabs_le. lra. }
  apply Rabs_le_inv in E1. apply Rabs_le_inv in E2. apply Rabs_le_inv in E3. apply Rabs_le_inv in D0.
  apply Rabs_le. lra.
Qed.

Lemma lerp1_close m a b u k : fmt a -> fmt b -> 0 <= u <= 1 -> Rabs (u - k) <= 4 * eps ->
  let M := Rmax (Rabs a) (Rabs b) in Rabs (lerp1_r m a b u - (a + (b - a) * k)) <= 16 * eps * M + 4 * tiny.
Proof.
  intros Fa Fb Hu Hk M. pose proof tiny_pos as TP.
  assert (Ma : Rabs a <= M) by apply Rmax_l. assert (Mb : Rabs b <= M) by apply Rmax_r. pose proof (Rabs_pos a) as Pa.
  destruct m.
  - pose proof (lerp_close a b Fa Fb u k (4 * eps) Hu Hk ltac:(unfold eps; lra)) as H. fold M in H. unfold lerp1_r, eps in *. lra.
  - pose proof (weighted_err a b u Hu) as H. cbv zeta in H. fold M in H.
    assert (D : Rabs ((b - a) * (u - k)) <= 2 * M * (4 * eps)).
    { rewrite Rabs_mult. apply Rmult_le_compat; try apply Rabs_pos; [|exact Hk]. unfold Rminus. eapply Rle_trans; [apply Rabs_triang|]. rewrite Rabs_Ropp. lra. }
    replace (lerp1_r Weighted a b u - (a + (b - a) * k)) with (lerp1_r Weighted a b u - (a * (1 - u) + b * u) + (b - a) * (u - k)) by ring.
    eapply Rle_trans; [apply Rabs_triang|]. unfold eps in *. lra.
Qed.
Lemma lerp1_hull m a b u : fmt a -> fmt b -> 0 <= u <= 1 -> let M := Rmax (Rabs a) (Rabs b) in
  Rmin a b - 4 * eps * M - 4 * tiny <= lerp1_r m a b u <= Rmax a b + 4 * eps * M + 4 * tiny.
Proof.
  intros Fa Fb Hu M. pose proof tiny_pos as TP. assert (Ma : Rabs a <= M) by apply Rmax_l. pose proof (Rabs_pos a) as Pa.
  destruct m; [pose proof (lerp_hull a b Fa Fb u Hu) as H; fold M in H; unfold lerp1_r; lra|].
  pose proof (weighted_err a b u Hu) as H. cbv zeta in H. fold M in H. apply Rabs_le_inv in H.
  assert (C : Rmin a b <= a * (1 - u) + b * u <= Rmax a b).
  { pose proof (Rmin_l a b). pose proof (Rmin_r a b). pose proof (Rmax_l a b). pose proof (Rmax_r a b). split; nra. }
  unfold eps in *. lra.
Qed.

(** ** The keys *)
Lemma key_time {V} (t : ftrack f32 V) i a : good_keys t -> nth_error (t_ratios t) i = Some a -> is_finite a = true /\ 0 <= B2R a <= 1.
Proof.
  intros (_ & HI & H0 & H1) E. pose proof (H1 i a E) as L1.
  assert (L0 : nle nzero a = true).
  { destruct i as [|i].
    - specialize (H0 a E). destruct a as [s|s| |s m e b]; try discriminate; try reflexivity; destruct s; discriminate.
    - destruct (nth_error (t_ratios t) 0) as [z|] eqn:Z.
      2:{ apply nth_error_None in Z. assert (S i < length (t_ratios t))%nat by (apply nth_error_Some; congruence). lia. }
      specialize (HI 0%nat (S i) z a ltac:(lia) Z E). specialize (H0 z eq_refl).
      assert (Nz : is_nan z = false) by exact (f32_eq_notnan _ _ H0).
      destruct (Bltb_notnan _ _ HI) as [_ Na].
      apply f32_eq_ext in H0; [|exact Nz|reflexivity]. apply f32_nlt_iff in HI. rewrite H0 in HI.
      change (Bleb (nzero : f32) a = true). rewrite Bleb_ext by (reflexivity || exact Na). apply Rle_bool_true. lra. }
  assert (F : is_finite a = true).
  { destruct a as [s|s| |s m e b]; try reflexivity; try discriminate. destruct s; discriminate. }
  split; [exact F|]. apply (nle_fin nzero a (proj1 fin_zero) F) in L0. apply (nle_fin a none_ F (proj1 fin_one)) in L1.
  rewrite (proj2 fin_one) in L1. rewrite (proj2 fin_zero) in L0. lra.
Qed.

(** What the job does on any track: a key's value, or the interpolation of two neighbours by a share
    near the true one. *)
Lemma sample_cases {V} (lerp : V -> V -> f32 -> V) d (t : ftrack f32 V) (r : f32) : good_keys t -> t_ratios t <> [] -> is_finite r = true ->
  exists x, sample_track lerp d t r = Ok x /\
    (past_keys t (B2R r) x \/
     exists i a b v w, between_keys t (B2R r) i a b v w /\
       (is_step t i = true -> x = v) /\
       (is_step t i = false -> exists (k : f32) u, x = lerp v w k /\ fin k u /\ 0 <= u <= 1 /\ Rabs (u - (B2R r - a) / (b - a)) <= 4 * eps /\
          (B2R r = a -> u = 0))).
Proof.
  intros G N Fr. pose proof G as (HS & HI & H0 & H1).
  destruct (C39_sampling lerp d t r HS HI H0 H1) as [[x Ex] IFF].
  exists x. split; [exact Ex|]. destruct (proj2 (IFF x) Ex) as [[E _]|[[L E]|[(L & A & E)|(i & a & b & v & w & Ea & Eb & Ev & Ew & La & Lb & Sx)]]].
  - contradiction.
  - left. left. split; [|exact E]. apply (nlt_fin r nzero Fr (proj1 fin_zero)) in L. rewrite (proj2 fin_zero) in L. exact L.
  - left. right. split; [|exact E].
    intros i a Ea. destruct (key_time t i a G Ea) as [Fa _]. specialize (A i a Ea).
    apply f32_nlt_ext in A; [|destruct r; try reflexivity; discriminate|destruct a; try reflexivity; discriminate].
    rewrite !ext_finite in A by assumption. exact A.
  - right. destruct (key_time t i a G Ea) as [Fa Ra]. destruct (key_time t (S i) b G Eb) as [Fb Rb].
    pose proof (nle_fin _ _ Fa Fr La) as La'. pose proof (nlt_fin _ _ Fr Fb Lb) as Lb'.
    exists i, (B2R a), (B2R b), v, w. split.
    { exists a, b. repeat (split; [assumption || reflexivity|]). assumption. }
    split; [intros St; rewrite St in Sx; exact Sx|]. intros St. rewrite St in Sx.
    pose proof (fin_of _ Fa) as FA. pose proof (fin_of _ Fb) as FB. pose proof (fin_of _ Fr) as FR.
    pose proof (fin_fmt _ _ FA) as fA. pose proof (fin_fmt _ _ FB) as fB. pose proof (fin_fmt _ _ FR) as fR.
    assert (Lab : B2R a < B2R b) by lra.
    assert (D : 0 < rnd32 (B2R b - B2R a) <= 1) by (apply den_pos; auto; lra).
    assert (Q : 0 <= rnd32 (B2R r - B2R a) / rnd32 (B2R b - B2R a) <= 1) by (apply quot_range; auto; lra).
    assert (HU : forall y, -1 <= y <= 1 -> Rabs y <= HUGE).
    { intros y Hy. apply (p2_le_HUGE 0); [lia|]. simpl. apply Rabs_le. lra. }
    exists (ndiv (nsub r a) (nsub b a)), (alpha_r (B2R a) (B2R b) (B2R r)). split; [exact Sx|]. split; [|split; [|split]].
    + unfold alpha_r. apply fin_div; [apply fin_sub; [exact FR|exact FA|apply HU; lra]|apply fin_sub; [exact FB|exact FA|apply HU; lra]|lra|apply HU; lra].
    + apply alpha_range; auto; lra.
    + apply alpha_close; auto; lra.
    + intros E. rewrite E. apply alpha_left.
Qed.

(** ** Vectors *)
Lemma lerp_vec_nth m (v w : list f32) k : length v = length w -> length (lerp_vec m v w k) = length v /\
  forall c x, nth_error (lerp_vec m v w k) c = Some x <-> exists a b, nth_error v c = Some a /\ nth_error w c = Some b /\ x = lerp1 m a b k.
Proof.
  revert w. induction v as [|a v IH]; intros [|b w] L; cbn in L; try discriminate.
  - split; [reflexivity|]. intros c x. assert (E : nth_error (@nil f32) c = None) by (destruct c; reflexivity). cbn [lerp_vec]. rewrite !E. split; [discriminate|]. intros (a & b & H & _). discriminate H.
  - destruct (IH w ltac:(lia)) as [IL IN]. cbn [lerp_vec length]. split; [lia|]. intros [|c] x; cbn [nth_error]; [|apply IN]. split.
    + intros E. exists a, b. split; [reflexivity|]. split; [reflexivity|]. assert (I : forall y z : f32, Some y = Some z -> y = z) by congruence. symmetry. apply I, E.
    + intros (a' & b' & Ea & Eb & ->). assert (I : forall y z : f32, Some y = Some z -> y = z) by congruence. apply I in Ea. apply I in Eb. subst. reflexivity.
Qed.

(** ** Rotations *)
Lemma flip_fin s (x : f32) a : fin x a -> fin (flip s x) ((if s then -1 else 1) * a).
Proof.
  intros H. destruct s; cbn [flip].
  - replace (-1 * a) with (- a) by ring. apply fin_neg, H.
  - rewrite Rmult_1_l. exact H.
Qed.
Lemma turned_sign z o p q a b : finq p a -> finq q b -> boundq (p2 1) a -> boundq (p2 1) b -> norm2 a <= 1.01 -> norm2 b <= 1.01 ->
  let sg := if turned z (g_dot o p q) then -1 else 1 in - (/ 2 ^ 20) <= sg * qdot a b.
Proof.
  intros Fp Fq Ba Bb Na Nb sg.
  assert (B50 : forall r, boundq (p2 1) r -> boundq (p2 50) r).
  { intros r (B0 & B1 & B2 & B3). pose proof (bpow_le radix2 1 50 ltac:(lia)). repeat split; eapply Rle_trans; eassumption. }
  destruct (g_dot_err o p q a b Fp Fq (B50 _ Ba) (B50 _ Bb)) as (d & Fd & Ed). change (rdot a b) with (qdot a b) in Ed.
  pose proof (absdot_le a b 1 ltac:(lra)) as AD. unfold nq in AD. fold (norm2 a) in AD. fold (norm2 b) in AD.
  assert (AD' : absdot a b <= 1.01) by lra. pose proof tiny_eps as TE.
  assert (ED : Rabs (d - qdot a b) <= / 2 ^ 20).
  { eapply Rle_trans; [exact Ed|]. unfold eps in *. simpl pow. lra. }
  apply Rabs_le_inv in ED. unfold sg, turned. change (@num_arith f32 f32num) with f32arith in *.
  destruct z.
  - rewrite (nle_fin0 _ _ Fd). destruct (Rle_dec d 0); lra.
  - rewrite (nlt0_sign _ _ Fd). destruct (Rlt_dec d 0); lra.
Qed.

Lemma blend_norm a b sg k : sg * sg = 1 -> 0 <= k <= 1 -> 0.99 <= norm2 a -> 0.99 <= norm2 b -> - (/ 2 ^ 20) <= sg * qdot a b ->
  0.49 <= norm2 (blend_to a b sg k).
Proof.
  intros S K A B D.
  assert (E : norm2 (blend_to a b sg k) = (1 - k) * (1 - k) * norm2 a + k * k * (sg * sg) * norm2 b + 2 * (k * (1 - k)) * (sg * qdot a b)).
  { unfold norm2, blend_to, qadd, qscale, qdot. cbn. ring. }
  rewrite E, S, Rmult_1_r. set (n := norm2 a) in *. set (n' := norm2 b) in *. set (d := sg * qdot a b) in *. clearbody n n' d. simpl pow in D.
  assert (Q : 0 <= k * (1 - k) <= / 4) by (pose proof (Rle_0_sqr (k - / 2)) as Q0; unfold Rsqr in Q0; split; [apply Rmult_le_pos; lra|lra]).
  assert (D1 : - / 1000000 <= 2 * (k * (1 - k)) * d) by nra.
  assert (A1 : (1 - k) * (1 - k) * 0.99 <= (1 - k) * (1 - k) * n) by (apply Rmult_le_compat_l; nra).
  assert (B1 : k * k * 0.99 <= k * k * n') by (apply Rmult_le_compat_l; nra).
  nra.
Qed.
Lemma norm_bound a : norm2 a <= 1.01 -> boundq (p2 1) a /\ Rabs (qx a) <= 1.005 /\ Rabs (qy a) <= 1.005 /\ Rabs (qz a) <= 1.005 /\ Rabs (qw a) <= 1.005.
Proof.
  intros N. unfold norm2 in N. simpl (p2 1). unfold boundq.
  assert (K : forall x, x * x <= 1.01 -> Rabs x <= 1.005) by (intros x H; apply Rabs_le; split; nra).
  assert (K0 := K (qx a) ltac:(nra)). assert (K1 := K (qy a) ltac:(nra)). assert (K2 := K (qz a) ltac:(nra)). assert (K3 := K (qw a) ltac:(nra)).
  repeat split; lra.
Qed.
Lemma lerp1_comp m (x y k : f32) a b u c (s : bool) : fin x a -> fin y b -> fin k u -> 0 <= u <= 1 -> Rabs (u - c) <= 4 * eps -> Rabs a <= 1.005 -> Rabs b <= 1.005 ->
  let sg := if s then -1 else 1 in
  exists r, fin (lerp1 m x (flip s y) k) r /\ Rabs (r - ((1 - c) * a + c * sg * b)) <= 16.1 * eps.
Proof.
  intros Fx Fy Fk Hu Hc Ba Bb sg. pose proof (flip_fin s y b Fy) as Ff. fold sg in Ff.
  assert (Bs : Rabs (sg * b) <= 1.005) by (rewrite Rabs_mult; replace (Rabs sg) with 1 by (unfold sg; destruct s; [rewrite Rabs_left|rewrite Rabs_right]; lra); lra).
  assert (B100 : 1.005 <= p2 100) by (apply Rle_trans with (p2 1); [simpl; lra|apply bpow_le; lia]).
  exists (lerp1_r m a (sg * b) u). split; [apply lerp1_fin; auto; lra|].
  pose proof (lerp1_close m a (sg * b) u c (fin_fmt _ _ Fx) (fin_fmt _ _ Ff) Hu Hc) as L. cbv zeta in L.
  replace ((1 - c) * a + c * sg * b) with (a + (sg * b - a) * c) by ring. eapply Rle_trans; [exact L|].
  assert (Rmax (Rabs a) (Rabs (sg * b)) <= 1.005) by (apply Rmax_lub; assumption). pose proof tiny_eps. unfold eps in *. lra.
Qed.
Lemma lerp_quat_err m o z div (p q : quat f32) a b (k : f32) u c : finq p a -> finq q b -> fin k u -> 0 <= u <= 1 -> 0 <= c <= 1 ->
  Rabs (u - c) <= 4 * eps -> Rabs (norm2 a - 1) <= / 100 -> Rabs (norm2 b - 1) <= / 100 ->
  exists r sg, finq (lerp_quat m o z div p q k) r /\ Rabs (norm2 r - 1) <= / 2 ^ 19 /\ (sg = 1 \/ sg = -1) /\ - (/ 2 ^ 20) <= sg * qdot a b /\
    0 < qn (blend_to a b sg c) /\ qn (qsub r (qscale (/ qn (blend_to a b sg c)) (blend_to a b sg c))) <= / 2 ^ 17.
Proof.
  intros Fp Fq Fk Hu Hc D Na Nb. apply Rabs_le_inv in Na. apply Rabs_le_inv in Nb.
  destruct (norm_bound a ltac:(lra)) as (Ba & A0 & A1 & A2 & A3). destruct (norm_bound b ltac:(lra)) as (Bb & B0 & B1 & B2 & B3).
  pose proof (turned_sign z o p q a b Fp Fq Ba Bb ltac:(lra) ltac:(lra)) as T. cbv zeta in T.
  unfold lerp_quat. cbv zeta. set (s := turned z (g_dot o p q)) in *. clearbody s. set (sg := if s then -1 else 1) in *.
  destruct Fp as (P0 & P1 & P2 & P3). destruct Fq as (Q0 & Q1 & Q2 & Q3).
  destruct (lerp1_comp m _ _ k _ _ u c s P0 Q0 Fk Hu D A0 B0) as (r0 & F0 & E0). destruct (lerp1_comp m _ _ k _ _ u c s P1 Q1 Fk Hu D A1 B1) as (r1 & F1 & E1).
  destruct (lerp1_comp m _ _ k _ _ u c s P2 Q2 Fk Hu D A2 B2) as (r2 & F2 & E2). destruct (lerp1_comp m _ _ k _ _ u c s P3 Q3 Fk Hu D A3 B3) as (r3 & F3 & E3).
  fold sg in E0, E1, E2, E3. set (w := blend_to a b sg c). set (v := Q4 r0 r1 r2 r3).
  assert (QD : qn (qsub v w) <= 32.2 * eps).
  { replace (32.2 * eps) with (2 * (16.1 * eps)) by (unfold eps; lra). apply qn_le; [unfold eps; lra| | | |];
      unfold qsub, v, w, blend_to, qadd, qscale; cbn [qx qy qz qw];
      match goal with |- Rabs ?x <= _ => match goal with H : Rabs ?y <= 16.1 * eps |- _ => replace x with y by ring; exact H end end. }
  assert (SG : sg * sg = 1) by (unfold sg; destruct s; ring).
  assert (NW : 0.49 <= norm2 w) by (apply blend_norm; auto; lra).
  assert (QW : 0.7 <= qn w). { unfold qn. rewrite <- (sqrt_square 0.7) by lra. apply sqrt_le_1; lra. }
  pose proof (qn_diff v w) as QV. apply Rabs_le_inv in QV. unfold eps in QD. assert (QV' : 0.699 <= qn v) by lra.
  assert (NV : p2 (-64) <= norm2 v).
  { rewrite <- qn_sq. apply Rle_trans with (p2 (-2)); [apply bpow_le; lia|]. replace (p2 (-2)) with 0.25 by (simpl; lra). nra. }
  assert (FV : finq (Q4 (lerp1 m (qx p) (flip s (qx q)) k) (lerp1 m (qy p) (flip s (qy q)) k) (lerp1 m (qz p) (flip s (qz q)) k) (lerp1 m (qw p) (flip s (qw q)) k)) v)
    by (repeat split; cbn; first [apply F0|apply F1|apply F2|apply F3]).
  assert (BV : boundq (p2 50) v).
  { assert (W2 : qn w <= 2.1).
    { unfold w, blend_to. eapply Rle_trans; [apply qn_tri|]. rewrite !qn_scale.
      assert (Na' : qn a <= 1.05) by (unfold qn; rewrite <- (sqrt_square 1.05) by lra; apply sqrt_le_1; try lra; apply n2_nonneg).
      assert (Nb' : qn b <= 1.05) by (unfold qn; rewrite <- (sqrt_square 1.05) by lra; apply sqrt_le_1; try lra; apply n2_nonneg).
      pose proof (qn_pos a). pose proof (qn_pos b).
      assert (Rabs (1 - c) <= 1) by (apply Rabs_le; lra). assert (Rabs (c * sg) <= 1) by (unfold sg; apply Rabs_le; destruct s; lra).
      pose proof (Rabs_pos (1 - c)). pose proof (Rabs_pos (c * sg)). nra. }
    assert (P : 4 <= p2 50) by (apply Rle_trans with (p2 2); [simpl; lra|apply bpow_le; lia]).
    destruct (qn_comp v) as (V0 & V1 & V2 & V3). repeat split; lra. }
  destruct (g_normalize_err o div _ v FV BV NV) as (r & Fr & Er & Nr).
  exists r, sg. split; [exact Fr|]. split; [eapply Rle_trans; [exact Nr|]; simpl; lra|]. split; [unfold sg; destruct s; auto|]. split; [exact T|].
  fold w. split; [lra|].
  eapply Rle_trans; [apply (qsub_tri _ (qscale (/ qn v) v))|].
  pose proof (unit_sub v w ltac:(lra) ltac:(lra)) as US.
  assert (US' : 2 * qn (qsub v w) / qn w <= 92.1 * eps).
  { apply Rmult_le_reg_r with (qn w); [lra|]. unfold Rdiv. rewrite Rmult_assoc, Rinv_l by lra. unfold eps. nra. }
  unfold eps in *. simpl pow. lra.
Qed.
