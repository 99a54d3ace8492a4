(** C87: how accurate the sine, cosine, arcsine and arccosine, and the rotation about an axis, are in single precision.
    [sin], [cos], [asin], [acos] are the exact functions of Coq's real numbers. *)
From Coq Require Import Reals Lra Psatz Lia ZArith Bool NArith.
From Flocq Require Import IEEE754.BinarySingleNaN Core Mult_error.
From Verif Require Import Base Num NumF32 Math F32Facts F32Err MathF32 ApxF32 TrigReal TrigF32 TrigModel.
Local Open Scope R_scope.

(** [y] is a finite number within [e] of the real [r]. *)
Definition within (e : R) (y : f32) (r : R) : Prop := is_finite y = true /\ Rabs (B2R y - r) <= e.
(** A real clamped to [-1, 1]; and the value of a float that is not a NaN so clamped, infinities included. *)
Definition clamp1 (r : R) : R := Rmax (-1) (Rmin 1 r).
Definition clamped (v : f32) : R :=
  match v with B754_infinity true => -1 | B754_infinity false => 1 | _ => clamp1 (B2R v) end.

Lemma fin_within x a e r : fin x a -> Rabs (a - r) <= e -> within e x r.
Proof. intros [H <-]. split; assumption. Qed.

Lemma splat_sin_cos (x s c : f32) : sin_cos_lane x = Some (s, c) -> fx4_sin_cos (splat x) = Some (splat s, splat c).
Proof.
  intros E. unfold fx4_sin_cos. change (l0 (splat x)) with x. change (l1 (splat x)) with x.
  change (l2 (splat x)) with x. change (l3 (splat x)) with x. rewrite E. reflexivity.
Qed.

(** ** Sine and cosine *)
Theorem C87_sin_cos : forall x : f32, is_finite x = true -> Rabs (B2R x) <= 8192 ->
  exists s c, f32_sin_cos x = Some (s, c) /\ f32_sin x = Some s /\ f32_cos x = Some c /\
    within (/ 2 ^ 23) s (sin (B2R x)) /\ within (/ 2 ^ 23) c (cos (B2R x)) /\
    Rabs (B2R s) <= 1 /\ Rabs (B2R c) <= 1.
Proof.
  intros x Fx Hx. destruct (sin_cos_accurate x Fx Hx) as (s & c & S & C & E & Fs & Fc & Es & Ec & Bs & Bc).
  exists s, c. unfold f32_sin_cos, f32_sin, f32_cos. rewrite (splat_sin_cos _ _ _ E), !lane_splat.
  repeat (split; [reflexivity|]). split; [exact (fin_within _ _ _ _ Fs Es)|]. split; [exact (fin_within _ _ _ _ Fc Ec)|].
  destruct Fs as [_ ->], Fc as [_ ->]. auto.
Qed.
Print Assumptions C87_sin_cos.

(** ** Arcsine and arccosine *)
Lemma v_one : B2R (@none_ f32 f32arith) = 1. Proof. rewrite <- (ext_finite _ (eq_refl : is_finite (@none_ f32 f32arith) = true)). exact one_ext. Qed.
Lemma mone_finite : is_finite (nneg (@none_ f32 f32arith)) = true. Proof. reflexivity. Qed.
Lemma v_mone : B2R (nneg (@none_ f32 f32arith)) = -1.
Proof. assert (F : fin (@none_ f32 f32arith) 1) by (split; [reflexivity|exact v_one]). apply fin_neg in F. destruct F as [_ F]. rewrite F. lra. Qed.
Lemma asin_any (x : f32) : is_nan x = false -> within (/ 2 ^ 22) (asin_lane x) (asin (clamped x)).
Proof.
  intros Nx.
  assert (In : forall y : f32, is_finite y = true -> Rabs (B2R y) <= 1 -> within (/ 2 ^ 22) (asin_lane y) (asin (B2R y))).
  { intros y Fy Hy. destruct (asin_accurate y Fy Hy) as (s & Fs & Es). exact (fin_within _ _ _ _ Fs Es). }
  assert (One : within (/ 2 ^ 22) (asin_lane (none_ : f32)) (asin 1)).
  { assert (F1 : is_finite (@none_ f32 f32arith) = true) by reflexivity.
    rewrite <- v_one. apply In; [exact F1|]. rewrite v_one, Rabs_R1. lra. }
  assert (Mone : within (/ 2 ^ 22) (asin_lane (nneg none_ : f32)) (asin (-1))).
  { rewrite <- v_mone. apply In; [exact mone_finite|]. rewrite v_mone, Rabs_left by lra. lra. }
  destruct (is_finite x) eqn:Fx.
  - assert (Cx : clamped x = clamp1 (B2R x)) by (destruct x; simpl in *; try discriminate; reflexivity). rewrite Cx.
    destruct (asin_saturates x) as [Hi Lo].
    assert (LT1 : 1 < B2R x -> nlt none_ x = true).
    { intros H. change (Bltb (@none_ f32 f32arith) x = true). apply Bltb_iff. split; [reflexivity|]. split; [apply finite_notnan, Fx|].
      rewrite (ext_finite x Fx), one_ext. exact H. }
    assert (LT2 : B2R x < -1 -> nlt x (nneg none_) = true).
    { intros H. change (Bltb x (nneg (@none_ f32 f32arith)) = true). apply Bltb_iff. split; [apply finite_notnan, Fx|]. split; [reflexivity|].
      rewrite (ext_finite x Fx), (ext_finite _ mone_finite), v_mone. exact H. }
    unfold clamp1. destruct (Rlt_dec 1 (B2R x)) as [G|G].
    + rewrite (Hi (LT1 G)). rewrite Rmin_left, Rmax_right by lra. exact One.
    + rewrite Rmin_right by lra. destruct (Rlt_dec (B2R x) (-1)) as [L|L].
      * rewrite (Lo (LT2 L)). rewrite Rmax_left by lra. exact Mone.
      * rewrite Rmax_right by lra. apply In; [exact Fx|]. apply Rabs_le. lra.
  - destruct x as [b|b| |b m e H]; simpl in Nx, Fx; try discriminate.
    destruct b; simpl clamped; [rewrite (proj2 (asin_saturates (B754_infinity true)) eq_refl); exact Mone|rewrite (proj1 (asin_saturates (B754_infinity false)) eq_refl); exact One].
Qed.
Theorem C87_asin : forall x : f32, is_nan x = false -> within (/ 2 ^ 22) (f32_asin x) (asin (clamped x)).
Proof. intros x Nx. unfold f32_asin, fx4_asin. rewrite lane_map4, lane_splat. exact (asin_any x Nx). Qed.
Print Assumptions C87_asin.

Lemma acos_clamp (x : f32) : is_nan x = false -> within (/ 2 ^ 21) (f32_acos x) (acos (clamped x)).
Proof.
  intros Nx. unfold f32_acos, fx4_acos, fx4_asin. destruct (asin_any x Nx) as [Fs Es].
  change (within (/ 2 ^ 21) (nsub (nlit 13176795 (-23)) (asin_lane x)) (acos (clamped x))).
  set (s := asin_lane x) in *. clearbody s.
  assert (C : Rabs (clamped x) <= 1).
  { unfold clamped, clamp1. apply Rabs_le. assert (K : forall r, -1 <= Rmax (-1) (Rmin 1 r) <= 1).
    { intros r. split; [apply Rmax_l|]. apply Rmax_lub; [lra|apply Rmin_l]. }
    destruct x as [b|[]| |b m e H]; try lra; apply K. }
  apply Rabs_le_inv in C. rewrite acos_asin by lra. pose proof (asin_bound (clamped x)) as B.
  pose proof PI_bounds as P.
  assert (L : apx (nlit 13176795 (-23) : f32) (PI / 2) (/ 2 ^ 24) 1.6).
  { pose proof (fin_lit 13176795 (-23) ltac:(simpl; lia) ltac:(lia)) as L. eexists. split; [exact L|].
    split; [apply Rabs_le|rewrite Rabs_pos_eq]; simpl bpow; lra. }
  assert (A : apx s (asin (clamped x)) (/ 2 ^ 22) 1.6).
  { exists (B2R s). split; [split; auto|]. split; [exact Es|]. apply Rabs_le_inv in Es. apply Rabs_le. lra. }
  assert (D : apx (nsub (nlit 13176795 (-23)) s) (PI / 2 - asin (clamped x)) (/ 2 ^ 21) 4).
  { apply (apx_sub _ _ _ _ (/ 2 ^ 24) (/ 2 ^ 22) 1.6 1.6 2 _ _ 3.2); auto; try lia; try (simpl bpow; lra). apply Rabs_le. lra. }
  destruct D as (v & Fv & Ev & _). exact (fin_within _ _ _ _ Fv Ev).
Qed.
Theorem C87_acos : forall x : f32, is_nan x = false -> within (/ 2 ^ 21) (f32_acos x) (acos (clamped x)).
Proof. exact acos_clamp. Qed.
Print Assumptions C87_acos.

(** ** The rotation of an angle about an axis *)
Lemma half_close (x : f32) a : fin x a -> Rabs a <= 16384 ->
  exists h, fin (nmul x nhalf) h /\ Rabs (h - a / 2) <= / 2 ^ 100 /\ Rabs h <= 8192.
Proof.
  intros F Ha. assert (Fh : fin (nhalf : f32) (/ 2)) by (split; [reflexivity|]; rewrite <- (ext_finite _ (eq_refl : is_finite (@nhalf f32 f32arith) = true)); exact half_ext).
  assert (Pos : 0 < / 2 ^ 100 < 1).
  { split; [apply Rinv_0_lt_compat, pow_lt; lra|]. rewrite <- Rinv_1. apply Rinv_lt_contravar; [rewrite Rmult_1_l; apply pow_lt; lra|]. apply Rlt_pow_R1; [lra|lia]. }
  exists (rnd32 (a * / 2)). split.
  { apply fin_mul; auto. rewrite Rabs_mult, (Rabs_pos_eq (/ 2)) by lra. pose proof HUGE_big. lra. }
  destruct (Rle_dec (bpow radix2 (-125)) (Rabs a)) as [B|S].
  - assert (E : rnd32 (a * / 2) = a / 2).
    { change (a / 2) with (a * / 2). apply rnd_id. change (/ 2) with (bpow radix2 (-1)).
      apply mult_bpow_exact_FLT; [destruct F as [_ <-]; apply generic_format_B2R|].
      assert (G : (-124 <= mag radix2 a)%Z) by (apply mag_ge_bpow; exact B). 
      change (SpecFloat.emin 24 128) with (-149)%Z. lia. }
    rewrite E. split; [unfold Rminus; rewrite Rplus_opp_r, Rabs_R0; lra|].
    unfold Rdiv. rewrite Rabs_mult, (Rabs_pos_eq (/ 2)) by lra. lra.
  - assert (A : Rabs (a * / 2) <= bpow radix2 (-100)).
    { rewrite Rabs_mult, (Rabs_pos_eq (/ 2)) by lra. pose proof (bpow_le radix2 (-125) (-100) ltac:(lia)).
      pose proof (Rabs_pos a). lra. }
    pose proof (rnd_pow _ (-100) ltac:(lia) A) as E. pose proof (bpow_le radix2 (-100 - 25) (-100) ltac:(lia)) as M.
    assert (V : bpow radix2 (-100) = / 2 ^ 100) by (change (-100)%Z with (- (100))%Z; rewrite bpow_opp, bpow_powerRZ; reflexivity).
    rewrite V in *. change (a / 2) with (a * / 2). split; [lra|].
    apply Rabs_le_inv in E, A. apply Rabs_le. lra.
Qed.
(** The axis may have any lanes of magnitude at most 1.01 (a unit vector in single precision is one of them) and the
    angle may be of any sign, up to some 2600 turns: every component of the rotation is within [2^-22] of the exact one. *)
Theorem C87_axis_angle : forall (axis angle : V4 f32),
  (forall k, (k < 3)%nat -> is_finite (lane axis k) = true /\ Rabs (B2R (lane axis k)) <= 1.01) ->
  is_finite (lane angle 0) = true -> Rabs (B2R (lane angle 0)) <= 16384 ->
  let h := B2R (lane angle 0) / 2 in
  exists q, quat_from_axis_angle axis angle = Some q /\
    (forall k, (k < 3)%nat -> within (/ 2 ^ 22) (lane q k) (B2R (lane axis k) * sin h)) /\
    within (/ 2 ^ 22) (lane q 3) (cos h).
Proof.
  intros axis angle Hax Fa Ha h. set (a := l0 angle) in *. change (lane angle 0) with a in *.
  destruct (half_close a (B2R a) (conj Fa eq_refl) Ha) as (g & Fg & Eg & Bg).
  destruct Fg as [Fg Vg].
  destruct (sin_cos_accurate (nmul a nhalf) Fg ltac:(rewrite Vg; exact Bg)) as (s & c & S & C & E & Fs & Fc & Es & Ec & Bs & Bc).
  rewrite Vg in *.
  unfold quat_from_axis_angle. change (nmul (splat_x angle) nhalf) with (splat (nmul a (nhalf : f32))).
  rewrite (splat_sin_cos _ _ _ E). eexists. split; [reflexivity|].
  pose proof (sin_lip g h) as Ls. pose proof (cos_lip g h) as Lc. fold h in Eg.
  assert (T : / 2 ^ 100 <= / 2 ^ 30) by (apply Rinv_le_contravar; [apply pow_lt; lra|apply Rle_pow; [lra|lia]]).
  assert (Lc' : Rabs (cos g - cos h) <= / 2 ^ 100).
  { eapply Rle_trans; [exact Lc|]. rewrite <- (Rmult_1_r (/ 2 ^ 100)). apply Rmult_le_compat; try apply Rabs_pos; [exact Eg|].
    pose proof (SIN_bound ((g + h) / 2)). apply Rabs_le. lra. }
  assert (As : apx s (sin h) (1.1 * / 2 ^ 23) 1).
  { exists S. split; [exact Fs|]. split; [|exact Bs]. replace (S - sin h) with ((S - sin g) + (sin g - sin h)) by ring.
    eapply Rle_trans; [apply Rabs_triang|]. simpl in *. lra. }
  split.
  - intros k Hk. match goal with |- within _ (lane ?q k) _ => assert (K : lane q k = nmul (lane axis k) s) end.
    { destruct k as [|[|[|k]]]; try reflexivity. lia. }
    rewrite K. destruct (Hax k Hk) as [Fx Bx]. pose proof (SIN_bound h) as SB.
    assert (Ax : apx (lane axis k) (B2R (lane axis k)) 0 1.01) by (apply apx_exact; [split; auto|exact Bx]).
    assert (P : apx (nmul (lane axis k) s) (B2R (lane axis k) * sin h) (/ 2 ^ 22) 2).
    { apply (apx_mul _ _ _ _ 0 (1.1 * / 2 ^ 23) 1.01 1 1); auto; try lra; try lia; simpl; lra. }
    destruct P as (v & Fv & Ev & _). exact (fin_within _ _ _ _ Fv Ev).
  - apply (fin_within _ C); [exact Fc|]. replace (C - cos h) with ((C - cos g) + (cos g - cos h)) by ring.
    eapply Rle_trans; [apply Rabs_triang|]. clear - Ec Lc' T. simpl in *. lra.
Qed.
Print Assumptions C87_axis_angle.

(** ** Without the bound on the argument the claim is false
    The sine and cosine of 2^28 and of 3 * 2^26, which are defined, are not even near [-1, 1]. *)
Theorem C87_large_refuted : exists s c : f32,
  f32_sin (f32_lit 1 28) = Some s /\ is_finite s = true /\ B2R s < -20 /\
  f32_cos (f32_lit 3 26) = Some c /\ is_finite c = true /\ 300000 < B2R c.
Proof.
  assert (K : forall (o : option f32) p, match o with Some s => p s | None => false end = true -> exists s, o = Some s /\ p s = true).
  { intros [s|] p H; [eauto|discriminate]. }
  assert (S0 : exists s, f32_sin (f32_lit 1 28) = Some s /\ (fun s => is_finite s && Bltb s (f32_lit (-20) 0)) s = true) by (apply K; vm_compute; reflexivity).
  assert (C0 : exists c, f32_cos (f32_lit 3 26) = Some c /\ (fun c => is_finite c && Bltb (f32_lit 300000 0) c) c = true) by (apply K; vm_compute; reflexivity).
  destruct S0 as (s & Es & S), C0 as (c & Ec & C).
  apply andb_true_iff in S, C. destruct S as [Fs Ls], C as [Fc Lc]. exists s, c.
  apply Bltb_iff in Ls, Lc. destruct Ls as (_ & _ & Ls), Lc as (_ & _ & Lc).
  pose proof (fin_lit (-20) 0 ltac:(simpl; lia) ltac:(lia)) as [F1 V1]. pose proof (fin_lit 300000 0 ltac:(simpl; lia) ltac:(lia)) as [F2 V2].
  rewrite (ext_finite _ Fs), (ext_finite _ F1), V1 in Ls. rewrite (ext_finite _ Fc), (ext_finite _ F2), V2 in Lc.
  change (bpow radix2 0) with 1 in *. split; [exact Es|]. split; [exact Fs|]. split; [lra|]. split; [exact Ec|]. split; [exact Fc|lra].
Qed.
Print Assumptions C87_large_refuted.

(** The hypotheses are met by an angle beyond the first turn, by one of some 1300 turns, by an out-of-range cosine, and by
    a slanted unit axis; the bits of a few results. *)
Example C87_example :
  (is_finite (f32_lit (-7) 0) = true /\ Rabs (B2R (f32_lit (-7) 0)) <= 8192) /\
  (is_finite (f32_lit 1 13) = true /\ Rabs (B2R (f32_lit 1 13)) <= 8192) /\
  is_nan (f32_lit 5 0) = false /\
  (let axis := mk4 (f32_lit 10066330 (-24)) (f32_lit 0 0) (f32_lit (-13421773) (-24)) (f32_lit 0 0) in
   forall k, (k < 3)%nat -> is_finite (lane axis k) = true /\ Rabs (B2R (lane axis k)) <= 1.01) /\
  (match f32_sin (f32_lit (-7) 0) with Some s => f32_to_bits s | None => 0%N end = 3207082054%N) /\
  f32_to_bits (f32_acos (f32_lit 1 (-1))) = 1065749138%N.
Proof.
  assert (L : forall m e, (Z.abs m <= 2 ^ 24)%Z -> (-149 <= e <= 103)%Z -> forall b, Rabs (IZR m * bpow radix2 e) <= b ->
              is_finite (f32_lit m e) = true /\ Rabs (B2R (f32_lit m e)) <= b).
  { intros m e Hm He b Hb. destruct (fin_lit m e Hm He) as [F ->]. split; assumption. }
  split; [|split; [|split; [|split; [|split]]]].
  - apply L; [simpl; lia|lia|]. rewrite Rabs_left; simpl; lra.
  - apply L; [simpl; lia|lia|]. rewrite Rabs_pos_eq; simpl; lra.
  - reflexivity.
  - cbv zeta. intros k Hk. destruct k as [|[|[|k]]]; [| | |lia]; cbn [lane l0 l1 l2]; apply L; try (simpl; lia); try lia.
    + rewrite Rabs_pos_eq; simpl; lra.
    + rewrite Rabs_pos_eq; simpl; lra.
    + rewrite Rabs_left; simpl; lra.
  - vm_compute; reflexivity.
  - vm_compute; reflexivity.
Qed.
