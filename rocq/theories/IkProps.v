(** Inverse kinematics: properties that hold in every arithmetic, and what a zero weight gives. *)
From Coq Require Import Reals Lra Psatz.
From Flocq Require Import IEEE754.BinarySingleNaN Core.
From Verif Require Import Base Num NumF32 NumR Math MathSpec MathProofs F32Facts F32Err MathF32 Ik IkSpec IkProofs IkGeom IkF32.
Local Open Scope num_scope.

Section Any.
  Context {F : Type} {NF : Num F}.
  Notation V := (V4 F).

  (** Squared length of the three coordinates of a [Vec3A], as the code computes it. *)
  Definition len2_of (v : V) : F := l0 v * l0 v + l1 v * l1 v + l2 v * l2 v.
  (** 0.998 < |v|^2 < 1.002 (binary32 values of the two constants) *)
  Definition about_unit (v : V) : Prop := nlt (nlit 8371831 (-23)) (len2_of v) = true /\ nlt (len2_of v) (nlit 8405385 (-23)) = true.
  Lemma normalized_iff v : vec3_is_normalized v = true <-> about_unit v.
  Proof. unfold vec3_is_normalized, about_unit, len2_of. cbv zeta. apply andb_true_iff. Qed.

  (** ** C48 Invalid and weightless runs *)
  (** For every arithmetic, binary32 included; the output fields before the call are arbitrary. *)
Theorem C48_two_bone : forall (j : ik2_job F) o,
    (~ about_unit (i2_mid_axis j) -> ik2_run j o = Some (Err InvalidJob, o)) /\
    (about_unit (i2_mid_axis j) -> nle (i2_weight j) nzero = true ->
       exists out, ik2_run j o = Some (Ok tt, out) /\ o_start out = QUAT_UNIT /\ o_mid out = QUAT_UNIT /\ o_reached out = false) /\
    (forall r out, ik2_run j o = Some (r, out) -> r = Ok tt -> o_reached out = true -> nle none_ (i2_weight j) = true) /\
    (forall r out, ik2_run j o = Some (r, out) -> r = Ok tt \/ r = Err InvalidJob /\ out = o).
  Proof.
    intros j o. unfold ik2_run, ik2_run_with, ik2_validate. destruct (vec3_is_normalized (i2_mid_axis j)) eqn:V; cbn [negb].
    - apply normalized_iff in V. split; [contradiction|]. destruct (nle (i2_weight j) nzero) eqn:W.
      + split; [intros _ _; eexists; repeat split|]. split; intros r out H; injection H; intros <- <-; [discriminate|auto].
      + split; [discriminate|]. cbv zeta. destruct (ik2_soften j (ik2_setup j)) as [[lr t] t2].
        destruct (ik2_mid_rot _ _ _ _ _); [|split; discriminate]. destruct (ik2_start_rot _ _ _ _ _ _); [|split; discriminate].
        destruct (ik2_weight_output _ _ _). split; intros r out H; injection H; intros <- <-; [|auto].
        intros _ R. cbn [o_reached] in R. apply andb_true_iff in R. apply R.
    - assert (NV : ~ about_unit (i2_mid_axis j)) by (intros A; apply normalized_iff in A; congruence).
      split; [auto|]. split; [contradiction|]. split; intros r out H; injection H; intros <- <-; [discriminate|auto].
  Qed.
Theorem C48_aim : forall (j : aim_job F) o,
    (~ about_unit (am_forward j) -> aim_run j o = Some (Err InvalidJob, o)) /\
    (forall r out, aim_run j o = Some (r, out) -> r = Ok tt \/ r = Err InvalidJob /\ out = o).
  Proof.
    intros j o. unfold aim_run, aim_run_with, aim_validate. destruct (vec3_is_normalized (am_forward j)) eqn:V; cbn [negb].
    - apply normalized_iff in V. split; [contradiction|]. cbv zeta. intros r out.
      destruct (offsetted_forward _ _ _); [|intros H; injection H; intros <- <-; auto].
      destruct (neq _ _); [intros H; injection H; intros <- <-; auto|].
      destruct (aim_twisted _ _ _ _ _); [intros H; injection H; intros <- <-; auto|discriminate].
    - assert (NV : ~ about_unit (am_forward j)) by (intros A; apply normalized_iff in A; congruence).
      split; [auto|]. intros r out H; injection H; intros <- <-; auto.
  Qed.

  (** ** C62 The fourth lane of a [Vec3A] does not matter
      A [Vec3A] is stored in four lanes, the last of which is arbitrary; the jobs load all four.
      Two jobs that agree on the three coordinates give the same result, bit for bit. *)
  Definition same3 (a b : V) : Prop := l0 a = l0 b /\ l1 a = l1 b /\ l2 a = l2 b.
  Ltac s3 H := let H0 := fresh in let H1 := fresh in let H2 := fresh in destruct H as (H0 & H1 & H2).

  Lemma tp_same m a b : same3 a b -> transform_point m a = transform_point m b.
  Proof. intros H. s3 H. unfold transform_point, swz. cbn [lane]. congruence. Qed.
  Lemma tv_same m a b : same3 a b -> transform_vector m a = transform_vector m b.
  Proof. intros H. s3 H. unfold transform_vector, swz. cbn [lane]. congruence. Qed.
  Lemma same3_refl a : same3 a a. Proof. repeat split. Qed.
  Lemma cross_same a a' b b' : same3 a a' -> same3 b b' -> same3 (vec3_cross a b) (vec3_cross a' b').
  Proof. intros H K. s3 H. s3 K. unfold vec3_cross, same3, swz. cbn. repeat split; congruence. Qed.
  Lemma dot_same a a' b b' : same3 a a' -> same3 b b' -> same3 (vec3_dot_s a b) (vec3_dot_s a' b').
  Proof. intros H K. s3 H. s3 K. unfold vec3_dot_s, same3, swz. cbn. repeat split; congruence. Qed.
  Lemma mul_same (a a' b b' : V) : same3 a a' -> same3 b b' -> same3 (a * b) (a' * b').
  Proof. intros H K. s3 H. s3 K. unfold same3. cbn. repeat split; congruence. Qed.
  Lemma add_same (a a' b b' : V) : same3 a a' -> same3 b b' -> same3 (a + b) (a' + b').
  Proof. intros H K. s3 H. s3 K. unfold same3. cbn. repeat split; congruence. Qed.
  Lemma sub_same (a a' b b' : V) : same3 a a' -> same3 b b' -> same3 (a - b) (a' - b').
  Proof. intros H K. s3 H. s3 K. unfold same3. cbn. repeat split; congruence. Qed.
  Lemma splat_x_same (a a' : V) : l0 a = l0 a' -> splat_x a = splat_x a'.
  Proof. intros H. unfold splat_x, swz. cbn. rewrite H. reflexivity. Qed.
  Lemma splat_x_same3 (a a' : V) : same3 a a' -> splat_x a = splat_x a'.
  Proof. intros H. apply splat_x_same, H. Qed.
  Lemma qtv_same (q a a' : V) : same3 a a' -> same3 (quat_transform_vector q a) (quat_transform_vector q a').
  Proof.
    intros H. unfold quat_transform_vector. cbv zeta.
    assert (C1 : same3 (splat_w q * a + vec3_cross q a) (splat_w q * a' + vec3_cross q a')).
    { apply add_same; [apply mul_same; [apply same3_refl|exact H]|apply cross_same; [apply same3_refl|exact H]]. }
    apply add_same; [apply add_same; [exact H|]|]; (apply cross_same; [apply same3_refl|exact C1]).
  Qed.
  Lemma norm_same a b : same3 a b -> vec3_is_normalized a = vec3_is_normalized b.
  Proof. intros H. s3 H. unfold vec3_is_normalized. congruence. Qed.
  Lemma axis_angle_same a b x y : same3 a b -> l0 x = l0 y -> quat_from_axis_angle a x = quat_from_axis_angle b y.
  Proof.
    intros H K. s3 H. unfold quat_from_axis_angle. rewrite (splat_x_same x y K). destruct (fx4_sin_cos _) as [[s c]|]; [|reflexivity].
    unfold set_w, swz2, lane2. cbn. congruence.
  Qed.
  Lemma cos_angle_same a b x y : same3 a b -> l0 x = l0 y -> quat_from_cos_angle a x = quat_from_cos_angle b y.
  Proof. intros H K. s3 H. unfold quat_from_cos_angle, set_w, set_y, swz2, lane2, splat_y, swz. cbn. congruence. Qed.
  Lemma from_vectors_same a a' b b' : same3 a a' -> same3 b b' -> quat_from_vectors a b = quat_from_vectors a' b'.
  Proof.
    intros H K. unfold quat_from_vectors, vec3_length2_s. cbv zeta.
    assert (N : l0 (nsqrt (vec3_dot_s a a * vec3_dot_s b b)) = l0 (nsqrt (vec3_dot_s a' a' * vec3_dot_s b' b'))).
    { destruct (dot_same a a' a a' H H) as (D1 & _). destruct (dot_same b b' b b' K K) as (D2 & _). cbn in *. congruence. }
    set (nn := nsqrt (vec3_dot_s a a * vec3_dot_s b b)) in *. set (nn' := nsqrt (vec3_dot_s a' a' * vec3_dot_s b' b')) in *.
    rewrite N. destruct (nlt (l0 nn') n1em6); [reflexivity|].
    assert (E : l0 (nn + vec3_dot_s a b) = l0 (nn' + vec3_dot_s a' b')).
    { destruct (dot_same a a' b b' H K) as (D1 & _). cbn in *. congruence. }
    set (rp := nn + vec3_dot_s a b) in *. set (rp' := nn' + vec3_dot_s a' b') in *. rewrite E.
    f_equal. destruct (cross_same a a' b b' H K) as (C0 & C1 & C2). destruct H as (H0 & H1 & H2). rewrite H0, H1, H2.
    destruct (nlt (l0 rp') _); [reflexivity|]. unfold set_w, swz2, lane2. cbn [lane Nat.ltb Nat.leb Nat.sub]. congruence.
  Qed.

  Definition ik2_same3 (j j' : ik2_job F) : Prop :=
    same3 (i2_target j) (i2_target j') /\ same3 (i2_mid_axis j) (i2_mid_axis j') /\ same3 (i2_pole j) (i2_pole j') /\
    i2_twist j = i2_twist j' /\ i2_soften j = i2_soften j' /\ i2_weight j = i2_weight j' /\
    i2_start j = i2_start j' /\ i2_mid j = i2_mid j' /\ i2_end j = i2_end j'.
Theorem C62_two_bone : forall j j' o, ik2_same3 j j' -> ik2_run j o = ik2_run j' o.
  Proof.
    intros j j' o (HT & HA & HP & Htw & Hso & Hw & Hs & Hm & He).
    unfold ik2_run, ik2_run_with, ik2_validate. rewrite (norm_same _ _ HA), Hw. destruct (negb _); [reflexivity|].
    assert (ES : ik2_setup j = ik2_setup j') by (unfold ik2_setup; rewrite Hs, Hm, He; reflexivity). rewrite ES. set (s := ik2_setup j').
    assert (EO : ik2_soften j s = ik2_soften j' s) by (unfold ik2_soften; rewrite (tp_same _ _ _ HT), Hso; reflexivity). rewrite EO.
    destruct (nle _ nzero); [reflexivity|]. cbv zeta. destruct (ik2_soften j' s) as [[lr t] t2].
    assert (EM : ik2_mid_rot fx4_acos quat_from_axis_angle j s t2 = ik2_mid_rot fx4_acos quat_from_axis_angle j' s t2).
    { unfold ik2_mid_rot. cbv zeta. apply axis_angle_same; [exact HA|].
      destruct (dot_same _ _ _ _ (cross_same _ _ _ _ (same3_refl (s_start_mid_ms s)) HA) (same3_refl (s_mid_end_ms s))) as (D & _).
      unfold fx4_sign, lt4. cbn [nsub V4_arith zip4 l0 flip4]. rewrite D. reflexivity. }
    rewrite EM. clear EM. destruct (ik2_mid_rot fx4_acos quat_from_axis_angle j' s t2) as [m|]; [|reflexivity].
    assert (EQ : ik2_start_rot quat_from_axis_angle j s m t t2 = ik2_start_rot quat_from_axis_angle j' s m t t2).
    { unfold ik2_start_rot. cbv zeta. rewrite (tv_same _ _ _ HP), Hm, (tv_same _ _ _ HA), Htw. reflexivity. }
    rewrite EQ. clear EQ. destruct (ik2_start_rot quat_from_axis_angle j' s m t t2) as [q|]; [|reflexivity].
    unfold ik2_weight_output. rewrite Hw. reflexivity.
  Qed.

  Definition aim_same3 (j j' : aim_job F) : Prop :=
    same3 (am_target j) (am_target j') /\ same3 (am_forward j) (am_forward j') /\ same3 (am_offset j) (am_offset j') /\
    same3 (am_up j) (am_up j') /\ same3 (am_pole j) (am_pole j') /\
    am_twist j = am_twist j' /\ am_weight j = am_weight j' /\ am_joint j = am_joint j'.
  Lemma simd_clamp_l0 (a b mn mx : V) : l0 a = l0 b -> l0 (simd_clamp a mn mx) = l0 (simd_clamp b mn mx).
  Proof. intros H. unfold simd_clamp, select4, lt4. cbn. rewrite H. reflexivity. Qed.
Theorem C62_aim : forall j j' o, aim_same3 j j' -> aim_run j o = aim_run j' o.
  Proof.
    intros j j' o (HT & HF & HO & HU & HP & Htw & Hw & Hj).
    unfold aim_run, aim_run_with, aim_validate. rewrite (norm_same _ _ HF), Hj, Hw, (tp_same _ _ _ HT). destruct (negb _); [reflexivity|].
    cbv zeta. set (inv := mat_invert (am_joint j')). set (t := transform_point inv (am_target j')).
    assert (OF : match offsetted_forward (am_forward j) (am_offset j) t, offsetted_forward (am_forward j') (am_offset j') t with
                 | None, None => True | Some a, Some b => same3 a b | _, _ => False end).
    { unfold offsetted_forward. cbv zeta.
      assert (AO : same3 (vec3_dot_s (am_forward j) (am_offset j)) (vec3_dot_s (am_forward j') (am_offset j'))) by (apply dot_same; assumption).
      assert (AC : same3 (vec3_length2_s (am_offset j) - vec3_dot_s (am_forward j) (am_offset j) * vec3_dot_s (am_forward j) (am_offset j))
                         (vec3_length2_s (am_offset j') - vec3_dot_s (am_forward j') (am_offset j') * vec3_dot_s (am_forward j') (am_offset j'))).
      { apply sub_same; [apply dot_same; assumption|apply mul_same; assumption]. }
      set (ac := vec3_length2_s (am_offset j) - _) in *. set (ac' := vec3_length2_s (am_offset j') - _) in *.
      rewrite (proj1 AC). destruct (nlt _ _); [exact I|]. apply add_same; [exact HO|]. apply mul_same; [exact HF|].
      rewrite (splat_x_same (nsqrt (vec3_length2_s t - ac) - vec3_dot_s (am_forward j) (am_offset j)) (nsqrt (vec3_length2_s t - ac') - vec3_dot_s (am_forward j') (am_offset j'))); [apply same3_refl|].
      destruct AC as (A0 & _), AO as (B0 & _). cbn [nsub V4_arith zip4 l0 nsqrt map4]. rewrite A0, B0. reflexivity. }
    destruct (offsetted_forward (am_forward j) (am_offset j) t) as [a|], (offsetted_forward (am_forward j') (am_offset j') t) as [b|]; try contradiction; [|reflexivity].
    destruct (neq _ nzero); [reflexivity|].
    assert (ET : aim_twisted quat_from_axis_angle j inv t a = aim_twisted quat_from_axis_angle j' inv t b).
    { unfold aim_twisted. cbv zeta. rewrite (from_vectors_same _ _ _ _ OF (same3_refl t)), (tv_same _ _ _ HP), Htw.
      set (e := quat_from_vectors b t). pose proof (qtv_same e _ _ HU) as CU.
      set (cu := quat_transform_vector e (am_up j)) in *. set (cu' := quat_transform_vector e (am_up j')) in *.
      pose proof (cross_same _ _ _ _ CU (same3_refl t)) as CN. set (n := vec3_cross cu t) in *. set (n' := vec3_cross cu' t) in *.
      set (p := transform_vector inv (am_pole j')). set (rn := vec3_cross p t).
      assert (ED : set_z (set_y (vec3_length2_s t) (vec3_length2_s n)) (vec3_length2_s rn) = set_z (set_y (vec3_length2_s t) (vec3_length2_s n')) (vec3_length2_s rn)).
      { destruct (dot_same n n' n n' CN CN) as (D & _). unfold set_z, set_y, swz2, lane2. cbn [lane Nat.ltb Nat.leb Nat.sub l0 l1 l2 l3]. unfold vec3_length2_s. rewrite D. reflexivity. }
      rewrite ED. set (den := set_z (set_y (vec3_length2_s t) (vec3_length2_s n')) (vec3_length2_s rn)).
      destruct (negb _ && negb _ && negb _); [|reflexivity].
      rewrite (splat_x_same3 _ _ (dot_same rn rn cu cu' (same3_refl rn) CU)).
      rewrite (cos_angle_same _ (flip4 (fx4_sign (splat_x (vec3_dot_s rn cu'))) (t * splat_x (nrecip (nsqrt den)))) _
                 (simd_clamp (vec3_dot_s (n' * splat_y (nrecip (nsqrt den))) (rn * splat_z (nrecip (nsqrt den)))) nmone none_) (same3_refl _)); [reflexivity|].
      apply simd_clamp_l0. apply dot_same; [apply mul_same; [exact CN|apply same3_refl]|apply same3_refl]. }
    rewrite ET. reflexivity.
  Qed.
End Any.
Print Assumptions C48_two_bone.
Print Assumptions C48_aim.
Print Assumptions C62_two_bone.
Print Assumptions C62_aim.

(** ** Aim IK with a weight that is not positive
    In real arithmetic the correction is the identity; in binary32 it is bit for bit the identity
    provided the same job at weight 1 has a correction that did not overflow. *)
Local Open Scope R_scope.
Theorem C48_aim_weightless : forall aa (j : aim_job R) o out,
  am_weight j <= 0 -> aim_run_with aa j o = Some (Ok tt, out) -> ao_corr out = mk4 0 0 0 1.
Proof.
  intros aa j o out Hw. unfold aim_run_with. destruct (negb (aim_validate j)); [discriminate|]. cbv zeta.
  destruct (offsetted_forward _ _ _) as [of|]; [|intros H; apply ok_inj in H; subst out; exact QUAT_UNIT_R].
  destruct (neq _ nzero); [intros H; apply ok_inj in H; subst out; exact QUAT_UNIT_R|].
  destruct (aim_twisted _ _ _ _ _) as [tw|]; [|discriminate]. intros H. apply ok_inj in H; subst out. cbn [ao_corr].
  unfold aim_weighted. cbv zeta. change (@num_arith R Rnum) with Rarith. rewrite !none_R.
  change (nlt (am_weight j) 1) with (Rltb (am_weight j) 1). destruct (Rltb_spec (am_weight j) 1) as [_|]; [|lra].
  assert (Ew : nmax (splat (am_weight j)) nzero = splat 0).
  { change (nmax (splat (am_weight j)) nzero) with (splat (Rmax (am_weight j) (@nzero R Rarith))). rewrite nzero_R, Rmax_right by exact Hw. reflexivity. }
  change (@num_arith R Rnum) with Rarith in Ew. rewrite Ew, QUAT_UNIT_R.
  set (fu := quat_positive_w tw).
  assert (EL : fx4_lerp (mk4 0 0 0 1) fu (splat 0) = mk4 0 0 0 1).
  { change (fx4_lerp (mk4 0 0 0 1) fu (splat 0)) with (mk4 (0 * (l0 fu - 0) + 0) (0 * (l1 fu - 0) + 0) (0 * (l2 fu - 0) + 0) (0 * (l3 fu - 1) + 1)). f_equal; ring. }
  rewrite EL. set (k := @nrecip R Rarith (sqrt (norm2 (Q4 0 0 0 1)))).
  change (quat_normalize (mk4 0 0 0 1)) with (mk4 (0 * k) (0 * k) (0 * k) (1 * k)).
  assert (K : k = 1). { unfold k. rewrite nrecip_R. unfold norm2. cbn [qx qy qz qw]. replace (0 * 0 + 0 * 0 + 0 * 0 + 1 * 1) with 1 by ring. rewrite sqrt_1. field. }
  rewrite K. f_equal; ring.
Qed.
Print Assumptions C48_aim_weightless.

Definition with_weight {F} (j : aim_job F) (w : F) : aim_job F :=
  mk_aim_job (am_target j) (am_forward j) (am_offset j) (am_up j) (am_pole j) (am_twist j) w (am_joint j).
Lemma twisted_weight {F} {NF : Num F} aa (j : aim_job F) w inv t of : aim_twisted aa (with_weight j w) inv t of = aim_twisted aa j inv t of.
Proof. reflexivity. Qed.
Lemma lerp_zero_lane (w x u : f32) : nle w nzero = true -> bnd x 126 -> u = nzero \/ u = none_ ->
  nadd (nmul (nmax w nzero) (nsub x u)) u = u.
Proof.
  intros Hw Hx Hu.
  assert (Z : exists s, nmax w (nzero : f32) = B754_zero s).
  { change (nmax w nzero) with (f32_max w (B754_zero false)). unfold f32_max. destruct w as [s|s| |s m e H].
    - exists s. destruct s; reflexivity.
    - destruct s; [exists false; reflexivity|discriminate Hw].
    - discriminate Hw.
    - destruct s; [exists false; reflexivity|discriminate Hw]. }
  destruct Z as [s ->].
  assert (Bu : bnd u 126).
  { destruct Hu as [->| ->]; (split; [reflexivity|]); [destruct fin_zero as [_ E]|destruct fin_one as [_ E]]; rewrite E.
    - rewrite Rabs_R0. apply bpow_ge_0.
    - rewrite Rabs_R1. apply (bpow_le radix2 0 126). lia. }
  destruct (bnd_sub x u 126 ltac:(lia) Hx Bu) as [Fd _]. set (d := nsub x u) in *. clearbody d.
  assert (M : exists s', nmul (B754_zero s : f32) d = B754_zero s') by (destruct d as [t|t| |t m e H]; try discriminate Fd; eexists; reflexivity).
  destruct M as [s' ->]. destruct Hu as [->| ->]; destruct s'; reflexivity.
Qed.
Lemma unit_normalized : quat_normalize (@QUAT_UNIT f32 f32num) = QUAT_UNIT.
Proof. apply V4_ext. intros i Hi. destruct i as [|[|[|[|i]]]]; [| | | |lia]; apply to_bits_inj; vm_compute; reflexivity. Qed.
Theorem C48_aim_weightless_f32 : forall (j : aim_job f32) o out out1,
  nle (am_weight j) nzero = true ->
  aim_run (with_weight j none_) o = Some (Ok tt, out1) ->
  (forall i, (i < 4)%nat -> is_finite (lane (ao_corr out1) i) = true /\ Rabs (B2R (lane (ao_corr out1) i)) <= bpow radix2 126) ->
  aim_run j o = Some (Ok tt, out) -> ao_corr out = QUAT_UNIT.
Proof.
  intros j o out out1 Hw. unfold aim_run, aim_run_with, aim_validate. cbn [with_weight am_forward am_joint am_target am_offset].
  destruct (negb _); [discriminate|]. cbv zeta.
  destruct (offsetted_forward _ _ _) as [of|]; [|intros _ _ H; apply ok_inj in H; subst out; reflexivity].
  destruct (neq _ nzero); [intros _ _ H; apply ok_inj in H; subst out; reflexivity|].
  rewrite twisted_weight.
  destruct (aim_twisted _ _ _ _ _) as [tw|]; [|discriminate]. intros H1 B H. apply ok_inj in H; subst out. apply ok_inj in H1. subst out1. cbn [ao_corr] in *.
  unfold aim_weighted in *. cbv zeta in *. cbn [with_weight am_weight] in B.
  replace (nlt (none_ : f32) none_) with false in B by reflexivity. set (fu := quat_positive_w tw) in *.
  assert (L : nlt (am_weight j) none_ = true).
  { destruct (am_weight j) as [s|s| |s m e Hb]; [destruct s; reflexivity|destruct s; [reflexivity|discriminate Hw]|discriminate Hw|destruct s; [reflexivity|discriminate Hw]]. }
  change (@num_arith f32 f32num) with f32arith in *. rewrite L. transitivity (quat_normalize (@QUAT_UNIT f32 f32num)); [f_equal|exact unit_normalized].
  apply V4_ext. intros i Hi. unfold fx4_lerp.
  match goal with |- lane ?x i = _ => change x with (zip4 nadd (zip4 nmul (zip4 nmax (splat (am_weight j)) (splat nzero)) (zip4 nsub fu QUAT_UNIT)) QUAT_UNIT) end.
  rewrite !lane_zip4, !lane_splat. change (@num_arith f32 f32num) with f32arith. apply lerp_zero_lane; [exact Hw|exact (B i Hi)|].
  destruct i as [|[|[|[|i]]]]; [left|left|left|right|lia]; reflexivity.
Qed.
Print Assumptions C48_aim_weightless_f32.

(** Without the proviso it fails: with a target 2^70 away and weight 0 the correction is NaN. *)
Definition far_aim (w : f32) : aim_job f32 :=
  mk_aim_job (mk4 (nlit 1 70) (nlit 1 70) nzero nzero) (mk4 none_ nzero nzero nzero) nzero (mk4 nzero none_ nzero nzero) (mk4 nzero none_ nzero nzero)
             nzero w mat_identity.
Theorem C48_aim_far_refuted : exists (j : aim_job f32) out,
  am_weight j = nzero /\ about_unit (am_forward j) /\ aim_run j aim_out_default = Some (Ok tt, out) /\ is_nan (l0 (ao_corr out)) = true.
Proof.
  assert (B : match aim_run (far_aim nzero) aim_out_default with Some (Ok tt, out) => is_nan (l0 (ao_corr out)) | _ => false end = true) by (vm_compute; reflexivity).
  destruct (aim_run (far_aim nzero) aim_out_default) as [[[[]|e|] out]|] eqn:E; try discriminate B.
  exists (far_aim nzero), out. split; [reflexivity|]. split; [split; vm_compute; reflexivity|]. split; [exact E|exact B].
Qed.
Print Assumptions C48_aim_far_refuted.

(** ** When the aim job reports [reached]
    The job always completes (unit forward, target away from the joint); [reached] holds exactly
    when some point of the forward line through the offset is as far from the joint as the target. *)
Theorem C50_reached : forall aa (j : aim_job R) o0 t,
  let f := v3_of (am_forward j) in let o := v3_of (am_offset j) in
  affine (am_joint j) -> det4 (am_joint j) <> 0 -> twist_known aa (am_twist j) -> dot3 f f = 1 ->
  pt (am_joint j) t = v3_of (am_target j) -> 0 < dot3 t t ->
  exists out, aim_run_with aa j o0 = Some (Ok tt, out) /\
    (ao_reached out = true <-> exists s, let p := plus3 o (scale3 s f) in dot3 p p = dot3 t t).
Proof.
  intros aa j o0 t f o HA HD Htw Hf Ht Hp. destruct (affine_inv _ HA HD) as (_ & _ & I2).
  assert (Et : v3_of (transform_point (mat_invert (am_joint j)) (am_target j)) = t) by (rewrite transform_point_R, <- Ht; apply I2).
  unfold aim_run_with, aim_validate. rewrite (valid_axis _ Hf). cbn [negb]. cbv zeta.
  set (tv := transform_point (mat_invert (am_joint j)) (am_target j)) in *.
  pose proof (offsetted_R (am_forward j) (am_offset j) tv) as OF. rewrite Et in OF. fold f o in OF.
  destruct (offsetted_forward (am_forward j) (am_offset j) tv) as [of|].
  - destruct OF as [Hac _]. rewrite len2_s_R, Et. change (@num_arith R Rnum) with Rarith. rewrite nzero_R.
    change (neq (dot3 t t) 0) with (Reqb (dot3 t t) 0). destruct (Reqb_spec (dot3 t t) 0); [lra|].
    destruct (aim_twisted_R aa j (mat_invert (am_joint j)) tv of ltac:(rewrite Et; exact Hp) Htw) as (q & r & Eq & _). change (@num_arith R Rnum) with Rarith in Eq. rewrite Eq.
    eexists. split; [reflexivity|]. cbn [ao_reached]. split; [|reflexivity]. intros _.
    exists (sqrt (dot3 t t - (dot3 o o - dot3 f o * dot3 f o)) - dot3 f o). apply offsetted_len; assumption.
  - eexists. split; [reflexivity|]. cbn [ao_reached]. split; [discriminate|]. intros [s E]. cbv zeta in E.
    rewrite dot3_plus_l, !dot3_plus_r, !dot3_scale_l, !dot3_scale_r, Hf, (dot3_comm o f) in E.
    pose proof (Rle_0_sqr (s + dot3 f o)) as Q. unfold Rsqr in Q. lra.
Qed.
Print Assumptions C50_reached.

(** ** Examples: the hypotheses of C49, C50, C59, C60, C61 are met *)
Definition idm : mat4 R := mk4 (mk4 1 0 0 0) (mk4 0 1 0 0) (mk4 0 0 1 0) (mk4 0 0 0 1).
Definition at_ (x y z : R) : mat4 R := mk4 (mk4 1 0 0 0) (mk4 0 1 0 0) (mk4 0 0 1 0) (mk4 x y z 1).
Lemma at_affine x y z : affine (at_ x y z). Proof. unfold affine, ent, at_. cbn. repeat split. Qed.
Lemma at_pt x y z v : pt (at_ x y z) v = V3 (x + vx v) (y + vy v) (z + vz v).
Proof. unfold pt, apply_point, ent, at_. cbn. f_equal; ring. Qed.
Lemma at_origin x y z : origin (at_ x y z) = V3 x y z. Proof. reflexivity. Qed.
Lemma at_placed x y z : placed (at_ x y z) (Q4 0 0 0 1) 1.
Proof.
  split; [apply at_affine|]. split; [unfold unitq, norm2; cbn; ring|]. split; [lra|]. intros v. rewrite at_pt, rotate_one, at_origin, scale3_1. reflexivity.
Qed.
Lemma at_det x y z : det4 (at_ x y z) = 1. Proof. rewrite (placed_det _ _ _ (at_placed x y z)). ring. Qed.
(** A joint at (1,2,3), looking along x with an offset, target behind it and to the side. *)
Definition ex_aim (w : R) : aim_job R :=
  mk_aim_job (mk4 1 2 5 9) (mk4 1 0 0 9) (mk4 0 1 0 9) (mk4 0 1 0 9) (mk4 0 1 0 9) 0 w (at_ 1 2 3).
Definition ex_t : vec3 R := V3 0 0 2.
Ltac ex3 := unfold ex_t, v3_of, dot3, plus3, minus3, scale3, cross3; cbn [ex_aim am_target am_forward am_offset am_up am_pole am_weight am_twist am_joint vx vy vz l0 l1 l2 l3]; try (f_equal; lra); try lra; try nra.
Example C50_example : exists out, aim_run_with quat_from_axis_angle (ex_aim 1) aim_out_default = Some (Ok tt, out) /\ ao_reached out = true /\
  exists p, len3 p = 2 /\ pt (at_ 1 2 3) (rotate (q_of (ao_corr out)) p) = V3 1 2 5 /\ vy p = 1 /\ vz p = 0.
Proof.
  
  assert (A1 : affine (am_joint (ex_aim 1))) by apply at_affine. assert (A2 : det4 (am_joint (ex_aim 1)) <> 0) by (cbn [ex_aim am_joint]; rewrite at_det; lra).
  assert (A3 : twist_known quat_from_axis_angle (am_twist (ex_aim 1))) by (left; reflexivity).
  assert (A4 : dot3 (v3_of (am_forward (ex_aim 1))) (v3_of (am_forward (ex_aim 1))) = 1) by ex3.
  assert (A5 : pt (am_joint (ex_aim 1)) ex_t = v3_of (am_target (ex_aim 1))) by (cbn [ex_aim am_joint]; rewrite at_pt; ex3).
  assert (A6 : dot3 ex_t ex_t = 4) by ex3.
  destruct (C50_reached quat_from_axis_angle (ex_aim 1) aim_out_default ex_t A1 A2 A3 A4 A5 ltac:(lra)) as (out & HR & Re).
  exists out. split; [exact HR|]. assert (RT : ao_reached out = true).
  { apply Re. exists (sqrt 3). cbv zeta. rewrite A6. assert (K := sqrt_sqrt 3 ltac:(lra)). ex3. }
  split; [exact RT|]. pose proof TH_bound as TB.
  destruct (C50_aims quat_from_axis_angle (ex_aim 1) aim_out_default out ex_t A1 A2 A3 ltac:(ex3) A4 A5 ltac:(lra) HR RT) as (s & Lp & _ & Hp & _).
  set (p := plus3 (v3_of (am_offset (ex_aim 1))) (scale3 s (v3_of (am_forward (ex_aim 1))))) in *.
  exists p. split.
  { rewrite Lp. unfold len3. rewrite A6. replace 4 with (2 * 2) by ring. apply sqrt_square. lra. }
  split; [|unfold p; split; ex3]. cbv zeta in Hp. cbn [ex_aim am_joint] in Hp. rewrite Hp; [ex3|].
  left. rewrite A6. assert (Z : dot3 p ex_t = 0) by (unfold p; ex3). lra.
Qed.
(** In the same situation the corrected up axis is in the half plane of the pole. *)
Lemma at_lin x y z v : lin (at_ x y z) v = v.
Proof. unfold lin. rewrite at_pt, at_origin. destruct v as [a b c]. unfold minus3. cbn [vx vy vz]. f_equal; ring. Qed.
Example C59_example : exists out, aim_run_with quat_from_axis_angle (ex_aim 1) aim_out_default = Some (Ok tt, out) /\
  let up := lin (at_ 1 2 3) (rotate (q_of (ao_corr out)) (V3 0 1 0)) in vx up = 0 /\ 0 < vy up.
Proof.
  destruct C50_example as (out & HR & RT & p & Lp & Hp & Py & Pz). exists out. split; [exact HR|]. cbv zeta.
  rewrite at_pt in Hp. set (q := q_of (ao_corr out)) in *.
  assert (Ep : rotate q p = ex_t).
  { destruct (rotate q p) as [a b c]. cbn [vx vy vz] in Hp. injection Hp. intros. unfold ex_t. f_equal; lra. }
  assert (U : unitq q) by (apply (C49_aim_full_weight quat_from_axis_angle (ex_aim 1) aim_out_default out); [ex3|left; reflexivity|exact HR]).
  set (u := rotate q (V3 0 1 0)).
  assert (Du : dot3 u u = 1) by (unfold u; rewrite rotate_dot by exact U; ex3).
  assert (Dp : dot3 u ex_t = 1) by (unfold u; rewrite <- Ep, rotate_dot by exact U; ex3).
  destruct (C59_aim_up quat_from_axis_angle (ex_aim 1) aim_out_default out ex_t) as (a & m & Pm & E).
  - apply at_affine.
  - cbn [ex_aim am_joint]; rewrite at_det; lra.
  - reflexivity.
  - ex3.
  - cbn [ex_aim am_joint]; rewrite at_pt; ex3.
  - ex3.
  - exact HR.
  - exact RT.
  - intros a E. cbn [ex_aim am_joint am_up am_target] in E. rewrite at_lin, at_origin in E. change (v3_of (mk4 0 1 0 9)) with (V3 0 1 0) in E. fold q u in E.
    rewrite E in Du, Dp. revert Du Dp. ex3.
  - intros a E. cbn [ex_aim am_joint am_pole am_target] in E. rewrite at_origin in E. unfold v3_of, scale3, minus3 in E. cbn [vx vy vz l0 l1 l2] in E. injection E. intros. lra.
  - cbn [ex_aim am_joint am_up am_target am_pole] in E. rewrite at_lin, at_origin in E. change (v3_of (mk4 0 1 0 9)) with (V3 0 1 0) in E. fold q u in E.
    rewrite at_lin, E. unfold v3_of, scale3, minus3, plus3. cbn [vx vy vz l0 l1 l2]. split; lra.
Qed.

(** A chain (1,2,3) - (2,2,3) - (2,3,3) bending in the xy plane, a target at distance 1.5. *)
Definition ex_ik (w : R) : ik2_job R :=
  mk_ik2_job (mk4 (5/2) 2 3 9) (mk4 0 0 1 9) (mk4 0 1 0 9) 0 1 w (at_ 1 2 3) (at_ 2 2 3) (at_ 2 3 3).
Lemma len_eq v k : 0 <= k -> dot3 v v = k * k -> len3 v = k.
Proof. intros Hk E. unfold len3. rewrite E. apply sqrt_square, Hk. Qed.
Ltac ik3 := cbn [ex_ik i2_target i2_mid_axis i2_pole i2_start i2_mid i2_end i2_weight i2_soften i2_twist]; unfold origin, at_, v3_of, dot3, plus3, minus3, scale3, cross3; cbn [ex_ik i2_target i2_mid_axis i2_pole i2_start i2_mid i2_end i2_weight i2_soften i2_twist vx vy vz l0 l1 l2 l3]; try (f_equal; lra); try lra; try nra.
Example C60_C61_example : exists out E1 E2 M2,
  ik2_run_with exact_acos4 exact_axis_angle (ex_ik 1) ik2_out_default = Some (Ok tt, out) /\ o_reached out = true /\
  mid_corrected (at_ 2 2 3) (q_of (o_mid out)) (V3 2 3 3) E1 /\ start_corrected (at_ 1 2 3) (q_of (o_start out)) E1 E2 /\
  E2 = V3 (5/2) 2 3 /\
  start_corrected (at_ 1 2 3) (q_of (o_start out)) (V3 2 2 3) M2 /\ 2 <= vy M2 /\ vz M2 = 3.
Proof.
  pose proof TH_bound as TB.
  assert (P1 : placed (i2_start (ex_ik 1)) (Q4 0 0 0 1) 1) by apply at_placed.
  assert (P2 : placed (i2_mid (ex_ik 1)) (Q4 0 0 0 1) 1) by apply at_placed.
  assert (A1 : dot3 (v3_of (i2_mid_axis (ex_ik 1))) (v3_of (i2_mid_axis (ex_ik 1))) = 1) by ik3.
  assert (A2 : dot3 (lin (i2_mid (ex_ik 1)) (v3_of (i2_mid_axis (ex_ik 1)))) (minus3 (origin (i2_mid (ex_ik 1))) (origin (i2_start (ex_ik 1)))) = 0) by (cbn [ex_ik i2_mid]; rewrite at_lin; ik3).
  assert (A3 : dot3 (lin (i2_mid (ex_ik 1)) (v3_of (i2_mid_axis (ex_ik 1)))) (minus3 (origin (i2_end (ex_ik 1))) (origin (i2_mid (ex_ik 1)))) = 0) by (cbn [ex_ik i2_mid]; rewrite at_lin; ik3).
  assert (L1 : dist (origin (i2_start (ex_ik 1))) (origin (i2_mid (ex_ik 1))) = 1) by (unfold dist; apply len_eq; [lra|ik3]).
  assert (L2 : dist (origin (i2_mid (ex_ik 1))) (origin (i2_end (ex_ik 1))) = 1) by (unfold dist; apply len_eq; [lra|ik3]).
  assert (L3 : dist (origin (i2_start (ex_ik 1))) (v3_of (i2_target (ex_ik 1))) = 3/2) by (unfold dist; apply len_eq; [lra|ik3]).
  assert (A4 : 0 < dot3 (cross3 (minus3 (v3_of (i2_target (ex_ik 1))) (origin (i2_start (ex_ik 1)))) (v3_of (i2_pole (ex_ik 1))))
                        (cross3 (minus3 (v3_of (i2_target (ex_ik 1))) (origin (i2_start (ex_ik 1)))) (v3_of (i2_pole (ex_ik 1))))) by ik3.
  assert (C1 : clampR 0 1 (i2_soften (ex_ik 1)) = 1) by (apply clampR_id; ik3).
  assert (ES : softened 1 1 (i2_soften (ex_ik 1)) (3/2) = 3/2).
  { unfold softened. rewrite C1. destruct (Rlt_dec _ _); [lra|reflexivity]. }
  assert (ED : clampR (Rabs (1 - 1)) (1 + 1) (3/2) = 3/2).
  { replace (1 - 1) with 0 by ring. rewrite Rabs_R0. apply clampR_id. lra. }
  assert (W : 1 <= i2_weight (ex_ik 1)) by ik3.
  assert (TT : TH * (1 * 1) <= clampR (Rabs (1 - 1)) (1 + 1) (softened 1 1 (i2_soften (ex_ik 1)) (3/2)) * softened 1 1 (i2_soften (ex_ik 1)) (3/2)) by (rewrite ES, ED; lra).
  pose proof (C60_two_bone (ex_ik 1) (Q4 0 0 0 1) (Q4 0 0 0 1) 1 1 ik2_out_default P1 P2 A1 A2 A3) as C60. cbv zeta in C60. rewrite L1, L2, L3 in C60.
  destruct (C60 ltac:(lra) ltac:(lra) ltac:(lra) A4 W TT) as (out & E1 & E2 & HR & HM & HS & D1 & _ & _ & HX & HRe & HT). clear C60. rewrite ES, ED in *.
  assert (RT : o_reached out = true). { apply HRe. rewrite C1. replace (1 - 1) with 0 by ring. rewrite Rabs_R0. lra. }
  pose proof (C49_two_bone_full_weight (ex_ik 1) (Q4 0 0 0 1) (Q4 0 0 0 1) 1 1 ik2_out_default out P1 P2 A1 A2 A3) as C49. cbv zeta in C49. rewrite L1, L2, L3 in C49.
  destruct (C49 ltac:(lra) ltac:(lra) ltac:(lra) A4 W HR) as (_ & Um & _). clear C49.
  (* the end joint after the mid correction is at distance 1.5 and 1 from the two others *)
  assert (XE : 2 * vx (minus3 E1 (V3 1 2 3)) = 9/4).
  { destruct HM as (v & Ev & EE). cbn [ex_ik i2_mid i2_end] in Ev, EE. rewrite at_pt in Ev, EE.
    assert (v = V3 0 1 0) by (destruct v as [a b c]; unfold origin, at_, v3_of in Ev; cbn [vx vy vz l0 l1 l2 l3] in Ev; injection Ev; intros; f_equal; lra). subst v.
    set (w := rotate (q_of (o_mid out)) (V3 0 1 0)) in *. assert (Dw : dot3 w w = 1) by (unfold w; rewrite rotate_dot by exact Um; ik3).
    assert (DD : dot3 (minus3 E1 (V3 1 2 3)) (minus3 E1 (V3 1 2 3)) = (3/2) * (3/2)).
    { rewrite <- len3_sq. change (len3 (minus3 E1 (V3 1 2 3))) with (dist (origin (at_ 1 2 3)) E1). change (at_ 1 2 3) with (i2_start (ex_ik 1)). rewrite D1. ring. }
    subst E1. destruct w as [a b c]. unfold dot3, minus3 in *. cbn [vx vy vz] in *. nra. }
  assert (HC : TH * (3 / 2 * (3 / 2)) <= 3 / 2 * (3 / 2) + dot3 (minus3 E1 (origin (i2_start (ex_ik 1)))) (minus3 (v3_of (i2_target (ex_ik 1))) (origin (i2_start (ex_ik 1))))).
  { replace (minus3 (v3_of (i2_target (ex_ik 1))) (origin (i2_start (ex_ik 1)))) with (V3 (3/2) 0 0) by ik3.
    change (origin (i2_start (ex_ik 1))) with (V3 1 2 3). unfold dot3. cbn [vx vy vz]. lra. }
  assert (M2 : exists M2, start_corrected (at_ 1 2 3) (q_of (o_start out)) (V3 2 2 3) M2).
  { eexists. exists (V3 1 0 0). split; [rewrite at_pt; ik3|reflexivity]. }
  destruct M2 as [M2 HM2]. exists out, E1, E2, M2. split; [exact HR|]. split; [exact RT|]. split; [exact HM|]. split; [exact HS|].
  split; [rewrite HX by (left; exact HC); rewrite HT by exact RT; reflexivity|]. split; [exact HM2|].
  pose proof (C61_pole (ex_ik 1) (Q4 0 0 0 1) (Q4 0 0 0 1) 1 1 ik2_out_default out E1 M2 P1 P2 A1 A2 A3) as C61. cbv zeta in C61. rewrite L1, L2, L3, ES, ED in C61.
  destruct (C61 ltac:(lra) ltac:(lra) ltac:(lra) A4 W TT eq_refl HR HM HM2 (or_introl HC)) as (_ & a & m & Pm & E).
  rewrite E. split; ik3.
Qed.
(** C49 with a weight below one: the same jobs. *)
Example C49_example : i2_weight (ex_ik (1/2)) < 1 /\ (exists out, ik2_run_with exact_acos4 exact_axis_angle (ex_ik (1/2)) ik2_out_default = Some (Ok tt, out)) /\
  am_weight (ex_aim (1/2)) < 1 /\ exists out, aim_run_with quat_from_axis_angle (ex_aim (1/2)) aim_out_default = Some (Ok tt, out).
Proof.
  split; [ik3|]. split; [|split; [ex3|]].
  - unfold ik2_run_with, ik2_validate. rewrite (valid_axis (i2_mid_axis (ex_ik (1/2)))) by ik3. cbn [negb].
    destruct (nle _ _); [eauto|]. cbv zeta. destruct (ik2_soften _ _) as [[rc t] t2].
    unfold ik2_mid_rot. cbv zeta. match goal with |- context [exact_axis_angle ?a ?b] => destruct (exact_axis_angle_R a b) as (q & Eq & _); rewrite Eq end.
    unfold ik2_start_rot. cbv zeta. destruct (nlt nzero _); [destruct (negb _)|]; try (destruct (ik2_weight_output _ _ _); eauto; fail).
    match goal with |- context [exact_axis_angle ?a ?b] => destruct (exact_axis_angle_R a b) as (q' & Eq' & _); rewrite Eq' end.
    destruct (ik2_weight_output _ _ _). eauto.
  - destruct (C50_reached quat_from_axis_angle (ex_aim (1/2)) aim_out_default ex_t (at_affine _ _ _) ltac:(cbn [ex_aim am_joint]; rewrite at_det; lra) (or_introl eq_refl) ltac:(ex3) ltac:(cbn [ex_aim am_joint]; rewrite at_pt; ex3) ltac:(ex3)) as (out & HR & _).
    eauto.
Qed.

(** ** C64 Softening
    [reach l1 l2 s d]: how far from the start joint the two bone job puts the end joint (C60, [D])
    when the target is at distance [d].  It is the target distance up to the fraction [s] of the
    chain length, grows with the target distance, without jumps (at most 4/3 as fast), and with
    [s < 1] never straightens the chain completely. *)
Definition reach (l1 l2 s d : R) : R := clampR (Rabs (l1 - l2)) (l1 + l2) (softened l1 l2 s d).

Definition ease (x : R) : R := 81 / (x + 3) ^ 4.
Lemma ease_pos x : 0 <= x -> 0 < ease x.
Proof. intros H. unfold ease. apply Rdiv_lt_0_compat; [lra|]. apply pow_lt. lra. Qed.
Lemma ease_0 : ease 0 = 1. Proof. unfold ease. field. Qed.
Lemma ease_diff x y : 0 <= x <= y -> 0 <= ease x - ease y <= 4 / 3 * (y - x).
Proof.
  intros [Hx Hy]. unfold ease. set (a := x + 3). set (b := y + 3). assert (Ha : 3 <= a) by (unfold a; lra). assert (Hb : a <= b) by (unfold a, b; lra).
  assert (Pa : 0 < a ^ 4) by (apply pow_lt; lra). assert (Pb : 0 < b ^ 4) by (apply pow_lt; lra).
  assert (E : 81 / a ^ 4 - 81 / b ^ 4 = (b - a) * (81 * ((b + a) * (b * b + a * a))) / (a ^ 4 * b ^ 4)) by (field; lra).
  rewrite E. replace (y - x) with (b - a) by (unfold a, b; ring).
  assert (Pab : 0 < a ^ 4 * b ^ 4) by (apply Rmult_lt_0_compat; assumption).
  assert (Q0 : 0 <= (b + a) * (b * b + a * a)) by (apply Rmult_le_pos; nra).
  split.
  - apply Rmult_le_pos; [|apply Rlt_le, Rinv_0_lt_compat, Pab]. apply Rmult_le_pos; lra.
  - assert (Q1 : (b + a) * (b * b + a * a) <= 4 * b ^ 3).
    { replace (4 * b ^ 3) with ((b + b) * (b * b + b * b)) by ring. apply Rmult_le_compat; nra. }
    assert (A4 : 81 <= a ^ 4). { replace 81 with (3 ^ 4) by ring. apply pow_incr. lra. }
    assert (B3 : 0 < b ^ 3) by (apply pow_lt; lra).
    assert (Q2 : 81 * (4 * b ^ 3) <= 4 / 3 * (a ^ 4 * b ^ 4)).
    { replace (b ^ 4) with (b * b ^ 3) by ring. assert (243 <= a ^ 4 * b) by nra. replace (4 / 3 * (a ^ 4 * (b * b ^ 3))) with (4 / 3 * (a ^ 4 * b) * b ^ 3) by ring.
      replace (81 * (4 * b ^ 3)) with (4 / 3 * 243 * b ^ 3) by lra. apply Rmult_le_compat_r; lra. }
    apply Rmult_le_reg_r with (a ^ 4 * b ^ 4); [exact Pab|].
    replace ((b - a) * (81 * ((b + a) * (b * b + a * a))) / (a ^ 4 * b ^ 4) * (a ^ 4 * b ^ 4)) with ((b - a) * (81 * ((b + a) * (b * b + a * a)))) by (field; split; lra).
    replace (4 / 3 * (b - a) * (a ^ 4 * b ^ 4)) with ((b - a) * (4 / 3 * (a ^ 4 * b ^ 4))) by ring. apply Rmult_le_compat_l; lra.
Qed.

Lemma softened_eq l1 l2 s d : 0 < l1 + l2 -> 0 < d ->
  let da := (l1 + l2) * clampR 0 1 s in let ds := (l1 + l2) - da in
  0 <= ds /\ (d <= da -> softened l1 l2 s d = d) /\
  (0 < ds -> da <= d -> softened l1 l2 s d = da + ds * (1 - ease ((d - da) / ds))).
Proof.
  intros H Hd da ds. pose proof (clampR_bounds 0 1 s ltac:(lra)) as C. assert (D0 : 0 <= ds) by (unfold ds, da; nra). split; [exact D0|].
  unfold softened. fold da. fold ds. split.
  - intros L. destruct (Rlt_dec da d); [lra|reflexivity].
  - intros P L. destruct (Rlt_dec da d) as [L'|L'].
    + destruct (Rlt_dec 0 d); [|lra]. destruct (Rlt_dec 0 ds); [|lra]. unfold ease. ring.
    + replace d with da by lra. replace ((da - da) / ds) with 0 by (field; lra). rewrite ease_0. ring.
Qed.
(** Growth of the softened distance, by cases around the threshold. *)
Lemma softened_growth l1 l2 s d d' : 0 < l1 + l2 -> 0 < d -> d <= d' -> clampR 0 1 s < 1 ->
  0 <= softened l1 l2 s d' - softened l1 l2 s d <= 4 / 3 * (d' - d).
Proof.
  intros H Hd Hdd Hs. set (da := (l1 + l2) * clampR 0 1 s). set (ds := (l1 + l2) - da). assert (P : 0 < ds) by (unfold ds, da; nra).
  destruct (softened_eq l1 l2 s d H Hd) as (_ & I & S). destruct (softened_eq l1 l2 s d' H ltac:(lra)) as (_ & I' & S'). fold da in I, S, I', S'. fold ds in S, S'. specialize (S P). specialize (S' P).
  assert (G : forall x y, da <= x <= y -> 0 <= ds * (1 - ease ((y - da) / ds)) - ds * (1 - ease ((x - da) / ds)) <= 4 / 3 * (y - x)).
  { intros x y [Hx Hy]. destruct (ease_diff ((x - da) / ds) ((y - da) / ds)) as [E1 E2].
    { assert (IP : 0 < / ds) by (apply Rinv_0_lt_compat, P). split; [apply Rmult_le_pos; lra|]. apply Rmult_le_compat_r; lra. }
    set (u := ease ((x - da) / ds)) in *. set (v := ease ((y - da) / ds)) in *.
    replace ((y - da) / ds - (x - da) / ds) with ((y - x) / ds) in E2 by (field; lra).
    assert (M : ds * (u - v) <= 4 / 3 * (y - x)). { replace (4 / 3 * (y - x)) with (ds * (4 / 3 * ((y - x) / ds))) by (field; lra). apply Rmult_le_compat_l; lra. }
    assert (0 <= ds * (u - v)) by (apply Rmult_le_pos; lra). split; lra. }
  destruct (Rle_dec d' da) as [L'|L'].
  - rewrite I, I' by lra. lra.
  - destruct (Rle_dec d da) as [L|L].
    + rewrite I, S' by lra. specialize (G da d' ltac:(lra)). replace ((da - da) / ds) with 0 in G by (field; lra). rewrite ease_0 in G. lra.
    + rewrite S, S' by lra. specialize (G d d' ltac:(lra)). lra.
Qed.
Theorem C64_softening : forall l1 l2 s d d', 0 < l1 -> 0 < l2 -> 0 <= s -> 0 < d -> d <= d' ->
  (* inside the unsoftened range the target distance is used *)
  (Rabs (l1 - l2) <= d -> d <= s * (l1 + l2) -> d <= l1 + l2 -> reach l1 l2 s d = d) /\
  (* farther targets are reached farther, without jumps *)
  0 <= reach l1 l2 s d' - reach l1 l2 s d <= 4 / 3 * (d' - d) /\
  (* the chain never straightens completely *)
  (s < 1 -> reach l1 l2 s d < l1 + l2).
Proof.
  intros l1 l2 s d d' H1 H2 Hs Hd Hdd. assert (HA : Rabs (l1 - l2) < l1 + l2) by (unfold Rabs; destruct (Rcase_abs _); lra).
  assert (CM : forall x y, x <= y -> 0 <= clampR (Rabs (l1 - l2)) (l1 + l2) y - clampR (Rabs (l1 - l2)) (l1 + l2) x <= y - x).
  { intros x y Hxy. unfold clampR, Rmax, Rmin. repeat destruct (Rle_dec _ _); lra. }
  destruct (softened_eq l1 l2 s d ltac:(lra) Hd) as (D0 & I & S). cbv zeta in *.
  split; [|split].
  - intros L0 L1 L2. unfold reach. rewrite I; [apply clampR_id; lra|]. unfold clampR, Rmax, Rmin. repeat destruct (Rle_dec _ _); nra.
  - unfold reach. destruct (Rlt_dec (clampR 0 1 s) 1) as [L|L].
    + destruct (softened_growth l1 l2 s d d' ltac:(lra) Hd Hdd L) as [G1 G2]. destruct (CM (softened l1 l2 s d) (softened l1 l2 s d') ltac:(lra)). lra.
    + assert (C1 : clampR 0 1 s = 1) by (pose proof (clampR_bounds 0 1 s ltac:(lra)); lra).
      assert (Id : forall x, 0 < x -> softened l1 l2 s x = x).
      { intros x Hx. unfold softened. rewrite C1. destruct (Rlt_dec _ x); [|reflexivity]. destruct (Rlt_dec 0 x); [|reflexivity]. destruct (Rlt_dec 0 _); [lra|reflexivity]. }
      rewrite !Id by lra. destruct (CM d d' Hdd). lra.
  - intros Hs1. assert (C1 : clampR 0 1 s = s) by (apply clampR_id; lra). rewrite C1 in *.
    assert (P : 0 < (l1 + l2) - (l1 + l2) * s) by nra.
    assert (SL : softened l1 l2 s d < l1 + l2).
    { destruct (Rle_dec d ((l1 + l2) * s)) as [L|L]; [rewrite I by exact L; lra|]. rewrite S by lra.
      assert (X : 0 <= (d - (l1 + l2) * s) / (l1 + l2 - (l1 + l2) * s)) by (apply Rmult_le_pos; [lra|apply Rlt_le, Rinv_0_lt_compat, P]).
      pose proof (ease_pos _ X). nra. }
    unfold reach, clampR. apply Rmax_lub_lt; [exact HA|]. eapply Rle_lt_trans; [apply Rmin_r|exact SL].
Qed.
Print Assumptions C64_softening.
Example C64_example : reach 1 1 (1/2) 1 = 1 /\ 1 < reach 1 1 (1/2) 2 < 2 /\ reach 1 1 (1/2) 2 = 2 - 81 / 256.
Proof.
  assert (E : reach 1 1 (1/2) 2 = 2 - 81 / 256).
  { destruct (softened_eq 1 1 (1/2) 2 ltac:(lra) ltac:(lra)) as (_ & _ & S). cbv zeta in S. rewrite (clampR_id 0 1 (1/2)) in S by lra.
    unfold reach. rewrite (S ltac:(lra) ltac:(lra)). unfold ease. replace ((2 - (1 + 1) * (1 / 2)) / (1 + 1 - (1 + 1) * (1 / 2))) with 1 by field.
    replace (1 - 1) with 0 by ring. rewrite Rabs_R0. rewrite clampR_id by lra. lra. }
  split; [|split; [lra|exact E]]. unfold reach. destruct (softened_eq 1 1 (1/2) 1 ltac:(lra) ltac:(lra)) as (_ & I & _). rewrite (clampR_id 0 1 (1/2)) in I by lra.
  rewrite I by lra. apply clampR_id. replace (1 - 1) with 0 by ring. rewrite Rabs_R0. lra.
Qed.

(** The same of the job itself: two runs on the same chain, with targets at distances [d <= d'].
    [two_bone_setting] collects the hypotheses of C60. *)
Definition two_bone_setting (j : ik2_job R) (q1 q2 : quat R) (k1 k2 : R) : Prop :=
  let S := origin (i2_start j) in let M := origin (i2_mid j) in let E := origin (i2_end j) in
  let T := v3_of (i2_target j) in let axis := v3_of (i2_mid_axis j) in let pole := v3_of (i2_pole j) in
  let soft := softened (dist S M) (dist M E) (i2_soften j) (dist S T) in
  placed (i2_start j) q1 k1 /\ placed (i2_mid j) q2 k2 /\
  dot3 axis axis = 1 /\ dot3 (lin (i2_mid j) axis) (minus3 M S) = 0 /\ dot3 (lin (i2_mid j) axis) (minus3 E M) = 0 /\
  0 < dist S M /\ 0 < dist M E /\ 0 < dist S T /\ 0 < dot3 (cross3 (minus3 T S) pole) (cross3 (minus3 T S) pole) /\
  1 <= i2_weight j /\ TH * (k1 * k1) <= clampR (Rabs (dist S M - dist M E)) (dist S M + dist M E) soft * soft.
(** [E2] is where a run of [j] brings the end joint. *)
Definition end_joint (j : ik2_job R) (E2 : vec3 R) : Prop :=
  exists o out E1, ik2_run_with exact_acos4 exact_axis_angle j o = Some (Ok tt, out) /\
    mid_corrected (i2_mid j) (q_of (o_mid out)) (origin (i2_end j)) E1 /\ start_corrected (i2_start j) (q_of (o_start out)) E1 E2.
Lemma end_joint_reach j q1 q2 k1 k2 E2 : two_bone_setting j q1 q2 k1 k2 -> end_joint j E2 ->
  let S := origin (i2_start j) in
  dist S E2 = reach (dist S (origin (i2_mid j))) (dist (origin (i2_mid j)) (origin (i2_end j))) (i2_soften j) (dist S (v3_of (i2_target j))).
Proof.
  intros (H1 & H2 & Hax & Hp1 & Hp2 & Hl1 & Hl2 & Hd & Hpole & Hw & HTH) (o & out & E1 & HR & HM & HS) S.
  destruct (C60_two_bone j q1 q2 k1 k2 o H1 H2 Hax Hp1 Hp2 Hl1 Hl2 Hd Hpole Hw HTH) as (out' & E1' & E2' & HR' & HM' & HS' & _ & D & _).
  rewrite HR in HR'. apply ok_inj in HR'. subst out'.
  assert (E1 = E1').
  { destruct HM as (e & Ee & ->), HM' as (e' & Ee' & ->). rewrite <- Ee' in Ee. apply (pt_inj _ _ _ _ _ H2) in Ee. subst. reflexivity. }
  subst E1'.
  assert (E2 = E2').
  { destruct HS as (e & Ee & ->), HS' as (e' & Ee' & ->). rewrite <- Ee' in Ee. apply (pt_inj _ _ _ _ _ H1) in Ee. subst. reflexivity. }
  subst E2'. exact D.
Qed.
Theorem C64_job : forall (j j' : ik2_job R) q1 q2 k1 k2 E2 E2',
  two_bone_setting j q1 q2 k1 k2 -> two_bone_setting j' q1 q2 k1 k2 -> end_joint j E2 -> end_joint j' E2' ->
  i2_start j' = i2_start j -> i2_mid j' = i2_mid j -> i2_end j' = i2_end j -> i2_soften j' = i2_soften j -> 0 <= i2_soften j ->
  let S := origin (i2_start j) in let l1 := dist S (origin (i2_mid j)) in let l2 := dist (origin (i2_mid j)) (origin (i2_end j)) in
  let d := dist S (v3_of (i2_target j)) in let d' := dist S (v3_of (i2_target j')) in
  d <= d' ->
  (Rabs (l1 - l2) <= d -> d <= i2_soften j * (l1 + l2) -> d <= l1 + l2 -> dist S E2 = d) /\
  dist S E2 <= dist S E2' <= dist S E2 + 4 / 3 * (d' - d) /\
  (i2_soften j < 1 -> dist S E2 < l1 + l2).
Proof.
  intros j j' q1 q2 k1 k2 E2 E2' G G' HE HE' Es Em Ee Ef Hs S l1 l2 d d' Hd.
  pose proof (end_joint_reach j q1 q2 k1 k2 E2 G HE) as R1. pose proof (end_joint_reach j' q1 q2 k1 k2 E2' G' HE') as R2.
  cbv zeta in R1, R2. rewrite Es, Em, Ee, Ef in R2. fold S l1 l2 d in R1. fold S l1 l2 d' in R2.
  destruct G as (_ & _ & _ & _ & _ & Hl1 & Hl2 & Hd0 & _). fold S l1 in Hl1. fold l2 in Hl2. fold S d in Hd0.
  destruct (C64_softening l1 l2 (i2_soften j) d d' Hl1 Hl2 Hs Hd0 Hd) as (A & B & C).
  rewrite R1, R2. split; [exact A|]. split; [lra|exact C].
Qed.
Print Assumptions C64_job.

(** The chain of [ex_ik] with soften 1/2 and targets at distances 1 and 2: the hypotheses hold. *)
Definition ex_soft (t : R) : ik2_job R :=
  mk_ik2_job (mk4 (1 + t) 2 3 9) (mk4 0 0 1 9) (mk4 0 1 0 9) 0 (1/2) 1 (at_ 1 2 3) (at_ 2 2 3) (at_ 2 3 3).
Ltac iks := cbn [ex_soft i2_target i2_mid_axis i2_pole i2_start i2_mid i2_end i2_weight i2_soften i2_twist]; unfold origin, at_, v3_of, dot3, plus3, minus3, scale3, cross3; cbn [ex_soft i2_target i2_mid_axis i2_pole i2_start i2_mid i2_end i2_weight i2_soften i2_twist vx vy vz l0 l1 l2 l3]; try lra; try nra.
Lemma ex_soft_setting t : 1 <= t <= 2 -> two_bone_setting (ex_soft t) (Q4 0 0 0 1) (Q4 0 0 0 1) 1 1 /\ dist (origin (i2_start (ex_soft t))) (v3_of (i2_target (ex_soft t))) = t.
Proof.
  intros Ht. pose proof TH_bound as TB.
  assert (L1 : dist (origin (i2_start (ex_soft t))) (origin (i2_mid (ex_soft t))) = 1) by (unfold dist; apply len_eq; [lra|iks]).
  assert (L2 : dist (origin (i2_mid (ex_soft t))) (origin (i2_end (ex_soft t))) = 1) by (unfold dist; apply len_eq; [lra|iks]).
  assert (L3 : dist (origin (i2_start (ex_soft t))) (v3_of (i2_target (ex_soft t))) = t) by (unfold dist; apply len_eq; [lra|iks]).
  split; [|exact L3]. unfold two_bone_setting. cbv zeta. rewrite L1, L2, L3. change (i2_soften (ex_soft t)) with (1/2).
  split; [apply at_placed|]. split; [apply at_placed|]. split; [iks|]. split; [cbn [ex_soft i2_mid]; rewrite at_lin; iks|]. split; [cbn [ex_soft i2_mid]; rewrite at_lin; iks|].
  split; [lra|]. split; [lra|]. split; [lra|]. split; [iks|]. split; [iks|].
  destruct (softened_growth 1 1 (1/2) 1 t ltac:(lra) ltac:(lra) ltac:(lra) ltac:(rewrite clampR_id; lra)) as [G1 _].
  destruct (C64_softening 1 1 (1/2) 1 t ltac:(lra) ltac:(lra) ltac:(lra) ltac:(lra) ltac:(lra)) as (A & B & _).
  destruct (softened_eq 1 1 (1/2) 1 ltac:(lra) ltac:(lra)) as (_ & I & _). rewrite (clampR_id 0 1 (1/2)) in I by lra. rewrite I in G1 by lra.
  rewrite A in B; [|replace (1 - 1) with 0 by ring; rewrite Rabs_R0; lra|lra|lra]. fold (reach 1 1 (1/2) t). nra.
Qed.
Example C64_job_example : exists E2 E2', end_joint (ex_soft 1) E2 /\ end_joint (ex_soft 2) E2' /\
  two_bone_setting (ex_soft 1) (Q4 0 0 0 1) (Q4 0 0 0 1) 1 1 /\ two_bone_setting (ex_soft 2) (Q4 0 0 0 1) (Q4 0 0 0 1) 1 1 /\
  dist (V3 1 2 3) E2 = 1 /\ dist (V3 1 2 3) E2' = 2 - 81 / 256.
Proof.
  assert (X : forall t, 1 <= t <= 2 -> exists E2, end_joint (ex_soft t) E2).
  { intros t Ht. destruct (ex_soft_setting t Ht) as [(H1 & H2 & Hax & Hp1 & Hp2 & Hl1 & Hl2 & Hd & Hpole & Hw & HTH) _].
    destruct (C60_two_bone (ex_soft t) _ _ _ _ ik2_out_default H1 H2 Hax Hp1 Hp2 Hl1 Hl2 Hd Hpole Hw HTH) as (out & E1 & E2 & HR & HM & HS & _).
    exists E2, ik2_out_default, out, E1. auto. }
  destruct (X 1 ltac:(lra)) as [E2 HE]. destruct (X 2 ltac:(lra)) as [E2' HE']. exists E2, E2'.
  destruct (ex_soft_setting 1 ltac:(lra)) as [G1 D1]. destruct (ex_soft_setting 2 ltac:(lra)) as [G2 D2].
  split; [exact HE|]. split; [exact HE'|]. split; [exact G1|]. split; [exact G2|].
  pose proof (end_joint_reach _ _ _ _ _ _ G1 HE) as R1. pose proof (end_joint_reach _ _ _ _ _ _ G2 HE') as R2. cbv zeta in R1, R2. rewrite D1 in R1. rewrite D2 in R2.
  assert (L1 : forall t, dist (origin (i2_start (ex_soft t))) (origin (i2_mid (ex_soft t))) = 1) by (intros; unfold dist; apply len_eq; [lra|iks]).
  assert (L2 : forall t, dist (origin (i2_mid (ex_soft t))) (origin (i2_end (ex_soft t))) = 1) by (intros; unfold dist; apply len_eq; [lra|iks]).
  rewrite L1, L2 in R1, R2. change (origin (i2_start (ex_soft 1))) with (V3 1 2 3) in R1. change (origin (i2_start (ex_soft 2))) with (V3 1 2 3) in R2.
  change (i2_soften (ex_soft 1)) with (1/2) in R1. change (i2_soften (ex_soft 2)) with (1/2) in R2. destruct C64_example as (X1 & _ & X2). split; lra.
Qed.

(** ** Binary32 counterexamples and examples *)
Definition atf (x y z : f32) : mat4 f32 := mk4 (mk4 none_ nzero nzero nzero) (mk4 nzero none_ nzero nzero) (mk4 nzero nzero none_ nzero) (mk4 x y z none_).
(** The same chain as [ex_ik] at the origin. *)
Definition chain (tx ty : f32) (hidden twist w : f32) : ik2_job f32 :=
  mk_ik2_job (mk4 tx ty nzero hidden) (mk4 nzero nzero none_ hidden) (mk4 nzero none_ nzero hidden) twist none_ w
             (atf nzero nzero nzero) (atf none_ nzero nzero) (atf none_ none_ nzero).
(** A valid job, of weight 1, whose target is on the (default) pole line: both the target and every
    parameter are finite, the target is within reach, and the start correction is NaN. *)
Theorem C49_degenerate_pole_refuted : exists out,
  ik2_run (chain nzero none_ nzero nzero none_) ik2_out_default = Some (Ok tt, out) /\ o_reached out = true /\
  is_nan (l0 (o_start out)) = true /\ is_nan (l3 (o_start out)) = true.
Proof.
  assert (B : match ik2_run (chain nzero none_ nzero nzero none_) ik2_out_default with
    Some (Ok tt, out) => o_reached out && is_nan (l0 (o_start out)) && is_nan (l3 (o_start out)) | _ => false end = true) by (vm_compute; reflexivity).
  destruct (ik2_run _ _) as [[[[]|e|] out]|]; try discriminate B. exists out. apply andb_true_iff in B. destruct B as [B B3]. apply andb_true_iff in B. destruct B as [B1 B2]. auto.
Qed.
Print Assumptions C49_degenerate_pole_refuted.
(** An infinite twist, or one beyond about 2^32, is undefined behaviour in both jobs. *)
Theorem C63_huge_twist_refuted : exists w : f32, is_finite w = true /\
  ik2_run (chain none_ nzero nzero w none_) ik2_out_default = None /\
  ik2_run (chain none_ nzero nzero B754_nan none_) ik2_out_default = None /\
  aim_run (mk_aim_job (mk4 none_ none_ nzero nzero) (mk4 none_ nzero nzero nzero) nzero (mk4 nzero none_ nzero nzero) (mk4 nzero none_ nzero nzero) w none_ mat_identity) aim_out_default = None.
Proof.
  exists (nlit 1 40). split; [vm_compute; reflexivity|].
  assert (N : forall A (x : option A), (if x then true else false) = false -> x = None) by (intros A [a|]; [discriminate|reflexivity]).
  split; [|split]; apply N; vm_compute; reflexivity.
Qed.
Print Assumptions C63_huge_twist_refuted.
(** A tame job: it runs, reaches its target, and the hidden lanes do not matter. *)
Example C62_C63_example : tame_twist (i2_twist (chain none_ nzero nzero nzero none_)) /\
  about_unit (i2_mid_axis (chain none_ nzero nzero nzero none_)) /\
  ik2_same3 (chain none_ nzero nzero nzero none_) (chain none_ nzero B754_nan nzero none_) /\
  match ik2_run (chain none_ nzero B754_nan nzero none_) ik2_out_default with
    Some (Ok tt, out) => o_reached out && is_finite (l0 (o_start out)) && nlt (l3 (o_mid out)) none_ | _ => false end = true.
Proof.
  split; [split; [reflexivity|]|]. { change (B2R (i2_twist (chain none_ nzero nzero nzero none_))) with 0. rewrite Rabs_R0. apply bpow_ge_0. }
  split; [split; vm_compute; reflexivity|]. split; [repeat split|vm_compute; reflexivity].
Qed.
(** Weight 0, an invalid axis, and an aim job that meets the proviso of [C48_aim_weightless_f32]. *)
Definition near_aim (w : f32) : aim_job f32 :=
  mk_aim_job (mk4 none_ none_ nzero nzero) (mk4 none_ nzero nzero nzero) nzero (mk4 nzero none_ nzero nzero) (mk4 nzero none_ nzero nzero)
             nzero w mat_identity.
Example C48_example : nle (i2_weight (chain none_ nzero nzero nzero nzero)) nzero = true /\
  ~ about_unit (mk4 (ntwo : f32) nzero nzero nzero) /\
  exists out1 out, aim_run (with_weight (near_aim nzero) none_) aim_out_default = Some (Ok tt, out1) /\
    (forall i, (i < 4)%nat -> is_finite (lane (ao_corr out1) i) = true /\ Rabs (B2R (lane (ao_corr out1) i)) <= bpow radix2 126) /\
    aim_run (near_aim nzero) aim_out_default = Some (Ok tt, out) /\ ao_corr out = QUAT_UNIT.
Proof.
  split; [vm_compute; reflexivity|]. split; [intros [_ H]; vm_compute in H; discriminate|].
  set (ok := fun x : f32 => is_finite x && Bleb (nabs x) (nlit 1 100)).
  assert (B : match aim_run (with_weight (near_aim nzero) none_) aim_out_default with
    Some (Ok tt, out) => ok (l0 (ao_corr out)) && ok (l1 (ao_corr out)) && ok (l2 (ao_corr out)) && ok (l3 (ao_corr out)) | _ => false end = true) by (vm_compute; reflexivity).
  assert (OK : forall x, ok x = true -> is_finite x = true /\ Rabs (B2R x) <= bpow radix2 126).
  { intros x H. unfold ok in H. apply andb_true_iff in H. destruct H as [Fx L]. split; [exact Fx|].
    destruct (fin_abs x _ (Logic.conj Fx eq_refl)) as [Fa Ea]. destruct (fin_lit 1 100 ltac:(vm_compute; discriminate) ltac:(lia)) as [Fl El]. change (nlit 1 100) with (f32_lit 1 100) in L.
    rewrite Bleb_correct in L by assumption. rewrite Ea, El in L. destruct (Rle_bool_spec (Rabs (B2R x)) (1 * bpow radix2 100)) as [L'|]; [|discriminate].
    rewrite Rmult_1_l in L'. eapply Rle_trans; [exact L'|]. apply bpow_le. lia. }
  assert (B0 : match aim_run (near_aim nzero) aim_out_default with Some (Ok tt, _) => true | _ => false end = true) by (vm_compute; reflexivity).
  destruct (aim_run (with_weight (near_aim nzero) none_) aim_out_default) as [[[[]|e|] out1]|] eqn:E1; try discriminate B.
  destruct (aim_run (near_aim nzero) aim_out_default) as [[[[]|e|] out]|] eqn:E; try discriminate B0.
  assert (BD : forall i, (i < 4)%nat -> is_finite (lane (ao_corr out1) i) = true /\ Rabs (B2R (lane (ao_corr out1) i)) <= bpow radix2 126).
  { apply andb_true_iff in B. destruct B as [B B4]. apply andb_true_iff in B. destruct B as [B B3]. apply andb_true_iff in B. destruct B as [B1 B2].
    intros i Hi. destruct i as [|[|[|[|i]]]]; [| | | |lia]; apply OK; assumption. }
  exists out1, out. split; [reflexivity|]. split; [exact BD|]. split; [reflexivity|].
  apply (C48_aim_weightless_f32 (near_aim nzero) aim_out_default out out1); [vm_compute; reflexivity|exact E1|exact BD|exact E].
Qed.
