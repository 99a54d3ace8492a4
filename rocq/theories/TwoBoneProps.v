(** C92: the two bone job in single precision brings the end joint onto the target. *)
From Coq Require Import ZArith Lia Reals Lra Psatz Bool.
From Flocq Require Import IEEE754.BinarySingleNaN Core.
From Verif Require Import Base Num NumF32 NumR F32Facts F32Err InterpF32 NormF32 BlendF32 BlendF32Proofs Math MathSpec MathProofs MotionF32 MotionF32Proofs QuatNorm BlendingSpec
  Ik IkSpec IkProofs PolyErr MatInvF32 VecNorm TrigF32 TrigProps AimF32 AimParts AimSteps AimF32Proofs AimF32Spec AimF32Props MatSimF32 TwoBoneParts TwoBoneCos TwoBoneMid TwoBoneAngle TwoBoneSpec TwoBonePlaces TwoBoneSoft TwoBoneBend TwoBoneStart TwoBoneCore.
Local Open Scope R_scope.

Section Form.
  Context {F : Type} {NF : Num F}.
  Lemma weight_form (j : ik2_job F) (s m : V4 F) : ik2_weight_output j s m =
    let part q := if nlt (i2_weight j) none_ then quat_normalize (fx4_lerp QUAT_UNIT (quat_positive_w q) (splat (nmax (i2_weight j) nzero))) else quat_positive_w q in (part s, part m).
  Proof. unfold ik2_weight_output. cbv zeta. destruct (nlt (i2_weight j) none_); reflexivity. Qed.
End Form.
Lemma with_same j : with_weight j (i2_weight j) = j. Proof. destruct j. reflexivity. Qed.
Section Unweighted.
  Context {F : Type} {NF : Num F} (acos : V4 F -> V4 F) (rot : V4 F -> V4 F -> option (V4 F)) (t : V4 F) (ax p : V4 F) (tw so w w' : F) (m1 m2 m3 : mat4 F).
  Let j := mk_ik2_job t ax p tw so w m1 m2 m3.
  Let j' := mk_ik2_job t ax p tw so w' m1 m2 m3.
  Lemma setup_unweighted : ik2_setup j' = ik2_setup j. Proof. reflexivity. Qed.
  Lemma soften_unweighted s : ik2_soften j' s = ik2_soften j s. Proof. reflexivity. Qed.
  Lemma mid_unweighted s x : ik2_mid_rot acos rot j' s x = ik2_mid_rot acos rot j s x. Proof. reflexivity. Qed.
  Lemma start_unweighted s q x y : ik2_start_rot rot j' s q x y = ik2_start_rot rot j s q x y. Proof. reflexivity. Qed.
End Unweighted.
Lemma unweighted (j : ik2_job f32) w : ik2_setup (with_weight j w) = ik2_setup j /\ (forall s, ik2_soften (with_weight j w) s = ik2_soften j s) /\
  (forall s t, ik2_mid_rot fx4_acos quat_from_axis_angle (with_weight j w) s t = ik2_mid_rot fx4_acos quat_from_axis_angle j s t) /\
  (forall s q t t2, ik2_start_rot quat_from_axis_angle (with_weight j w) s q t t2 = ik2_start_rot quat_from_axis_angle j s q t t2).
Proof.
  destruct j as [t ax p tw so w0 m1 m2 m3]. change (with_weight _ w) with (mk_ik2_job t ax p tw so w m1 m2 m3).
  exact (Logic.conj (setup_unweighted _ _ _ _ _ _ _ _ _ _) (Logic.conj (soften_unweighted _ _ _ _ _ _ _ _ _ _) (Logic.conj (mid_unweighted _ _ _ _ _ _ _ _ _ _ _ _) (start_unweighted _ _ _ _ _ _ _ _ _ _ _)))).
Qed.
(** One run, for every weight above zero. *)
Lemma core j s1 s2 W e be A B t u v n o0 : bone_setting j s1 s2 W e be A B t u v n -> clear_reach e be A B t ->
  exists fs fm cs cm flag,
    (forall w, is_finite w = true -> 0 < B2R w -> let part q := if nlt w none_ then quat_normalize (fx4_lerp QUAT_UNIT q (splat (nmax w nzero))) else q in
       ik2_run (with_weight j w) o0 = Some (Ok tt, mk_ik2_out (part fs) (part fm) (flag && nle none_ w))) /\
    fq fs cs /\ fq fm cm /\ 0 <= qw cs /\ 0 <= qw cm /\ Rabs (norm2 cm - 1) <= e / 8 /\ Rabs (norm2 cs - 1) <= / 131072 /\
    (let x := plus3 A (L j (rotate cm v)) in let d := len3 (minus3 (rotate cs x) (goal_of A B t)) in
      d <= 0.0028 * reach_of A B t + precision e be A B t /\ (- len3 x * len3 t / 2 <= dot3 x t -> d <= 0.00002 * reach_of A B t + precision e be A B t)) /\
    (let sf := Rmin (Rmax (B2R (i2_soften j)) 0) 1 in let a := len3 A in let b := len3 B in
      (Rabs (a - b) + 8 * e * (a + b) <= len3 t -> (1 + 16 * e) * len3 t <= sf * (a + b) -> flag = true) /\
      (len3 t <= Rabs (a - b) - 8 * e * (a + b) \/ (sf + 8 * e) * (a + b) <= len3 t -> flag = false)).
Proof.
  intros G CR. destruct (turn_all _ _ _ _ _ _ _ _ _ _ _ _ G CR) as (fs & fm & cs & cm & Em & Es & Fm & Fs & Nm & Ns & D1 & D2). cbv zeta in D1, D2.
  destruct (soften_off _ _ _ _ _ _ _ _ _ _ _ _ G) as (flag & EO & FT).
  destruct (positive_fin fs cs Fs) as (ps & Fps & Wps & SGs). destruct (positive_fin fm cm Fm) as (pm & Fpm & Wpm & SGm).
  exists (quat_positive_w fs), (quat_positive_w fm), ps, pm, flag. split; [|split; [exact Fps|split; [exact Fpm|split; [exact Wps|split; [exact Wpm|]]]]].
  - intros w Fw Hw. cbv zeta. unfold ik2_run, ik2_run_with, ik2_validate. destruct (unweighted j w) as (U1 & U2 & U3 & U4).
    destruct (axis_fin _ _ _ _ _ _ _ _ _ _ _ _ G) as (Fn & Hn & _). pose proof (ts_e _ _ _ _ _ _ _ _ _ _ _ _ G) as He. cbn [with_weight i2_mid_axis i2_weight].
    rewrite (valid_fin _ n (e / 16) Fn Hn) by lra. cbn [negb].
    replace (nle w nzero) with false by (symmetry; change (nle w nzero) with (Bleb w nzero); rewrite Bleb_ext by (destruct w; try reflexivity; discriminate); rewrite !ext_finite by (assumption || reflexivity); apply Rle_bool_false; exact Hw).
    cbv zeta. rewrite U1. rewrite U2, EO. rewrite U3, Em. rewrite U4, Es. rewrite weight_form. cbv zeta. reflexivity.
  - assert (NC : forall c p, p = c \/ p = qscale (-1) c -> norm2 p = norm2 c) by (intros c p [->| ->]; [reflexivity|unfold norm2, qscale; cbn [qx qy qz qw]; ring]).
    assert (RC : forall c p z, p = c \/ p = qscale (-1) c -> rotate p z = rotate c z) by (intros c p z [->| ->]; [reflexivity|rewrite rotate_qscale; replace (-1 * -1) with 1 by ring; apply scale3_1]).
    rewrite (NC _ _ SGm), (NC _ _ SGs). split; [exact Nm|]. split; [exact Ns|]. split; [|exact FT]. cbv zeta. rewrite !(RC _ _ _ SGm), !(RC _ _ _ SGs).
    assert (PE : precision e be A B t = 109 * (e / be * (len3 A * len3 B) / reach_of A B t) + 10 * (e * (len3 A + len3 B))) by (unfold precision, Rdiv; ring).
    rewrite PE. split; [eapply Rle_trans; [exact D1|lra]|intros H; eapply Rle_trans; [exact (D2 H)|lra]].
Qed.

(** ** C92
    In single precision the job answers and both corrections are finite and rotations: the start joint's to within [2^-17], the
    mid joint's to within that or twice the error on the length of its axis. *)
Theorem C92_unit : forall j s1 s2 W e be A B t u v n o0, bone_setting j s1 s2 W e be A B t u v n -> clear_reach e be A B t ->
  is_finite (i2_weight j) = true -> 0 < B2R (i2_weight j) ->
  exists out rs rm, ik2_run j o0 = Some (Ok tt, out) /\ is_quat (o_start out) rs /\ is_quat (o_mid out) rm /\
    Rabs (norm2 rs - 1) <= / 2 ^ 17 /\ Rabs (norm2 rm - 1) <= e / 8.
Proof.
  intros j s1 s2 W e be A B t u v n o0 G CR Fw Hw. destruct (core _ _ _ _ _ _ _ _ _ _ _ _ o0 G CR) as (fs & fm & cs & cm & flag & EW & Fs & Fm & Ws & Wm & Nm & Ns & _).
  specialize (EW _ Fw Hw). rewrite with_same in EW. cbv zeta in EW. pose proof (ts_e _ _ _ _ _ _ _ _ _ _ _ _ G) as He. replace (/ 2 ^ 17) with (/ 131072) by lra.
  match type of EW with context [if ?b then _ else _] => destruct b eqn:Lw end.
  - destruct (share_fin _ Lw) as (a & Fa & Ha & _).
    assert (Qs : qn cs <= 1.01) by (pose proof (near_one_qn cs (/ 131072) ltac:(lra) Ns) as Q; apply Rabs_le_inv in Q; lra).
    assert (Qm : qn cm <= 1.01) by (pose proof (near_one_qn cm (e / 8) ltac:(lra) Nm) as Q; apply Rabs_le_inv in Q; lra).
    apply Rabs_le_inv in Ns, Nm.
    destruct (lerp_unit_err fs _ cs a Fs Qs ltac:(lra) Ws Fa Ha) as (rs & Frs & Nrs & _). destruct (lerp_unit_err fm _ cm a Fm Qm ltac:(lra) Wm Fa Ha) as (rm & Frm & Nrm & _).
    eexists; exists rs, rm. split; [exact EW|]. split; [apply quat_fq; exact Frs|]. split; [apply quat_fq; exact Frm|]. lra.
  - eexists; exists cs, cm. split; [exact EW|]. split; [apply quat_fq; exact Fs|]. split; [apply quat_fq; exact Fm|]. split; assumption.
Qed.
Print Assumptions C92_unit.

(** What the corrections of the mid joint, then of the start joint, do to the end joint. *)
Lemma moved j s1 s2 W e be A B t u v n cm cs y : bone_setting j s1 s2 W e be A B t u v n -> forall p, is_vec (l3 (i2_end j)) p ->
  let x := plus3 A (L j (rotate cm v)) in
  mid_corrected (values (i2_mid j)) cm p (pt (values (i2_start j)) x) /\ start_corrected (values (i2_start j)) cs (pt (values (i2_start j)) x) (pt (values (i2_start j)) (rotate cs x)) /\
  dist (pt (values (i2_start j)) y) (pt (values (i2_start j)) (rotate cs x)) <= 1.0001 * s1 * len3 (minus3 (rotate cs x) y).
Proof.
  intros G p Vp x. destruct (frames _ _ _ _ _ _ _ _ _ _ _ _ G) as (G1 & G2 & FL & LU & _). destruct (ts_end _ _ _ _ _ _ _ _ _ _ _ _ G) as (p' & Vp' & _ & _ & PV).
  assert (EP : p' = p) by (destruct Vp as (_ & <-), Vp' as (_ & <-); reflexivity). rewrite EP in PV. destruct (ts_chain _ _ _ _ _ _ _ _ _ _ _ _ G) as (PA & _).
  split; [|split].
  - exists v. split; [exact PV|]. unfold x. rewrite !pt_lin, lin_plus, FL. assert (LA : lin (values (i2_start j)) A = minus3 (origin (values (i2_mid j))) (origin (values (i2_start j)))) by (unfold lin; rewrite PA; reflexivity).
    rewrite LA. generalize (origin (values (i2_mid j))), (origin (values (i2_start j))), (lin (values (i2_mid j)) (rotate cm v)). intros o1 o2 w. destruct o1, o2, w. v3s; f_equal; ring.
  - exists x. split; reflexivity.
  - unfold dist. rewrite <- lin_minus. pose proof (sj_s _ _ _ G1) as Hs. pose proof (lin_len (values (i2_start j)) s1 ltac:(lra) (sj_cols _ _ _ G1) (minus3 (rotate cs x) y)) as Q.
    apply Rabs_le_inv in Q. assert (0 <= s1 * len3 (minus3 (rotate cs x) y)) by (apply Rmult_le_pos; [lra|apply len3_nn]). unfold kap in Q. lra.
Qed.
(** With a weight of one or more, applying the mid joint's correction and then the start joint's takes the end joint, which is at
    [p], first to [E1] and then to [E2], and [E2] is the goal: to within 0.28 % of its distance, or 0.002 % of it if [E1] need not
    be turned more than 120 degrees about the start joint, give or take what the precision allows.  [s1] is the scale of the start
    joint. *)
Theorem C92_reaches : forall j s1 s2 W e be A B t u v n o0 p, bone_setting j s1 s2 W e be A B t u v n -> clear_reach e be A B t ->
  is_finite (i2_weight j) = true -> 1 <= B2R (i2_weight j) -> is_vec (l3 (i2_end j)) p ->
  exists out rs rm E1 E2, ik2_run j o0 = Some (Ok tt, out) /\ is_quat (o_start out) rs /\ is_quat (o_mid out) rm /\ 0 <= qw rs /\ 0 <= qw rm /\
    mid_corrected (values (i2_mid j)) rm p E1 /\ start_corrected (values (i2_start j)) rs E1 E2 /\
    let goal := pt (values (i2_start j)) (goal_of A B t) in
    dist goal E2 <= 1.0001 * s1 * (0.0028 * reach_of A B t + precision e be A B t) /\
    (forall x, pt (values (i2_start j)) x = E1 -> - len3 x * len3 t / 2 <= dot3 x t -> dist goal E2 <= 1.0001 * s1 * (0.00002 * reach_of A B t + precision e be A B t)).
Proof.
  intros j s1 s2 W e be A B t u v n o0 p G CR Fw Hw Vp. destruct (core _ _ _ _ _ _ _ _ _ _ _ _ o0 G CR) as (fs & fm & cs & cm & flag & EW & Fs & Fm & Ws & Wm & Nm & Ns & (D1 & D2) & _).
  specialize (EW _ Fw ltac:(lra)). rewrite with_same in EW. cbv zeta in EW. match type of EW with context [if ?b then _ else _] => replace b with false in EW by (symmetry; change (nlt (i2_weight j) none_ = false); rewrite (nlt_dec _ _ _ _ (Logic.conj Fw eq_refl : fin _ _) fin_one); destruct (Rlt_dec (B2R (i2_weight j)) 1); [lra|reflexivity]) end.
  destruct (moved _ _ _ _ _ _ _ _ _ _ _ _ cm cs (goal_of A B t) G p Vp) as (M1 & M2 & M3). set (x := plus3 A (L j (rotate cm v))) in *.
  destruct (frames _ _ _ _ _ _ _ _ _ _ _ _ G) as (G1 & _). pose proof (sj_s _ _ _ G1) as Hs.
  assert (MM : forall z, len3 (minus3 (rotate cs x) (goal_of A B t)) <= z -> dist (pt (values (i2_start j)) (goal_of A B t)) (pt (values (i2_start j)) (rotate cs x)) <= 1.0001 * s1 * z).
  { intros z Hz. eapply Rle_trans; [exact M3|]. apply Rmult_le_compat_l; lra. }
  eexists; exists cs, cm; eexists; eexists. split; [exact EW|]. split; [apply quat_fq; exact Fs|]. split; [apply quat_fq; exact Fm|]. split; [exact Ws|]. split; [exact Wm|]. split; [exact M1|]. split; [exact M2|].
  cbv zeta. split; [apply MM; exact D1|]. intros x' Ex Hx. apply MM, D2. replace x with x'; [exact Hx|].
  destruct (sim_inv _ _ _ G1) as (_ & _ & _ & I). rewrite <- (I x'), <- (I x). unfold real_mat. change (map4 (map4 B2R) (i2_start j)) with (values (i2_start j)). rewrite Ex. reflexivity.
Qed.
Print Assumptions C92_reaches.

(** In particular, a target the bones can reach is where the end joint gets. *)
Theorem C92_on_target : forall j s1 s2 W e be A B t u v n o0 p q, bone_setting j s1 s2 W e be A B t u v n -> clear_reach e be A B t ->
  is_finite (i2_weight j) = true -> 1 <= B2R (i2_weight j) -> is_vec (l3 (i2_end j)) p -> is_vec (i2_target j) q -> Rabs (len3 A - len3 B) <= len3 t <= len3 A + len3 B ->
  exists out rs rm E1 E2, ik2_run j o0 = Some (Ok tt, out) /\ is_quat (o_start out) rs /\ is_quat (o_mid out) rm /\
    mid_corrected (values (i2_mid j)) rm p E1 /\ start_corrected (values (i2_start j)) rs E1 E2 /\
    dist q E2 <= 1.0001 * s1 * (0.0028 * len3 t + precision e be A B t).
Proof.
  intros j s1 s2 W e be A B t u v n o0 p q G CR Fw Hw Vp Vq Ht. destruct (C92_reaches _ _ _ _ _ _ _ _ _ _ _ _ o0 p G CR Fw Hw Vp) as (out & rs & rm & E1 & E2 & R & Qs & Qm & _ & _ & M1 & M2 & D1 & _).
  exists out, rs, rm, E1, E2. repeat (split; [assumption|]). assert (RT : reach_of A B t = len3 t) by (unfold reach_of, clampR; rewrite Rmin_right by lra; apply Rmax_right; lra).
  assert (t0 : 0 < len3 t). { pose proof (ts_far _ _ _ _ _ _ _ _ _ _ _ _ G) as (Q & _). pose proof (ts_bones _ _ _ _ _ _ _ _ _ _ _ _ G) as (H1 & H2 & _). unfold Rmin in Q. destruct (Rle_dec _ _); lra. }
  rewrite RT in D1. destruct (ts_target _ _ _ _ _ _ _ _ _ _ _ _ G) as (q' & Vq' & _ & PT). assert (EQ : q' = q) by (destruct Vq as (_ & <-), Vq' as (_ & <-); reflexivity). rewrite EQ in PT.
  unfold goal_of in D1. rewrite RT in D1. replace (len3 t / len3 t) with 1 in D1 by (field; lra). rewrite scale3_1, PT in D1. exact D1.
Qed.
Print Assumptions C92_on_target.

(** The job reports the target reached if it is clearly within the softened reach of the bones and the weight is at least one, and
    not reached if it is clearly outside or the weight is below one. *)
Theorem C92_reached : forall j s1 s2 W e be A B t u v n o0, bone_setting j s1 s2 W e be A B t u v n -> clear_reach e be A B t ->
  is_finite (i2_weight j) = true -> 0 < B2R (i2_weight j) ->
  let reach := clampR 0 1 (B2R (i2_soften j)) * (len3 A + len3 B) in let fold := Rabs (len3 A - len3 B) in let margin := 8 * e * (len3 A + len3 B) in
  exists out, ik2_run j o0 = Some (Ok tt, out) /\
    (1 <= B2R (i2_weight j) -> fold + margin <= len3 t -> (1 + 16 * e) * len3 t <= reach -> o_reached out = true) /\
    (B2R (i2_weight j) < 1 \/ len3 t <= fold - margin \/ reach + margin <= len3 t -> o_reached out = false).
Proof.
  intros j s1 s2 W e be A B t u v n o0 G CR Fw Hw. cbv zeta. destruct (core _ _ _ _ _ _ _ _ _ _ _ _ o0 G CR) as (fs & fm & cs & cm & flag & EW & _ & _ & _ & _ & _ & _ & _ & (T1 & T2)).
  specialize (EW _ Fw Hw). rewrite with_same in EW. cbv zeta in EW. eexists. split; [exact EW|]. cbn [o_reached].
  assert (LE : nle none_ (i2_weight j) = if Rle_dec 1 (B2R (i2_weight j)) then true else false).
  { change (nle none_ (i2_weight j)) with (Bleb none_ (i2_weight j)). rewrite Bleb_ext by (destruct (i2_weight j); try reflexivity; discriminate). rewrite !ext_finite by (assumption || reflexivity). match goal with |- Rle_bool ?x _ = _ => replace x with 1 by (symmetry; exact (proj2 fin_one)) end.
    destruct (Rle_dec 1 (B2R (i2_weight j))); [apply Rle_bool_true; assumption|apply Rle_bool_false; lra]. }
  assert (CL : clampR 0 1 (B2R (i2_soften j)) = Rmin (Rmax (B2R (i2_soften j)) 0) 1) by (unfold clampR, Rmin, Rmax; set (x := B2R (i2_soften j)); repeat destruct (Rle_dec _ _); lra).
  rewrite CL. match goal with |- context [andb flag ?b] => replace b with (if Rle_dec 1 (B2R (i2_weight j)) then true else false) by (symmetry; exact LE) end. split.
  - intros H1 H2 H3. rewrite (T1 H2 H3). destruct (Rle_dec 1 _); [reflexivity|contradiction].
  - intros [H|[H|H]].
    + destruct (Rle_dec 1 _); [lra|apply andb_false_r].
    + rewrite T2; [reflexivity|]. left. exact H.
    + rewrite T2; [reflexivity|]. right. lra.
Qed.
Print Assumptions C92_reached.

(** With a weight between zero and one each correction is that fraction of the full one, to within [2^-18]. *)
Theorem C92_weight : forall j s1 s2 W e be A B t u v n o0, bone_setting j s1 s2 W e be A B t u v n -> clear_reach e be A B t ->
  is_finite (i2_weight j) = true -> 0 < B2R (i2_weight j) < 1 ->
  exists out full rs rm cs cm, ik2_run j o0 = Some (Ok tt, out) /\ ik2_run (with_weight j none_) o0 = Some (Ok tt, full) /\
    is_quat (o_start out) rs /\ is_quat (o_start full) cs /\ qdist rs (part_way (B2R (i2_weight j)) cs) <= / 2 ^ 18 /\
    is_quat (o_mid out) rm /\ is_quat (o_mid full) cm /\ qdist rm (part_way (B2R (i2_weight j)) cm) <= / 2 ^ 18.
Proof.
  intros j s1 s2 W e be A B t u v n o0 G CR Fw Hw. destruct (core _ _ _ _ _ _ _ _ _ _ _ _ o0 G CR) as (fs & fm & cs & cm & flag & EW & Fs & Fm & Ws & Wm & Nm & Ns & _).
  pose proof (EW _ Fw ltac:(lra)) as E. rewrite with_same in E. cbv zeta in E. pose proof (ts_e _ _ _ _ _ _ _ _ _ _ _ _ G) as He.
  assert (Lw : nlt (i2_weight j) none_ = true) by (rewrite (nlt_dec _ _ _ _ (Logic.conj Fw eq_refl : fin _ _) fin_one); destruct (Rlt_dec (B2R (i2_weight j)) 1); [reflexivity|lra]).
  match type of E with context [if ?b then _ else _] => replace b with true in E by (symmetry; exact Lw) end. pose proof (EW none_ eq_refl ltac:(assert (O : @B2R 24 128 (@none_ f32 f32arith) = 1) by exact (proj2 fin_one); change (0 < @B2R 24 128 (@none_ f32 f32arith)); rewrite O; lra)) as E1. cbv zeta in E1.
  match type of E1 with context [if ?b then _ else _] => replace b with false in E1 by (symmetry; change (nlt (none_ : f32) none_ = false); rewrite (nlt_dec _ _ _ _ fin_one fin_one); destruct (Rlt_dec 1 1); [lra|reflexivity]) end.
  destruct (share_fin _ Lw) as (a & Fa & Ha & Ea). specialize (Ea Fw). rewrite Rmax_left in Ea by lra.
  assert (Qs : qn cs <= 1.01) by (pose proof (near_one_qn cs (/ 131072) ltac:(lra) Ns) as Q; apply Rabs_le_inv in Q; lra).
  assert (Qm : qn cm <= 1.01) by (pose proof (near_one_qn cm (e / 8) ltac:(lra) Nm) as Q; apply Rabs_le_inv in Q; lra).
  apply Rabs_le_inv in Ns, Nm.
  destruct (lerp_unit_err fs _ cs a Fs Qs ltac:(lra) Ws Fa Ha) as (rs & Frs & _ & Drs). destruct (lerp_unit_err fm _ cm a Fm Qm ltac:(lra) Wm Fa Ha) as (rm & Frm & _ & Drm).
  assert (PW : forall z c, qn (qsub z (qscale (/ qn (Q4 (a * qx c) (a * qy c) (a * qz c) (1 - a + a * qw c))) (Q4 (a * qx c) (a * qy c) (a * qz c) (1 - a + a * qw c)))) <= 64 * eps -> qdist z (part_way (B2R (i2_weight j)) c) <= / 2 ^ 18).
  { intros z c H. rewrite qdist_qn, <- Ea. replace (/ 2 ^ 18) with (64 * eps) by (unfold eps; lra).
    match goal with |- qn (qsub z ?z') <= _ => match type of H with qn (qsub z ?y) <= _ => replace z' with y end end; [exact H|].
    unfold part_way, qscale, qn. cbn [qx qy qz qw]. f_equal; unfold Rdiv; ring. }
  eexists; eexists; exists rs, rm, cs, cm. split; [exact E|]. split; [exact E1|]. split; [apply quat_fq; exact Frs|]. split; [apply quat_fq; exact Fs|]. split; [apply PW; exact Drs|].
  split; [apply quat_fq; exact Frm|]. split; [apply quat_fq; exact Fm|apply PW; exact Drm].
Qed.
Print Assumptions C92_weight.

(** ** An example
    An arm bent at a right angle: the shoulder is at (2, 3, 4), the elbow a unit from it along x and the wrist a unit from the
    elbow along y.  The target is a unit from the shoulder, against z.  The elbow bends about z; the pole vector is y. *)
Definition ex_mat (x y z : f32) : mat4 f32 := mk4 (mk4 none_ nzero nzero nzero) (mk4 nzero none_ nzero nzero) (mk4 nzero nzero none_ nzero) (mk4 x y z none_).
Definition ex_arm (w : f32) : ik2_job f32 :=
  let l2 := f32_lit 1 1 in let l3 := f32_lit 3 0 in let l4 := f32_lit 1 2 in
  mk_ik2_job (mk4 l2 l3 l3 nzero) (mk4 nzero nzero none_ nzero) (mk4 nzero none_ nzero nzero) nhalf none_ w (ex_mat l2 l3 l4) (ex_mat l3 l3 l4) (ex_mat l3 l4 l4).
Lemma ex_mat_vals x y z a b c : B2R x = a -> B2R y = b -> B2R z = c -> values (ex_mat x y z) = mk4 (mk4 1 0 0 0) (mk4 0 1 0 0) (mk4 0 0 1 0) (mk4 a b c 1).
Proof.
  intros <- <- <-. destruct fin_zero as (_ & Z). destruct fin_one as (_ & O).
  assert (Z' : @B2R 24 128 (@nzero f32 f32arith) = 0) by exact Z. assert (O' : @B2R 24 128 (@none_ f32 f32arith) = 1) by exact O.
  unfold values, ex_mat, map4. cbn [l0 l1 l2 l3]. change (@num_arith f32 f32num) with f32arith in *. rewrite Z', O'. reflexivity.
Qed.
Lemma ex_rigid x y z a b c : is_finite x = true -> is_finite y = true -> is_finite z = true -> B2R x = a -> B2R y = b -> B2R z = c -> Rabs a <= 4 -> Rabs b <= 4 -> Rabs c <= 4 ->
  rigid_joint (ex_mat x y z) 1 4.
Proof.
  intros Fx Fy Fz Ex Ey Ez Ha Hb Hc. pose proof (ex_mat_vals x y z a b c Ex Ey Ez) as V. split; [|split; [|split; [|split; [|split]]]].
  - intros i j Hi Hj. do 4 (destruct i as [|i]; [do 4 (destruct j as [|j]; [first [exact Fx|exact Fy|exact Fz|vm_compute; reflexivity]|]); lia|]). lia.
  - rewrite V. unfold affine, ent. cbn. auto.
  - rewrite V. intros i j Hi Hj. do 3 (destruct i as [|i]; [do 3 (destruct j as [|j]; [unfold axes_dot, ent; cbn; apply Rabs_le; lra|]); lia|]). lia.
  - rewrite V. intros i Hi. do 3 (destruct i as [|i]; [unfold ent; cbn [lane l0 l1 l2 l3]; assumption|]). lia.
  - lra.
  - lra.
Qed.
Lemma unit3 a b c : a * a + b * b + c * c = 1 -> len3 (V3 a b c) = 1.
Proof. intros H. unfold len3, dot3. cbn [vx vy vz]. rewrite H. apply sqrt_1. Qed.
Lemma ex_bones (w : f32) : bone_setting (ex_arm w) 1 1 4 (/ 8192) 1 (V3 1 0 0) (V3 0 1 0) (V3 0 0 (-1)) (V3 1 0 0) (V3 0 1 0) (V3 0 0 1).
Proof.
  destruct fin_zero as (_ & Z). destruct fin_one as (_ & O). destruct fin_half as (_ & Hf).
  assert (Z' : @B2R 24 128 (@nzero f32 f32arith) = 0) by exact Z. assert (O' : @B2R 24 128 (@none_ f32 f32arith) = 1) by exact O. assert (H' : @B2R 24 128 (@nhalf f32 f32arith) = / 2) by exact Hf.
  destruct (fin_lit 1 1 ltac:(lia) ltac:(lia)) as (F2 & E2). destruct (fin_lit 3 0 ltac:(lia) ltac:(lia)) as (F3 & E3). destruct (fin_lit 1 2 ltac:(lia) ltac:(lia)) as (F4 & E4).
  assert (E2' : B2R (f32_lit 1 1) = 2) by (rewrite E2; simpl; lra). assert (E3' : B2R (f32_lit 3 0) = 3) by (rewrite E3; simpl; lra). assert (E4' : B2R (f32_lit 1 2) = 4) by (rewrite E4; simpl; lra).
  pose proof (ex_mat_vals _ _ _ _ _ _ E2' E3' E4') as VS. pose proof (ex_mat_vals _ _ _ _ _ _ E3' E3' E4') as VM.
  assert (A2 : Rabs 2 <= 4) by (rewrite Rabs_pos_eq; lra). assert (A3 : Rabs 3 <= 4) by (rewrite Rabs_pos_eq; lra). assert (A4 : Rabs 4 <= 4) by (rewrite Rabs_pos_eq; lra).
  assert (LX : len3 (V3 1 0 0) = 1) by (apply unit3; ring). assert (LY : len3 (V3 0 1 0) = 1) by (apply unit3; ring). assert (LZ : len3 (V3 0 0 1) = 1) by (apply unit3; ring). assert (LT : len3 (V3 0 0 (-1)) = 1) by (apply unit3; ring).
  assert (PS : forall a b c, pt (values (ex_mat (f32_lit 1 1) (f32_lit 3 0) (f32_lit 1 2))) (V3 a b c) = V3 (a + 2) (b + 3) (c + 4)) by (intros; rewrite VS; unfold pt, apply_point, ent; cbn; f_equal; ring).
  assert (PM : forall a b c, pt (values (ex_mat (f32_lit 3 0) (f32_lit 3 0) (f32_lit 1 2))) (V3 a b c) = V3 (a + 3) (b + 3) (c + 4)) by (intros; rewrite VM; unfold pt, apply_point, ent; cbn; f_equal; ring).
  constructor; cbn [ex_arm i2_start i2_mid i2_end i2_target i2_mid_axis i2_pole i2_twist i2_soften].
  - exact (ex_rigid _ _ _ _ _ _ F2 F3 F4 E2' E3' E4' A2 A3 A4).
  - exact (ex_rigid _ _ _ _ _ _ F3 F3 F4 E3' E3' E4' A3 A3 A4).
  - split; [rewrite PS, VM|replace (neg3 (V3 1 0 0)) with (V3 (-1) 0 0) by (unfold neg3, scale3; cbn [vx vy vz]; f_equal; ring); rewrite PM, VS]; unfold origin, v3_of; cbn [l0 l1 l2 l3]; f_equal; ring.
  - exists (V3 3 4 4). split; [split; [split; [exact F3|split; [exact F4|exact F4]]|]|split; [|split]].
    + unfold ex_mat. cbn [l0 l1 l2 l3]. rewrite E3', E4'. reflexivity.
    + repeat split; assumption.
    + unfold plus3. cbn [vx vy vz]. rewrite PS. f_equal; ring.
    + rewrite PM. f_equal; ring.
  - exists (V3 2 3 3). split; [split; [split; [exact F2|split; [exact F3|exact F3]]|]|split].
    + cbn [l0 l1 l2 l3]. rewrite E2', E3'. reflexivity.
    + repeat split; assumption.
    + rewrite PS. f_equal; ring.
  - split; [split; [repeat split; vm_compute; reflexivity|cbn [l0 l1 l2]; change (@num_arith f32 f32num) with f32arith in *; rewrite Z', O'; reflexivity]|].
    rewrite LX, LY. unfold dot3. cbn [vx vy vz]. split; [|split]; apply Rabs_le; lra.
  - lra.
  - rewrite LX, LY. lra.
  - rewrite LX, LY. lra.
  - rewrite LX, LY, LT, Rmin_left; lra.
  - rewrite LX, LY. lra.
  - rewrite LX, LY. unfold dot3, cross3. cbn [vx vy vz]. split; [lra|]. replace (1 * (0 * 0 - 1 * 1) + 0 * (1 * 0 - 0 * 0) + 0 * (0 * 1 - 0 * 0)) with (-(1)) by ring. rewrite Rabs_Ropp, Rabs_R1. lra.
  - exists (V3 0 1 0), (V3 0 1 0). split; [split; [repeat split; vm_compute; reflexivity|cbn [l0 l1 l2]; change (@num_arith f32 f32num) with f32arith in *; rewrite Z', O'; reflexivity]|].
    rewrite LY, LT. split; [unfold coords_le; cbn [vx vy vz]; repeat split; apply Rabs_le; lra|]. split; [unfold lin; rewrite PS, VS; unfold minus3, origin, v3_of; cbn [l0 l1 l2 l3 vx vy vz]; f_equal; ring|]. split; [lra|].
    unfold cross3. cbn [vx vy vz]. replace (len3 _) with 1; [lra|]. symmetry. apply unit3. ring.
  - split; [vm_compute; reflexivity|]. change (@num_arith f32 f32num) with f32arith in *. rewrite H'. apply Rabs_le. lra.
  - split; [vm_compute; reflexivity|]. left. change (@num_arith f32 f32num) with f32arith in *. rewrite O'. lra.
Qed.
Lemma ex_reach : reach_of (V3 1 0 0) (V3 0 1 0) (V3 0 0 (-1)) = 1 /\ precision (/ 8192) 1 (V3 1 0 0) (V3 0 1 0) (V3 0 0 (-1)) <= 0.0158.
Proof.
  assert (LX : len3 (V3 1 0 0) = 1) by (apply unit3; ring). assert (LY : len3 (V3 0 1 0) = 1) by (apply unit3; ring). assert (LT : len3 (V3 0 0 (-1)) = 1) by (apply unit3; ring).
  assert (D : reach_of (V3 1 0 0) (V3 0 1 0) (V3 0 0 (-1)) = 1) by (unfold reach_of, clampR; rewrite LX, LY, LT; replace (1 - 1) with 0 by ring; rewrite Rabs_R0, Rmin_right by lra; apply Rmax_right; lra).
  split; [exact D|]. unfold precision. rewrite D, LX, LY. lra.
Qed.
Lemma ex_clear : clear_reach (/ 8192) 1 (V3 1 0 0) (V3 0 1 0) (V3 0 0 (-1)).
Proof. unfold clear_reach. rewrite (proj1 ex_reach). rewrite !unit3 by ring. lra. Qed.
Lemma ex_fin : is_finite (i2_weight (ex_arm none_)) = true /\ is_finite (i2_weight (ex_arm nhalf)) = true.
Proof. split; vm_compute; reflexivity. Qed.
Lemma ex_one : 1 <= B2R (none_ : f32).
Proof. assert (O : @B2R 24 128 none_ = 1) by exact (proj2 fin_one). change (1 <= @B2R 24 128 none_). rewrite O. lra. Qed.
(** The wrist gets within two hundredths of a unit of the target, and the job says that it is reached. *)
Example C92_example : exists out rs rm E1 E2, ik2_run (ex_arm none_) ik2_out_default = Some (Ok tt, out) /\ is_quat (o_start out) rs /\ is_quat (o_mid out) rm /\
  mid_corrected (values (i2_mid (ex_arm none_))) rm (V3 3 4 4) E1 /\ start_corrected (values (i2_start (ex_arm none_))) rs E1 E2 /\ dist (V3 2 3 3) E2 <= 0.02.
Proof.
  destruct (ts_end _ _ _ _ _ _ _ _ _ _ _ _ (ex_bones none_)) as (p & Vp & _). destruct (ts_target _ _ _ _ _ _ _ _ _ _ _ _ (ex_bones none_)) as (q & Vq & _).
  assert (LX : len3 (V3 1 0 0) = 1) by (apply unit3; ring). assert (LY : len3 (V3 0 1 0) = 1) by (apply unit3; ring). assert (LT : len3 (V3 0 0 (-1)) = 1) by (apply unit3; ring).
  assert (E2' : B2R (f32_lit 1 1) = 2) by (rewrite (proj2 (fin_lit 1 1 ltac:(lia) ltac:(lia))); simpl; lra). assert (E3' : B2R (f32_lit 3 0) = 3) by (rewrite (proj2 (fin_lit 3 0 ltac:(lia) ltac:(lia))); simpl; lra).
  assert (E4' : B2R (f32_lit 1 2) = 4) by (rewrite (proj2 (fin_lit 1 2 ltac:(lia) ltac:(lia))); simpl; lra).
  assert (P : p = V3 3 4 4) by (destruct Vp as (_ & <-); unfold ex_arm, ex_mat; cbn [i2_end l0 l1 l2 l3]; rewrite E3', E4'; reflexivity).
  assert (Q : q = V3 2 3 3) by (destruct Vq as (_ & <-); unfold ex_arm; cbn [i2_target l0 l1 l2 l3]; rewrite E2', E3'; reflexivity).
  rewrite P in Vp. rewrite Q in Vq.
  destruct (C92_on_target _ _ _ _ _ _ _ _ _ _ _ _ ik2_out_default _ _ (ex_bones none_) ex_clear (proj1 ex_fin) ex_one Vp Vq) as (out & rs & rm & E1 & E2 & R & Qs & Qm & M1 & M2 & D).
  - rewrite LX, LY, LT. replace (1 - 1) with 0 by ring. rewrite Rabs_R0. lra.
  - exists out, rs, rm, E1, E2. repeat (split; [assumption|]). rewrite LT in D. pose proof (proj2 ex_reach). lra.
Qed.
Example C92_example_reached : exists out, ik2_run (ex_arm none_) ik2_out_default = Some (Ok tt, out) /\ o_reached out = true.
Proof.
  pose proof ex_one as H1. destruct (C92_reached _ _ _ _ _ _ _ _ _ _ _ _ ik2_out_default (ex_bones none_) ex_clear (proj1 ex_fin) ltac:(change (i2_weight (ex_arm none_)) with (none_ : f32); lra)) as (out & R & T & _).
  exists out. split; [exact R|]. assert (O' : B2R (i2_soften (ex_arm none_)) = 1) by exact (proj2 fin_one). rewrite O' in T. rewrite !unit3 in T by ring. replace (1 - 1) with 0 in T by ring. rewrite Rabs_R0 in T.
  unfold clampR in T. rewrite Rmin_right, Rmax_right in T by lra. apply T; [exact H1|lra|lra].
Qed.
Example C92_example_weight : exists out rs rm, ik2_run (ex_arm nhalf) ik2_out_default = Some (Ok tt, out) /\ is_quat (o_start out) rs /\ is_quat (o_mid out) rm /\ Rabs (norm2 rs - 1) <= / 2 ^ 17.
Proof.
  assert (H : B2R (i2_weight (ex_arm nhalf)) = / 2) by exact (proj2 fin_half).
  destruct (C92_unit _ _ _ _ _ _ _ _ _ _ _ _ ik2_out_default (ex_bones nhalf) ex_clear (proj2 ex_fin) ltac:(rewrite H; lra)) as (out & rs & rm & R & A & B & C & _). exists out, rs, rm. auto.
Qed.
Example C92_example_half : exists out full rs cs, ik2_run (ex_arm nhalf) ik2_out_default = Some (Ok tt, out) /\ ik2_run (ex_arm none_) ik2_out_default = Some (Ok tt, full) /\
  is_quat (o_start out) rs /\ is_quat (o_start full) cs /\ qdist rs (part_way (/ 2) cs) <= / 2 ^ 18.
Proof.
  assert (H : B2R (i2_weight (ex_arm nhalf)) = / 2) by exact (proj2 fin_half).
  destruct (C92_weight _ _ _ _ _ _ _ _ _ _ _ _ ik2_out_default (ex_bones nhalf) ex_clear (proj2 ex_fin) ltac:(rewrite H; lra)) as (out & full & rs & rm & cs & cm & R1 & R2 & Q1 & Q2 & D & _).
  rewrite H in D. exists out, full, rs, cs. split; [exact R1|]. split; [exact R2|]. auto.
Qed.
