(** The correction of the mid joint in binary32: after it the end joint is as far from the start joint as the target, as far as the bones allow. *)
From Coq Require Import ZArith Lia Reals Lra Psatz Bool.
From Flocq Require Import IEEE754.BinarySingleNaN Core.
From Verif Require Import Base Num NumF32 NumR F32Facts F32Err InterpF32 NormF32 BlendF32 BlendF32Proofs Math MathSpec MathProofs MotionF32 MotionF32Proofs QuatNorm BlendingSpec
  Ik IkSpec IkProofs PolyErr MatInvF32 VecNorm TrigF32 TrigProps AimF32 AimParts AimSteps AimF32Spec AimF32Props MatSimF32 TwoBoneParts TwoBoneCos TwoBoneMid TwoBoneAngle TwoBoneSpec TwoBonePlaces TwoBoneSoft.
Local Open Scope R_scope.

Lemma cross_len u v : len3 (cross3 u v) <= len3 u * len3 v.
Proof.
  apply Rsqr_incr_0_var; [|apply Rmult_le_pos; apply len3_nn]. unfold Rsqr. rewrite len3_sq. replace (len3 u * len3 v * (len3 u * len3 v)) with (len3 u * len3 u * (len3 v * len3 v)) by ring.
  rewrite !len3_sq. pose proof (Rle_0_sqr (dot3 u v)) as Q. unfold Rsqr in Q. replace (dot3 (cross3 u v) (cross3 u v)) with (dot3 u u * dot3 v v - dot3 u v * dot3 u v) by (destruct u, v; v3s; ring). lra.
Qed.
Section Bend.
  Context (j : ik2_job f32) (s1 s2 W e be : R) (A B t u v n : vec3 R) (G : bone_setting j s1 s2 W e be A B t u v n).
  Let S := ik2_setup j. Let a := len3 A. Let b := len3 B. Let l := Rmin a b. Let U := len3 u. Let V := len3 v. Let k := Rmin U V.
  Let m1 := values (i2_start j). Let m2 := values (i2_mid j).
  (** From the mid joint's space to the start joint's. *)
  Definition L (x : vec3 R) : vec3 R := lin (mat_invert m1) (lin m2 x).
  Lemma axis_fin : fin4 (i2_mid_axis j) n /\ Rabs (dot3 n n - 1) <= e / 16 /\ 0.999 <= len3 n <= 1.001.
  Proof using G.
    destruct (ts_axis _ _ _ _ _ _ _ _ _ _ _ _ G) as (F & H & _). pose proof (ts_e _ _ _ _ _ _ _ _ _ _ _ _ G) as He. split; [apply vec_fin4; exact F|]. split; [exact H|]. apply Rabs_le_inv in H. split.
    - apply Rnot_lt_le. intros Q. pose proof (len3_nn n) as N0. assert (len3 n * len3 n <= 0.999 * 0.999) by (apply Rmult_le_compat; lra). rewrite len3_sq in H0. lra.
    - apply len3_of_sq; lra.
  Qed.
  Lemma bent_sign : 4 * e <= be -> exists x, fin (l0 (vec3_dot_s (vec3_cross (s_start_mid_ms S) (i2_mid_axis j)) (s_mid_end_ms S))) x /\ Rabs (x - dot3 u (cross3 n v)) <= 2 * e * (U * V) /\
    0 < x * dot3 u (cross3 n v).
  Proof using G.
    intros Hb. destruct (places _ _ _ _ _ _ _ _ _ _ _ _ G) as (_ & _ & _ & _ & u' & v' & _ & _ & _ & _ & _ & _ & _ & _ & Fu & Eu & Fv & Ev). fold S U V k in Fu, Eu, Fv, Ev.
    destruct (tb_l _ _ _ _ _ _ _ _ _ _ _ _ G) as (_ & _ & _ & _ & K0 & KU & KV). fold U V k in K0, KU, KV. pose proof (ts_bones' _ _ _ _ _ _ _ _ _ _ _ _ G) as (HU & HV). fold U in HU. fold V in HV.
    pose proof (ts_e _ _ _ _ _ _ _ _ _ _ _ _ G) as He. pose proof (eps_e e He) as Ee. destruct axis_fin as (Fn & Hn & Ln). destruct (ts_axis _ _ _ _ _ _ _ _ _ _ _ _ G) as (_ & _ & Nu & _). fold U in Nu.
    pose proof (len3_diff u' u) as Du. pose proof (len3_diff v' v) as Dv. fold U in Du. fold V in Dv. apply Rabs_le_inv in Du. apply Rabs_le_inv in Dv.
    assert (ek : 0 < e * k <= / 2048 * k) by (split; [apply Rmult_lt_0_compat; lra|apply Rmult_le_compat_r; lra]).
    assert (ekU : e * k <= e * U) by (apply Rmult_le_compat_l; lra). assert (ekV : e * k <= e * V) by (apply Rmult_le_compat_l; lra).
    assert (eU : e * U <= / 2048 * U) by (apply Rmult_le_compat_r; lra). assert (eV : e * V <= / 2048 * V) by (apply Rmult_le_compat_r; lra).
    destruct (cross_err _ _ u' n Fu Fn) as (c & Fc & C0 & C1 & C2); [unfold sized; lra|unfold sized; lra|].
    assert (CE : len3 (minus3 c (cross3 u' n)) <= 0.01 * (e * U)).
    { apply Rle_trans with (1.7321 * (2.01 * eps * (len3 u' * len3 n))); [apply len3_le; try assumption|].
      - apply Rmult_le_pos; [unfold eps; lra|apply Rmult_le_pos; apply len3_nn].
      - assert (len3 u' * len3 n <= 1.001 * U * 1.001) by (apply Rmult_le_compat; try apply len3_nn; lra). assert (eps * (len3 u' * len3 n) <= 0.002 * e * (1.001 * U * 1.001)) by (apply Rmult_le_compat; [unfold eps; lra|apply Rmult_le_pos; apply len3_nn|lra|assumption]). lra. }
    assert (CD : len3 (minus3 c (cross3 u n)) <= 0.962 * (e * U)).
    { pose proof (len3_mtri c (cross3 u' n) (cross3 u n)) as Q. replace (minus3 (cross3 u' n) (cross3 u n)) with (cross3 (minus3 u' u) n) in Q by (destruct u', u, n; v3s; f_equal; ring).
      pose proof (cross_len (minus3 u' u) n) as Q2. assert (len3 (minus3 u' u) * len3 n <= 0.95 * e * k * 1.001) by (apply Rmult_le_compat; try apply len3_nn; lra). lra. }
    assert (CL : 0.99 * U <= len3 (cross3 u n) <= 1.002 * U).
    { split; [|pose proof (cross_len u n) as Q; fold U in Q; assert (U * len3 n <= U * 1.001) by (apply Rmult_le_compat_l; lra); lra].
      apply Rnot_lt_le. intros Q. assert (H0 : len3 (cross3 u n) * len3 (cross3 u n) <= 0.99 * U * (0.99 * U)) by (apply Rmult_le_compat; try apply len3_nn; lra).
      rewrite len3_sq in H0. replace (dot3 (cross3 u n) (cross3 u n)) with (dot3 u u * dot3 n n - dot3 n u * dot3 n u) in H0 by (destruct u, n; v3s; ring).
      rewrite <- len3_sq in H0. fold U in H0. apply Rabs_le_inv in Nu. apply Rabs_le_inv in Hn. assert (UU : 0 < U * U) by (apply Rmult_lt_0_compat; lra).
      assert (N2 : dot3 n u * dot3 n u <= / 2048 * U * (/ 2048 * U)) by (rewrite <- (Rabs_pos_eq (dot3 n u * dot3 n u)) by apply Rle_0_sqr; rewrite Rabs_mult; apply Rmult_le_compat; try apply Rabs_pos; apply Rabs_le; lra).
      assert (U * U * 0.999 <= U * U * dot3 n n) by (apply Rmult_le_compat_l; lra). lra. }
    pose proof (len3_diff c (cross3 u n)) as Dc. apply Rabs_le_inv in Dc.
    destruct (dot_s_err _ _ c v' Fc Fv) as (x & Fx & Ex); [unfold sized; lra|unfold sized; lra|]. exists x. split; [exact Fx|].
    assert (UV : 0 < U * V) by (apply Rmult_lt_0_compat; lra). assert (eUV : 0 < e * (U * V)) by (apply Rmult_lt_0_compat; lra).
    assert (TE : Rabs (x - dot3 u (cross3 n v)) <= 2 * e * (U * V)).
    { replace (dot3 u (cross3 n v)) with (dot3 (cross3 u n) v) by (destruct u, n, v; v3s; ring).
      assert (Q1 : Rabs (dot3 (minus3 c (cross3 u n)) v') <= 0.962 * (e * U) * (1.001 * V)) by (eapply Rle_trans; [apply dot3_le|]; apply Rmult_le_compat; try apply len3_nn; lra).
      assert (Q2 : Rabs (dot3 (cross3 u n) (minus3 v' v)) <= 1.002 * U * (0.95 * (e * V))) by (eapply Rle_trans; [apply dot3_le|]; apply Rmult_le_compat; try apply len3_nn; lra).
      assert (Q3 : 3.01 * eps * (len3 c * len3 v') <= 3.01 * (0.002 * e) * (1.01 * U * (1.001 * V))) by (apply Rmult_le_compat; [unfold eps; lra|apply Rmult_le_pos; apply len3_nn|lra|apply Rmult_le_compat; try apply len3_nn; lra]).
      assert (DD : dot3 c v' - dot3 (cross3 u n) v = dot3 (minus3 c (cross3 u n)) v' + dot3 (cross3 u n) (minus3 v' v)) by (generalize (cross3 u n); intros w; destruct c, v', v, w; v3s; ring).
      apply Rabs_le_inv in Ex, Q1, Q2. apply Rabs_le. lra. }
    split; [exact TE|]. destruct (ts_bent _ _ _ _ _ _ _ _ _ _ _ _ G) as (_ & Hbent). fold U V in Hbent. set (q := dot3 u (cross3 n v)) in *.
    assert (BB : 4 * e * (U * V) <= be * (U * V)) by (apply Rmult_le_compat_r; lra). apply Rabs_le_inv in TE.
    unfold Rabs in Hbent. destruct (Rcase_abs q); [replace (x * q) with (- x * - q) by ring|]; apply Rmult_lt_0_compat; lra.
  Qed.
  Lemma frames : sim_joint (i2_start j) s1 W /\ sim_joint (i2_mid j) s2 W /\ (forall x, lin m1 (L x) = lin m2 x) /\ L u = A /\ L v = B.
  Proof using G.
    pose proof (rigid_sim _ _ _ (ts_start _ _ _ _ _ _ _ _ _ _ _ _ G)) as G1. pose proof (rigid_sim _ _ _ (ts_mid _ _ _ _ _ _ _ _ _ _ _ _ G)) as G2. split; [exact G1|]. split; [exact G2|].
    destruct (sim_inv _ _ _ G1) as (AF & DN & _). destruct (lin_inv m1 AF DN) as (I1 & I2). split; [intros x; apply I1|].
    destruct (ts_chain _ _ _ _ _ _ _ _ _ _ _ _ G) as (PA & PU). destruct (ts_end _ _ _ _ _ _ _ _ _ _ _ _ G) as (p & _ & _ & PE & PV). fold m1 m2 in PA, PU, PE, PV.
    assert (E1 : lin m1 A = minus3 (origin m2) (origin m1)) by (unfold lin; rewrite PA; reflexivity).
    assert (E2 : lin m2 u = minus3 (origin m2) (origin m1)).
    { replace u with (scale3 (-1) (neg3 u)) by (unfold neg3; destruct u; v3s; f_equal; ring). rewrite lin_scale. unfold lin. rewrite PU. destruct (origin m1), (origin m2). v3s; f_equal; ring. }
    assert (E3 : lin m1 (plus3 A B) = minus3 p (origin m1)) by (unfold lin; rewrite PE; reflexivity). assert (E4 : lin m2 v = minus3 p (origin m2)) by (unfold lin; rewrite PV; reflexivity).
    split.
    - unfold L. rewrite E2, <- E1. apply I2.
    - unfold L. rewrite E4. replace (minus3 p (origin m2)) with (lin m1 B); [apply I2|]. rewrite lin_plus, E1 in E3.
      apply (f_equal (fun z => minus3 z (minus3 (origin m2) (origin m1)))) in E3. revert E3. generalize (lin m1 B). intros w. destruct w, p, (origin m1), (origin m2). v3s. intros [= Q0 Q1 Q2]. f_equal; lra.
  Qed.
  Lemma bend_all : bending e be L (s2 / s1 * (s2 / s1)) u v n.
  Proof using G.
    destruct frames as (G1 & G2 & FL & _). pose proof (sj_s _ _ _ G1) as H1. pose proof (sj_s _ _ _ G2) as H2. pose proof (ts_e _ _ _ _ _ _ _ _ _ _ _ _ G) as He.
    destruct (ts_axis _ _ _ _ _ _ _ _ _ _ _ _ G) as (_ & N1 & N2 & N3). pose proof (ts_bones' _ _ _ _ _ _ _ _ _ _ _ _ G) as (HU & HV). destruct (ts_bent _ _ _ _ _ _ _ _ _ _ _ _ G) as (B1 & B2).
    assert (Q : 0 < s2 / s1) by (apply Rdiv_lt_0_compat; lra).
    constructor; try assumption; try lra; try (apply Rmult_lt_0_compat; assumption).
    apply (keeps_weaken _ _ (6.01 * kap)); [apply Rmult_le_pos; lra|unfold kap; lra|].
    apply (two_frames m1 m2 s1 s2 L); try lra; [exact (sj_affine _ _ _ G1)|exact (sj_affine _ _ _ G2)|exact (sj_cols _ _ _ G1)|exact (sj_cols _ _ _ G2)|exact FL].
  Qed.
  Let t2 := vec3_length2_s (transform_point (s_inv_start S) (i2_target j)).
  Let D := reach_of A B t.
  Lemma mid_turn : 4 * e <= be -> exists q r, ik2_mid_rot fx4_acos quat_from_axis_angle j S t2 = Some q /\ fq q r /\ Rabs (norm2 r - 1) <= e / 8 /\
    Rabs (dot3 (plus3 A (L (rotate r v))) (plus3 A (L (rotate r v))) - D * D) <= 200 * (e / be) * (a * b).
  Proof using G.
    intros Hbe. destruct (lengths _ _ _ _ _ _ _ _ _ _ _ _ G) as (A2 & B2 & T2 & C2 & FA & FB & FT & FC & EA & EB & ET & EC). fold S a b l in FA, FB, FT, FC, EA, EB, ET, EC. fold t2 in FT.
    destruct (tb_l _ _ _ _ _ _ _ _ _ _ _ _ G) as (LP & Ll & La & Lb & _). fold a b l in LP, Ll, La, Lb. pose proof (ts_bones _ _ _ _ _ _ _ _ _ _ _ _ G) as (H1 & H2 & H3 & H4). fold a b in H1, H2, H3, H4.
    pose proof (tb_t _ _ _ _ _ _ _ _ _ _ _ _ G) as Ht. fold a b l in Ht. pose proof (ts_e _ _ _ _ _ _ _ _ _ _ _ _ G) as He. pose proof (eps_e e He) as Ee.
    destruct (bent_sign Hbe) as (x & Fx & _ & Sx). destruct axis_fin as (Fn & Hn & Ln). destruct frames as (G1 & G2 & FL & LU & LV).
    destruct (mid_rot_form quat_from_axis_angle j S t2) as (d & Em & Ed). change (@num_arith f32 f32num) with f32arith in *. rewrite (nlt_dec _ _ _ _ Fx fin_zero) in Ed. set (bb := if Rlt_dec x 0 then true else false) in *.
    set (c := len3 (plus3 A B)) in *. assert (Hc : 0 <= c <= 4194304) by (split; [apply len3_nn|]; pose proof (len3_tri A B) as Q; fold a b c in Q; lra).
    assert (eal : 0 < e * (a * l)) by (repeat apply Rmult_lt_0_compat; lra). assert (ebl : 0 < e * (b * l)) by (repeat apply Rmult_lt_0_compat; lra).
    destruct (angle_err _ _ _ _ bb A2 B2 T2 C2 a b (len3 t) c l e FA FB FT FC He ltac:(lra) ltac:(lra) ltac:(lra) Hc LP ltac:(lra) ltac:(lra) H3 H4 ltac:(lra) ltac:(lra) ET EC)
      as (ph & i0 & de & Fd & Eph & Ei & Si & Ede & Hde). rewrite <- Ed in Fd.
    destruct (axis_turn _ d n de Fn ltac:(apply Rabs_le_inv in Hn; apply Rabs_le; lra) Fd ltac:(lra)) as (q & r & Eq & Fq & Er). exists q, r. split; [rewrite Em; exact Eq|]. split; [exact Fq|].
    set (sh := sin (de / 2)) in *. set (ch := cos (de / 2)) in *. set (Q0 := qaxis n sh ch) in *.
    assert (SC : sh * sh + ch * ch = 1) by (unfold sh, ch; pose proof (sin2_cos2 (de / 2)) as Q; unfold Rsqr in Q; exact Q).
    assert (N0 : Rabs (norm2 Q0 - 1) <= e / 16).
    { replace (norm2 Q0 - 1) with (sh * sh * (dot3 n n - 1)) by (replace 1 with (sh * sh + ch * ch) at 2 by exact SC; unfold Q0, qaxis, norm2; destruct n; v3s; cbn [qx qy qz qw]; ring).
      rewrite Rabs_mult, (Rabs_pos_eq (sh * sh)) by apply Rle_0_sqr. rewrite <- (Rmult_1_l (e / 16)). apply Rmult_le_compat; [apply Rle_0_sqr|apply Rabs_pos| |exact Hn]. pose proof (Rle_0_sqr ch) as Q. unfold Rsqr in Q. lra. }
    pose proof (near_one_qn Q0 (e / 16) ltac:(lra) N0) as QN. apply Rabs_le_inv in QN. pose proof (qn_diff r Q0) as QD. apply Rabs_le_inv in QD.
    split.
    { rewrite <- qn_sq. apply Rabs_le_inv in N0. rewrite <- qn_sq in N0. set (y := qn r) in *. set (z := qn Q0) in *. assert (Y : Rabs ((y - z) * (y + z)) <= 8 * eps * 2.001) by (rewrite Rabs_mult; apply Rmult_le_compat; try apply Rabs_pos; apply Rabs_le; unfold eps in *; lra).
      replace ((y - z) * (y + z)) with (y * y - z * z) in Y by ring. apply Rabs_le_inv in Y. apply Rabs_le. lra. }
    rewrite <- LU at 1 2. destruct (ts_bent _ _ _ _ _ _ _ _ _ _ _ _ G) as (B1 & _).
    pose proof (bend_reach e be L _ u v n bend_all (if bb then - i0 else i0) ph de sh ch (rotate r v) (len3 t)) as BR. rewrite LU, LV in BR. fold a b c in BR. cbv zeta in BR.
    rewrite LU. apply BR; try lra.
    - replace (cos (if bb then - i0 else i0)) with (cos i0) by (destruct bb; [symmetry; apply cos_neg|reflexivity]). lra.
    - set (qq := dot3 u (cross3 n v)) in *. assert (SS : sin (if bb then - i0 else i0) * x >= 0).
      { unfold bb. destruct (Rlt_dec x 0); [rewrite sin_neg; replace (- sin i0 * x) with (sin i0 * - x) by ring|]; apply Rle_ge, Rmult_le_pos; lra. }
      apply Rmult_le_reg_r with (x * x); [destruct (Req_dec x 0) as [Z|Z]; [rewrite Z in Sx; lra|apply Rsqr_pos_lt in Z; exact Z]|].
      rewrite Rmult_0_l. replace (sin (if bb then - i0 else i0) * qq * (x * x)) with (sin (if bb then - i0 else i0) * x * (x * qq)) by ring. apply Rmult_le_pos; lra.
    - reflexivity.
    - reflexivity.
    - fold Q0. eapply Rle_trans; [apply rot_sub|]. apply Rmult_le_compat_r; [apply len3_nn|]. apply Rle_trans with (2.001 * (8 * eps)); [|lra].
      apply Rmult_le_compat; [pose proof (qn_pos r); pose proof (qn_pos Q0); lra|apply qn_pos|unfold eps in *; lra|exact Er].
  Qed.
End Bend.
