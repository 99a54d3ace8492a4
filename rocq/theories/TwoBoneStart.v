(** The correction of the start joint in binary32: it turns the end joint onto the target. *)
From Coq Require Import ZArith Lia Reals Lra Psatz Bool.
From Flocq Require Import IEEE754.BinarySingleNaN Core.
From Verif Require Import Base Num NumF32 NumR F32Facts F32Err InterpF32 NormF32 BlendF32 BlendF32Proofs Math MathSpec MathProofs MotionF32 MotionF32Proofs QuatNorm BlendingSpec
  Ik IkSpec IkProofs PolyErr MatInvF32 VecNorm TrigF32 TrigProps AimF32 AimParts AimSteps AimF32Proofs AimF32Spec AimF32Props MatSimF32 TwoBoneParts TwoBoneCos TwoBoneMid TwoBoneAngle TwoBoneSpec TwoBonePlaces TwoBoneSoft TwoBoneBend.
Local Open Scope R_scope.

Definition start_form {F} {NF : Num F} (aa : V4 F -> V4 F -> option (V4 F)) (twist : F) (t tt pole jn : V4 F) : option (V4 F) :=
  let rfn := vec3_cross t pole in
  let b := nlt (l0 (vec3_dot_s jn pole)) nzero in
  let axis := nmul t (splat (nrecip (nsqrt (l0 (vec3_length2_s t))))) in
  let rp := quat_from_cos_angle (flip4 (mk4 b b b b) axis)
      (simd_clamp (vec3_dot_s (nmul rfn (splat (nrecip (nsqrt (l0 (vec3_length2_s rfn)))))) (nmul jn (splat (nrecip (nsqrt (l0 (vec3_length2_s jn))))))) nmone none_) in
  if negb (neq twist nzero) then match aa axis (splat twist) with Some tw => Some (quat_mul (quat_mul tw rp) tt) | None => None end
  else Some (quat_mul rp tt).
Lemma start_eq {F} {NF : Num F} aa (j : ik2_job F) (s : setup F) (mid t : V4 F) : nlt nzero (l0 (vec3_length2_s t)) = true ->
  let tt := quat_from_vectors (nadd (s_start_mid_ss s) (transform_vector (s_inv_start s) (transform_vector (i2_mid j) (quat_transform_vector mid (s_mid_end_ms s))))) t in
  ik2_start_rot aa j s mid t (vec3_length2_s t) = start_form aa (i2_twist j) t tt (transform_vector (s_inv_start s) (i2_pole j))
    (quat_transform_vector tt (transform_vector (s_inv_start s) (transform_vector (i2_mid j) (i2_mid_axis j)))).
Proof.
  intros H. cbv zeta. unfold ik2_start_rot, start_form. cbv zeta. rewrite H, sign_lanes. cbv zeta. reflexivity.
Qed.
Lemma start_err (twist : f32) (t of pole jn : V4 f32) v u rn jv : fin4 t v -> sized v -> fin4 of u -> sized u ->
  fin4 (vec3_cross t pole) rn -> within3 (p2 59) rn -> p2 (-60) <= len3 rn -> fin4 jn jv -> within3 (p2 59) jv -> p2 (-60) <= len3 jv ->
  (exists x, fin twist x /\ Rabs x <= 16384) -> forall r, fq (quat_from_vectors of t) r -> Rabs (norm2 r - 1) <= / 524288 ->
  exists tw R B, start_form quat_from_axis_angle twist t (quat_from_vectors of t) pole jn = Some tw /\ fq tw R /\ about v B /\ qn (qsub R (hamilton B r)) <= 47 * eps.
Proof.
  intros Ft Sv Fo Su Frn Brn Lrn Fj Bj Lj (x & Fx & Hx) r Fr Nr.
  pose proof (near_one_qn r (/ 524288) ltac:(lra) Nr) as QR. apply Rabs_le_inv in QR.
  destruct (dot_s_err t t v v Ft Ft Sv Sv) as (L & FL & EL). rewrite <- len3_sq in EL.
  destruct (axis_err t _ v L Ft Sv FL EL) as (a & A0 & A1 & A2 & D0 & D1 & D2).
  destruct (len2_big _ rn Frn Brn Lrn) as (e1 & Fe1 & G1). destruct (len2_big _ jv Fj Bj Lj) as (e2 & Fe2 & G2).
  unfold start_form. cbv zeta. set (tt := quat_from_vectors of t) in *. clearbody tt. set (rfn := vec3_cross t pole) in *. set (bs := nlt (l0 (vec3_dot_s jn pole)) nzero). clearbody bs. clearbody rfn.
  change (vec3_dot_s t t) with (vec3_length2_s t) in *.
  set (ax := nmul t (splat (nrecip (nsqrt (l0 (vec3_length2_s t)))))).
  assert (Fax : fin4 ax a) by exact (Logic.conj A0 (Logic.conj A1 A2)). clearbody ax.
  destruct (plane_err t ax rfn jn bs _ _ v a rn jv e1 e2 Sv Fax D0 D1 D2 Frn Fj Fe1 Fe2 G1 G2) as (R1 & B1 & FR1 & AB1 & ER1).
  set (rp := quat_from_cos_angle _ _) in *. clearbody rp.
  pose proof AB1 as (QB1 & _). pose proof (qn_diff R1 B1) as QD1. rewrite QB1 in QD1. apply Rabs_le_inv in QD1.
  change (@num_arith f32 f32num) with f32arith. rewrite (neq_fin0 _ _ Fx). destruct (Req_EM_T x 0); cbn [negb].
  - destruct (mul_err rp tt R1 r FR1 Fr ltac:(unfold eps in *; lra) ltac:(lra)) as (R & FR & ER).
    exists (quat_mul rp tt), R, B1. split; [reflexivity|]. split; [exact FR|]. split; [exact AB1|].
    pose proof (qsub_tri R (hamilton R1 r) (hamilton B1 r)) as TR. pose proof (ham_sub R1 r B1 r) as HS.
    replace (qn (qsub r r)) with 0 in HS by (unfold qn, qsub, qadd, qscale, norm2; cbn [qx qy qz qw]; replace (_ + _) with 0 by ring; rewrite sqrt_0; reflexivity).
    assert (qn (qsub R1 B1) * qn r <= 16 * eps * 1.001) by (apply Rmult_le_compat; try apply qn_pos; lra). unfold eps in *. lra.
  - destruct (twist_err ax twist v a x Sv Fax D0 D1 D2 Fx Hx) as (tw & R2 & B2 & -> & FR2 & AB2 & ER2).
    pose proof AB2 as (QB2 & _). pose proof (qn_diff R2 B2) as QD2. rewrite QB2 in QD2. apply Rabs_le_inv in QD2.
    destruct (mul_err tw rp R2 R1 FR2 FR1 ltac:(unfold eps in *; lra) ltac:(unfold eps in *; lra)) as (R3 & FR3 & ER3).
    pose proof (about_mul v B2 B1 AB2 AB1) as AB. pose proof AB as (QB & _).
    pose proof (qsub_tri R3 (hamilton R2 R1) (hamilton B2 B1)) as TR3. pose proof (ham_sub R2 R1 B2 B1) as HS3. rewrite QB2 in HS3.
    assert (qn (qsub R2 B2) * qn R1 <= 18 * eps * 1.001) by (apply Rmult_le_compat; try apply qn_pos; unfold eps in *; lra).
    assert (E3 : qn (qsub R3 (hamilton B2 B1)) <= 40.3 * eps) by (unfold eps in *; lra).
    pose proof (qn_diff R3 (hamilton B2 B1)) as QD3. rewrite QB in QD3. apply Rabs_le_inv in QD3.
    destruct (mul_err (quat_mul tw rp) tt R3 r FR3 Fr ltac:(unfold eps in *; lra) ltac:(lra)) as (R & FR & ER).
    exists (quat_mul (quat_mul tw rp) tt), R, (hamilton B2 B1). split; [reflexivity|]. split; [exact FR|]. split; [exact AB|].
    pose proof (qsub_tri R (hamilton R3 r) (hamilton (hamilton B2 B1) r)) as TR. pose proof (ham_sub R3 r (hamilton B2 B1) r) as HS.
    replace (qn (qsub r r)) with 0 in HS by (unfold qn, qsub, qadd, qscale, norm2; cbn [qx qy qz qw]; replace (_ + _) with 0 by ring; rewrite sqrt_0; reflexivity).
    assert (qn (qsub R3 (hamilton B2 B1)) * qn r <= 40.3 * eps * 1.001) by (apply Rmult_le_compat; try apply qn_pos; lra). unfold eps in *. lra.
Qed.
Section Start.
  Context (j : ik2_job f32) (s1 s2 W e be : R) (A B t u v n : vec3 R) (G : bone_setting j s1 s2 W e be A B t u v n).
  Let S := ik2_setup j. Let a := len3 A. Let b := len3 B. Let l := Rmin a b. Let U := len3 u. Let V := len3 v. Let k := Rmin U V. Let r := len3 t.
  Let m1 := values (i2_start j). Let m2 := values (i2_mid j). Let LL := L j. Let g := s2 / s1. Let D := reach_of A B t.
  Lemma L_minus x y : LL (minus3 x y) = minus3 (LL x) (LL y).
  Proof using.
    assert (M : forall m p q, lin m (minus3 p q) = minus3 (lin m p) (lin m q)).
    { intros m p q. replace (minus3 p q) with (plus3 p (scale3 (-1) q)) by (destruct p, q; v3s; f_equal; ring). rewrite lin_plus, lin_scale. generalize (lin m p), (lin m q). intros z w. destruct z, w; v3s; f_equal; ring. }
    unfold LL, L. rewrite !M. reflexivity.
  Qed.
  Lemma g_pos : 0 < g /\ g * s1 = s2 /\ / 1048576 <= g <= 1048576.
  Proof using G.
    destruct (frames _ _ _ _ _ _ _ _ _ _ _ _ G) as (G1 & G2 & _). pose proof (sj_s _ _ _ G1) as H1. pose proof (sj_s _ _ _ G2) as H2. unfold g. split; [apply Rdiv_lt_0_compat; lra|]. split; [field; lra|].
    split; apply Rmult_le_reg_r with s1; try lra; unfold Rdiv; rewrite Rmult_assoc, Rinv_l by lra; lra.
  Qed.
  Lemma L_len x : 0.998 * (g * len3 x) <= len3 (LL x) <= 1.002 * (g * len3 x).
  Proof using G.
    pose proof (bd_L _ _ _ _ _ _ _ (bend_all _ _ _ _ _ _ _ _ _ _ _ _ G) x x) as K. fold LL in K. pose proof (ts_e _ _ _ _ _ _ _ _ _ _ _ _ G) as He. destruct g_pos as (g0 & _). fold g in K.
    rewrite <- !len3_sq in K. pose proof (len3_nn x) as X0. pose proof (len3_nn (LL x)) as Y0. set (y := len3 (LL x)) in *. set (z := g * len3 x). assert (Z0 : 0 <= z) by (apply Rmult_le_pos; lra).
    replace (g * g * (len3 x * len3 x)) with (z * z) in K by (unfold z; ring). apply Rabs_le_inv in K. assert (zz : 0 <= z * z) by (apply Rmult_le_pos; lra).
    assert (3.01 * e * (z * z) <= 0.0015 * (z * z)) by (apply Rmult_le_compat_r; lra).
    split; apply Rsqr_incr_0_var; try (unfold Rsqr; lra); lra.
  Qed.
  Lemma g_V : g * V <= 1.003 * b /\ s2 * V <= 3640000.
  Proof using G.
    destruct (frames _ _ _ _ _ _ _ _ _ _ _ _ G) as (G1 & G2 & _ & _ & LV). pose proof (L_len v) as Q. fold LL in LV. rewrite LV in Q. fold b V in Q. pose proof (len3_nn v) as V0. fold V in V0. destruct g_pos as (g0 & _). split; [lra|].
    pose proof (sj_s _ _ _ G2) as H2. pose proof (sj_W _ _ _ G2) as HW. pose proof (lin_len m2 s2 ltac:(lra) (sj_cols _ _ _ G2) v) as LB. fold V in LB. apply Rabs_le_inv in LB.
    destruct (ts_end _ _ _ _ _ _ _ _ _ _ _ _ G) as (p & _ & (P0 & P1 & P2) & _ & PV). destruct (origin_fin _ _ _ G2) as (_ & (O0 & O1 & O2)).
    assert (X : len3 (lin m2 v) <= 1.7321 * (2 * W)).
    { unfold lin. fold m2 in PV. rewrite PV. change (real_mat (i2_mid j)) with m2 in O0, O1, O2. apply Rabs_le_inv in P0, P1, P2, O0, O1, O2. apply len3_le; [lra| | |]; unfold minus3; cbn [vx vy vz]; apply Rabs_le; lra. }
    assert (0 <= s2 * V) by (apply Rmult_le_pos; lra). unfold kap in LB. lra.
  Qed.
  Lemma carry (p : V4 f32) P : fin4 p P -> / 256 <= len3 P <= 4194304 -> s2 * len3 P <= 4000000 ->
    exists z, fin4 (transform_vector (s_inv_start S) (transform_vector (i2_mid j) p)) z /\ len3 (minus3 z (LL P)) <= 260 * eps * (g * len3 P).
  Proof using G.
    intros F H Hs. destruct (frames _ _ _ _ _ _ _ _ _ _ _ _ G) as (G1 & G2 & FL & _). pose proof (sj_s _ _ _ G1) as H1. pose proof (sj_s _ _ _ G2) as H2. destruct g_pos as (g0 & gs & _).
    set (x := len3 P) in *. assert (PW : within3 x P) by (destruct (len3_comp P) as (C0 & C1 & C2); unfold within3; fold x in C0, C1, C2; auto).
    destruct (out_err _ _ _ p P x G2 F PW ltac:(lra)) as (y & Fy & Ey). change (real_mat (i2_mid j)) with m2 in Ey.
    pose proof (lin_len m2 s2 ltac:(lra) (sj_cols _ _ _ G2) P) as LB. fold x in LB. apply Rabs_le_inv in LB. pose proof (len3_diff y (lin m2 P)) as Dy. apply Rabs_le_inv in Dy.
    assert (sx : / 1024 * / 256 <= s2 * x) by (apply Rmult_le_compat; lra).
    assert (Ly : len3 y <= 1.001 * (s2 * x)) by (unfold kap, eps in *; lra).
    assert (PY : within3 (1.001 * (s2 * x)) y) by (destruct (len3_comp y) as (C0 & C1 & C2); unfold within3; lra).
    destruct (in_err _ _ _ _ y (1.001 * (s2 * x)) G1 Fy PY ltac:(lra)) as (z & Fz & Ez). change (real_mat (i2_start j)) with m1 in Ez. exists z. split; [exact Fz|].
    destruct (sim_inv _ _ _ G1) as (AF & DN & _). destruct (lin_inv m1 AF DN) as (I1 & I2).
    assert (IV : 0 < / s1) by (apply Rinv_0_lt_compat; lra). assert (gx : s2 * x * / s1 = g * x) by (unfold g; field; lra).
    assert (Q : len3 (minus3 (lin (mat_invert m1) y) (LL P)) <= 1.0001 * (16 * eps * (g * x))).
    { pose proof (lin_len m1 s1 ltac:(lra) (sj_cols _ _ _ G1) (minus3 (lin (mat_invert m1) y) (LL P))) as LM. apply Rabs_le_inv in LM.
      assert (EE : lin m1 (minus3 (lin (mat_invert m1) y) (LL P)) = minus3 y (lin m2 P)).
      { replace (minus3 (lin (mat_invert m1) y) (LL P)) with (plus3 (lin (mat_invert m1) y) (scale3 (-1) (LL P))) by (generalize (lin (mat_invert m1) y), (LL P); intros z' w; destruct z', w; v3s; f_equal; ring).
        rewrite lin_plus, lin_scale, I1. unfold LL. rewrite FL. fold m2. generalize (lin m2 P). intros w. destruct y, w; v3s; f_equal; ring. }
      rewrite EE in LM. set (X := len3 (minus3 (lin (mat_invert m1) y) (LL P))) in *. apply Rmult_le_reg_l with s1; [lra|].
      assert (0 <= s1 * X) by (apply Rmult_le_pos; [lra|apply len3_nn]). replace (s1 * (1.0001 * (16 * eps * (g * x)))) with (1.0001 * (16 * eps * (x * (g * s1)))) by ring. rewrite gs. unfold kap in *.
      assert (0 <= eps * (x * s2)) by (apply Rmult_le_pos; [unfold eps; lra|lra]). lra. }
    pose proof (len3_mtri z (lin (mat_invert m1) y) (LL P)) as T. replace (1.001 * (s2 * x) * / s1) with (1.001 * (g * x)) in Ez by (rewrite <- gx; ring).
    assert (0 <= eps * (g * x)) by (apply Rmult_le_pos; [unfold eps; lra|apply Rmult_le_pos; lra]). lra.
  Qed.
  Lemma final_place q qr : fq q qr -> Rabs (norm2 qr - 1) <= e / 8 ->
    exists z, fin4 (nadd (s_start_mid_ss S) (transform_vector (s_inv_start S) (transform_vector (i2_mid j) (quat_transform_vector q (s_mid_end_ms S))))) z /\
      len3 (minus3 z (plus3 A (LL (rotate qr v)))) <= 2.1 * (e * (a + b)).
  Proof using G.
    intros Fq Nq. destruct (places _ _ _ _ _ _ _ _ _ _ _ _ G) as (A' & _ & _ & _ & _ & v' & FA & EA & _ & _ & _ & _ & _ & _ & _ & _ & Fv & Ev). fold S V k a b l in FA, EA, Fv, Ev. fold U V k in Ev.
    destruct (tb_l _ _ _ _ _ _ _ _ _ _ _ _ G) as (LP & Ll & La & Lb & K0 & KU & KV). fold a b l in LP, Ll, La, Lb. fold U V k in K0, KU, KV.
    pose proof (ts_bones' _ _ _ _ _ _ _ _ _ _ _ _ G) as (HU & HV). fold V in HV. pose proof (ts_bones _ _ _ _ _ _ _ _ _ _ _ _ G) as (H1 & H2 & _). fold a in H1. fold b in H2.
    pose proof (ts_e _ _ _ _ _ _ _ _ _ _ _ _ G) as He. pose proof (eps_e e He) as Ee. destruct g_V as (gV & sV). destruct g_pos as (g0 & _).
    assert (ekV : 0 <= e * k <= e * V) by (split; [apply Rmult_le_pos; lra|apply Rmult_le_compat_l; lra]). assert (eV : e * V <= / 2048 * V) by (apply Rmult_le_compat_r; lra).
    pose proof (len3_diff v' v) as Dv. fold V in Dv. apply Rabs_le_inv in Dv.
    destruct (turn_err _ _ qr v' (e / 8) Fq Nq ltac:(lra) Fv ltac:(lra)) as (c & Fc & Ec).
    assert (Lr : 0.999 <= norm2 qr <= 1.001) by (apply Rabs_le_inv in Nq; lra).
    assert (E1 : len3 (minus3 c (rotate qr v)) <= 1.41 * (e * V)).
    { pose proof (len3_mtri c (rotate qr v') (rotate qr v)) as T. rewrite <- rotate_minus, rot_len in T. assert (norm2 qr * len3 (minus3 v' v) <= 1.001 * (0.95 * e * k)) by (apply Rmult_le_compat; try apply len3_nn; lra).
      assert ((163 * eps + e / 8) * len3 v' <= (163 * (0.002 * e) + e / 8) * (1.001 * V)) by (apply Rmult_le_compat; try apply len3_nn; unfold eps in *; lra). lra. }
    pose proof (len3_diff c (rotate qr v)) as Dc. rewrite rot_len in Dc. fold V in Dc. apply Rabs_le_inv in Dc.
    assert (0.999 * V <= norm2 qr * V <= 1.001 * V) by (split; apply Rmult_le_compat_r; lra). assert (Lc : 0.99 * V <= len3 c <= 1.01 * V) by lra.
    assert (sc : s2 * len3 c <= 4000000).
    { destruct (frames _ _ _ _ _ _ _ _ _ _ _ _ G) as (_ & G2 & _). pose proof (sj_s _ _ _ G2) as Hs2. assert (s2 * len3 c <= s2 * (1.01 * V)) by (apply Rmult_le_compat_l; lra). lra. }
    destruct (carry _ c Fc ltac:(lra) sc) as (z & Fz & Ez).
    assert (eb : 0 < e * b) by (apply Rmult_lt_0_compat; lra).
    assert (egV : e * (g * V) <= 1.003 * (e * b)) by (replace (1.003 * (e * b)) with (e * (1.003 * b)) by ring; apply Rmult_le_compat_l; lra).
    assert (EZ : len3 (minus3 z (LL (rotate qr v))) <= 1.96 * (e * b)).
    { pose proof (len3_mtri z (LL c) (LL (rotate qr v))) as T. rewrite <- L_minus in T. pose proof (L_len (minus3 c (rotate qr v))) as (_ & Q).
      assert (g * len3 (minus3 c (rotate qr v)) <= g * (1.41 * (e * V))) by (apply Rmult_le_compat_l; lra). assert (g * len3 c <= g * (1.01 * V)) by (apply Rmult_le_compat_l; lra).
      assert (260 * eps * (g * len3 c) <= 260 * (0.002 * e) * (g * (1.01 * V))) by (apply Rmult_le_compat; [unfold eps; lra|apply Rmult_le_pos; [lra|apply len3_nn]|lra|assumption]). lra. }
    assert (Lz : len3 (LL (rotate qr v)) <= 1.01 * b).
    { pose proof (L_len (rotate qr v)) as (_ & Q). rewrite rot_len in Q. fold V in Q. assert (g * (norm2 qr * V) <= g * (1.001 * V)) by (apply Rmult_le_compat_l; lra). lra. }
    set (w := LL (rotate qr v)) in *.
    assert (eel : 0 < e * l) by (apply Rmult_lt_0_compat; lra). assert (eab : 2 * (e * l) <= e * (a + b)) by (replace (2 * (e * l)) with (e * (2 * l)) by ring; apply Rmult_le_compat_l; lra).
    assert (ebab : e * b <= 0.8 * (e * (a + b))) by (replace (0.8 * (e * (a + b))) with (e * (0.8 * (a + b))) by ring; apply Rmult_le_compat_l; lra).
    assert (eab' : e * (a + b) <= / 2048 * (a + b)) by (apply Rmult_le_compat_r; lra).
    assert (E2 : len3 (minus3 (plus3 A' z) (plus3 A w)) <= 2.05 * (e * (a + b))).
    { replace (minus3 (plus3 A' z) (plus3 A w)) with (plus3 (minus3 A' A) (minus3 z w)) by (clearbody w; destruct A', A, z, w; v3s; f_equal; ring). eapply Rle_trans; [apply len3_tri|]. lra. }
    assert (LS : len3 (plus3 A' z) <= 1.1 * (a + b)).
    { pose proof (len3_diff (plus3 A' z) (plus3 A w)) as Q. apply Rabs_le_inv in Q. pose proof (len3_tri A w) as Q2. fold a in Q2. lra. }
    destruct (add_err _ _ A' z (1.1 * (a + b)) FA Fz LS) as (y & Fy & Ey).
    { split; [apply Rle_trans with (p2 (-7)); [apply bpow_le; lia|simpl; lra]|]. apply Rle_trans with (p2 22); [simpl; lra|apply bpow_le; lia]. }
    exists y. split; [exact Fy|]. pose proof (len3_mtri y (plus3 A' z) (plus3 A w)) as T. assert (eps * (a + b) <= 0.002 * e * (a + b)) by (apply Rmult_le_compat_r; lra). lra.
  Qed.
End Start.
