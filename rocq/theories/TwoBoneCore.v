(** The two bone job in binary32, all steps together. *)
From Coq Require Import ZArith Lia Reals Lra Psatz Bool.
From Flocq Require Import IEEE754.BinarySingleNaN Core.
From Verif Require Import Base Num NumF32 NumR F32Facts F32Err InterpF32 NormF32 BlendF32 BlendF32Proofs Math MathSpec MathProofs MotionF32 MotionF32Proofs QuatNorm BlendingSpec
  Ik IkSpec IkProofs PolyErr MatInvF32 VecNorm TrigF32 TrigProps AimF32 AimParts AimSteps AimF32Proofs AimF32Spec AimF32Props MatSimF32 TwoBoneParts TwoBoneCos TwoBoneMid TwoBoneAngle TwoBoneSpec TwoBonePlaces TwoBoneSoft TwoBoneBend TwoBoneStart.
Local Open Scope R_scope.

(** Directions of nearby vectors. *)
Lemma dir_near x y h : 0 < len3 x -> 0 < len3 y -> len3 (minus3 x y) <= h -> len3 (minus3 (scale3 (/ len3 x) x) (scale3 (/ len3 y) y)) <= 2 * h * / len3 y.
Proof.
  intros X Y H. set (p := len3 x) in *. set (q := len3 y) in *. assert (IX : 0 < / p) by (apply Rinv_0_lt_compat; lra). assert (IY : 0 < / q) by (apply Rinv_0_lt_compat; lra).
  replace (minus3 (scale3 (/ p) x) (scale3 (/ q) y)) with (plus3 (scale3 (/ p - / q) x) (scale3 (/ q) (minus3 x y))) by (destruct x, y; v3s; f_equal; ring).
  eapply Rle_trans; [apply len3_tri|]. rewrite !len3_abs. fold p. rewrite (Rabs_pos_eq (/ q)) by lra.
  assert (E : Rabs (/ p - / q) * p <= h * / q).
  { rewrite <- (Rabs_pos_eq p) at 2 by lra. rewrite <- Rabs_mult. replace ((/ p - / q) * p) with ((q - p) * / q) by (field; lra). rewrite Rabs_mult, (Rabs_pos_eq (/ q)) by lra. apply Rmult_le_compat_r; [lra|].
    rewrite Rabs_minus_sym. eapply Rle_trans; [apply len3_diff|exact H]. }
  assert (/ q * len3 (minus3 x y) <= / q * h) by (apply Rmult_le_compat_l; lra). lra.
Qed.
Section Core.
  Context (j : ik2_job f32) (s1 s2 W e be : R) (A B t u v n : vec3 R) (G : bone_setting j s1 s2 W e be A B t u v n).
  Let S := ik2_setup j. Let a := len3 A. Let b := len3 B. Let l := Rmin a b. Let r := len3 t.
  Let m1 := values (i2_start j). Let m2 := values (i2_mid j). Let LL := L j. Let g := s2 / s1. Let D := reach_of A B t.
  Context (far : 800 * (e / be) * (a * b) <= D * D).
  Let E := e / be.
  Lemma reach_in : l / 2 <= D /\ D <= a + b /\ D <= 6 * r /\ Rabs (a - b) <= D /\ 4 * e <= be /\ 0 < E /\ 0 < a * b /\ 0 < D.
  Proof using G far.
    destruct (tb_l _ _ _ _ _ _ _ _ _ _ _ _ G) as (LP & Ll & La & Lb & _). fold a b l in LP, Ll, La, Lb. pose proof (ts_bones _ _ _ _ _ _ _ _ _ _ _ _ G) as (H1 & H2 & H3 & H4). fold a b in H1, H2, H3, H4.
    pose proof (tb_t _ _ _ _ _ _ _ _ _ _ _ _ G) as Ht. fold a b l in Ht. fold r in Ht. pose proof (ts_e _ _ _ _ _ _ _ _ _ _ _ _ G) as He. destruct (ts_bent _ _ _ _ _ _ _ _ _ _ _ _ G) as (Bp & _).
    assert (AB : Rabs (a - b) <= a + b) by (apply Rabs_le; lra). assert (AB3 : Rabs (a - b) <= 3 * l) by (apply Rabs_le; unfold l, Rmin in *; destruct (Rle_dec a b); lra).
    pose proof (clampR_bounds (Rabs (a - b)) (a + b) r AB) as DB. change (clampR (Rabs (a - b)) (a + b) r) with D in DB.
    assert (DE : (D = r \/ r < D /\ D = Rabs (a - b)) \/ (D = a + b /\ a + b <= r)).
    { unfold D, reach_of, clampR. fold a b r. unfold Rmax, Rmin. destruct (Rle_dec (a + b) r), (Rle_dec (Rabs (a - b)) _); lra. }
    assert (ab0 : 0 < a * b) by (apply Rmult_lt_0_compat; lra). assert (E0 : 0 < E) by (unfold E; apply Rdiv_lt_0_compat; lra).
    split; [destruct DE as [[Q|(Q & Q')]|(Q & Q')]; lra|]. split; [unfold D; exact (proj2 DB)|]. split; [destruct DE as [[Q|(Q & Q')]|(Q & Q')]; lra|]. split; [exact (proj1 DB)|].
    split; [|split; [exact E0|split; [exact ab0|destruct DE as [[Q|(Q & Q')]|(Q & Q')]; lra]]].
    assert (D2 : D * D <= (a + b) * (a + b)) by (apply Rmult_le_compat; destruct DE as [[Q|(Q & Q')]|(Q & Q')]; lra).
    assert (a * a <= 4 * (a * b)) by (replace (4 * (a * b)) with (a * (4 * b)) by ring; apply Rmult_le_compat_l; lra). assert (b * b <= 4 * (a * b)) by (replace (4 * (a * b)) with (4 * a * b) by ring; apply Rmult_le_compat_r; lra).
    assert (Q : 800 * E * (a * b) <= 10 * (a * b)) by (unfold E; lra). apply Rmult_le_reg_r in Q; [|exact ab0].
    assert (e = E * be) by (unfold E; field; lra). assert (E * be <= / 80 * be) by (apply Rmult_le_compat_r; lra). lra.
  Qed.
  (** The goal's distance from where the mid joint's correction leaves the end joint. *)
  Lemma reach_root x : Rabs (dot3 x x - D * D) <= 200 * E * (a * b) -> Rabs (len3 x - D) <= 108 * (E * (a * b) / D) /\ 0.86 * D <= len3 x <= 1.12 * D /\ 108 * (E * (a * b) / D) <= 0.14 * D.
  Proof using G far.
    intros H. destruct reach_in as (_ & _ & _ & _ & _ & E0 & ab0 & D0). fold E in far. set (w := E * (a * b)) in *. assert (w0 : 0 < w) by (unfold w; apply Rmult_lt_0_compat; lra).
    assert (far' : 800 * w <= D * D) by (unfold w; lra). assert (H' : Rabs (dot3 x x - D * D) <= 200 * w) by (unfold w; lra). clear H far. clearbody w. rewrite <- len3_sq in H'. pose proof (len3_nn x) as X0. set (y := len3 x) in *.
    apply Rabs_le_inv in H'. assert (DD : 0 < D * D) by (apply Rmult_lt_0_compat; lra).
    assert (Y : 0.86 * D <= y <= 1.12 * D) by (split; apply Rsqr_incr_0_var; try (unfold Rsqr; lra); lra).
    assert (ID : 0 < / D) by (apply Rinv_0_lt_compat; lra). assert (WD : 0 < w / D) by (unfold Rdiv; apply Rmult_lt_0_compat; lra). assert (WE : w / D * D = w) by (field; lra).
    split; [|split; [exact Y|]].
    - apply Rmult_le_reg_r with (y + D); [lra|]. rewrite <- (Rabs_pos_eq (y + D)) at 1 by lra. rewrite <- Rabs_mult. replace ((y - D) * (y + D)) with (y * y - D * D) by ring.
      assert (w / D * (1.86 * D) <= w / D * (y + D)) by (apply Rmult_le_compat_l; lra). apply Rabs_le. lra.
    - apply Rmult_le_reg_r with D; [lra|]. lra.
  Qed.
  Lemma target_fin : exists T', fin4 (transform_point (s_inv_start S) (i2_target j)) T' /\ len3 (minus3 T' t) <= 0.95 * (e * l) /\ 0.999 * r <= len3 T' <= 1.001 * r /\ sized T' /\ / 256 <= r <= 1048576.
  Proof using G.
    clear far. destruct (places _ _ _ _ _ _ _ _ _ _ _ _ G) as (_ & _ & _ & T' & _ & _ & _ & _ & _ & _ & _ & _ & FT & ET & _). fold a b l S in FT, ET.
    destruct (tb_l _ _ _ _ _ _ _ _ _ _ _ _ G) as (LP & Ll & La & Lb & _). fold a b l in LP, Ll, La, Lb. pose proof (tb_t _ _ _ _ _ _ _ _ _ _ _ _ G) as Ht. fold a b l in Ht. fold r in Ht. pose proof (ts_e _ _ _ _ _ _ _ _ _ _ _ _ G) as He.
    exists T'. split; [exact FT|]. split; [lra|]. pose proof (len3_diff T' t) as Q. fold r in Q. apply Rabs_le_inv in Q. assert (e * l <= / 2048 * l) by (apply Rmult_le_compat_r; lra). unfold sized. lra.
  Qed.
  Lemma pole_fin T' : fin4 (transform_point (s_inv_start S) (i2_target j)) T' -> len3 (minus3 T' t) <= 0.95 * (e * l) ->
    exists rn, fin4 (vec3_cross (transform_point (s_inv_start S) (i2_target j)) (transform_vector (s_inv_start S) (i2_pole j))) rn /\ within3 (p2 59) rn /\ p2 (-60) <= len3 rn.
  Proof using G.
    clear far. intros FT ET. destruct (tb_l _ _ _ _ _ _ _ _ _ _ _ _ G) as (LP & Ll & _). fold a b l in LP, Ll. pose proof (tb_t _ _ _ _ _ _ _ _ _ _ _ _ G) as Ht. fold a b l in Ht. fold r in Ht. pose proof (ts_e _ _ _ _ _ _ _ _ _ _ _ _ G) as He.
    destruct (frames _ _ _ _ _ _ _ _ _ _ _ _ G) as (G1 & _). pose proof (sj_s _ _ _ G1) as H1.
    destruct (ts_pole _ _ _ _ _ _ _ _ _ _ _ _ G) as (p & q & Fp & Cp & Eq & Hq & Hx). apply vec_fin4 in Fp. fold m1 in Eq. fold r in Hx. set (x := len3 q) in *.
    pose proof (lin_len m1 s1 ltac:(lra) (sj_cols _ _ _ G1) q) as LB. rewrite Eq in LB. fold x in LB. apply Rabs_le_inv in LB.
    assert (sx : / 1024 * / 256 <= s1 * x) by (apply Rmult_le_compat; lra). set (y := len3 p) in *.
    assert (Ly : 0.999 * (s1 * x) <= y <= 1.001 * (s1 * x)) by (unfold kap in LB; lra).
    assert (Ly2 : y <= 2000). { destruct Cp as (C0 & C1 & C2). apply Rle_trans with (1.7321 * 1024); [|lra]. apply len3_le; try assumption; lra. }
    assert (PY : within3 y p) by (destruct (len3_comp p) as (C0 & C1 & C2); unfold within3; fold y in C0, C1, C2; auto).
    destruct (in_err _ _ _ _ p y G1 Fp PY ltac:(lra)) as (z & Fz & Ez). change (real_mat (i2_start j)) with m1 in Ez.
    destruct (sim_inv _ _ _ G1) as (AF & DN & _). destruct (lin_inv m1 AF DN) as (_ & I2). rewrite <- Eq, I2 in Ez.
    assert (IV : 0 < / s1) by (apply Rinv_0_lt_compat; lra).
    assert (Ez2 : len3 (minus3 z q) <= 0.00002 * x).
    { eapply Rle_trans; [exact Ez|]. assert (y * / s1 <= 1.001 * x) by (apply Rmult_le_reg_r with s1; [lra|]; rewrite Rmult_assoc, Rinv_l by lra; lra). unfold eps. lra. }
    pose proof (len3_diff z q) as Dz. fold x in Dz. apply Rabs_le_inv in Dz. pose proof (len3_diff T' t) as Dt. fold r in Dt. apply Rabs_le_inv in Dt. assert (el : e * l <= / 2048 * l) by (apply Rmult_le_compat_r; lra).
    assert (ET2 : len3 (minus3 T' t) <= 0.001 * r) by lra.
    destruct (cross_err _ _ T' z FT Fz) as (c & Fc & C0 & C1 & C2); [unfold sized; lra|unfold sized; lra|]. exists c. split; [exact Fc|].
    assert (rx : / 256 * / 256 <= r * x) by (apply Rmult_le_compat; lra).
    assert (TZ : len3 T' * len3 z <= 1.001 * r * (1.001 * x)) by (apply Rmult_le_compat; try apply len3_nn; lra).
    assert (CE : len3 (minus3 c (cross3 T' z)) <= 0.0001 * (r * x)).
    { apply Rle_trans with (1.7321 * (2.01 * eps * (len3 T' * len3 z))); [apply len3_le; try assumption; apply Rmult_le_pos; [unfold eps; lra|apply Rmult_le_pos; apply len3_nn]|]. unfold eps in *. lra. }
    assert (CD : len3 (minus3 (cross3 T' z) (cross3 t q)) <= 0.0012 * (r * x)).
    { replace (minus3 (cross3 T' z) (cross3 t q)) with (plus3 (cross3 (minus3 T' t) z) (cross3 t (minus3 z q))) by (destruct T', t, z, q; v3s; f_equal; ring).
      eapply Rle_trans; [apply len3_tri|]. pose proof (cross_len (minus3 T' t) z) as Q1. pose proof (cross_len t (minus3 z q)) as Q2. fold r in Q2.
      assert (len3 (minus3 T' t) * len3 z <= 0.001 * r * (1.001 * x)) by (apply Rmult_le_compat; try apply len3_nn; lra). assert (r * len3 (minus3 z q) <= r * (0.00002 * x)) by (apply Rmult_le_compat_l; lra). lra. }
    pose proof (len3_mtri c (cross3 T' z) (cross3 t q)) as T3. pose proof (len3_diff c (cross3 t q)) as D3. apply Rabs_le_inv in D3. pose proof (cross_len t q) as CL. fold r x in CL.
    assert (RX : r * x <= 1048576 * 1048576) by (apply Rmult_le_compat; lra).
    split.
    - destruct (len3_comp c) as (K0 & K1 & K2). assert (P59 : 2199023255552 <= p2 59) by (apply Rle_trans with (p2 41); [simpl; lra|apply bpow_le; lia]). unfold within3. lra.
    - apply Rle_trans with (p2 (-30)); [apply bpow_le; lia|]. replace (p2 (-30)) with (/ 1073741824) by (simpl; lra). lra.
  Qed.
  Lemma normal_fin (q : V4 f32) qr : fq q qr -> Rabs (norm2 qr - 1) <= / 524288 ->
    exists jv, fin4 (quat_transform_vector q (transform_vector (s_inv_start S) (transform_vector (i2_mid j) (i2_mid_axis j)))) jv /\ within3 (p2 59) jv /\ p2 (-60) <= len3 jv.
  Proof using G.
    clear far. intros Fq Nq. destruct (axis_fin _ _ _ _ _ _ _ _ _ _ _ _ G) as (Fn & _ & Ln). destruct (frames _ _ _ _ _ _ _ _ _ _ _ _ G) as (_ & G2 & _). pose proof (sj_s _ _ _ G2) as H2. destruct (g_pos _ _ _ _ _ _ _ _ _ _ _ _ G) as (g0 & _ & gB). fold g in g0, gB.
    destruct (carry _ _ _ _ _ _ _ _ _ _ _ _ G _ n Fn ltac:(lra)) as (z & Fz & Ez); [assert (s2 * len3 n <= s2 * 1.001) by (apply Rmult_le_compat_l; lra); lra|]. fold S in Fz. fold g in Ez.
    pose proof (L_len _ _ _ _ _ _ _ _ _ _ _ _ G n) as Q. fold g in Q. assert (gn : 0.999 * g <= g * len3 n <= 1.001 * g) by (split; [rewrite (Rmult_comm g)|rewrite (Rmult_comm 1.001)]; [apply Rmult_le_compat_r|apply Rmult_le_compat_l]; lra).
    pose proof (len3_diff z (L j n)) as Dz. apply Rabs_le_inv in Dz. assert (Lz : 0.99 * g <= len3 z <= 1.01 * g) by (unfold eps in *; lra).
    destruct (turn_err _ _ qr z (/ 524288) Fq Nq ltac:(lra) Fz ltac:(lra)) as (c & Fc & Ec). exists c. split; [exact Fc|].
    pose proof (len3_diff c (rotate qr z)) as Dc. rewrite rot_len in Dc. apply Rabs_le_inv in Dc, Nq.
    assert (0.999 * len3 z <= norm2 qr * len3 z <= 1.001 * len3 z) by (split; apply Rmult_le_compat_r; lra).
    assert (Lc : 0.9 * g <= len3 c <= 1.1 * g) by (unfold eps in *; lra). split.
    - destruct (len3_comp c) as (K0 & K1 & K2). assert (P59 : 2097152 <= p2 59) by (apply Rle_trans with (p2 21); [simpl; lra|apply bpow_le; lia]). unfold within3. lra.
    - apply Rle_trans with (p2 (-30)); [apply bpow_le; lia|]. replace (p2 (-30)) with (/ 1073741824) by (simpl; lra). lra.
  Qed.
  Lemma turn_all : exists fs fm cs cm, let t2 := transform_point (s_inv_start S) (i2_target j) in
    ik2_mid_rot fx4_acos quat_from_axis_angle j S (vec3_length2_s t2) = Some fm /\ ik2_start_rot quat_from_axis_angle j S fm t2 (vec3_length2_s t2) = Some fs /\
    fq fm cm /\ fq fs cs /\ Rabs (norm2 cm - 1) <= e / 8 /\ Rabs (norm2 cs - 1) <= / 131072 /\
    let x := plus3 A (LL (rotate cm v)) in let d := len3 (minus3 (rotate cs x) (scale3 (D / r) t)) in
    d <= 0.0028 * D + 109 * (E * (a * b) / D) + 10 * (e * (a + b)) /\
    (- len3 x * r / 2 <= dot3 x t -> d <= 0.00002 * D + 109 * (E * (a * b) / D) + 10 * (e * (a + b))).
  Proof using G far.
    destruct reach_in as (Dl & Dab & Dr & _ & Hbe & E0 & ab0 & D0).
    destruct (mid_turn _ _ _ _ _ _ _ _ _ _ _ _ G Hbe) as (fm & cm & Em & Fm & Nm & Rm). fold S in Em. fold a b D in Rm. fold LL E in Rm. set (x := plus3 A (LL (rotate cm v))) in *.
    destruct (reach_root x Rm) as (Rx & Xb & Om). set (om := E * (a * b) / D) in *. apply Rabs_le_inv in Rx.
    destruct target_fin as (T' & FT & ET & LT & ST & Hr).
    destruct (final_place _ _ _ _ _ _ _ _ _ _ _ _ G fm cm Fm Nm) as (z & Fz & Ez). fold LL in Ez. fold x a b S in Ez, Fz.
    destruct (tb_l _ _ _ _ _ _ _ _ _ _ _ _ G) as (LP & Ll & La & Lb & _). fold a b l in LP, Ll, La, Lb. pose proof (ts_e _ _ _ _ _ _ _ _ _ _ _ _ G) as He. pose proof (tb_t _ _ _ _ _ _ _ _ _ _ _ _ G) as Ht. fold a b l in Ht. fold r in Ht.
    assert (ab5 : a + b <= 5 * l) by (unfold l, Rmin in La, Lb |- *; destruct (Rle_dec a b); lra).
    set (et := e * (a + b)) in *. assert (et0 : 0 < et) by (apply Rmult_lt_0_compat; lra). assert (et1 : et <= 0.00245 * l) by (apply Rle_trans with (/ 2048 * (5 * l)); [apply Rmult_le_compat; lra|lra]).
    assert (eel : 0 < e * l <= 0.5 * et) by (split; [apply Rmult_lt_0_compat; lra|unfold et; replace (0.5 * (e * (a + b))) with (e * (0.5 * (a + b))) by ring; apply Rmult_le_compat_l; lra]). assert (el1 : e * l <= / 2048 * l) by (apply Rmult_le_compat_r; lra).
    pose proof (len3_diff z x) as Dz. apply Rabs_le_inv in Dz. pose proof (ts_bones _ _ _ _ _ _ _ _ _ _ _ _ G) as (H1 & H2 & _). fold a in H1. fold b in H2.
    assert (Sz : sized z) by (unfold sized; lra).
    destruct (qfv_err _ _ z T' Fz FT Sz ST) as (q & Fq & Nq & Q1 & Q2).
    destruct (pole_fin T' FT ET) as (rn & Frn & Brn & Lrn). destruct (normal_fin _ q Fq Nq) as (jv & Fj & Bj & Lj).
    destruct (ts_twist _ _ _ _ _ _ _ _ _ _ _ _ G) as (Ftw & Htw).
    destruct (start_err (i2_twist j) _ _ _ _ T' z rn jv FT ST Fz Sz Frn Brn Lrn Fj Bj Lj (ex_intro _ _ (Logic.conj (Logic.conj Ftw eq_refl) Htw)) q Fq Nq) as (fs & cs & Bq & Es & Fs & (QB & RB) & ER).
    exists fs, fm, cs, cm. cbv zeta. split; [exact Em|]. split.
    { rewrite start_eq; [exact Es|]. destruct (dot_s_err _ _ T' T' FT FT ST ST) as (L2 & FL & EL). rewrite <- len3_sq in EL. apply Rabs_le_inv in EL. refine (eq_trans (nlt_dec _ _ _ _ fin_zero FL) _).
      assert (0 < len3 T' * len3 T') by (apply Rmult_lt_0_compat; lra). destruct (Rlt_dec 0 L2); [reflexivity|exfalso; unfold eps in *; lra]. }
    split; [exact Fm|]. split; [exact Fs|]. split; [exact Nm|].
    pose proof (near_one_qn q (/ 524288) ltac:(lra) Nq) as QR. apply Rabs_le_inv in QR. assert (QH : qn (hamilton Bq q) = qn q) by (rewrite qn_ham, QB; ring).
    pose proof (qn_diff cs (hamilton Bq q)) as QD. rewrite QH in QD. apply Rabs_le_inv in QD.
    split.
    { rewrite <- qn_sq. apply Rabs_le_inv in Nq. rewrite <- qn_sq in Nq. set (y1 := qn cs) in *. set (y2 := qn q) in *.
      assert (Y : Rabs ((y1 - y2) * (y1 + y2)) <= 47 * eps * 2.001) by (rewrite Rabs_mult; apply Rmult_le_compat; try apply Rabs_pos; apply Rabs_le; unfold eps in *; lra).
      replace ((y1 - y2) * (y1 + y2)) with (y1 * y1 - y2 * y2) in Y by ring. apply Rabs_le_inv in Y. apply Rabs_le. unfold eps in *. lra. }
    assert (S1 : len3 (minus3 (rotate cs x) (rotate (hamilton Bq q) x)) <= 0.0000064 * D).
    { eapply Rle_trans; [apply rot_sub|]. rewrite QH. apply Rle_trans with (2.001 * (47 * eps) * (1.12 * D)); [|unfold eps; lra].
      apply Rmult_le_compat; [apply Rmult_le_pos; [pose proof (qn_pos cs); pose proof (qn_pos q); lra|apply qn_pos]|apply len3_nn| |lra].
      apply Rmult_le_compat; [pose proof (qn_pos cs); pose proof (qn_pos q); lra|apply qn_pos|unfold eps in *; lra|exact ER]. }
    assert (S2 : len3 (minus3 (rotate (hamilton Bq q) x) (rotate (hamilton Bq q) z)) <= 2.11 * et).
    { rewrite <- rotate_minus, rot_len, <- qn_sq, QH, len3_msym. rewrite qn_sq. apply Rabs_le_inv in Nq. apply Rle_trans with (1.0001 * (2.1 * et)); [|lra]. apply Rmult_le_compat; [apply n2_nonneg|apply len3_nn|lra|exact Ez]. }
    set (zt := scale3 (len3 z / len3 T') T') in *.
    assert (S3 : len3 (minus3 (rotate (hamilton Bq q) z) zt) = len3 (minus3 (rotate q z) zt)).
    { rewrite rotate_compose. assert (RZ : rotate Bq zt = zt) by (unfold zt; rewrite rotate_scale, RB; reflexivity). rewrite <- RZ at 1. rewrite <- rotate_minus, rot_len, <- qn_sq, QB. ring. }
    assert (S4 : len3 (minus3 zt (scale3 (D / r) t)) <= 108 * om + 7.81 * et).
    { pose proof (dir_near T' t _ ltac:(lra) ltac:(fold r; lra) ET) as DN. fold r in DN. set (dT := scale3 (/ len3 T') T') in *. set (dt := scale3 (/ r) t) in *.
      replace (minus3 zt (scale3 (D / r) t)) with (plus3 (scale3 (len3 z - D) dT) (scale3 D (minus3 dT dt))).
      2:{ unfold zt, dT, dt. destruct T' as [x1 x2 x3], t as [y1 y2 y3]. generalize (len3 z), (len3 (V3 x1 x2 x3)). intros lz lT. v3s; f_equal; unfold Rdiv; ring. }
      eapply Rle_trans; [apply len3_tri|]. rewrite !len3_abs. assert (UT : len3 dT = 1) by (unfold dT; rewrite len3_abs, Rabs_pos_eq; [field; lra|left; apply Rinv_0_lt_compat; lra]). rewrite UT, (Rabs_pos_eq D) by lra.
      assert (Z : Rabs (len3 z - D) <= 108 * om + 2.1 * et) by (apply Rabs_le; lra).
      assert (ir : 0 < / r) by (apply Rinv_0_lt_compat; lra). assert (DR : D * / r <= 6) by (apply Rmult_le_reg_r with r; [lra|]; rewrite Rmult_assoc, Rinv_l by lra; lra).
      assert (D * len3 (minus3 dT dt) <= D * (2 * (0.95 * (e * l)) * / r)) by (apply Rmult_le_compat_l; lra). assert (D * / r * (e * l) <= 6 * (e * l)) by (apply Rmult_le_compat_r; lra). lra. }
    assert (om0 : 0 < om) by (unfold om, Rdiv; repeat apply Rmult_lt_0_compat; try lra; apply Rinv_0_lt_compat; lra).
    assert (FIN : forall h, len3 (minus3 (rotate q z) zt) <= h -> len3 (minus3 (rotate cs x) (scale3 (D / r) t)) <= h + 0.0000064 * D + 108 * om + 9.92 * et).
    { intros h Hh. pose proof (len3_mtri (rotate cs x) (rotate (hamilton Bq q) x) (scale3 (D / r) t)) as X1. pose proof (len3_mtri (rotate (hamilton Bq q) x) (rotate (hamilton Bq q) z) (scale3 (D / r) t)) as X2.
      pose proof (len3_mtri (rotate (hamilton Bq q) z) zt (scale3 (D / r) t)) as X3. lra. }
    split.
    - eapply Rle_trans; [apply (FIN _ Q1)|]. lra.
    - intros HD. fold x in HD. assert (HG : len3 z * len3 T' / 8 <= len3 z * len3 T' + dot3 z T').
      { assert (DE : dot3 z T' = dot3 x t + dot3 (minus3 z x) T' + dot3 x (minus3 T' t)) by (clear; generalize x; intros y; destruct z, y, T', t; v3s; ring).
        pose proof (dot3_le (minus3 z x) T') as Y1. pose proof (dot3_le x (minus3 T' t)) as Y2. apply Rabs_le_inv in Y1. apply Rabs_le_inv in Y2. set (X := len3 x) in *.
        assert (W1 : len3 (minus3 z x) * len3 T' <= 0.013 * X * (1.001 * r)) by (apply Rmult_le_compat; try apply len3_nn; lra).
        assert (W2 : X * len3 (minus3 T' t) <= X * (0.001 * r)) by (apply Rmult_le_compat_l; lra).
        assert (W3 : 0.987 * X * (0.999 * r) <= len3 z * len3 T') by (apply Rmult_le_compat; lra).
        assert (XR : 0 < X * r) by (apply Rmult_lt_0_compat; lra). lra. }
      eapply Rle_trans; [apply (FIN _ (Q2 HG))|]. unfold eps. lra.
  Qed.
End Core.
