(** Where the two bone job finds the joints and the target, in binary32, and the squared lengths it takes. *)
From Coq Require Import ZArith Lia Reals Lra Psatz.
From Flocq Require Import IEEE754.BinarySingleNaN Core.
From Verif Require Import Base Num NumF32 NumR F32Facts F32Err InterpF32 NormF32 BlendF32 BlendF32Proofs Math MathSpec MathProofs MotionF32 MotionF32Proofs QuatNorm
  Ik IkSpec IkProofs PolyErr MatInvF32 VecNorm TrigF32 TrigProps AimF32 AimParts AimSteps AimF32Spec AimF32Props MatSimF32 TwoBoneParts TwoBoneCos TwoBoneMid TwoBoneAngle TwoBoneSpec.
Local Open Scope R_scope.

Lemma rigid_sim m s W : rigid_joint m s W -> sim_joint m s W.
Proof.
  intros (A & B & C & D & E & F). constructor; try assumption. intros i k Hi Hk. pose proof (C i k Hi Hk) as Q. eapply Rle_trans; [exact Q|unfold kap; lra].
Qed.
Lemma sim_inv m s W : sim_joint m s W -> affine (real_mat m) /\ det4 (real_mat m) <> 0 /\ (forall p, pt (real_mat m) (pt (mat_invert (real_mat m)) p) = p) /\ (forall x, pt (mat_invert (real_mat m)) (pt (real_mat m) x) = x).
Proof.
  intros G. pose proof (sj_affine _ _ _ G) as AF. pose proof (sj_s _ _ _ G) as Hs. pose proof (sim_det _ s AF ltac:(lra) (sj_cols _ _ _ G)) as HD.
  assert (DN : det4 (real_mat m) <> 0) by (intros Z; rewrite Z, Rabs_R0 in HD; assert (0 < s * s * s) by (repeat apply Rmult_lt_0_compat; lra); lra).
  destruct (affine_inv _ AF DN) as (_ & I1 & I2). auto.
Qed.
(** A point with known coordinates, seen from a joint. *)
Lemma seen m s W p P x h : sim_joint m s W -> fin4 p P -> within3 W P -> pt (real_mat m) x = P -> 486 * eps * (W * / s) <= h ->
  exists y, fin4 (transform_point (mat_invert m) p) y /\ len3 (minus3 y x) <= h.
Proof.
  intros G F B E H. destruct (place_err m s W p P G F B) as (y & Fy & Ey). exists y. split; [exact Fy|].
  destruct (sim_inv m s W G) as (_ & _ & _ & I). rewrite <- E, I in Ey. lra.
Qed.
Lemma origin_fin m s W : sim_joint m s W -> fin4 (l3 m) (origin (real_mat m)) /\ within3 W (origin (real_mat m)).
Proof.
  intros G. pose proof (sj_finite _ _ _ G) as Fi. pose proof (sj_origin _ _ _ G) as Or.
  destruct m as [[a0 a1 a2 a3] [b0 b1 b2 b3] [c0 c1 c2 c3] [d0 d1 d2 d3]]. split.
  - exact (Logic.conj (Logic.conj (Fi 0 3 ltac:(lia) ltac:(lia))%nat eq_refl) (Logic.conj (Logic.conj (Fi 1 3 ltac:(lia) ltac:(lia))%nat eq_refl) (Logic.conj (Fi 2 3 ltac:(lia) ltac:(lia))%nat eq_refl))).
  - exact (Logic.conj (Or 0 ltac:(lia))%nat (Logic.conj (Or 1 ltac:(lia))%nat (Or 2 ltac:(lia))%nat)).
Qed.
(** Subtracting and adding vectors. *)
Lemma sub_err (a b : V4 f32) x y k : fin4 a x -> fin4 b y -> len3 (minus3 x y) <= k -> p2 (-60) <= k <= p2 60 ->
  exists z, fin4 (nsub a b) z /\ len3 (minus3 z (minus3 x y)) <= 1.74 * eps * k.
Proof.
  intros (A0 & A1 & A2) (B0 & B1 & B2) Hk (K0 & K1). destruct (len3_comp (minus3 x y)) as (C0 & C1 & C2). cbn [vx vy vz minus3] in C0, C1, C2.
  pose proof (p2_pos (-60)) as KP. pose proof (bpow_le radix2 (-100) (-60) ltac:(lia)) as KQ.
  assert (X : forall f g c d, fin f c -> fin g d -> Rabs (c - d) <= k -> fin (nsub f g) (rnd32 (c - d)) /\ Rabs (rnd32 (c - d) - (c - d)) <= 1.001 * eps * k).
  { intros f g c d Ff Fg H. split; [apply fin_sub; auto; apply (p2_le_HUGE 60); [lia|lra]|]. pose proof (rnd_err (c - d)) as R. pose proof (tiny_rel (-100) k ltac:(lia) ltac:(lra)) as T.
    assert (eps * Rabs (c - d) <= eps * k) by (apply Rmult_le_compat_l; [unfold eps; lra|exact H]). lra. }
  destruct (X _ _ _ _ A0 B0 ltac:(lra)) as (F0 & E0). destruct (X _ _ _ _ A1 B1 ltac:(lra)) as (F1 & E1). destruct (X _ _ _ _ A2 B2 ltac:(lra)) as (F2 & E2).
  exists (V3 (rnd32 (vx x - vx y)) (rnd32 (vy x - vy y)) (rnd32 (vz x - vz y))). split; [exact (Logic.conj F0 (Logic.conj F1 F2))|].
  eapply Rle_trans; [apply (len3_le _ (1.001 * eps * k)); cbn [vx vy vz minus3]; try assumption; unfold eps; lra|]. unfold eps. lra.
Qed.
Lemma add_err (a b : V4 f32) x y k : fin4 a x -> fin4 b y -> len3 (plus3 x y) <= k -> p2 (-60) <= k <= p2 60 ->
  exists z, fin4 (nadd a b) z /\ len3 (minus3 z (plus3 x y)) <= 1.74 * eps * k.
Proof.
  intros (A0 & A1 & A2) (B0 & B1 & B2) Hk (K0 & K1). destruct (len3_comp (plus3 x y)) as (C0 & C1 & C2). cbn [vx vy vz plus3] in C0, C1, C2.
  pose proof (p2_pos (-60)) as KP. pose proof (bpow_le radix2 (-100) (-60) ltac:(lia)) as KQ.
  assert (X : forall f g c d, fin f c -> fin g d -> Rabs (c + d) <= k -> fin (nadd f g) (rnd32 (c + d)) /\ Rabs (rnd32 (c + d) - (c + d)) <= 1.001 * eps * k).
  { intros f g c d Ff Fg H. split; [apply fin_add; auto; apply (p2_le_HUGE 60); [lia|lra]|]. pose proof (rnd_err (c + d)) as R. pose proof (tiny_rel (-100) k ltac:(lia) ltac:(lra)) as T.
    assert (eps * Rabs (c + d) <= eps * k) by (apply Rmult_le_compat_l; [unfold eps; lra|exact H]). lra. }
  destruct (X _ _ _ _ A0 B0 ltac:(lra)) as (F0 & E0). destruct (X _ _ _ _ A1 B1 ltac:(lra)) as (F1 & E1). destruct (X _ _ _ _ A2 B2 ltac:(lra)) as (F2 & E2).
  exists (V3 (rnd32 (vx x + vx y)) (rnd32 (vy x + vy y)) (rnd32 (vz x + vz y))). split; [exact (Logic.conj F0 (Logic.conj F1 F2))|].
  eapply Rle_trans; [apply (len3_le _ (1.001 * eps * k)); cbn [vx vy vz minus3]; try assumption; unfold eps; lra|]. unfold eps. lra.
Qed.
Lemma neg_fin4 (a : V4 f32) x : fin4 a x -> fin4 (nneg a) (neg3 x).
Proof.
  intros (A0 & A1 & A2). assert (X : forall f c, fin f c -> fin (nneg f) (-1 * c)) by (intros f c H; replace (-1 * c) with (- c) by ring; apply fin_neg, H).
  exact (Logic.conj (X _ _ A0) (Logic.conj (X _ _ A1) (X _ _ A2))).
Qed.

Section Places.
  Context (j : ik2_job f32) (s1 s2 W e be : R) (A B t u v n : vec3 R) (G : bone_setting j s1 s2 W e be A B t u v n).
  Let S := ik2_setup j. Let a := len3 A. Let b := len3 B. Let l := Rmin a b. Let U := len3 u. Let V := len3 v. Let k := Rmin U V.
  Lemma tb_l : 0 < l /\ / 128 <= l <= 1048576 /\ l <= a <= 4 * l /\ l <= b <= 4 * l /\ / 128 <= k <= 1048576 /\ k <= U /\ k <= V.
  Proof using G.
    pose proof (ts_bones _ _ _ _ _ _ _ _ _ _ _ _ G) as (H1 & H2 & H3 & H4). pose proof (ts_bones' _ _ _ _ _ _ _ _ _ _ _ _ G) as (H5 & H6).
    fold a b in H1, H2, H3, H4. fold U V in H5, H6. unfold l, k, Rmin. destruct (Rle_dec a b), (Rle_dec U V); lra.
  Qed.
  Lemma near_h : 486 * eps * (W * / s1) <= 0.95 * e * l /\ 486 * eps * (W * / s2) <= 0.95 * e * k.
  Proof using G.
    pose proof (ts_near _ _ _ _ _ _ _ _ _ _ _ _ G) as (H1 & H2 & H3 & H4). fold a in H1. fold b in H2. fold U in H3. fold V in H4. pose proof (ts_e _ _ _ _ _ _ _ _ _ _ _ _ G) as He.
    destruct tb_l as (L0 & _ & _ & _ & K0 & _).
    pose proof (ts_start _ _ _ _ _ _ _ _ _ _ _ _ G) as (_ & _ & _ & _ & Hs1 & HW). pose proof (ts_mid _ _ _ _ _ _ _ _ _ _ _ _ G) as (_ & _ & _ & _ & Hs2 & _).
    assert (N1 : W <= 32768 * e * (s1 * l)) by (unfold l, Rmin; destruct (Rle_dec a b); assumption). assert (N2 : W <= 32768 * e * (s2 * k)) by (unfold k, Rmin; destruct (Rle_dec U V); assumption).
    assert (X : forall s z, / 1024 <= s -> 0 < z -> W <= 32768 * e * (s * z) -> 486 * eps * (W * / s) <= 0.95 * e * z).
    { intros s z Hs Hz H. assert (J : 0 < / s) by (apply Rinv_0_lt_compat; lra). assert (Q : W * / s <= 32768 * e * z).
      { apply Rmult_le_reg_r with s; [lra|]. rewrite Rmult_assoc, Rinv_l by lra. lra. }
      assert (486 * eps * (W * / s) <= 486 * eps * (32768 * e * z)) by (apply Rmult_le_compat_l; [unfold eps; lra|exact Q]). assert (0 < e * z) by (apply Rmult_lt_0_compat; lra). unfold eps in *. lra. }
    split; apply X; lra.
  Qed.
  Lemma places : exists A' B' C' T' u' v',
    fin4 (s_start_mid_ss S) A' /\ len3 (minus3 A' A) <= 0.95 * e * l /\
    fin4 (nsub (transform_point (mat_invert (i2_start j)) (l3 (i2_end j))) (s_start_mid_ss S)) B' /\ len3 (minus3 B' B) <= 1.95 * e * l /\
    fin4 (transform_point (mat_invert (i2_start j)) (l3 (i2_end j))) C' /\ len3 (minus3 C' (plus3 A B)) <= 0.95 * e * l /\
    fin4 (transform_point (s_inv_start S) (i2_target j)) T' /\ len3 (minus3 T' t) <= 0.95 * e * l /\
    fin4 (s_start_mid_ms S) u' /\ len3 (minus3 u' u) <= 0.95 * e * k /\
    fin4 (s_mid_end_ms S) v' /\ len3 (minus3 v' v) <= 0.95 * e * k.
  Proof using G.
    destruct tb_l as (L0 & Ll & La & Lb & K0 & _). destruct near_h as (N1 & N2). pose proof (ts_e _ _ _ _ _ _ _ _ _ _ _ _ G) as He.
    pose proof (rigid_sim _ _ _ (ts_start _ _ _ _ _ _ _ _ _ _ _ _ G)) as G1. pose proof (rigid_sim _ _ _ (ts_mid _ _ _ _ _ _ _ _ _ _ _ _ G)) as G2.
    pose proof (ts_chain _ _ _ _ _ _ _ _ _ _ _ _ G) as (PA & PU). destruct (ts_end _ _ _ _ _ _ _ _ _ _ _ _ G) as (pe & Fe & Be & PE & PV). destruct (ts_target _ _ _ _ _ _ _ _ _ _ _ _ G) as (pg & Fg & Bg & PT).
    apply vec_fin4 in Fe. apply vec_fin4 in Fg. destruct (origin_fin _ _ _ G1) as (O1 & OW1). destruct (origin_fin _ _ _ G2) as (O2 & OW2).
    destruct (seen _ _ _ _ _ A (0.95 * e * l) G1 O2 OW2 PA N1) as (A' & FA & EA).
    destruct (seen _ _ _ _ _ (plus3 A B) (0.95 * e * l) G1 Fe Be PE N1) as (C' & FC & EC).
    destruct (seen _ _ _ _ _ t (0.95 * e * l) G1 Fg Bg PT N1) as (T' & FT & ET).
    destruct (seen _ _ _ _ _ (neg3 u) (0.95 * e * k) G2 O1 OW1 PU N2) as (u0 & Fu & Eu).
    destruct (seen _ _ _ _ _ v (0.95 * e * k) G2 Fe Be PV N2) as (v' & Fv & Ev).
    assert (EB0 : len3 (minus3 (minus3 C' A') B) <= 1.9 * e * l).
    { replace (minus3 (minus3 C' A') B) with (plus3 (minus3 C' (plus3 A B)) (minus3 A A')) by (unfold plus3, minus3; cbn [vx vy vz]; f_equal; ring).
      eapply Rle_trans; [apply len3_tri|]. rewrite (len3_msym A A'). lra. }
    assert (el : 0 < e * l <= / 2048 * l) by (split; [apply Rmult_lt_0_compat; lra|apply Rmult_le_compat_r; lra]).
    assert (LB : len3 (minus3 C' A') <= 4.01 * l) by (pose proof (len3_diff (minus3 C' A') B) as Q; apply Rabs_le_inv in Q; fold b in Q; lra).
    destruct (sub_err _ _ C' A' (4.01 * l) FC FA LB) as (B' & FB & EB).
    { split; [apply Rle_trans with (/ 128); [replace (/ 128) with (p2 (-7)) by (simpl; lra); apply bpow_le; lia|lra]|]. apply Rle_trans with (p2 25); [replace (p2 25) with 33554432 by (simpl; lra); lra|apply bpow_le; lia]. }
    exists A', B', C', T', (neg3 u0), v'. split; [exact FA|]. split; [exact EA|]. split; [exact FB|]. split.
    { pose proof (len3_mtri B' (minus3 C' A') B) as Q. assert (1.74 * eps * (4.01 * l) <= 0.02 * e * l) by (pose proof (eps_e e He); assert (eps * l <= 0.002 * e * l) by (apply Rmult_le_compat_r; lra); lra). lra. }
    split; [exact FC|]. split; [exact EC|]. split; [exact FT|]. split; [exact ET|]. split; [exact (neg_fin4 _ _ Fu)|]. split; [|split; [exact Fv|exact Ev]].
    replace (minus3 (neg3 u0) u) with (neg3 (minus3 u0 (neg3 u))) by (unfold neg3, scale3, minus3; cbn [vx vy vz]; f_equal; ring). rewrite len3_neg. exact Eu.
  Qed.
  (** The four squared lengths. *)
  Let c := len3 (plus3 A B). Let r := len3 t.
  Lemma near_sq (w : V4 f32) x y : fin4 w x -> len3 (minus3 x y) <= 0.95 * e * l -> len3 y <= 2097152 ->
    exists d, fin (l0 (vec3_length2_s w)) d /\ Rabs (d - len3 y * len3 y) <= e * (2.001 * (len3 y * l) + 0.001 * (l * l) + 0.0062 * (len3 y * len3 y)).
  Proof using G.
    intros F E Y. destruct tb_l as (L0 & Ll & _). pose proof (ts_e _ _ _ _ _ _ _ _ _ _ _ _ G) as He. pose proof (eps_e e He) as Ee.
    assert (el : 0 < e * l <= / 2048 * l) by (split; [apply Rmult_lt_0_compat; lra|apply Rmult_le_compat_r; lra]).
    destruct (len2_near w x y (0.95 * e * l) F E Y ltac:(lra)) as (d & Fd & Ed). exists d. split; [exact Fd|]. eapply Rle_trans; [exact Ed|].
    pose proof (len3_nn y) as Y0. set (z := len3 y) in *. set (h := 0.95 * e * l).
    assert (zl : 0 <= z * l) by (apply Rmult_le_pos; lra). assert (ll : 0 < l * l) by (apply Rmult_lt_0_compat; lra). assert (zz : 0 <= z * z) by (apply Rmult_le_pos; lra).
    assert (H1 : h * h <= 0.00046 * e * (l * l)).
    { unfold h. assert (ell : 0 < e * (l * l)) by (apply Rmult_lt_0_compat; lra). assert (e * (e * (l * l)) <= / 2048 * (e * (l * l))) by (apply Rmult_le_compat_r; lra). lra. }
    assert (H2 : 2 * (z * h) <= 0.001 * (z * l)).
    { assert (h <= 0.0005 * l) by (unfold h; lra). assert (z * h <= z * (0.0005 * l)) by (apply Rmult_le_compat_l; lra). lra. }
    assert (H3 : 0 <= h * h) by apply Rle_0_sqr. assert (H4 : 2 * h * z = 1.9 * (e * (z * l))) by (unfold h; lra).
    assert (H5 : 3.01 * eps * ((z + h) * (z + h)) <= 0.00602 * (e * (z * z + 0.001 * (z * l) + 0.00046 * (l * l)))).
    { apply Rle_trans with (3.01 * (0.002 * e) * (z * z + 0.001 * (z * l) + 0.00046 * (l * l))); [|lra].
      assert (e * (l * l) <= 1 * (l * l)) by (apply Rmult_le_compat_r; lra). apply Rmult_le_compat; [unfold eps; lra|apply Rle_0_sqr|lra|]. replace ((z + h) * (z + h)) with (z * z + 2 * (z * h) + h * h) by ring. lra. }
    assert (H6 : p2 (-80) <= 0.0001 * (e * (l * l))).
    { apply Rle_trans with (p2 (-45)); [apply bpow_le; lia|]. replace (p2 (-45)) with (/ 35184372088832) by (simpl; lra). assert (/ 128 * / 128 <= l * l) by (apply Rmult_le_compat; lra).
      assert (/ 32768 * (/ 128 * / 128) <= e * (l * l)) by (apply Rmult_le_compat; lra). lra. }
    assert (E1 : 0 <= e * (z * l)) by (apply Rmult_le_pos; lra). assert (E2 : 0 <= e * (z * z)) by (apply Rmult_le_pos; lra). assert (E3 : 0 < e * (l * l)) by (apply Rmult_lt_0_compat; lra).
    lra.
  Qed.
  Lemma near_sq' (w : V4 f32) x y q : fin4 w x -> len3 (minus3 x y) <= q * (e * l) -> 0 <= q <= 2 -> l <= len3 y <= 4 * l -> len3 y <= 1048576 ->
    exists d, fin (l0 (vec3_length2_s w)) d /\ Rabs (d - len3 y * len3 y) <= (2 * q + 0.04) * e * (len3 y * l).
  Proof using G.
    intros F E Q Y Y'. destruct tb_l as (L0 & Ll & _). pose proof (ts_e _ _ _ _ _ _ _ _ _ _ _ _ G) as He. pose proof (eps_e e He) as Ee.
    assert (el : 0 < e * l <= / 2048 * l) by (split; [apply Rmult_lt_0_compat; lra|apply Rmult_le_compat_r; lra]).
    assert (qel : 0 <= q * (e * l) <= 2 * (e * l)) by (split; [apply Rmult_le_pos; lra|apply Rmult_le_compat_r; lra]).
    destruct (len2_near w x y (q * (e * l)) F E ltac:(lra) ltac:(lra)) as (d & Fd & Ed). exists d. split; [exact Fd|]. eapply Rle_trans; [exact Ed|].
    set (z := len3 y) in *. set (h := q * (e * l)) in *.
    assert (zl : 0 < z * l) by (apply Rmult_lt_0_compat; lra). assert (ezl : 0 < e * (z * l)) by (apply Rmult_lt_0_compat; lra).
    assert (H1 : h * h <= 0.002 * (e * (z * l))).
    { apply Rle_trans with (2 * (e * l) * (/ 1024 * l)); [apply Rmult_le_compat; lra|]. assert (e * l * l <= e * l * z) by (apply Rmult_le_compat_l; lra). lra. }
    assert (H4 : 2 * h * z = 2 * q * (e * (z * l))) by (unfold h; ring).
    assert (H5 : 3.01 * eps * ((z + h) * (z + h)) <= 0.03 * (e * (z * l))).
    { apply Rle_trans with (3.01 * (0.002 * e) * (1.002 * z * (1.002 * (4 * l)))); [|lra].
      apply Rmult_le_compat; [unfold eps; lra|apply Rle_0_sqr|lra|]. apply Rmult_le_compat; lra. }
    assert (H6 : p2 (-80) <= 0.0001 * (e * (z * l))).
    { apply Rle_trans with (p2 (-45)); [apply bpow_le; lia|]. replace (p2 (-45)) with (/ 35184372088832) by (simpl; lra). assert (/ 128 * / 128 <= z * l) by (apply Rmult_le_compat; lra).
      assert (/ 32768 * (/ 128 * / 128) <= e * (z * l)) by (apply Rmult_le_compat; lra). lra. }
    lra.
  Qed.
End Places.
