(** Aim IK in binary32: the point aimed with, the full correction and its weighting. *)
From Coq Require Import Reals Lra Psatz.
From Flocq Require Import IEEE754.BinarySingleNaN Core.
From Verif Require Import Base Num NumF32 NumR F32Facts F32Err InterpF32 NormF32 BlendF32 Math MathSpec MathProofs BlendingSpec AdditiveSpec QuatNorm
  MotionGlam MotionF32 MotionF32Proofs Ik IkSpec IkProofs TrigProps VecNorm PolyErr MatInvF32 AimF32 AimParts AimSteps.
Local Open Scope R_scope.

(** ** The point aimed with *)
Lemma offset_err (f o t : V4 f32) p w v k : fin4 f p -> fin4 o w -> fin4 t v ->
  Rabs (dot3 p p - 1) <= k -> k <= 0.0021 -> / 256 <= len3 v <= 2097152 -> len3 w <= 0.6 * len3 v ->
  exists of x u, offsetted_forward f o t = Some of /\ fin4 of u /\ 0 < x /\ sized u /\
    len3 (minus3 u (plus3 w (scale3 x p))) <= 7 * eps * len3 v /\ Rabs (len3 (plus3 w (scale3 x p)) - len3 v) <= (22 * eps + 2.7 * k) * len3 v.
Proof.
  intros Ff Fo Ft Hk K2 Hn Hw. assert (Sv : sized v) by (unfold sized; lra). set (n := len3 v) in *.
  assert (K0 : 0 <= k) by (eapply Rle_trans; [apply Rabs_pos|exact Hk]). apply Rabs_le_inv in Hk.
  assert (W0 : 0 <= len3 w) by apply sqrt_pos. assert (P0 : 0 <= len3 p) by apply sqrt_pos.
  pose proof (len3_sq p) as PP. pose proof (len3_sq w) as WW. pose proof (len3_sq v) as VV. fold n in VV.
  assert (P1 : len3 p <= 1.0011) by (apply Rnot_lt_le; intros L; nra).
  assert (PW : len3 p * len3 w <= 0.6007 * n).
  { apply Rle_trans with (1.0011 * (0.6 * n)); [apply Rmult_le_compat; lra|lra]. }
  assert (PW0 : 0 <= len3 p * len3 w) by (apply Rmult_le_pos; lra).
  pose proof (dot3_le p w) as DW. apply Rabs_le_inv in DW. set (g := dot3 p w) in *.
  (* all the lanes *)
  pose proof (env6_fin f o p w Ff Fo) as V. 
  assert (B : forall i, Rabs (env6 0 (vx p) (vy p) (vz p) (vx w) (vy w) (vz w) i) <= p2 22).
  { destruct (len3_comp p) as (A0 & A1 & A2). destruct (len3_comp w) as (B0 & B1 & B2). replace (p2 22) with 4194304 by (simpl; lra).
    intros i. do 6 (destruct i as [|i]; [cbn [env6]; lra|]). cbn [env6]. rewrite Rabs_R0. lra. }
  set (e := env6 nzero (l0 f) (l1 f) (l2 f) (l0 o) (l1 o) (l2 o)) in *. set (r := env6 0 (vx p) (vy p) (vz p) (vx w) (vy w) (vz w)) in *.
  assert (N2 : / 256 * / 256 <= n * n) by (apply Rmult_le_compat; lra).
  assert (NU : n * n <= 2097152 * 2097152) by (apply Rmult_le_compat; lra).
  assert (SQ : forall x, Rabs x * Rabs x = x * x) by (intros x; rewrite <- Rabs_mult; apply Rabs_pos_eq; nra).
  (* forward . offset *)
  set (eo := dote 0 1 2 3 4 5). set (ea := Sub (dote 3 4 5 3 4 5) (Mul eo eo)).
  assert (So : small 22 eo = true) by (vm_compute; reflexivity). assert (Sa : small 22 ea = true) by (vm_compute; reflexivity).
  destruct (poly_err 22 e r eo ltac:(lia) V B So) as (ao & Fao & _ & Eao). destruct (poly_err 22 e r ea ltac:(lia) V B Sa) as (ac & Fac & _ & Eac).
  change (cost eo) with 3%Z in Eao. change (cost ea) with 8%Z in Eac.
  change (evR r eo) with g in Eao. change (evR r ea) with (dot3 w w - g * g) in Eac.
  assert (Ao : evA r eo <= len3 p * len3 w) by (unfold eo, r; cbn [evA dote env6]; rewrite <- !Rabs_mult; apply dot3_abs).
  assert (Ao0 : 0 <= evA r eo) by (unfold eo, r; cbn [evA dote env6]; repeat apply Rplus_le_le_0_compat; apply Rmult_le_pos; apply Rabs_pos).
  assert (Aa : evA r ea <= 0.7209 * (n * n)).
  { assert (E0 : evA r ea = dot3 w w + evA r eo * evA r eo) by (unfold ea, r; cbn [evA dote env6]; rewrite !SQ; reflexivity).
    rewrite E0, <- WW. assert (evA r eo * evA r eo <= 0.6007 * n * (0.6007 * n)) by (apply Rmult_le_compat; lra).
    assert (len3 w * len3 w <= 0.6 * n * (0.6 * n)) by (apply Rmult_le_compat; lra). lra. }
  assert (To : p2 (under 22 eo) * tiny <= 0.001 * eps * n) by (apply small_under; [vm_compute; discriminate|lra]).
  assert (Ta : p2 (under 22 ea) * tiny <= 0.001 * eps * (n * n)).
  { unfold tiny. rewrite <- bpow_plus. apply Rle_trans with (p2 (-60)); [apply bpow_le; vm_compute; discriminate|].
    apply Rle_trans with (0.001 * eps * (/ 256 * / 256)); [unfold eps; simpl; lra|]. apply Rmult_le_compat_l; [unfold eps; lra|exact N2]. }
  assert (EO : Rabs (ao - g) <= 1.82 * eps * n).
  { eapply Rle_trans; [exact Eao|]. apply Rle_trans with (3 * eta * (0.6007 * n) + 0.001 * eps * n); [apply Rplus_le_compat; [apply Rmult_le_compat_l; [unfold eta, eps; lra|lra]|exact To]|]. unfold eta, eps. lra. }
  assert (EA : Rabs (ac - (dot3 w w - g * g)) <= 5.8 * eps * (n * n)).
  { eapply Rle_trans; [exact Eac|]. apply Rle_trans with (8 * eta * (0.7209 * (n * n)) + 0.001 * eps * (n * n)); [apply Rplus_le_compat; [apply Rmult_le_compat_l; [unfold eta, eps; lra|lra]|exact Ta]|]. unfold eta, eps. lra. }
  destruct (dot_s_err t t v v Ft Ft Sv Sv) as (r2 & Fr2 & Er2). rewrite <- VV in Er2. fold n in Er2.
  set (C := dot3 w w - g * g) in *.
  assert (HC : - 0.0025 * (n * n) <= C <= 0.36 * (n * n)).
  { unfold C. rewrite <- WW. assert (len3 w * len3 w <= 0.6 * n * (0.6 * n)) by (apply Rmult_le_compat; lra).
    assert (g * g <= len3 p * len3 w * (len3 p * len3 w)) by nra.
    assert (X : len3 p * len3 w * (len3 p * len3 w) = dot3 p p * (len3 w * len3 w)) by (rewrite <- PP; ring).
    assert (dot3 p p * (len3 w * len3 w) <= 1.0021 * (len3 w * len3 w)) by (apply Rmult_le_compat_r; nra). split; nra. }
  apply Rabs_le_inv in EO. apply Rabs_le_inv in EA. apply Rabs_le_inv in Er2.
  assert (H46 : 5000000000000 <= HUGE) by (apply (le_huge 46); [lia|simpl; lra]). assert (NH : 3 * n <= HUGE) by lra.
  pose proof (fin_sub _ _ _ _ Fr2 Fac ltac:(apply Rabs_le; unfold eps in *; lra)) as Fe. set (e' := rnd32 (r2 - ac)) in *.
  assert (Ee : Rabs (e' - (n * n - C)) <= 9.9 * eps * (n * n)).
  { pose proof (rnd_err (r2 - ac)) as E0. fold e' in E0. assert (Rabs (r2 - ac) <= 1.003 * (n * n)) by (apply Rabs_le; unfold eps in *; lra).
    assert (T : tiny <= 0.001 * eps * (n * n)) by (apply Rle_trans with (0.001 * eps * (/ 256 * / 256)); [unfold tiny, eps; simpl; lra|apply Rmult_le_compat_l; [unfold eps; lra|exact N2]]).
    apply Rabs_le_inv in E0. apply Rabs_le. unfold eps in *. lra. }
  apply Rabs_le_inv in Ee.
  (* the square root *)
  assert (E'0 : 0.639 * (n * n) <= e') by (unfold eps in *; lra). assert (E'1 : e' <= 1.003 * (n * n)) by (unfold eps in *; lra).
  pose proof (fin_sqrt _ _ Fe ltac:(lra)) as Fai. set (ai := rnd32 (sqrt e')) in *.
  set (q := sqrt (n * n - C)). assert (QQ : q * q = n * n - C) by (apply sqrt_sqrt; lra). assert (Q0 : 0 <= q) by apply sqrt_pos.
  pose proof (sqrt_sqrt e' ltac:(lra)) as SE. pose proof (sqrt_pos e') as SE0. set (se := sqrt e') in *.
  assert (Q1 : 0.8 * n <= q) by (apply Rnot_lt_le; intros L; assert (q * q < 0.8 * n * (0.8 * n)) by (apply Rmult_le_0_lt_compat; lra); lra).
  assert (Q2 : q <= 1.002 * n) by (apply Rnot_lt_le; intros L; assert (1.002 * n * (1.002 * n) < q * q) by (apply Rmult_le_0_lt_compat; lra); lra).
  assert (S1 : 0.79 * n <= se) by (apply Rnot_lt_le; intros L; assert (se * se < 0.79 * n * (0.79 * n)) by (apply Rmult_le_0_lt_compat; lra); lra).
  assert (DQ : Rabs (se - q) <= 6.3 * eps * n).
  { assert (D : (se - q) * (se + q) = e' - (n * n - C)) by (rewrite <- QQ, <- SE; ring).
    assert (X : 0 < n) by lra. assert (NE : 0 < eps * n) by (unfold eps; lra). apply Rabs_le. split; apply Rnot_lt_le; intros L.
    - assert (6.3 * eps * n * (1.585 * n) < (q - se) * (se + q)) by (apply Rmult_le_0_lt_compat; lra). assert (9.9 * eps * (n * n) < 6.3 * eps * n * (1.585 * n)) by (unfold eps; lra). lra.
    - assert (6.3 * eps * n * (1.585 * n) < (se - q) * (se + q)) by (apply Rmult_le_0_lt_compat; lra). assert (9.9 * eps * (n * n) < 6.3 * eps * n * (1.585 * n)) by (unfold eps; lra). lra. }
  assert (Tn : tiny <= 0.001 * eps * n) by (apply Rle_trans with (0.001 * eps * / 256); [unfold tiny, eps; simpl; lra|apply Rmult_le_compat_l; [unfold eps; lra|lra]]).
  assert (DA : Rabs (ai - q) <= 7.4 * eps * n).
  { pose proof (rnd_err se) as E0. fold ai in E0. rewrite (Rabs_pos_eq se) in E0 by lra. apply Rabs_le_inv in E0. apply Rabs_le_inv in DQ. apply Rabs_le. unfold eps in *. lra. }
  apply Rabs_le_inv in DA.
  (* the coordinate along the forward axis *)
  pose proof (fin_sub _ _ _ _ Fai Fao ltac:(apply Rabs_le; unfold eps in *; lra)) as Fx. set (x := rnd32 (ai - ao)) in *.
  assert (Ex : Rabs (x - (q - g)) <= 10.9 * eps * n).
  { pose proof (rnd_err (ai - ao)) as E0. fold x in E0. assert (Rabs (ai - ao) <= 1.604 * n) by (apply Rabs_le; unfold eps in *; lra).
    apply Rabs_le_inv in E0. apply Rabs_le. unfold eps in *. lra. }
  apply Rabs_le_inv in Ex. assert (X0 : 0 < x) by (unfold eps in *; lra). assert (X1 : x <= 1.605 * n) by (unfold eps in *; lra).
  (* the lanes *)
  destruct Ff as (F0 & F1 & F2). destruct Fo as (G0 & G1 & G2).
  assert (LN : forall fl ol a b, fin fl a -> fin ol b -> Rabs a <= len3 p -> Rabs b <= len3 w -> forall sx, fin sx x ->
     exists c, fin (nadd ol (nmul fl sx)) c /\ Rabs (c - (b + x * a)) <= 3.9 * eps * n).
  { intros fl ol a b Fa Fb Ha Hb sx Fsx. assert (M : Rabs (a * x) <= 1.607 * n).
    { rewrite Rabs_mult, (Rabs_pos_eq x) by lra. apply Rle_trans with (1.0011 * (1.605 * n)); [apply Rmult_le_compat; try apply Rabs_pos; lra|lra]. }
    pose proof (fin_mul _ _ _ _ Fa Fsx ltac:(lra)) as Fm. pose proof (rnd_err (a * x)) as E0. set (m := rnd32 (a * x)) in *.
    apply Rabs_le_inv in E0. assert (MB : Rabs (b + m) <= 2.208 * n) by (pose proof (Rabs_le_inv _ _ M); apply Rabs_le_inv in Hb; apply Rabs_le; unfold eps in *; lra).
    pose proof (fin_add _ _ _ _ Fb Fm ltac:(lra)) as Fc. pose proof (rnd_err (b + m)) as E1. exists (rnd32 (b + m)). split; [exact Fc|].
    apply Rabs_le_inv in E1. apply Rabs_le. unfold eps in *. lra. }
  destruct (len3_comp p) as (A0 & A1 & A2). destruct (len3_comp w) as (B0 & B1 & B2).
  destruct (LN _ _ _ _ F0 G0 A0 B0 _ Fx) as (c0 & C0 & D0). destruct (LN _ _ _ _ F1 G1 A1 B1 _ Fx) as (c1 & C1 & D1). destruct (LN _ _ _ _ F2 G2 A2 B2 _ Fx) as (c2 & C2 & D2).
  set (u := V3 c0 c1 c2). set (pp := plus3 w (scale3 x p)).
  assert (DU : len3 (minus3 u pp) <= 7 * eps * n).
  { apply Rle_trans with (1.7321 * (3.9 * eps * n)); [|unfold eps; lra]. apply len3_le; [unfold eps; lra| | |]; unfold u, pp, minus3, plus3, scale3; cbn [vx vy vz]; assumption. }
  assert (DP : Rabs (len3 pp - n) <= (21.9 * eps + 2.6 * k) * n).
  { pose proof (len3_sq pp) as LP. assert (LP0 : 0 <= len3 pp) by apply sqrt_pos.
    assert (E0 : dot3 pp pp - n * n = (x + g - q) * (x + g - q + 2 * q) + x * x * (dot3 p p - 1)).
    { assert (Z : dot3 pp pp = dot3 w w + 2 * x * g + x * x * dot3 p p) by (unfold pp, g; v3s; ring). rewrite Z.
      assert (Y : n * n = q * q + C) by lra. rewrite Y. unfold C. ring. }
    set (d := x + g - q) in *. assert (Hd : Rabs d <= 10.9 * eps * n) by (apply Rabs_le; unfold d, eps in *; lra).
    assert (H1 : Rabs (d * (d + 2 * q)) <= 21.9 * eps * (n * n)).
    { rewrite Rabs_mult. apply Rle_trans with (10.9 * eps * n * (2.005 * n)).
      - apply Rmult_le_compat; try apply Rabs_pos; auto. apply Rabs_le_inv in Hd. apply Rabs_le. unfold eps in *. lra.
      - assert (0 <= n * n) by nra. unfold eps. lra. }
    assert (H2 : Rabs (x * x * (dot3 p p - 1)) <= 2.6 * k * (n * n)).
    { rewrite Rabs_mult, (Rabs_pos_eq (x * x)) by (apply Rmult_le_pos; lra). apply Rle_trans with (1.605 * n * (1.605 * n) * k).
      - apply Rmult_le_compat; [nra|apply Rabs_pos| |apply Rabs_le; lra]. apply Rmult_le_compat; lra.
      - assert (0 <= k * (n * n)) by (apply Rmult_le_pos; nra). lra. }
    assert (H3 : Rabs ((len3 pp - n) * (len3 pp + n)) <= (21.9 * eps + 2.6 * k) * (n * n)).
    { replace ((len3 pp - n) * (len3 pp + n)) with (d * (d + 2 * q) + x * x * (dot3 p p - 1)); [eapply Rle_trans; [apply Rabs_triang|]; lra|].
      rewrite <- E0, <- LP. ring. }
    rewrite Rabs_mult, (Rabs_pos_eq (len3 pp + n)) in H3 by lra.
    apply Rmult_le_reg_r with n; [lra|]. eapply Rle_trans; [|rewrite Rmult_assoc; exact H3]. apply Rmult_le_compat_l; [apply Rabs_pos|lra]. }
  exists (mk4 (nadd (l0 o) (nmul (l0 f) (nsub (nsqrt (l0 (vec3_length2_s t - (vec3_length2_s o - vec3_dot_s f o * vec3_dot_s f o))%num)) (l0 (vec3_dot_s f o)))))
              (nadd (l1 o) (nmul (l1 f) (nsub (nsqrt (l0 (vec3_length2_s t - (vec3_length2_s o - vec3_dot_s f o * vec3_dot_s f o))%num)) (l0 (vec3_dot_s f o)))))
              (nadd (l2 o) (nmul (l2 f) (nsub (nsqrt (l0 (vec3_length2_s t - (vec3_length2_s o - vec3_dot_s f o * vec3_dot_s f o))%num)) (l0 (vec3_dot_s f o)))))
              (nadd (l3 o) (nmul (l3 f) (nsub (nsqrt (l0 (vec3_length2_s t - (vec3_length2_s o - vec3_dot_s f o * vec3_dot_s f o))%num)) (l0 (vec3_dot_s f o)))))), x, u.
  split; [|split; [exact (Logic.conj C0 (Logic.conj C1 C2))|]].
  - unfold offsetted_forward. cbv zeta. use_lt Fr2 Fac. destruct (Rlt_dec r2 ac); [exfalso; unfold eps in *; lra|]. reflexivity.
  - split; [exact X0|]. apply Rabs_le_inv in DP. pose proof (len3_diff u pp) as DD. apply Rabs_le_inv in DD. split; [|split; [exact DU|]].
    + assert (KN : k * n <= 0.0021 * n) by (apply Rmult_le_compat_r; [lra|exact K2]). clear - KN DU DD DP Hn. unfold sized. unfold eps in *. split; lra.
    + fold pp. apply Rabs_le. unfold eps in *. assert (0 <= k * n) by (apply Rmult_le_pos; lra). lra.
Qed.

(** ** The full correction *)
Lemma within_p2 i j v : (i <= j)%Z -> within3 (p2 i) v -> within3 (p2 j) v.
Proof. intros H (A & B & C). assert (p2 i <= p2 j) by (apply bpow_le; exact H). repeat split; lra. Qed.
Lemma sized_within v : sized v -> within3 (p2 22) v.
Proof. intros H. apply sized_comp in H. exact H. Qed.
Lemma flip_fin b (v : V4 f32) a : fin4 v a -> fin4 (flip4 (mk4 b b b b) v) (if b then scale3 (-1) a else a).
Proof.
  intros (F0 & F1 & F2). destruct b; [|exact (Logic.conj F0 (Logic.conj F1 F2))].
  assert (M : forall x, -1 * x = - x) by (intros; ring). unfold fin4, scale3. cbn [vx vy vz]. rewrite !M.
  exact (Logic.conj (fin_neg _ _ F0) (Logic.conj (fin_neg _ _ F1) (fin_neg _ _ F2))).
Qed.
(** The rotation of the plane: about the target direction, whatever the up and pole vectors. *)
Lemma plane_err (t axis nrm rfn : V4 f32) (b : bool) (d1 d2 : f32) v a x1 x2 e1 e2 : sized v -> fin4 axis a ->
  Rabs (vx a - vx (dir v)) <= 4.8 * eps -> Rabs (vy a - vy (dir v)) <= 4.8 * eps -> Rabs (vz a - vz (dir v)) <= 4.8 * eps ->
  fin4 nrm x1 -> fin4 rfn x2 -> fin d1 e1 -> fin d2 e2 ->
  (p2 (-149) <= e1 <= p2 120 /\ forall c, c = vx x1 \/ c = vy x1 \/ c = vz x1 -> c * c <= 1.51 * e1) ->
  (p2 (-149) <= e2 <= p2 120 /\ forall c, c = vx x2 \/ c = vy x2 \/ c = vz x2 -> c * c <= 1.51 * e2) ->
  exists r B, fq (quat_from_cos_angle (flip4 (mk4 b b b b) axis)
       (simd_clamp (vec3_dot_s (nmul nrm (splat (nrecip (nsqrt d1)))) (nmul rfn (splat (nrecip (nsqrt d2))))) nmone none_)) r /\
    about v B /\ qn (qsub r B) <= 16 * eps.
Proof.
  intros Sv Fa E0 E1 E2 (N0 & N1 & N2) (M0 & M1 & M2) F1 F2 (R1 & C1) (R2 & C2).
  assert (Lv : 0 < len3 v) by (destruct Sv; lra).
  destruct (unit_lane _ _ _ _ N0 F1 R1 (C1 (vx x1) ltac:(auto))) as (y0 & Y0 & U0). destruct (unit_lane _ _ _ _ N1 F1 R1 (C1 (vy x1) ltac:(auto))) as (y1 & Y1 & U1).
  destruct (unit_lane _ _ _ _ N2 F1 R1 (C1 (vz x1) ltac:(auto))) as (y2 & Y2 & U2).
  destruct (unit_lane _ _ _ _ M0 F2 R2 (C2 (vx x2) ltac:(auto))) as (z0 & Z0 & V0). destruct (unit_lane _ _ _ _ M1 F2 R2 (C2 (vy x2) ltac:(auto))) as (z1 & Z1 & V1).
  destruct (unit_lane _ _ _ _ M2 F2 R2 (C2 (vz x2) ltac:(auto))) as (z2 & Z2 & V2).
  destruct (small_dot (nmul nrm (splat (nrecip (nsqrt d1)))) (nmul rfn (splat (nrecip (nsqrt d2)))) (V3 y0 y1 y2) (V3 z0 z1 z2)) as (c & Fc).
  { exact (Logic.conj Y0 (Logic.conj Y1 Y2)). } { exact (Logic.conj Z0 (Logic.conj Z1 Z2)). }
  { repeat split; assumption. } { repeat split; assumption. }
  destruct (clamp_fin _ _ Fc) as (cc & Fcc & Hcc). destruct (dir_comp v Lv) as (D0 & D1 & D2).
  set (cl := simd_clamp _ _ _) in *. clearbody cl. pose proof (flip_fin b axis a Fa) as FF. destruct b.
  - assert (NS : forall p q, Rabs (p - q) <= 4.8 * eps -> Rabs (-1 * p - - q) <= 4.8 * eps) by (intros p q Hp; replace (-1 * p - - q) with (- (p - q)) by ring; rewrite Rabs_Ropp; exact Hp).
    destruct (cos_angle_err _ cl (scale3 (-1) a) (V3 (- vx (dir v)) (- vy (dir v)) (- vz (dir v))) cc FF Fcc Hcc) as (r & s & k & Fr & SK & Er);
      try (cbn [vx vy vz scale3]; rewrite Rabs_Ropp; assumption); try (cbn [vx vy vz scale3]; apply NS; assumption).
    exists r, (qaxis (dir v) (- s) k). split; [exact Fr|]. split; [apply about_axis; [exact Lv|rewrite <- SK; ring]|].
    replace (qaxis (dir v) (- s) k) with (qaxis (V3 (- vx (dir v)) (- vy (dir v)) (- vz (dir v))) s k); [exact Er|].
    unfold qaxis. cbn [vx vy vz]. f_equal; ring.
  - destruct (cos_angle_err _ cl a (dir v) cc FF Fcc Hcc D0 D1 D2 E0 E1 E2) as (r & s & k & Fr & SK & Er).
    exists r, (qaxis (dir v) s k). split; [exact Fr|]. split; [apply about_axis; auto|exact Er].
Qed.
(** The twist. *)
Lemma twist_err (axis : V4 f32) (w : f32) v a x : sized v -> fin4 axis a ->
  Rabs (vx a - vx (dir v)) <= 4.8 * eps -> Rabs (vy a - vy (dir v)) <= 4.8 * eps -> Rabs (vz a - vz (dir v)) <= 4.8 * eps ->
  fin w x -> Rabs x <= 16384 ->
  exists q r B, quat_from_axis_angle axis (splat w) = Some q /\ fq q r /\ about v B /\ qn (qsub r B) <= 18 * eps.
Proof.
  intros Sv (F0 & F1 & F2) E0 E1 E2 (Fw & <-) Hx. assert (Lv : 0 < len3 v) by (destruct Sv; lra). destruct (dir_comp v Lv) as (D0 & D1 & D2).
  destruct (C87_axis_angle axis (splat w)) as (q & Eq & L3 & L4).
  - assert (N : forall p d, Rabs (p - d) <= 4.8 * eps -> Rabs d <= 1 -> Rabs p <= 1.01) by (intros p d H1 H2; apply Rabs_le_inv in H1; apply Rabs_le_inv in H2; apply Rabs_le; unfold eps in *; lra).
    intros k Hk. destruct F0 as (F0 & V0), F1 as (F1 & V1), F2 as (F2 & V2).
    destruct k as [|[|[|]]]; [| | |lia]; cbn [lane]; (split; [assumption|]).
    + rewrite V0. apply (N _ _ E0 D0).
    + rewrite V1. apply (N _ _ E1 D1).
    + rewrite V2. apply (N _ _ E2 D2).
  - exact Fw.
  - exact Hx.
  - change (lane (splat w) 0) with w in *. set (h := B2R w / 2) in *.
    destruct (L3 0%nat ltac:(lia)) as (G0 & H0). destruct (L3 1%nat ltac:(lia)) as (G1 & H1). destruct (L3 2%nat ltac:(lia)) as (G2 & H2). destruct L4 as (G3 & H3).
    cbn [lane] in *. destruct F0 as (F0 & V0), F1 as (F1 & V1), F2 as (F2 & V2). rewrite V0 in H0. rewrite V1 in H1. rewrite V2 in H2.
    exists q, (Q4 (B2R (l0 q)) (B2R (l1 q)) (B2R (l2 q)) (B2R (l3 q))), (qaxis (dir v) (sin h) (cos h)).
    split; [exact Eq|]. split; [repeat split; assumption|].
    assert (SC : sin h * sin h + cos h * cos h = 1) by (pose proof (sin2_cos2 h) as Q; unfold Rsqr in Q; exact Q).
    split; [apply about_axis; auto|]. assert (SB : Rabs (sin h) <= 1) by (apply Rabs_le; nra).
    replace (18 * eps) with (2 * (9 * eps)) by ring.
    assert (P22 : / 2 ^ 22 = 4 * eps) by (unfold eps; lra). rewrite P22 in *.
    assert (X : forall y p d, Rabs (y - p * sin h) <= 4 * eps -> Rabs (p - d) <= 4.8 * eps -> Rabs (y + -1 * (sin h * d)) <= 9 * eps).
    { intros y p d A B. replace (y + -1 * (sin h * d)) with (y - p * sin h + (p - d) * sin h) by ring. eapply Rle_trans; [apply Rabs_triang|]. rewrite (Rabs_mult (p - d)).
      assert (Rabs (p - d) * Rabs (sin h) <= 4.8 * eps * 1) by (apply Rmult_le_compat; auto using Rabs_pos). unfold eps in *. lra. }
    apply qn_le; [unfold eps; lra| | | |]; unfold qsub, qadd, qscale, qaxis; cbn [qx qy qz qw]; [apply (X _ _ _ H0 E0)|apply (X _ _ _ H1 E1)|apply (X _ _ _ H2 E2)|].
    replace (B2R (l3 q) + -1 * cos h) with (B2R (l3 q) - cos h) by ring. unfold eps in *. lra.
Qed.
Lemma sign_lanes {F} {NF : Num F} (d : V4 F) : fx4_sign (splat_x d) = let b := nlt (l0 d) nzero in mk4 b b b b.
Proof. destruct d. reflexivity. Qed.

Definition twisted_form {F} {NF : Num F} (aa : V4 F -> V4 F -> option (V4 F)) (twist : F) (up t tt pole : V4 F) : option (V4 F) :=
  let cup := quat_transform_vector tt up in
  let rfn := vec3_cross pole t in
  let nrm := vec3_cross cup t in
  let b := nlt (l0 (vec3_dot_s rfn cup)) nzero in
  let axis := nmul t (splat (nrecip (nsqrt (l0 (vec3_length2_s t))))) in
  let rp :=
    if negb (neq (l0 (vec3_length2_s t)) nzero) && negb (neq (l0 (vec3_length2_s nrm)) nzero) && negb (neq (l0 (vec3_length2_s rfn)) nzero)
    then quat_from_cos_angle (flip4 (mk4 b b b b) axis)
      (simd_clamp (vec3_dot_s (nmul nrm (splat (nrecip (nsqrt (l0 (vec3_length2_s nrm)))))) (nmul rfn (splat (nrecip (nsqrt (l0 (vec3_length2_s rfn))))))) nmone none_)
    else QUAT_UNIT in
  if negb (neq twist nzero) then match aa axis (splat twist) with Some tw => Some (quat_mul (quat_mul tw rp) tt) | None => None end
  else Some (quat_mul rp tt).
Lemma twisted_eq {F} {NF : Num F} aa (j : aim_job F) (inv : mat4 F) (t of : V4 F) :
  aim_twisted aa j inv t of = twisted_form aa (am_twist j) (am_up j) t (quat_from_vectors of t) (transform_vector inv (am_pole j)).
Proof.
  unfold aim_twisted, twisted_form. cbv zeta. rewrite sign_lanes. cbv zeta.
  set (tt := quat_from_vectors of t). set (pl := transform_vector inv (am_pole j)). set (cup := quat_transform_vector tt (am_up j)).
  set (rfn := vec3_cross pl t). set (nrm := vec3_cross cup t). clearbody tt pl. clearbody cup. clearbody rfn nrm.
  change (l0 (set_z (set_y (vec3_length2_s t) (vec3_length2_s nrm)) (vec3_length2_s rfn))) with (l0 (vec3_length2_s t)).
  change (l1 (set_z (set_y (vec3_length2_s t) (vec3_length2_s nrm)) (vec3_length2_s rfn))) with (l0 (vec3_length2_s nrm)).
  change (l2 (set_z (set_y (vec3_length2_s t) (vec3_length2_s nrm)) (vec3_length2_s rfn))) with (l0 (vec3_length2_s rfn)).
  destruct (negb (neq (l0 (vec3_length2_s t)) nzero) && negb (neq (l0 (vec3_length2_s nrm)) nzero) && negb (neq (l0 (vec3_length2_s rfn)) nzero)); reflexivity.
Qed.

Lemma twisted_err (j : aim_job f32) (inv : mat4 f32) (t of : V4 f32) v u up pole :
  fin4 t v -> sized v -> fin4 of u -> sized u -> fin4 (am_up j) up -> within3 (p2 20) up ->
  fin4 (transform_vector inv (am_pole j)) pole -> within3 (p2 35) pole ->
  (exists x, fin (am_twist j) x /\ Rabs x <= 16384) ->
  exists tw r R B, aim_twisted quat_from_axis_angle j inv t of = Some tw /\ fq tw R /\ about v B /\ qn (qsub R (hamilton B r)) <= 47 * eps /\
    Rabs (norm2 r - 1) <= / 524288 /\ len3 (minus3 (rotate r u) (scale3 (len3 u / len3 v) v)) <= 0.0027 * len3 u /\
    (len3 u * len3 v / 8 <= len3 u * len3 v + dot3 u v -> len3 (minus3 (rotate r u) (scale3 (len3 u / len3 v) v)) <= 105 * eps * len3 u).
Proof.
  intros Ft Sv Fo Su Fup Bup Fp Bp (x & Fx & Hx).
  destruct (qfv_err of t u v Fo Ft Su Sv) as (r & Fr & Nr & T1 & T2). pose proof (near_one_qn r (/ 524288) ltac:(lra) Nr) as QR. apply Rabs_le_inv in QR.
  destruct (dot_s_err t t v v Ft Ft Sv Sv) as (L & FL & EL). rewrite <- len3_sq in EL.
  destruct (axis_err t _ v L Ft Sv FL EL) as (a & A0 & A1 & A2 & D0 & D1 & D2).
  destruct (turn_bound _ (am_up j) r up Fr ltac:(lra) Fup Bup) as (cu & Fcu & Bcu).
  destruct (cross_bound _ t pole v 35 22 Fp Ft Bp (sized_within v Sv) ltac:(lia) ltac:(lia)) as (rn & Frn & Brn).
  destruct (cross_bound _ t cu v 25 22 Fcu Ft Bcu (sized_within v Sv) ltac:(lia) ltac:(lia)) as (nn & Fnn & Bnn).
  apply (within_p2 _ 59) in Bnn; [|lia]. change (35 + 22 + 2)%Z with 59%Z in Brn.
  destruct (len2_bound _ nn Fnn Bnn) as (e1 & Fe1 & _ & G1). destruct (len2_bound _ rn Frn Brn) as (e2 & Fe2 & _ & G2).
  rewrite twisted_eq. unfold twisted_form. cbv zeta.
  set (tt := quat_from_vectors of t) in *. set (pl := transform_vector inv (am_pole j)) in *. set (cup := quat_transform_vector tt (am_up j)) in *.
  set (rfn := vec3_cross pl t) in *. set (nrm := vec3_cross cup t) in *. clearbody cup. clearbody tt pl.
  set (bs := nlt (l0 (vec3_dot_s rfn cup)) nzero). clearbody bs. clearbody rfn nrm.
  change (vec3_dot_s t t) with (vec3_length2_s t) in *.
  set (ax := nmul t (splat (nrecip (nsqrt (l0 (vec3_length2_s t)))))).
  assert (Fax : fin4 ax a) by exact (Logic.conj A0 (Logic.conj A1 A2)). clearbody ax.
  assert (PAIR : forall rp, rp = (if negb (neq (l0 (vec3_length2_s t)) nzero) && negb (neq (l0 (vec3_length2_s nrm)) nzero) && negb (neq (l0 (vec3_length2_s rfn)) nzero)
    then quat_from_cos_angle (flip4 (mk4 bs bs bs bs) ax)
      (simd_clamp (vec3_dot_s (nmul nrm (splat (nrecip (nsqrt (l0 (vec3_length2_s nrm)))))) (nmul rfn (splat (nrecip (nsqrt (l0 (vec3_length2_s rfn))))))) nmone none_)
    else QUAT_UNIT) -> exists R1 B1, fq rp R1 /\ about v B1 /\ qn (qsub R1 B1) <= 16 * eps).
  { intros rp. change (@num_arith f32 f32num) with f32arith. rewrite (neq_fin0 _ _ Fe1), (neq_fin0 _ _ Fe2).
    destruct (Req_EM_T e1 0) as [_|N1]; [rewrite andb_false_r; cbn [andb]; intros ->|].
    2: destruct (Req_EM_T e2 0) as [_|N2]; [rewrite andb_false_r; intros ->|].
    3: destruct (neq (l0 (vec3_length2_s t)) nzero); cbn [negb andb]; intros ->.
    4: exact (plane_err t ax nrm rfn bs _ _ v a nn rn e1 e2 Sv Fax D0 D1 D2 Fnn Frn Fe1 Fe2 (G1 N1) (G2 N2)).
    all: exists (Q4 0 0 0 1), (Q4 0 0 0 1); split; [exact (Logic.conj fin_zero (Logic.conj fin_zero (Logic.conj fin_zero fin_one)))|];
      split; [apply about_one|]; unfold qsub, qadd, qscale, qn, norm2; cbn [qx qy qz qw]; replace (_ + _) with 0 by ring; rewrite sqrt_0; unfold eps; lra. }
  match goal with |- context [quat_mul ?z tt] => lazymatch z with if _ then _ else _ => set (rp := z) in *; destruct (PAIR z eq_refl) as (R1 & B1 & FR1 & AB1 & ER1); fold rp in FR1; clearbody rp end end.
  clear PAIR.
  pose proof AB1 as (QB1 & _). pose proof (qn_diff R1 B1) as QD1. rewrite QB1 in QD1. apply Rabs_le_inv in QD1.
  change (@num_arith f32 f32num) with f32arith. rewrite (neq_fin0 _ _ Fx). destruct (Req_EM_T x 0); cbn [negb].
  - destruct (mul_err rp tt R1 r FR1 Fr ltac:(unfold eps in *; lra) ltac:(lra)) as (R & FR & ER).
    exists (quat_mul rp tt), r, R, B1. split; [reflexivity|]. split; [exact FR|]. split; [exact AB1|]. split; [|auto].
    pose proof (qsub_tri R (hamilton R1 r) (hamilton B1 r)) as TR. pose proof (ham_sub R1 r B1 r) as HS.
    replace (qn (qsub r r)) with 0 in HS by (unfold qn, qsub, qadd, qscale, norm2; cbn [qx qy qz qw]; replace (_ + _) with 0 by ring; rewrite sqrt_0; reflexivity).
    assert (qn (qsub R1 B1) * qn r <= 16 * eps * 1.001) by (apply Rmult_le_compat; try apply qn_pos; lra). unfold eps in *. lra.
  - destruct (twist_err ax (am_twist j) v a x Sv Fax D0 D1 D2 Fx Hx) as (tw & R2 & B2 & -> & FR2 & AB2 & ER2).
    pose proof AB2 as (QB2 & _). pose proof (qn_diff R2 B2) as QD2. rewrite QB2 in QD2. apply Rabs_le_inv in QD2.
    destruct (mul_err tw rp R2 R1 FR2 FR1 ltac:(unfold eps in *; lra) ltac:(unfold eps in *; lra)) as (R3 & FR3 & ER3).
    pose proof (about_mul v B2 B1 AB2 AB1) as AB. pose proof AB as (QB & _).
    pose proof (qsub_tri R3 (hamilton R2 R1) (hamilton B2 B1)) as TR3. pose proof (ham_sub R2 R1 B2 B1) as HS3. rewrite QB2 in HS3.
    assert (qn (qsub R2 B2) * qn R1 <= 18 * eps * 1.001) by (apply Rmult_le_compat; try apply qn_pos; unfold eps in *; lra).
    assert (E3 : qn (qsub R3 (hamilton B2 B1)) <= 40.3 * eps) by (unfold eps in *; lra).
    pose proof (qn_diff R3 (hamilton B2 B1)) as QD3. rewrite QB in QD3. apply Rabs_le_inv in QD3.
    destruct (mul_err (quat_mul tw rp) tt R3 r FR3 Fr ltac:(unfold eps in *; lra) ltac:(lra)) as (R & FR & ER).
    exists (quat_mul (quat_mul tw rp) tt), r, R, (hamilton B2 B1). split; [reflexivity|]. split; [exact FR|]. split; [exact AB|]. split; [|auto].
    pose proof (qsub_tri R (hamilton R3 r) (hamilton (hamilton B2 B1) r)) as TR. pose proof (ham_sub R3 r (hamilton B2 B1) r) as HS.
    replace (qn (qsub r r)) with 0 in HS by (unfold qn, qsub, qadd, qscale, norm2; cbn [qx qy qz qw]; replace (_ + _) with 0 by ring; rewrite sqrt_0; reflexivity).
    assert (qn (qsub R3 (hamilton B2 B1)) * qn r <= 40.3 * eps * 1.001) by (apply Rmult_le_compat; try apply qn_pos; lra). unfold eps in *. lra.
Qed.
