(** C90: the aim job in single precision. *)
From Coq Require Import Reals Lra Psatz.
From Flocq Require Import IEEE754.BinarySingleNaN Core.
From Verif Require Import Base Num NumF32 NumR F32Facts F32Err InterpF32 NormF32 BlendF32 BlendF32Proofs Math MathSpec MathProofs BlendingSpec AdditiveSpec QuatNorm
  MotionGlam MotionF32 MotionF32Proofs Ik IkSpec IkProofs TrigProps VecNorm PolyErr MatInvF32 AimF32 AimParts AimSteps AimF32Proofs AimF32Spec.
Local Open Scope R_scope.

(** ** Links between the specification and the proofs *)
Lemma vec_fin4 v r : is_vec v r -> fin4 v r.
Proof. intros ((A & B & C) & <-). repeat split; assumption. Qed.
Lemma quat_fq v r : fq v r -> is_quat v r.
Proof.
  intros ((A & A') & (B & B') & (C & C') & (D & D')). unfold vq in *. cbn [qx qy qz qw] in *. split; [auto|]. rewrite A', B', C', D'. destruct r. reflexivity.
Qed.
Lemma solid_good m s W : solid_joint m s W -> good_joint m s W.
Proof. intros (A & B & C & D & E & F & G). constructor; assumption. Qed.
Lemma qdist_qn a b : qdist a b = qn (qsub a b).
Proof. unfold qdist, qn, qsub, qadd, qscale, norm2. cbn [qx qy qz qw]. f_equal. ring. Qed.

(** ** Weighting *)
Lemma share_fin (w : f32) : nlt w none_ = true -> exists a, fin (nmax w nzero) a /\ 0 <= a < 1 /\ (is_finite w = true -> a = Rmax (B2R w) 0).
Proof.
  intros H. destruct (is_finite w) eqn:Fw.
  - pose proof (fin_max w nzero (B2R w) 0 (Logic.conj Fw eq_refl) fin_zero) as F. exists (Rmax (B2R w) 0). split; [exact F|]. split; [|auto].
    rewrite (nlt_dec w none_ (B2R w) 1 (Logic.conj Fw eq_refl) fin_one) in H. destruct (Rlt_dec (B2R w) 1); [|discriminate].
    split; [apply Rmax_r|]. apply Rmax_lub_lt; lra.
  - destruct w as [s|s| |s m e Hb]; try discriminate Fw; [destruct s|]; try discriminate H.
    exists 0. split; [exact fin_zero|]. split; [lra|discriminate].
Qed.
Definition env9 {A} (o : A) (a b c d e f g h i : A) (k : nat) : A :=
  (match k with 0 => a | 1 => b | 2 => c | 3 => d | 4 => e | 5 => f | 6 => g | 7 => h | 8 => i | _ => o end)%nat.
Definition lerpe (c u : nat) : expr := Add (Mul (Var 0) (Sub (Var c) (Var u))) (Var u).
Lemma lerp_ev {F} {NF : Num F} (to : V4 F) (al : F) o :
  let v := env9 o al (l0 to) (l1 to) (l2 to) (l3 to) nzero none_ o o in let l := fx4_lerp QUAT_UNIT to (splat al) in
  l0 l = ev v (lerpe 1 5) /\ l1 l = ev v (lerpe 2 5) /\ l2 l = ev v (lerpe 3 5) /\ l3 l = ev v (lerpe 4 6).
Proof. destruct to. repeat split. Qed.
Lemma lerp_unit_err (to : V4 f32) (al : f32) c a : fq to c -> qn c <= 1.01 -> 0.999 <= norm2 c -> 0 <= qw c -> fin al a -> 0 <= a < 1 ->
  let l := Q4 (a * qx c) (a * qy c) (a * qz c) ((1 - a) + a * qw c) in
  exists r, fq (quat_normalize (fx4_lerp QUAT_UNIT to (splat al))) r /\ Rabs (norm2 r - 1) <= / 524288 /\ qn (qsub r (qscale (/ qn l) l)) <= 64 * eps.
Proof.
  intros (F0 & F1 & F2 & F3) Nc Nc2 Wc Fa Ha l. unfold vq in *. cbn [qx qy qz qw] in *.
  pose proof (lerp_ev to al nzero) as M. cbv zeta in M. destruct M as (M0 & M1 & M2 & M3). set (v := env9 nzero al _ _ _ _ _ _ _ _) in *.
  set (x := env9 0 a (qx c) (qy c) (qz c) (qw c) 0 1 0 0).
  assert (V : forall i, fin (v i) (x i)) by (intros i; do 9 (destruct i as [|i]; [first [assumption|apply fin_zero|apply fin_one]|]); apply fin_zero). clearbody v.
  set (w := env9 0 1 1.01 1.01 1.01 1.01 0 1 0 0). destruct (qn_comp c) as (D0 & D1 & D2 & D3).
  assert (Wb : forall i, Rabs (x i) <= w i).
  { intros i. unfold x, w. do 9 (destruct i as [|i]; [cbn [env9]; rewrite ?Rabs_R0, ?Rabs_R1, ?(Rabs_pos_eq a) by lra; lra|]). cbn [env9]. rewrite Rabs_R0. lra. }
  assert (Wp : forall i, w i <= p2 1) by (replace (p2 1) with 2 by (simpl; lra); intros i; unfold w; do 9 (destruct i as [|i]; [cbn [env9]; lra|]); cbn [env9]; lra).
  assert (X : forall i j, evA w (lerpe i j) <= 3.01 -> exists d, fin (ev32 v (lerpe i j)) d /\ Rabs (d - evR x (lerpe i j)) <= 9.1 * eps).
  { intros i j HA. assert (Sm : small 1 (lerpe i j) = true) by (vm_compute; reflexivity).
    destruct (poly_bound 1 v x w _ _ ltac:(lia) V Wb Wp Sm HA) as (d & Fd & _ & Ed). exists d. split; [exact Fd|].
    change (cost (lerpe i j)) with 3%Z in Ed. pose proof (small_under (under 1 (lerpe i j)) 1 ltac:(vm_compute; discriminate) ltac:(lra)) as T. unfold eta, eps in *. lra. }
  destruct (X 1 5)%nat as (d0 & G0 & E0); [unfold w; cbn [evA lerpe env9]; rewrite ?Rabs_R0, !Rabs_pos_eq by lra; lra|].
  destruct (X 2 5)%nat as (d1 & G1 & E1); [unfold w; cbn [evA lerpe env9]; rewrite ?Rabs_R0, !Rabs_pos_eq by lra; lra|].
  destruct (X 3 5)%nat as (d2 & G2 & E2); [unfold w; cbn [evA lerpe env9]; rewrite ?Rabs_R0, !Rabs_pos_eq by lra; lra|].
  destruct (X 4 6)%nat as (d3 & G3 & E3); [unfold w; cbn [evA lerpe env9]; rewrite ?Rabs_R0, !Rabs_pos_eq by lra; lra|].
  set (q := fx4_lerp QUAT_UNIT to (splat al)) in *. set (p := Q4 d0 d1 d2 d3).
  assert (Fq : fq q p) by (unfold fq, finq, vq; cbn [qx qy qz qw p]; rewrite M0, M1, M2, M3; auto).
  assert (EP : qn (qsub p l) <= 18.2 * eps).
  { replace (18.2 * eps) with (2 * (9.1 * eps)) by lra. unfold x in *. cbn [evR lerpe env9] in *.
    apply qn_le; [unfold eps; lra| | | |]; unfold qsub, qadd, qscale, p, l; cbn [qx qy qz qw].
    - replace (d0 + -1 * (a * qx c)) with (d0 - (a * (qx c - 0) + 0)) by ring. exact E0.
    - replace (d1 + -1 * (a * qy c)) with (d1 - (a * (qy c - 0) + 0)) by ring. exact E1.
    - replace (d2 + -1 * (a * qz c)) with (d2 - (a * (qz c - 0) + 0)) by ring. exact E2.
    - replace (d3 + -1 * (1 - a + a * qw c)) with (d3 - (a * (qw c - 1) + 1)) by ring. exact E3. }
  assert (NL : 0.499 <= norm2 l).
  { assert (E : norm2 l = (1 - a) * (1 - a) + 2 * (a * (1 - a) * qw c) + a * a * norm2 c) by (unfold norm2, l; cbn [qx qy qz qw]; ring). rewrite E.
    assert (0 <= a * (1 - a) * qw c) by (apply Rmult_le_pos; [apply Rmult_le_pos; lra|exact Wc]). assert (a * a * 0.999 <= a * a * norm2 c) by (apply Rmult_le_compat_l; [apply Rmult_le_pos; lra|exact Nc2]). pose proof (Rle_0_sqr (a - / 2)) as SQ. unfold Rsqr in SQ. lra. }
  assert (QL : 0.7 <= qn l) by (pose proof (qn_sq l); pose proof (qn_pos l); apply Rnot_lt_le; intros L; nra).
  assert (QU : qn l <= 5).
  { replace 5 with (2 * 2.5) by lra. assert (AB : forall y, Rabs y <= 1.01 -> Rabs (a * y) <= 1.01).
    { intros y Hy. rewrite Rabs_mult, (Rabs_pos_eq a) by lra. pose proof (Rabs_pos y). nra. }
    apply qn_le; [lra| | | |]; unfold l; cbn [qx qy qz qw].
    1-3: eapply Rle_trans; [apply AB; lra|lra]. assert (Z : Rabs (a * qw c) <= 1.01) by (apply AB; lra). apply Rabs_le_inv in Z. apply Rabs_le. lra. }
  pose proof (qn_diff p l) as QD. apply Rabs_le_inv in QD.
  assert (N64 : p2 (-64) <= norm2 p).
  { rewrite <- qn_sq. apply Rle_trans with (0.6 * 0.6); [simpl; lra|]. apply Rmult_le_compat; unfold eps in *; lra. }
  assert (B50 : boundq (p2 50) p).
  { assert (qn p <= p2 50) by (apply Rle_trans with 6; [unfold eps in *; lra|simpl; lra]). destruct (qn_comp p) as (B0 & B1 & B2 & B3). repeat split; lra. }
  destruct (normalize_err q p Fq B50 N64) as (r & Fr & Er & Nr). exists r. split; [exact Fr|]. split; [exact Nr|].
  pose proof (qsub_tri r (qscale (/ qn p) p) (qscale (/ qn l) l)) as TR. pose proof (unit_sub p l ltac:(unfold eps in *; lra) ltac:(lra)) as US.
  assert (2 * qn (qsub p l) / qn l <= 36.4 * eps / 0.7).
  { unfold Rdiv. apply Rmult_le_compat; [pose proof (qn_pos (qsub p l)); lra|apply Rlt_le, Rinv_0_lt_compat; lra|lra|apply Rinv_le_contravar; lra]. }
  unfold eps in *. lra.
Qed.
(** The full correction, its sign chosen. *)
Lemma positive_fin (q : V4 f32) R : fq q R -> exists c, fq (quat_positive_w q) c /\ 0 <= qw c /\ (c = R \/ c = qscale (-1) R).
Proof.
  intros (F0 & F1 & F2 & F3). unfold vq in *. cbn [qx qy qz qw] in *. destruct q as [a b c d]. cbn [l0 l1 l2 l3] in *.
  assert (E : quat_positive_w (mk4 a b c d) = if nlt d nzero then mk4 (nneg a) (nneg b) (nneg c) (nneg d) else mk4 a b c d) by (change (quat_positive_w (mk4 a b c d)) with (mk4 (flip (nlt d nzero) a) (flip (nlt d nzero) b) (flip (nlt d nzero) c) (flip (nlt d nzero) d)); destruct (nlt d nzero); reflexivity).
  rewrite E. rewrite (nlt_dec _ _ _ _ F3 fin_zero). destruct (Rlt_dec (qw R) 0).
  - exists (qscale (-1) R). split; [|split; [unfold qscale; cbn [qw]; lra|auto]].
    assert (M : forall x, -1 * x = - x) by (intros; ring). unfold fq, finq, vq, qscale. cbn [qx qy qz qw l0 l1 l2 l3]. rewrite !M.
    exact (Logic.conj (fin_neg _ _ F0) (Logic.conj (fin_neg _ _ F1) (Logic.conj (fin_neg _ _ F2) (fin_neg _ _ F3)))).
  - exists R. split; [exact (Logic.conj F0 (Logic.conj F1 (Logic.conj F2 F3)))|]. split; [lra|auto].
Qed.
Lemma valid_fin (f : V4 f32) r k : fin4 f r -> Rabs (dot3 r r - 1) <= k -> k <= 0.0019 -> vec3_is_normalized f = true.
Proof.
  intros Ff Hk K. apply Rabs_le_inv in Hk. assert (Sr : sized r).
  { unfold sized. pose proof (len3_sq r). assert (0 <= len3 r) by apply sqrt_pos. split; apply Rnot_lt_le; intros L; nra. }
  destruct (dot_s_err f f r r Ff Ff Sr Sr) as (d & Fd & Ed). rewrite len3_sq in Ed. apply Rabs_le_inv in Ed.
  unfold vec3_is_normalized. cbv zeta.
  assert (Flo : fin (nlit 8371831 (-23) : f32) (8371831 / 8388608)).
  { change (@nlit f32 f32arith 8371831 (-23)) with (f32_lit 8371831 (-23)). replace (8371831 / 8388608) with (IZR 8371831 * bpow radix2 (-23)) by (simpl; lra). apply fin_lit; lia. }
  assert (Fhi : fin (nlit 8405385 (-23) : f32) (8405385 / 8388608)).
  { change (@nlit f32 f32arith 8405385 (-23)) with (f32_lit 8405385 (-23)). replace (8405385 / 8388608) with (IZR 8405385 * bpow radix2 (-23)) by (simpl; lra). apply fin_lit; lia. }
  pose proof (nlt_dec _ _ _ _ Flo Fd) as N1. pose proof (nlt_dec _ _ _ _ Fd Fhi) as N2.
  apply andb_true_intro. split.
  - refine (eq_trans N1 _). destruct (Rlt_dec (8371831 / 8388608) d); [reflexivity|exfalso; unfold eps in *; lra].
  - refine (eq_trans N2 _). destruct (Rlt_dec d (8405385 / 8388608)); [reflexivity|exfalso; unfold eps in *; lra].
Qed.

(** ** The job *)
Lemma twisted_rew {F} {NF : Num F} aa (j : aim_job F) w inv t of :
  aim_twisted aa (mk_aim_job (am_target j) (am_forward j) (am_offset j) (am_up j) (am_pole j) (am_twist j) w (am_joint j)) inv t of = aim_twisted aa j inv t of.
Proof. reflexivity. Qed.
Lemma reweighted_same j : reweighted j (am_weight j) = j. Proof. destruct j. reflexivity. Qed.
Lemma aim_core j s W k t f o o0 : aim_setting j s W k t f o ->
  exists fu c x, (forall w, aim_run (reweighted j w) o0 = Some (Ok tt, mk_aim_out (if nlt w none_ then quat_normalize (fx4_lerp QUAT_UNIT fu (nmax (splat w) nzero)) else fu) true)) /\
    fq fu c /\ 0 <= qw c /\ Rabs (norm2 c - 1) <= / 131072 /\ 0 < x /\
    let p := plus3 o (scale3 x f) in
    dist t (rotate c p) <= 0.003 * len3 t + 3 * k * len3 t + 0.00035 * (W * / s) /\
    (- len3 p * len3 t / 2 <= dot3 p t -> dist t (rotate c p) <= 0.00002 * len3 t + 3 * k * len3 t + 0.00035 * (W * / s)).
Proof.
  intros [SJ (P & VP & CP & PT) (Vf & Hk & K2) (Vo & Ho) Ht Hfar (up & Vup & Bup) (pole & Vpole & Bpole) (Ftw & Htw)].
  pose proof (solid_good _ _ _ SJ) as GJ. apply vec_fin4 in VP. apply vec_fin4 in Vf. apply vec_fin4 in Vo. apply vec_fin4 in Vup. apply vec_fin4 in Vpole.
  assert (K0 : 0 <= k) by (eapply Rle_trans; [apply Rabs_pos|exact Hk]).
  destruct SJ as (_ & AF & _ & _ & DT & Hs & HW).
  assert (DN : det4 (values (am_joint j)) <> 0).
  { intros Z. rewrite Z, Rabs_R0 in DT. assert (0 < s * s * s) by (apply Rmult_lt_0_compat; [apply Rmult_lt_0_compat|]; lra). lra. }
  destruct (affine_inv _ AF DN) as (_ & _ & I2).
  set (inv := mat_invert (am_joint j)) in *. set (tv := transform_point inv (am_target j)) in *.
  assert (SI : 0 < / s) by (apply Rinv_0_lt_compat; lra). set (Q := W * / s) in *.
  assert (HQ : Q <= 256 * len3 t).
  { unfold Q. apply Rmult_le_reg_r with s; [lra|]. rewrite Rmult_assoc, Rinv_l by lra. lra. }
  assert (Q0 : 0 < Q) by (unfold Q; apply Rmult_lt_0_compat; lra).
  (* the target in joint space *)
  assert (TP : forall i, (i < 3)%nat -> exists y, fin (lane tv i) y /\ Rabs (y - apply_point (mat_invert (values (am_joint j))) P i) <= 3300 * eps * Q) by (intros i Hi; exact (point_err (am_joint j) s W (am_target j) P GJ VP CP i Hi)).
  destruct (TP 0%nat ltac:(lia)) as (y0 & T0 & E0). destruct (TP 1%nat ltac:(lia)) as (y1 & T1 & E1). destruct (TP 2%nat ltac:(lia)) as (y2 & T2 & E2).
  set (v := V3 y0 y1 y2). assert (Fv : fin4 tv v) by exact (Logic.conj T0 (Logic.conj T1 T2)).
  assert (ET : V3 (apply_point (mat_invert (values (am_joint j))) P 0) (apply_point (mat_invert (values (am_joint j))) P 1) (apply_point (mat_invert (values (am_joint j))) P 2) = t).
  { rewrite <- (I2 t), PT. reflexivity. }
  assert (DV : len3 (minus3 v t) <= 0.0003408 * Q).
  { apply Rle_trans with (1.7321 * (3300 * eps * Q)); [|unfold eps; lra]. apply len3_le; [unfold eps; lra| | |]; rewrite <- ET; unfold v, minus3; cbn [vx vy vz]; assumption. }
  pose proof (len3_diff v t) as DL. apply Rabs_le_inv in DL. set (n := len3 v) in *. set (m := len3 t) in *.
  assert (Hn : 0.9127 * m <= n <= 1.0873 * m) by lra.
  assert (Sv : sized v) by (unfold sized; fold n; lra).
  (* the offsetted forward point *)
  destruct (offset_err (am_forward j) (am_offset j) tv f o v k Vf Vo Fv Hk ltac:(lra) ltac:(fold n; lra) ltac:(fold n; lra)) as (of & x & u & EO & Fu & Hx & Su & DU & DP).
  fold n in DU, DP. set (p := plus3 o (scale3 x f)) in *.
  (* the pole *)
  assert (BP : within3 (p2 20) pole) by (replace (p2 20) with 1048576 by (simpl; lra); exact Bpole).
  assert (BU : within3 (p2 20) up) by (replace (p2 20) with 1048576 by (simpl; lra); exact Bup).
  destruct (vector_bound (am_joint j) s W (am_pole j) pole 20 GJ Vpole BP ltac:(lia) 0 ltac:(lia)) as (z0 & Z0 & C0).
  destruct (vector_bound (am_joint j) s W (am_pole j) pole 20 GJ Vpole BP ltac:(lia) 1 ltac:(lia)) as (z1 & Z1 & C1).
  destruct (vector_bound (am_joint j) s W (am_pole j) pole 20 GJ Vpole BP ltac:(lia) 2 ltac:(lia)) as (z2 & Z2 & C2).
  destruct (twisted_err j inv tv of v u up (V3 z0 z1 z2) Fv Sv Fu Su Vup BU (Logic.conj Z0 (Logic.conj Z1 Z2)) (Logic.conj C0 (Logic.conj C1 C2)) (ex_intro _ _ (Logic.conj (Logic.conj Ftw eq_refl) Htw)))
    as (tw & r & R & B & TW & FR & (QB & RB) & ER & Nr & A1 & A2).
  destruct (positive_fin tw R FR) as (c & Fc & Wc & SG).
  exists (quat_positive_w tw), c, x.
  split.
  { intros w. unfold aim_run, aim_run_with, aim_validate. cbn [reweighted am_forward am_joint am_target am_offset am_weight].
    rewrite (valid_fin _ _ _ Vf Hk K2). cbn [negb]. cbv zeta. fold inv tv. rewrite EO.
    unfold reweighted. rewrite twisted_rew, TW.
    destruct (dot_s_err tv tv v v Fv Fv Sv Sv) as (L & FL & EL). rewrite <- len3_sq in EL. fold n in EL. apply Rabs_le_inv in EL.
    change (@num_arith f32 f32num) with f32arith. change (vec3_length2_s tv) with (vec3_dot_s tv tv). rewrite (neq_fin0 _ _ FL).
    destruct (Req_EM_T L 0) as [Z|_]; [exfalso; assert (0 < n * n) by (apply Rmult_lt_0_compat; lra); unfold eps in *; lra|]. reflexivity. }
  split; [exact Fc|]. split; [exact Wc|].
  pose proof (near_one_qn r (/ 524288) ltac:(lra) Nr) as QR. apply Rabs_le_inv in QR.
  assert (QH : qn (hamilton B r) = qn r) by (rewrite qn_ham, QB; ring).
  pose proof (qn_diff R (hamilton B r)) as QD. rewrite QH in QD. apply Rabs_le_inv in QD.
  assert (NR : Rabs (norm2 R - 1) <= / 131072).
  { rewrite <- qn_sq. apply Rabs_le_inv in Nr. rewrite <- qn_sq in Nr. set (a := qn R) in *. set (b := qn r) in *.
    assert (a * a - b * b = (a - b) * (a + b)) by ring. assert (Rabs ((a - b) * (a + b)) <= 47 * eps * 2.001).
    { rewrite Rabs_mult. apply Rmult_le_compat; try apply Rabs_pos; apply Rabs_le; unfold eps in *; lra. }
    apply Rabs_le_inv in H0. apply Rabs_le. unfold eps in *. lra. }
  assert (NC : norm2 c = norm2 R) by (destruct SG as [->| ->]; [reflexivity|unfold norm2, qscale; cbn [qx qy qz qw]; ring]).
  split; [rewrite NC; exact NR|]. split; [exact Hx|].
  assert (RC : rotate c p = rotate R p) by (destruct SG as [->| ->]; [reflexivity|rewrite rotate_qscale; replace (-1 * -1) with 1 by ring; apply scale3_1]).
  cbv zeta. fold p. unfold dist. rewrite RC. fold m.
  assert (KN : k * n <= 1.0873 * (k * m)) by (replace (1.0873 * (k * m)) with (k * (1.0873 * m)) by ring; apply Rmult_le_compat_l; lra).
  assert (KM : k * n <= 0.0019 * n) by (apply Rmult_le_compat_r; lra). assert (KP : 0 <= k * n) by (apply Rmult_le_pos; lra).
  apply Rabs_le_inv in DP. pose proof (len3_diff u p) as DD. apply Rabs_le_inv in DD.
  assert (LU : 0.99 * n <= len3 u <= 1.006 * n) by (unfold eps in *; lra). assert (LP : 0.99 * n <= len3 p <= 1.006 * n) by (unfold eps in *; lra).
  assert (LU2 : Rabs (len3 u - n) <= 29 * eps * n + 2.7 * (k * n)) by (apply Rabs_le; unfold eps in *; lra).
  (* the steps from the image of [p] to the target *)
  assert (S1 : len3 (minus3 (rotate R p) (rotate (hamilton B r) p)) <= 95 * eps * n).
  { eapply Rle_trans; [apply rot_sub|]. rewrite QH. apply Rle_trans with (2.0001 * (47 * eps) * (1.006 * n)); [|unfold eps; lra].
    apply Rmult_le_compat; [apply Rmult_le_pos; [pose proof (qn_pos R); pose proof (qn_pos r); lra|apply qn_pos]|lra| |lra].
    apply Rmult_le_compat; [pose proof (qn_pos R); pose proof (qn_pos r); lra|apply qn_pos|unfold eps in *; lra|exact ER]. }
  assert (RH : rotate (hamilton B r) p = rotate B (rotate r p)).
  { apply rotate_compose. }
  assert (S2 : len3 (minus3 (rotate (hamilton B r) p) v) = len3 (minus3 (rotate r p) v)).
  { rewrite RH. rewrite <- RB at 1. rewrite <- rotate_minus, rot_len, <- qn_sq, QB. ring. }
  assert (S3 : len3 (minus3 (rotate r p) (rotate r u)) <= 7.01 * eps * n).
  { rewrite <- rotate_minus, rot_len, len3_msym. apply Rle_trans with (1.0001 * (7 * eps * n)); [|unfold eps; lra].
    apply Rmult_le_compat; [apply n2_nonneg|apply sqrt_pos|apply Rabs_le_inv in Nr; lra|exact DU]. }
  assert (S4 : len3 (minus3 (scale3 (len3 u / n) v) v) <= 29 * eps * n + 2.7 * (k * n)).
  { replace (minus3 (scale3 (len3 u / n) v) v) with (scale3 (len3 u / n - 1) v) by (destruct v; v3s; f_equal; ring).
    rewrite len3_abs. fold n. rewrite <- (Rabs_pos_eq n) at 2 by lra. rewrite <- Rabs_mult.
    replace ((len3 u / n - 1) * n) with (len3 u - n) by (field; lra). exact LU2. }
  fold n in A1, A2.
  assert (G : forall e, len3 (minus3 (rotate r u) (scale3 (len3 u / n) v)) <= e -> len3 (minus3 (rotate R p) t) <= e + 132 * eps * n + 2.7 * (k * n) + 0.0003408 * Q).
  { intros e He. pose proof (len3_mtri (rotate R p) (rotate (hamilton B r) p) t) as X1. pose proof (len3_mtri (rotate (hamilton B r) p) v t) as X2. rewrite S2 in X2.
    pose proof (len3_mtri (rotate r p) (rotate r u) v) as X3. pose proof (len3_mtri (rotate r u) (scale3 (len3 u / n) v) v) as X4. unfold eps in *. lra. }
  split.
  - eapply Rle_trans; [apply (G _ A1)|]. unfold eps in *. lra.
  - intros HD. assert (HG : len3 u * n / 8 <= len3 u * n + dot3 u v).
    { assert (DE : dot3 u v = dot3 p t + dot3 (minus3 u p) v + dot3 p (minus3 v t)) by (clear; destruct u, p, t; v3s; ring).
      pose proof (dot3_le (minus3 u p) v) as Y1. pose proof (dot3_le p (minus3 v t)) as Y2. apply Rabs_le_inv in Y1. apply Rabs_le_inv in Y2. fold n in Y1.
      assert (W1 : len3 (minus3 u p) * n <= 7 * eps * (n * n)) by (replace (7 * eps * (n * n)) with (7 * eps * n * n) by ring; apply Rmult_le_compat_r; [lra|exact DU]).
      assert (W2 : len3 p * len3 (minus3 v t) <= len3 p * (0.0873 * m)) by (apply Rmult_le_compat_l; [lra|lra]).
      assert (W3 : len3 p * m <= 1.006 * n * (1.0957 * n)) by (apply Rmult_le_compat; lra).
      assert (W4 : 0.99 * n * n <= len3 u * n) by (apply Rmult_le_compat_r; lra).
      assert (NN : 0 <= n * n) by (apply Rmult_le_pos; lra). unfold eps in *. lra. }
    eapply Rle_trans; [apply (G _ (A2 HG))|]. unfold eps in *. lra.
Qed.

(** ** C90
    In single precision the aim job always answers, reports the target reached, and its correction is finite and a
    rotation to within [2^-17], whatever the weight. *)
Theorem C90_unit : forall j s W k t f o o0, aim_setting j s W k t f o ->
  exists out r, aim_run j o0 = Some (Ok tt, out) /\ ao_reached out = true /\ is_quat (ao_corr out) r /\ Rabs (norm2 r - 1) <= / 2 ^ 17.
Proof.
  intros j s W k t f o o0 H. destruct (aim_core j s W k t f o o0 H) as (fu & c & x & EW & Fc & Wc & Nc & _). pose proof (EW (am_weight j)) as E. rewrite reweighted_same in E.
  replace (/ 2 ^ 17) with (/ 131072) by lra.
  assert (Qc : qn c <= 1.01) by (pose proof (near_one_qn c (/ 131072) ltac:(lra) Nc) as Q; apply Rabs_le_inv in Q; lra).
  destruct (nlt (am_weight j) none_) eqn:Lw.
  - destruct (share_fin _ Lw) as (a & Fa & Ha & _). apply Rabs_le_inv in Nc.
    destruct (lerp_unit_err fu _ c a Fc Qc ltac:(lra) Wc Fa Ha) as (r & Fr & Nr & _).
    eexists; exists r. split; [exact E|]. split; [reflexivity|]. split; [apply quat_fq; exact Fr|lra].
  - eexists; exists c. split; [exact E|]. split; [reflexivity|]. split; [apply quat_fq; exact Fc|exact Nc].
Qed.
Print Assumptions C90_unit.

(** With a weight of one or more, the correction takes a point [p] of the forward ray ([offset + x forward], [x > 0]) to the
    target: to within 0.3 % of the distance always, and to within 0.002 % of it when the ray's point does not lie almost
    opposite the target (more than 120 degrees away), give or take the error on the length of the forward axis and the
    rounding of the target into joint space, which grows with the distance to the origin. *)
Theorem C90_aims : forall j s W k t f o o0, aim_setting j s W k t f o -> is_finite (am_weight j) = true -> 1 <= B2R (am_weight j) ->
  exists out r x, aim_run j o0 = Some (Ok tt, out) /\ is_quat (ao_corr out) r /\ 0 <= qw r /\ 0 < x /\
    let p := plus3 o (scale3 x f) in
    dist t (rotate r p) <= 0.003 * len3 t + 3 * k * len3 t + 0.00035 * (W / s) /\
    (- len3 p * len3 t / 2 <= dot3 p t -> dist t (rotate r p) <= 0.00002 * len3 t + 3 * k * len3 t + 0.00035 * (W / s)).
Proof.
  intros j s W k t f o o0 H Fw Hw. destruct (aim_core j s W k t f o o0 H) as (fu & c & x & EW & Fc & Wc & Nc & Hx & P). pose proof (EW (am_weight j)) as E. rewrite reweighted_same in E.
  rewrite (nlt_dec _ _ _ _ (Logic.conj Fw eq_refl : fin _ _) fin_one) in E. destruct (Rlt_dec (B2R (am_weight j)) 1); [lra|].
  eexists; exists c, x. split; [exact E|]. split; [apply quat_fq; exact Fc|]. split; [exact Wc|]. split; [exact Hx|exact P].
Qed.
Print Assumptions C90_aims.

(** With a weight below one, the correction is that fraction of the full one, to within [2^-18]; a negative weight is none of
    it. *)
Theorem C90_weight : forall j s W k t f o o0, aim_setting j s W k t f o -> is_finite (am_weight j) = true -> B2R (am_weight j) < 1 ->
  exists out full r c, aim_run j o0 = Some (Ok tt, out) /\ aim_run (reweighted j none_) o0 = Some (Ok tt, full) /\
    is_quat (ao_corr out) r /\ is_quat (ao_corr full) c /\ qdist r (part_way (Rmax (B2R (am_weight j)) 0) c) <= / 2 ^ 18.
Proof.
  intros j s W k t f o o0 H Fw Hw.
  destruct (aim_core j s W k t f o o0 H) as (fu & c & x & EW & Fc & Wc & Nc & _).
  assert (Qc : qn c <= 1.01) by (pose proof (near_one_qn c (/ 131072) ltac:(lra) Nc) as Q; apply Rabs_le_inv in Q; lra).
  assert (Lw : nlt (am_weight j) none_ = true).
  { rewrite (nlt_dec _ _ _ _ (Logic.conj Fw eq_refl : fin _ _) fin_one). destruct (Rlt_dec (B2R (am_weight j)) 1); [reflexivity|lra]. }
  destruct (share_fin _ Lw) as (a & Fa & Ha & Ea). specialize (Ea Fw). apply Rabs_le_inv in Nc.
  destruct (lerp_unit_err fu _ c a Fc Qc ltac:(lra) Wc Fa Ha) as (r & Fr & Nr & Dr).
  pose proof (EW (am_weight j)) as E. rewrite reweighted_same, Lw in E. pose proof (EW none_) as E1.
  replace (nlt (none_ : f32) none_) with false in E1 by (symmetry; rewrite (nlt_dec _ _ _ _ fin_one fin_one); destruct (Rlt_dec 1 1); [lra|reflexivity]).
  eexists; eexists; exists r, c. split; [exact E|]. split; [exact E1|]. split; [apply quat_fq; exact Fr|]. split; [apply quat_fq; exact Fc|].
  rewrite qdist_qn, <- Ea. replace (/ 2 ^ 18) with (64 * eps) by (unfold eps; lra).
  match goal with |- qn (qsub r ?z) <= _ => match type of Dr with qn (qsub r ?y) <= _ => replace z with y end end; [exact Dr|].
  unfold part_way, qscale, qn. cbn [qx qy qz qw]. f_equal; unfold Rdiv; ring.
Qed.
Print Assumptions C90_weight.

(** ** A concrete job meets the hypotheses
    A joint at (1, 2, 3) with an eye half a unit above it, looking along x; the target is behind it and below. *)
Definition ex_job (w : f32) : aim_job f32 :=
  let l m e : f32 := nlit m e in
  mk_aim_job (mk4 (l (-1) 0) nzero (l 1 1) nzero)%Z (mk4 none_ nzero nzero nzero) (mk4 nzero nhalf nzero nzero)
    (mk4 nzero none_ nzero nzero) (mk4 nzero none_ nhalf nzero) nhalf w
    (mk4 (mk4 none_ nzero nzero nzero) (mk4 nzero none_ nzero nzero) (mk4 nzero nzero none_ nzero) (mk4 (l 1 0) (l 1 1) (l 3 0) none_))%Z.
Lemma ex_vals (w : f32) : values (am_joint (ex_job w)) = mk4 (mk4 1 0 0 0) (mk4 0 1 0 0) (mk4 0 0 1 0) (mk4 1 2 3 1).
Proof.
  destruct fin_zero as (_ & Z). destruct fin_one as (_ & O).
  destruct (fin_lit 1 1 ltac:(lia) ltac:(lia)) as (_ & E2). destruct (fin_lit 3 0 ltac:(lia) ltac:(lia)) as (_ & E3). destruct (fin_lit 1 0 ltac:(lia) ltac:(lia)) as (_ & E1).
  assert (Z' : @B2R 24 128 (@nzero f32 f32arith) = 0) by exact Z. assert (O' : @B2R 24 128 (@none_ f32 f32arith) = 1) by exact O.
  unfold values, ex_job, map4. cbn [am_joint l0 l1 l2 l3].
  change (@num_arith f32 f32num) with f32arith in *. change (@nlit f32 f32arith 1 0) with (f32_lit 1 0). change (@nlit f32 f32arith 1 1) with (f32_lit 1 1). change (@nlit f32 f32arith 3 0) with (f32_lit 3 0).
  rewrite Z', O', E1, E2, E3. simpl. f_equal; f_equal; lra.
Qed.
Lemma ex_setting (w : f32) : aim_setting (ex_job w) 1 4 0 (V3 (-2) (-2) (-1)) (V3 1 0 0) (V3 0 (/ 2) 0).
Proof.
  pose proof (ex_vals w) as V. destruct fin_zero as (_ & Z). destruct fin_one as (_ & O). destruct fin_half as (_ & Hf).
  assert (Z' : @B2R 24 128 (@nzero f32 f32arith) = 0) by exact Z. assert (O' : @B2R 24 128 (@none_ f32 f32arith) = 1) by exact O. assert (H' : @B2R 24 128 (@nhalf f32 f32arith) = / 2) by exact Hf.
  destruct (fin_lit 1 1 ltac:(lia) ltac:(lia)) as (_ & E2). destruct (fin_lit (-1) 0 ltac:(lia) ltac:(lia)) as (_ & E1).
  assert (L3 : len3 (V3 (-2) (-2) (-1)) = 3) by (unfold len3, dot3; cbn [vx vy vz]; replace (-2 * -2 + -2 * -2 + -1 * -1) with (3 * 3) by ring; apply sqrt_square; lra).
  assert (LO : len3 (V3 0 (/ 2) 0) = / 2) by (unfold len3, dot3; cbn [vx vy vz]; replace (0 * 0 + / 2 * / 2 + 0 * 0) with (/ 2 * / 2) by ring; apply sqrt_square; lra).
  constructor.
  - split; [|split; [|split; [|split; [|split; [|split]]]]].
    + intros i j Hi Hj. do 4 (destruct i as [|i]; [do 4 (destruct j as [|j]; [vm_compute; reflexivity|]); lia|]). lia.
    + rewrite V. unfold affine, ent. cbn. auto.
    + rewrite V. intros i j Hi Hj. assert (A0 : Rabs 0 <= 1) by (rewrite Rabs_R0; lra). assert (A1 : Rabs 1 <= 1) by (rewrite Rabs_R1; lra).
      do 3 (destruct i as [|i]; [do 3 (destruct j as [|j]; [assumption|]); lia|]). lia.
    + rewrite V. intros i Hi. do 3 (destruct i as [|i]; [unfold ent; cbn [lane l0 l1 l2 l3]; rewrite Rabs_pos_eq; lra|]). lia.
    + rewrite V. replace (det4 _) with 1 by (unfold det4, det3, det2, ent, skip; cbn; ring). rewrite Rabs_R1. lra.
    + lra.
    + lra.
  - exists (V3 (-1) 0 2). split; [split; [repeat split; vm_compute; reflexivity|]|split].
    + unfold ex_job. cbn [am_target l0 l1 l2]. change (@num_arith f32 f32num) with f32arith in *. change (@nlit f32 f32arith (-1) 0) with (f32_lit (-1) 0). change (@nlit f32 f32arith 1 1) with (f32_lit 1 1).
      rewrite Z', E1, E2. simpl. f_equal; lra.
    + unfold coords_le. cbn [vx vy vz]. repeat split; apply Rabs_le; lra.
    + rewrite V. unfold pt, apply_point, ent. cbn. f_equal; lra.
  - split; [split; [repeat split; vm_compute; reflexivity|unfold ex_job; cbn [am_forward l0 l1 l2]; change (@num_arith f32 f32num) with f32arith in *; rewrite Z', O'; reflexivity]|].
    split; [unfold dot3; cbn [vx vy vz]; replace (1 * 1 + 0 * 0 + 0 * 0 - 1) with 0 by ring; rewrite Rabs_R0; lra|lra].
  - split; [split; [repeat split; vm_compute; reflexivity|unfold ex_job; cbn [am_offset l0 l1 l2]; change (@num_arith f32 f32num) with f32arith in *; rewrite Z', H'; reflexivity]|]. rewrite L3, LO. lra.
  - rewrite L3. lra.
  - rewrite L3. lra.
  - exists (V3 0 1 0). split; [split; [repeat split; vm_compute; reflexivity|unfold ex_job; cbn [am_up l0 l1 l2]; change (@num_arith f32 f32num) with f32arith in *; rewrite Z', O'; reflexivity]|].
    unfold coords_le. cbn [vx vy vz]. repeat split; apply Rabs_le; lra.
  - exists (V3 0 1 (/ 2)). split; [split; [repeat split; vm_compute; reflexivity|unfold ex_job; cbn [am_pole l0 l1 l2]; change (@num_arith f32 f32num) with f32arith in *; rewrite Z', O', H'; reflexivity]|].
    unfold coords_le. cbn [vx vy vz]. repeat split; apply Rabs_le; lra.
  - split; [vm_compute; reflexivity|]. unfold ex_job. cbn [am_twist]. change (@num_arith f32 f32num) with f32arith in *. rewrite H'. apply Rabs_le. lra.
Qed.
(** The eye's line of sight meets the target to within 1.1 hundredths of a unit, at a distance of 3. *)
Example C90_example : exists out r x, aim_run (ex_job none_) aim_out_default = Some (Ok tt, out) /\ is_quat (ao_corr out) r /\ 0 < x /\
  dist (V3 (-2) (-2) (-1)) (rotate r (V3 x (/ 2) 0)) <= 0.011.
Proof.
  destruct (C90_aims _ _ _ _ _ _ _ aim_out_default (ex_setting none_)) as (out & r & x & A & B & _ & X & C & _).
  - reflexivity.
  - assert (O : @B2R 24 128 none_ = 1) by exact (proj2 fin_one). change (1 <= @B2R 24 128 none_). rewrite O. lra.
  - exists out, r, x. split; [exact A|]. split; [exact B|]. split; [exact X|]. cbv zeta in C.
    replace (plus3 (V3 0 (/ 2) 0) (scale3 x (V3 1 0 0))) with (V3 x (/ 2) 0) in C by (unfold plus3, scale3; cbn [vx vy vz]; f_equal; ring).
    assert (L3 : len3 (V3 (-2) (-2) (-1)) = 3) by (unfold len3, dot3; cbn [vx vy vz]; replace (-2 * -2 + -2 * -2 + -1 * -1) with (3 * 3) by ring; apply sqrt_square; lra).
    rewrite L3 in C. lra.
Qed.
Example C90_example_weight : exists out r, aim_run (ex_job nhalf) aim_out_default = Some (Ok tt, out) /\ is_quat (ao_corr out) r /\ Rabs (norm2 r - 1) <= / 2 ^ 17.
Proof. destruct (C90_unit _ _ _ _ _ _ _ aim_out_default (ex_setting nhalf)) as (out & r & A & _ & B & C). exists out, r. auto. Qed.
