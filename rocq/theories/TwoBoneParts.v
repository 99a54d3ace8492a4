(** The steps of the two bone job in binary32. *)
From Coq Require Import Reals Lra Psatz.
From Flocq Require Import IEEE754.BinarySingleNaN Core.
From Verif Require Import Base Num NumF32 NumR F32Facts F32Err InterpF32 NormF32 BlendF32 BlendF32Proofs Math MathSpec MathProofs MotionF32 MotionF32Proofs QuatNorm
  Ik IkSpec IkProofs PolyErr MatInvF32 VecNorm TrigF32 TrigProps AimF32 AimParts AimSteps AimF32Proofs MatSimF32.
Local Open Scope R_scope.

(** ** Turning a vector *)
Lemma qtv_rotate (r : quat R) u : 
  let x := env7 0 (qx r) (qy r) (qz r) (qw r) (vx u) (vy u) (vz u) in
  V3 (evR x (qtve 0 1 2)) (evR x (qtve 1 2 0)) (evR x (qtve 2 0 1)) = plus3 (rotate r u) (scale3 (1 - norm2 r) u).
Proof. cbv zeta. rewrite rotate_explicit. unfold norm2, plus3, scale3. cbn [evR qtve c1e env7 Nat.add vx vy vz]. f_equal; ring. Qed.
Lemma turn_err (q v : V4 f32) r u k : fq q r -> Rabs (norm2 r - 1) <= k -> k <= 0.01 -> fin4 v u -> / 2097152 <= len3 u <= 4194304 ->
  exists c, fin4 (quat_transform_vector q v) c /\ len3 (minus3 c (rotate r u)) <= (163 * eps + k) * len3 u.
Proof.
  intros (A0 & A1 & A2 & A3) Hk K1 (B0 & B1 & B2) HL. unfold vq in *. cbn [qx qy qz qw] in *.
  assert (K0 : 0 <= k) by (eapply Rle_trans; [apply Rabs_pos|exact Hk]).
  assert (Nr : qn r <= 1.01). { apply Rabs_le_inv in Hk. pose proof (qn_sq r) as Q. pose proof (qn_pos r). apply Rnot_lt_le. intros L. nra. }
  destruct (len3_comp u) as (C0 & C1 & C2). set (L := len3 u) in *.
  pose proof (qtv_ev q v nzero) as (M0 & M1 & M2). cbv zeta in *. set (e := env7 nzero _ _ _ _ _ _ _) in *.
  pose proof (qtv_rotate r u) as QR. cbv zeta in QR.
  set (x := env7 0 (qx r) (qy r) (qz r) (qw r) (vx u) (vy u) (vz u)) in *.
  assert (V : forall i, fin (e i) (x i)) by (intros i; do 7 (destruct i as [|i]; [assumption|]); apply fin_zero). clearbody e.
  set (w := env7 0 1.01 1.01 1.01 1.01 L L L).
  destruct (qn_comp r) as (D0 & D1 & D2 & D3). assert (P22 : p2 22 = 4194304) by (simpl; lra).
  assert (Wb : forall i, Rabs (x i) <= w i) by (intros i; unfold x, w; do 7 (destruct i as [|i]; [cbn [env7]; lra|]); cbn [env7]; rewrite Rabs_R0; lra).
  assert (Wp : forall i, w i <= p2 22) by (intros i; unfold w; do 7 (destruct i as [|i]; [cbn [env7]; lra|]); cbn [env7]; lra).
  assert (X : forall i j k, small 22 (qtve i j k) = true -> cost (qtve i j k) = cost (qtve 0 1 2) -> under 22 (qtve i j k) = under 22 (qtve 0 1 2) ->
     evA w (qtve i j k) <= 13.25 * L -> exists d, fin (ev32 e (qtve i j k)) d /\ Rabs (d - evR x (qtve i j k)) <= 93.5 * eps * L).
  { intros i j n Sm Ce Ue HA. destruct (poly_bound 22 e x w _ _ ltac:(lia) V Wb Wp Sm HA) as (d & Fd & Bd & Ed). exists d. split; [exact Fd|].
    rewrite Ce, Ue in Ed. replace (cost (qtve 0 1 2)) with 7%Z in Ed by (vm_compute; reflexivity).
    assert (T : p2 (under 22 (qtve 0 1 2)) * tiny <= 0.001 * eps * / 2097152) by (unfold tiny; rewrite <- bpow_plus; apply Rle_trans with (p2 (-60)); [apply bpow_le; vm_compute; discriminate|unfold eps; simpl; lra]).
    assert (0.001 * eps * / 2097152 <= 0.001 * eps * L) by (apply Rmult_le_compat_l; [unfold eps; lra|lra]).
    eapply Rle_trans; [exact Ed|]. unfold eta, eps in *. lra. }
  destruct (X 0 1 2)%nat as (d0 & F0 & E0); [vm_compute; reflexivity..| |].
  { unfold w. cbn [evA qtve c1e env7 Nat.add]. rewrite !Rabs_pos_eq by lra. lra. }
  destruct (X 1 2 0)%nat as (d1 & F1 & E1); [vm_compute; reflexivity..| |].
  { unfold w. cbn [evA qtve c1e env7 Nat.add]. rewrite !Rabs_pos_eq by lra. lra. }
  destruct (X 2 0 1)%nat as (d2 & F2 & E2); [vm_compute; reflexivity..| |].
  { unfold w. cbn [evA qtve c1e env7 Nat.add]. rewrite !Rabs_pos_eq by lra. lra. }
  exists (V3 d0 d1 d2). split; [unfold fin4; cbn [vx vy vz]; rewrite M0, M1, M2; auto|].
  set (g := V3 (evR x (qtve 0 1 2)) (evR x (qtve 1 2 0)) (evR x (qtve 2 0 1))) in *.
  assert (G : len3 (minus3 (V3 d0 d1 d2) g) <= 162 * eps * L).
  { eapply Rle_trans; [apply (len3_le _ (93.5 * eps * L)); [unfold eps; lra|cbn [minus3 vx vy vz g]; assumption..]|]. unfold eps. lra. }
  pose proof (len3_mtri (V3 d0 d1 d2) g (rotate r u)) as T. 
  assert (H : len3 (minus3 g (rotate r u)) <= k * L).
  { rewrite QR. replace (minus3 (plus3 (rotate r u) (scale3 (1 - norm2 r) u)) (rotate r u)) with (scale3 (1 - norm2 r) u) by (unfold minus3, plus3, scale3; cbn [vx vy vz]; f_equal; ring).
    rewrite len3_abs. apply Rmult_le_compat_r; [lra|]. rewrite Rabs_minus_sym. exact Hk. }
  unfold eps in *. lra.
Qed.

(** A vector that is not too small has a squared length the program can divide by. *)
Lemma len2_big (v : V4 f32) x : fin4 v x -> within3 (p2 59) x -> p2 (-60) <= len3 x ->
  exists d, fin (l0 (vec3_length2_s v)) d /\ p2 (-149) <= d <= p2 120 /\ forall c, c = vx x \/ c = vy x \/ c = vz x -> c * c <= 1.51 * d.
Proof.
  intros F B L. destruct (len2_bound v x F B) as (d & Fd & D0 & H). exists d. split; [exact Fd|]. apply H. intros Z.
  (* one coordinate is at least half the length: its square does not underflow, and the sum is at least that *)
  assert (C : exists c, (c = vx x \/ c = vy x \/ c = vz x) /\ p2 (-61) <= Rabs c).
  { destruct (Rle_or_lt (p2 (-61)) (Rabs (vx x))); [eauto|]. destruct (Rle_or_lt (p2 (-61)) (Rabs (vy x))); [eauto|]. destruct (Rle_or_lt (p2 (-61)) (Rabs (vz x))); [eauto 6|]. exfalso.
    pose proof (len3_le x (p2 (-61)) ltac:(apply bpow_ge_0) ltac:(lra) ltac:(lra) ltac:(lra)) as Q. change (-60)%Z with (1 + -61)%Z in L. rewrite (p2_shift 1 (-61) 2) in L by (simpl; lra). pose proof (p2_pos (-61)). lra. }
  clear H. destruct F as (F0 & F1 & F2), B as (B0 & B1 & B2).
  assert (SQ : forall f c, fin f c -> Rabs c <= p2 59 -> fin (nmul f f) (rnd32 (c * c))).
  { intros f c Ff Hc. apply fin_mul; auto. apply (le_huge 118); [lia|]. change 118%Z with (59 + 59)%Z. rewrite bpow_plus, Rabs_mult. apply Rmult_le_compat; auto using Rabs_pos. }
  assert (S : forall c, Rabs c <= p2 59 -> 0 <= rnd32 (c * c) <= p2 118).
  { intros c Hc. split; [apply rnd_nonneg; nra|]. apply rnd_le_p2; [lia|]. change 118%Z with (59 + 59)%Z. rewrite bpow_plus. pose proof (p2_pos 59). apply Rabs_le_inv in Hc. nra. }
  assert (BIG : forall c, p2 (-61) <= Rabs c -> p2 (-122) <= rnd32 (c * c)).
  { intros c Hc. assert (E : rnd32 (p2 (-122)) = p2 (-122)) by (apply round_generic; [typeclasses eauto|apply generic_format_FLT_bpow; [reflexivity|vm_compute; discriminate]]). rewrite <- E. apply rnd_mono.
    change (-122)%Z with (-61 + -61)%Z. rewrite bpow_plus. apply Rle_trans with (Rabs c * Rabs c); [pose proof (p2_pos (-61)); apply Rmult_le_compat; lra|]. rewrite <- Rabs_mult, Rabs_pos_eq; nra. }
  pose proof (S _ B0) as S0. pose proof (S _ B1) as S1. pose proof (S _ B2) as S2. pose proof (p2_pos 118) as P0. pose proof (p2_pos (-122)) as P1.
  assert (P16 : p2 119 = 2 * p2 118) by (change 119%Z with (1 + 118)%Z; rewrite bpow_plus; simpl; lra).
  assert (P18 : p2 120 = 2 * p2 119) by (change 120%Z with (1 + 119)%Z; rewrite bpow_plus; simpl; lra).
  pose proof (fin_add _ _ _ _ (SQ _ _ F0 B0) (SQ _ _ F1 B1) ltac:(apply (le_huge 120); [lia|rewrite Rabs_pos_eq; lra])) as G.
  set (x0 := rnd32 (vx x * vx x)) in *. set (x1 := rnd32 (vy x * vy x)) in *. set (y := rnd32 (x0 + x1)) in *.
  assert (Y : 0 <= y <= p2 119) by (split; [apply rnd_nonneg; lra|apply rnd_le_p2; [lia|lra]]).
  pose proof (fin_add _ _ _ _ G (SQ _ _ F2 B2) ltac:(apply (le_huge 120); [lia|rewrite Rabs_pos_eq; lra])) as Hd. set (x2 := rnd32 (vz x * vz x)) in *.
  assert (Ed : d = rnd32 (y + x2)) by (destruct Fd as (_ & <-), Hd as (_ & <-); reflexivity).
  assert (FX : forall z, rnd32 (rnd32 z) = rnd32 z) by (intros z; apply round_generic; [typeclasses eauto|apply rnd_fmt]).
  assert (MON : forall a b, rnd32 a <= b -> rnd32 a <= rnd32 b) by (intros a b Hab; rewrite <- (FX a); apply rnd_mono; exact Hab).
  assert (Dx2 : x2 <= d) by (rewrite Ed; apply MON; fold x2; lra).
  assert (Dy : y <= d) by (rewrite Ed; apply MON; fold y; lra).
  assert (Dx0 : x0 <= y) by (apply MON; fold x0; lra).
  assert (Dx1 : x1 <= y) by (apply MON; fold x1; lra).
  destruct C as (c & Hc & Bc). apply BIG in Bc. destruct Hc as [->|[->| ->]]; [fold x0 in Bc|fold x1 in Bc|fold x2 in Bc]; lra.
Qed.
