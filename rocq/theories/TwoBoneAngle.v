(** The angles of the two bone job in binary32, and the rotation of the mid joint. *)
From Coq Require Import ZArith Lia Reals Lra Psatz.
From Flocq Require Import IEEE754.BinarySingleNaN Core.
From Verif Require Import Base Num NumF32 NumR F32Facts F32Err InterpF32 NormF32 BlendF32 BlendF32Proofs Math MathSpec MathProofs MotionF32 MotionF32Proofs QuatNorm
  Ik IkSpec IkProofs PolyErr MatInvF32 VecNorm TrigModel TrigReal TrigF32 TrigProps AimF32 AimParts AimSteps AdditiveF32 MatSimF32 TwoBoneCos TwoBoneMid BlendingSpec.
Local Open Scope R_scope.

Lemma fin_min x y a b : fin x a -> fin y b -> fin (nmin x y) (Rmin a b).
Proof.
  intros (Fx & Ex) (Fy & Ey). change (@nmin f32 _ x y) with (f32_min x y). unfold f32_min.
  assert (Nx : is_nan x = false) by (destruct x; auto; discriminate). assert (Ny : is_nan y = false) by (destruct y; auto; discriminate).
  rewrite Nx, Ny, Bleb_ext by assumption. rewrite !ext_finite, Ex, Ey by assumption.
  destruct (Rle_bool_spec a b).
  - rewrite Rmin_left by assumption. split; assumption.
  - rewrite Rmin_right by lra. split; assumption.
Qed.
Lemma fin_clamp1 x c : fin x c -> fin (nmin (nmax x nmone) none_) (clampR (-1) 1 c).
Proof.
  intros F. rewrite <- nmin_max_R by lra. apply fin_min; [|exact fin_one]. apply fin_max; [exact F|exact fin_mone].
Qed.
Lemma acos_lane (x : f32) c : fin x c -> -1 <= c <= 1 -> exists a, fin (f32_acos x) a /\ Rabs (a - acos c) <= / 2 ^ 21.
Proof.
  intros (Fc & Ec) Hc. assert (NN : is_nan x = false) by (destruct x; try discriminate; reflexivity).
  destruct (C87_acos x NN) as (Fa & Ea).
  assert (CL : clamped x = c).
  { assert (CC : clamped x = clamp1 c) by (rewrite <- Ec; destruct x; try discriminate; reflexivity). rewrite CC. apply (clampR_id (-1) 1 c Hc). }
  rewrite CL in Ea. exists (B2R (f32_acos x)). split; [split; [exact Fa|reflexivity]|exact Ea].
Qed.
(** The mid joint's rotation as a formula on numbers. *)
Section Form.
  Context {F : Type} {NF : Num F}.
  Definition half_of (fa fb : F) : F := nmul nhalf (nrecip (nsqrt (nmul fa fb))).
  Definition cos_of (fa fb ft : F) : F := nmin (nmax (nmul (nsub (nadd fa fb) ft) (half_of fa fb)) nmone) none_.
  Definition angle_of (fa fb ft fc : F) (b : bool) : F := nsub (f32_acos (cos_of fa fb ft)) (flip b (f32_acos (cos_of fa fb fc))).
  Lemma mid_rot_form (aa : V4 F -> V4 F -> option (V4 F)) (j : ik2_job F) (s : setup F) (t2 : V4 F) : exists d, ik2_mid_rot fx4_acos aa j s t2 = aa (i2_mid_axis j) d /\
    l0 d = angle_of (l0 (s_start_mid_len2 s)) (l0 (s_mid_end_len2 s)) (l0 t2) (l0 (s_start_end_len2 s)) (nlt (l0 (vec3_dot_s (vec3_cross (s_start_mid_ms s) (i2_mid_axis j)) (s_mid_end_ms s))) nzero).
  Proof. eexists. split; [reflexivity|]. reflexivity. Qed.
End Form.
Lemma acos_range c : -1 <= c <= 1 -> 0 <= acos c <= 3.1416 /\ cos (acos c) = c /\ 0 <= sin (acos c).
Proof.
  intros H. pose proof (acos_bound c) as B. pose proof PI_bounds as P. split; [lra|]. split; [apply cos_acos; exact H|]. apply sin_ge_0; lra.
Qed.
Lemma angle_err (fa fb ft fc : f32) (b : bool) A2 B2 T2 C2 a a' r c l e : fin fa A2 -> fin fb B2 -> fin ft T2 -> fin fc C2 -> unit_of e ->
  / 512 <= a <= 4194304 -> / 512 <= a' <= 4194304 -> 0 <= r <= 4194304 -> 0 <= c <= 4194304 -> 0 < l -> l <= a -> l <= a' -> a <= 4 * a' -> a' <= 4 * a ->
  Rabs (A2 - a * a) <= 2.05 * e * (a * l) -> Rabs (B2 - a' * a') <= 4.06 * e * (a' * l) ->
  Rabs (T2 - r * r) <= e * (2.001 * (r * l) + 0.001 * (l * l) + 0.0062 * (r * r)) ->
  Rabs (C2 - c * c) <= e * (2.001 * (c * l) + 0.001 * (l * l) + 0.0062 * (c * c)) ->
  exists ph i0 de, fin (angle_of fa fb ft fc b) de /\ Rabs (cos ph - clampR (-1) 1 (bones_cos a a' r)) <= 15 * e /\
    Rabs (cos i0 - clampR (-1) 1 (bones_cos a a' c)) <= 15 * e /\ 0 <= sin i0 /\ Rabs (de - (ph - (if b then - i0 else i0))) <= 0.05 * e /\ Rabs de <= 7.
Proof.
  intros Fa Fb Ft Fc He Ha Hb Hr Hc l0 la lb ab ba HA HB HT HC. pose proof He as He'. unfold unit_of in He'.
  destruct (cos_err fa fb ft A2 B2 T2 a a' r l e Fa Fb Ft He Ha Hb Hr l0 la lb ab ba HA HB HT) as (c1 & F1 & E1).
  destruct (cos_err fa fb fc A2 B2 C2 a a' c l e Fa Fb Fc He Ha Hb Hc l0 la lb ab ba HA HB HC) as (c0 & F0 & E0).
  apply fin_clamp1 in F1, F0. change (fin (cos_of fa fb ft) (clampR (-1) 1 c1)) in F1. change (fin (cos_of fa fb fc) (clampR (-1) 1 c0)) in F0.
  pose proof (clampR_bounds (-1) 1 c1 ltac:(lra)) as B1. pose proof (clampR_bounds (-1) 1 c0 ltac:(lra)) as B0.
  set (k1 := clampR (-1) 1 c1) in *. set (k0 := clampR (-1) 1 c0) in *.
  destruct (acos_lane _ _ F1 B1) as (p1 & Fp1 & Ep1). destruct (acos_lane _ _ F0 B0) as (p0 & Fp0 & Ep0).
  destruct (acos_range k1 B1) as (R1 & C1 & S1). destruct (acos_range k0 B0) as (R0 & C0 & S0).
  pose proof (flip_fin b _ _ Fp0) as Ff.
  assert (P21 : / 2 ^ 21 <= 0.0157 * e) by (simpl; lra). apply Rabs_le_inv in Ep1, Ep0.
  set (y := if b then - p0 else p0) in *. assert (DB : Rabs (p1 - y) <= 6.4) by (unfold y; apply Rabs_le; destruct b; lra).
  exists (acos k1), (acos k0), (rnd32 (p1 - y)).
  pose proof (rnd_small (p1 - y) 6.4 e He ltac:(assert (p2 (-100) <= 1) by (apply (bpow_le radix2 (-100) 0); lia); lra) DB) as RS. apply Rabs_le_inv in RS.
  split; [apply fin_sub; auto; apply (p2_le_HUGE 3); [lia|]; replace (p2 3) with 8 by (simpl; lra); lra|].
  rewrite C1, C0. split; [exact E1|]. split; [exact E0|]. split; [exact S0|]. split; [|apply Rabs_le; apply Rabs_le_inv in DB; lra].
  apply Rabs_le. unfold y in *. destruct b; lra.
Qed.
(** The rotation about a nearly unit axis. *)
Lemma axis_turn (axis angle : V4 f32) n de : fin4 axis n -> Rabs (dot3 n n - 1) <= 0.001 -> fin (l0 angle) de -> Rabs de <= 16384 ->
  exists q r, quat_from_axis_angle axis angle = Some q /\ fq q r /\ qn (qsub r (qaxis n (sin (de / 2)) (cos (de / 2)))) <= 8 * eps.
Proof.
  intros (F0 & F1 & F2) Hn (Fd & <-) Hd.
  assert (NB : within3 1.01 n).
  { apply Rabs_le_inv in Hn. assert (L : len3 n <= 1.01) by (apply len3_of_sq; lra). destruct (len3_comp n) as (N0 & N1 & N2). unfold within3. lra. }
  destruct NB as (N0 & N1 & N2). destruct F0 as (F0 & V0), F1 as (F1 & V1), F2 as (F2 & V2).
  destruct (C87_axis_angle axis angle) as (q & Eq & L3 & L4).
  - intros k Hk. destruct k as [|[|[|]]]; [| | |lia]; cbn [lane]; (split; [assumption|]); [rewrite V0|rewrite V1|rewrite V2]; assumption.
  - exact Fd.
  - exact Hd.
  - change (lane angle 0) with (l0 angle) in *. set (h := B2R (l0 angle) / 2) in *.
    destruct (L3 0%nat ltac:(lia)) as (G0 & H0). destruct (L3 1%nat ltac:(lia)) as (G1 & H1). destruct (L3 2%nat ltac:(lia)) as (G2 & H2). destruct L4 as (G3 & H3).
    cbn [lane] in *. rewrite V0 in H0. rewrite V1 in H1. rewrite V2 in H2.
    exists q, (Q4 (B2R (l0 q)) (B2R (l1 q)) (B2R (l2 q)) (B2R (l3 q))).
    split; [exact Eq|]. split; [repeat split; assumption|]. replace (8 * eps) with (2 * (4 * eps)) by ring.
    assert (P22 : / 2 ^ 22 = 4 * eps) by (unfold eps; lra). rewrite P22 in *.
    apply qn_le; [unfold eps; lra| | | |]; unfold qsub, qadd, qscale, qaxis; cbn [qx qy qz qw].
    + replace (_ + _) with (B2R (l0 q) - vx n * sin h) by ring. exact H0.
    + replace (_ + _) with (B2R (l1 q) - vy n * sin h) by ring. exact H1.
    + replace (_ + _) with (B2R (l2 q) - vz n * sin h) by ring. exact H2.
    + replace (_ + _) with (B2R (l3 q) - cos h) by ring. exact H3.
Qed.
