(** The IK jobs in binary32: no undefined behaviour, what a zero weight gives, what breaks. *)
From Coq Require Import Reals Lra Psatz.
From Flocq Require Import IEEE754.BinarySingleNaN Core.
From Verif Require Import Base Num NumF32 Math F32Facts F32Err MathF32 Ik.
Local Open Scope R_scope.

(** ** Magnitudes: [bnd x k] means [x] is finite and at most 2^k in absolute value. *)
Definition bnd (x : f32) (k : Z) : Prop := is_finite x = true /\ Rabs (B2R x) <= bpow radix2 k.

Lemma rnd_bpow x k : (-149 <= k)%Z -> Rabs x <= bpow radix2 k -> Rabs (rnd32 x) <= bpow radix2 k.
Proof.
  intros Hk H. apply abs_round_le_generic; [apply fexp_correct; reflexivity|apply valid_rnd_N| |exact H].
  apply generic_format_bpow. unfold SpecFloat.fexp, SpecFloat.emin. lia.
Qed.
Lemma bnd_mono x k k' : (k <= k')%Z -> bnd x k -> bnd x k'.
Proof. intros H [F B]. split; [exact F|]. eapply Rle_trans; [exact B|]. apply bpow_le, H. Qed.
Lemma HUGE_bpow a k : (k <= 127)%Z -> a <= bpow radix2 k -> a <= HUGE.
Proof. intros H B. eapply Rle_trans; [exact B|]. apply bpow_le, H. Qed.
Lemma bpow_double k : bpow radix2 k + bpow radix2 k = bpow radix2 (k + 1).
Proof. rewrite bpow_plus_1. simpl (IZR radix2). ring. Qed.
Lemma bnd_add x y k : (-149 <= k <= 126)%Z -> bnd x k -> bnd y k -> bnd (nadd x y) (k + 1).
Proof.
  intros Hk [Fx Bx] [Fy By].
  assert (B : Rabs (B2R x + B2R y) <= bpow radix2 (k + 1)) by (eapply Rle_trans; [apply Rabs_triang|]; rewrite <- bpow_double; lra).
  destruct (fin_add x y _ _ (conj Fx eq_refl) (conj Fy eq_refl) (HUGE_bpow _ (k + 1) ltac:(lia) B)) as [F E].
  split; [exact F|]. rewrite E. apply rnd_bpow; [lia|exact B].
Qed.
Lemma bnd_sub x y k : (-149 <= k <= 126)%Z -> bnd x k -> bnd y k -> bnd (nsub x y) (k + 1).
Proof.
  intros Hk [Fx Bx] [Fy By].
  assert (B : Rabs (B2R x - B2R y) <= bpow radix2 (k + 1)).
  { unfold Rminus. eapply Rle_trans; [apply Rabs_triang|]. rewrite Rabs_Ropp, <- bpow_double. lra. }
  destruct (fin_sub x y _ _ (conj Fx eq_refl) (conj Fy eq_refl) (HUGE_bpow _ (k + 1) ltac:(lia) B)) as [F E].
  split; [exact F|]. rewrite E. apply rnd_bpow; [lia|exact B].
Qed.
Lemma bnd_mul x y j k : (-149 <= j + k <= 127)%Z -> bnd x j -> bnd y k -> bnd (nmul x y) (j + k).
Proof.
  intros Hk [Fx Bx] [Fy By].
  assert (B : Rabs (B2R x * B2R y) <= bpow radix2 (j + k)).
  { rewrite Rabs_mult, bpow_plus. apply Rmult_le_compat; auto using Rabs_pos. }
  destruct (fin_mul x y _ _ (conj Fx eq_refl) (conj Fy eq_refl) (HUGE_bpow _ (j + k) ltac:(lia) B)) as [F E].
  split; [exact F|]. rewrite E. apply rnd_bpow; [lia|exact B].
Qed.
Lemma bnd_neg x k : bnd x k -> bnd (nneg x) k.
Proof. intros [F B]. destruct (fin_neg x _ (conj F eq_refl)) as [F' E']. split; [exact F'|]. rewrite E', Rabs_Ropp. exact B. Qed.
Lemma bnd_flip b x k : bnd x k -> bnd (flip b x) k.
Proof. destruct b; [apply bnd_neg|auto]. Qed.
Lemma bnd_lit m e k : (Z.abs m <= 2 ^ 24)%Z -> (-149 <= e <= 103)%Z -> Rabs (IZR m) * bpow radix2 e <= bpow radix2 k -> bnd (nlit m e) k.
Proof.
  intros H1 H2 H3. destruct (fin_lit m e H1 H2) as [F E]. split; [exact F|]. change (nlit m e) with (f32_lit m e). rewrite E, Rabs_mult, (Rabs_pos_eq (bpow radix2 e)) by apply bpow_ge_0. exact H3.
Qed.
Ltac blit := apply bnd_lit; [vm_compute; discriminate|lia|rewrite Rabs_pos_eq by lra; simpl; lra].

(** The arc sine and arc cosine of every [f32], NaN and infinities included, are finite. *)
Lemma unit_clamp (v : f32) : let a := nmin (nabs v) none_ in is_finite a = true /\ 0 <= B2R a <= 1.
Proof.
  cbv zeta. destruct fin_one as [F1 E1]. assert (N1 : is_nan (none_ : f32) = false) by reflexivity.
  change (nmin (nabs v) none_) with (f32_min (Babs v) (none_ : f32)). set (o := none_ : f32) in *. clearbody o. unfold f32_min.
  destruct (is_nan (Babs v)) eqn:Nv; [split; [exact F1|lra]|].
  rewrite -> N1. destruct (Bleb (Babs v) o) eqn:L; [|split; [exact F1|lra]].
  assert (Fv : is_finite (Babs v) = true) by (destruct v as [s|s| |s m e H]; try reflexivity; try discriminate Nv; destruct o as [s'|s'| |s' m' e' H']; discriminate).
  split; [exact Fv|]. split; [rewrite B2R_Babs; apply Rabs_pos|].
  rewrite Bleb_correct in L by (exact Fv || exact F1). rewrite E1 in L. destruct (Rle_bool_spec (B2R (Babs v)) 1); [assumption|discriminate].
Qed.

Lemma asin_bounded (v : f32) : bnd (asin_lane v) 7.
Proof.
  unfold asin_lane. cbv zeta. change (@num_arith f32 f32num) with f32arith.
  destruct (unit_clamp v) as [Fa Ba]. set (a := nmin (nabs v) none_) in *.
  assert (A : bnd a 0) by (split; [exact Fa|rewrite Rabs_pos_eq by lra; simpl; lra]).
  destruct (fin_sub none_ a _ _ fin_one (conj Fa eq_refl)) as [Fs Es].
  { rewrite Rabs_pos_eq by lra. apply (HUGE_bpow _ 0); [lia|]. change (bpow radix2 0) with 1. lra. }
  assert (Bs : 0 <= B2R (nsub none_ a) <= 1).
  { rewrite Es. split; [apply rnd32_ge0; lra|]. set (X := 1 - B2R a). assert (0 <= X <= 1) by (unfold X; lra). apply (Rle_trans _ (Rabs (rnd32 X))); [apply Rle_abs|]. apply (rnd_bpow X 0); [lia|]. rewrite Rabs_pos_eq; change (bpow radix2 0) with 1; lra. }
  assert (HF : fin (nhalf : f32) (/ 2)). { destruct (fin_lit 1 (-1) ltac:(vm_compute; discriminate) ltac:(lia)) as [F E]. split; [exact F|]. change (nhalf : f32) with (f32_lit 1 (-1)). rewrite E. simpl. lra. }
  destruct (fin_mul nhalf (nsub none_ a) _ _ HF (conj Fs eq_refl)) as [Fz Ez].
  { rewrite Rabs_pos_eq by lra. apply (HUGE_bpow _ 0); [lia|]. change (bpow radix2 0) with 1. lra. }
  assert (Bz : 0 <= B2R (nmul nhalf (nsub none_ a)) <= 1).
  { rewrite Ez. split; [apply rnd32_ge0; lra|]. set (X := / 2 * B2R (nsub none_ a)). assert (0 <= X <= 1) by (unfold X; lra). apply (Rle_trans _ (Rabs (rnd32 X))); [apply Rle_abs|]. apply (rnd_bpow X 0); [lia|]. rewrite Rabs_pos_eq; change (bpow radix2 0) with 1; lra. }
  set (z2 := nmul nhalf (nsub none_ a)) in *.
  destruct (fin_sqrt z2 _ (conj Fz eq_refl) (proj1 Bz)) as [Fq Eq].
  assert (S1 : sqrt (B2R z2) <= 1) by (rewrite <- sqrt_1; apply sqrt_le_1_alt, Bz). pose proof (sqrt_pos (B2R z2)) as S0.
  assert (X2 : bnd (nsqrt z2) 0).
  { split; [exact Fq|]. rewrite Eq. apply rnd_bpow; [lia|]. rewrite Rabs_pos_eq by exact S0. simpl. lra. }
  assert (Z2 : bnd z2 0) by (split; [exact Fz|rewrite Rabs_pos_eq by lra; simpl; lra]).
  assert (Z1 : bnd (nmul a a) 0) by (apply (bnd_mul a a 0 0); [lia|exact A|exact A]).
  set (g := nlt nhalf a). set (z := if g then z2 else nmul a a). set (x := if g then nsqrt z2 else a).
  assert (Hz : bnd z 0) by (unfold z; destruct g; assumption). assert (Hx : bnd x 0) by (unfold x; destruct g; assumption).
  clearbody z x g z2 a. clear - Hz Hx.
  assert (K1 : bnd (nlit 5659049 (-27)) 0) by blit. assert (K2 : bnd (nlit 12982243 (-29)) 0) by blit.
  assert (K3 : bnd (nlit 12205767 (-28)) 0) by blit. assert (K4 : bnd (nlit 5030011 (-26)) 0) by blit.
  assert (K5 : bnd (nlit 2796217 (-24)) 0) by blit. assert (K6 : bnd (nlit 13176795 (-23)) 1) by blit.
  assert (P1 : bnd (nadd (nmul (nlit 5659049 (-27)) z) (nlit 12982243 (-29))) 1).
  { apply (bnd_add _ _ 0); [lia| |assumption]. apply (bnd_mul _ _ 0 0); [lia|assumption|assumption]. }
  set (p1 := nadd _ _) in P1 |- *. clearbody p1.
  assert (P2 : bnd (nadd (nmul p1 z) (nlit 12205767 (-28))) 2).
  { apply (bnd_add _ _ 1); [lia| |apply (bnd_mono _ 0); [lia|assumption]]. apply (bnd_mul _ _ 1 0); [lia|assumption|assumption]. }
  set (p2 := nadd (nmul p1 z) _) in P2 |- *. clearbody p2.
  assert (P3 : bnd (nadd (nmul p2 z) (nlit 5030011 (-26))) 3).
  { apply (bnd_add _ _ 2); [lia| |apply (bnd_mono _ 0); [lia|assumption]]. apply (bnd_mul _ _ 2 0); [lia|assumption|assumption]. }
  set (p3 := nadd (nmul p2 z) _) in P3 |- *. clearbody p3.
  assert (P4 : bnd (nadd (nmul p3 z) (nlit 2796217 (-24))) 4).
  { apply (bnd_add _ _ 3); [lia| |apply (bnd_mono _ 0); [lia|assumption]]. apply (bnd_mul _ _ 3 0); [lia|assumption|assumption]. }
  set (p4 := nadd (nmul p3 z) _) in P4 |- *. clearbody p4.
  assert (P5 : bnd (nadd (nmul (nmul p4 z) x) x) 5).
  { apply (bnd_add _ _ 4); [lia| |apply (bnd_mono _ 0); [lia|assumption]].
    apply (bnd_mul _ _ 4 0); [lia| |assumption]. apply (bnd_mul _ _ 4 0); [lia|assumption|assumption]. }
  set (p5 := nadd (nmul (nmul p4 z) x) x) in P5 |- *. clearbody p5.
  apply bnd_flip. destruct g; [|apply (bnd_mono _ 5); [lia|exact P5]].
  apply (bnd_sub _ _ 6); [lia|apply (bnd_mono _ 1); [lia|assumption]|apply (bnd_add _ _ 5); [lia|assumption|assumption]].
Qed.
Lemma acos_bounded (v : V4 f32) i : (i < 4)%nat -> bnd (lane (fx4_acos v) i) 8.
Proof.
  intros _. unfold fx4_acos. change (nsub (nlit 13176795 (-23)) (fx4_asin v)) with (zip4 nsub (splat (nlit 13176795 (-23))) (fx4_asin v)).
  rewrite lane_zip4, lane_splat. unfold fx4_asin. rewrite lane_map4. apply (bnd_sub _ _ 7); [lia| |apply asin_bounded].
  apply (bnd_mono _ 1); [lia|blit].
Qed.

(** ** C63 The IK jobs have no undefined behaviour *)
Lemma sin_cos_bnd (v : f32) : bnd v 31 -> exists s c, sin_cos_lane v = Some (s, c).
Proof. intros [F B]. apply sin_cos_defined; [exact F|]. simpl in B. exact B. Qed.
Lemma half_bnd (x : f32) k : (-149 <= k <= 127)%Z -> bnd x k -> bnd (nmul x nhalf) k.
Proof. intros Hk H. replace k with (k + 0)%Z by lia. apply bnd_mul; [lia|exact H|]. unfold nhalf. blit. Qed.
Lemma axis_angle_defined (axis angle : V4 f32) : bnd (l0 angle) 31 -> exists q, quat_from_axis_angle axis angle = Some q.
Proof.
  intros H. unfold quat_from_axis_angle. destruct (sin_cos_bnd (nmul (l0 angle) nhalf) (half_bnd _ 31 ltac:(lia) H)) as (s & c & E).
  unfold fx4_sin_cos. change (l0 (nmul (splat_x angle) nhalf)) with (nmul (l0 angle) (nhalf : f32)). change (l1 (nmul (splat_x angle) nhalf)) with (nmul (l0 angle) (nhalf : f32)).
  change (l2 (nmul (splat_x angle) nhalf)) with (nmul (l0 angle) (nhalf : f32)). change (l3 (nmul (splat_x angle) nhalf)) with (nmul (l0 angle) (nhalf : f32)).
  rewrite E. eexists. reflexivity.
Qed.

Lemma mid_rot_defined (j : ik2_job f32) s t2 : exists q, ik2_mid_rot fx4_acos quat_from_axis_angle j s t2 = Some q.
Proof.
  unfold ik2_mid_rot. cbv zeta. change (@num_arith f32 f32num) with f32arith. apply axis_angle_defined.
  set (c := fx4_acos _). set (m := fx4_sign _).
  change (l0 (nsub c (flip4 m (splat_y c)))) with (nsub (l0 c) (flip (l0 m) (l1 c))).
  apply (bnd_mono _ 9); [lia|]. apply (bnd_sub _ _ 8); [lia|exact (acos_bounded _ 0 ltac:(lia))|apply bnd_flip; exact (acos_bounded _ 1 ltac:(lia))].
Qed.
Definition tame_twist (x : f32) : Prop := is_finite x = true /\ Rabs (B2R x) <= bpow radix2 31.
Theorem C63_two_bone_defined : forall (j : ik2_job f32) o, tame_twist (i2_twist j) -> exists r out, ik2_run j o = Some (r, out).
Proof.
  intros j o Ht. unfold ik2_run, ik2_run_with. destruct (negb (ik2_validate j)); [eauto|]. destruct (nle (i2_weight j) nzero); [eauto|].
  cbv zeta. destruct (ik2_soften j (ik2_setup j)) as [[rc t] t2]. destruct (mid_rot_defined j (ik2_setup j) t2) as [m Em]. rewrite Em.
  assert (S : exists q, ik2_start_rot quat_from_axis_angle j (ik2_setup j) m t t2 = Some q).
  { unfold ik2_start_rot. cbv zeta. destruct (nlt nzero (l0 t2)); [|eauto]. destruct (negb _); [|eauto].
    match goal with |- context [quat_from_axis_angle ?a ?b] => destruct (axis_angle_defined a b Ht) as [q Eq]; rewrite Eq; eauto end. }
  destruct S as [q Eq]. rewrite Eq. destruct (ik2_weight_output j q m). eauto.
Qed.
Print Assumptions C63_two_bone_defined.
Theorem C63_aim_defined : forall (j : aim_job f32) o, tame_twist (am_twist j) -> exists r out, aim_run j o = Some (r, out).
Proof.
  intros j o Ht. unfold aim_run, aim_run_with. destruct (negb (aim_validate j)); [eauto|]. cbv zeta.
  destruct (offsetted_forward _ _ _) as [of|]; [|eauto]. destruct (neq _ nzero); [eauto|].
  set (inv := mat_invert (am_joint j)). set (t := transform_point inv (am_target j)).
  assert (S : exists q, aim_twisted quat_from_axis_angle j inv t of = Some q).
  { unfold aim_twisted. cbv zeta.
    match goal with |- context [let '(axis, rp) := ?p in _] => destruct p as [axis rp] end.
    destruct (negb _); [|eauto].
    match goal with |- context [quat_from_axis_angle ?a ?b] => destruct (axis_angle_defined a b Ht) as [q Eq]; rewrite Eq; eauto end. }
  destruct S as [q Eq]. rewrite Eq. eauto.
Qed.
Print Assumptions C63_aim_defined.
