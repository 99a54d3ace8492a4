(** The softening of the two bone job in binary32: not applied within reach, and what the job reports. *)
From Coq Require Import ZArith Lia Reals Lra Psatz Bool.
From Flocq Require Import IEEE754.BinarySingleNaN Core.
From Verif Require Import Base Num NumF32 NumR F32Facts F32Err InterpF32 NormF32 BlendF32 BlendF32Proofs Math MathSpec MathProofs MotionF32 MotionF32Proofs QuatNorm
  Ik IkSpec IkProofs PolyErr MatInvF32 VecNorm TrigF32 TrigProps AimF32 AimParts AimSteps AimF32Spec AimF32Props MatSimF32 TwoBoneParts TwoBoneCos TwoBoneMid TwoBoneAngle TwoBoneSpec TwoBonePlaces.
Local Open Scope R_scope.

Lemma root_near x X y h : fin x X -> 0 < y -> p2 (-60) <= y <= p2 60 -> Rabs (X - y * y) <= h * y -> h <= y / 100 ->
  exists z, fin (nsqrt x) z /\ Rabs (z - y) <= 0.503 * h + 1.02 * eps * y.
Proof.
  intros F Y B E H. apply Rabs_le_inv in E as E'. assert (hy : h * y <= y / 100 * y) by (apply Rmult_le_compat_r; lra). assert (yy : 0 < y * y) by (apply Rmult_lt_0_compat; lra).
  assert (X0 : 0.99 * 0.99 * (y * y) <= X) by lra. exists (rnd32 (sqrt X)). split; [apply fin_sqrt; [exact F|lra]|].
  assert (S0 : 0.99 * y <= sqrt X).
  { replace (0.99 * y) with (sqrt (0.99 * y * (0.99 * y))) by (apply sqrt_square; lra). apply sqrt_le_1_alt. lra. }
  assert (SS : sqrt X * sqrt X = X) by (apply sqrt_sqrt; lra). set (s := sqrt X) in *.
  assert (K : Rabs (s - y) <= 0.503 * h).
  { apply Rmult_le_reg_r with (s + y); [lra|]. rewrite <- (Rabs_pos_eq (s + y)) at 1 by lra. rewrite <- Rabs_mult. replace ((s - y) * (s + y)) with (X - y * y) by (rewrite <- SS; ring).
    eapply Rle_trans; [exact E|]. assert (H0 : 0 <= h) by (apply Rmult_le_reg_r with y; [lra|]; pose proof (Rabs_pos (X - y * y)); lra).
    assert (h * (1.99 * y) <= h * (s + y)) by (apply Rmult_le_compat_l; lra). assert (0 <= h * y) by (apply Rmult_le_pos; lra). lra. }
  apply Rabs_le_inv in K. pose proof (rnd_err s) as R. rewrite (Rabs_pos_eq s) in R by lra. apply Rabs_le_inv in R.
  pose proof (tiny_rel (-100) y ltac:(lia)) as T. assert (TY : p2 (-100) <= y) by (eapply Rle_trans; [apply (bpow_le radix2 (-100) (-60)); lia|lra]). specialize (T TY).
  apply Rabs_le. unfold eps in *. lra.
Qed.
Lemma mul_zero_nlt (x z : f32) : fin z 0 -> nlt (nmul x nzero) z = false.
Proof.
  intros Fz. destruct x as [s|s| |s m p H]; try reflexivity; rewrite (nlt_dec _ _ 0 0); auto; try (destruct (Rlt_dec 0 0); [lra|reflexivity]); try (split; reflexivity).
Qed.
Section Form.
  Context {F : Type} {NF : Num F}.
  Lemma soften_form (j : ik2_job F) (s : setup F) :
    let orig := transform_point (s_inv_start s) (i2_target j) in
    let a := nsqrt (l0 (s_start_mid_len2 s)) in let b := nsqrt (l0 (s_mid_end_len2 s)) in let r := nsqrt (l0 (vec3_length2_s orig)) in
    let da := nmul (nadd a b) (nmin (nmax (i2_soften j) nzero) none_) in
    let far := nlt da r in let soft := nlt (nmul (nadd (nsqrt (l3 (s_start_mid_len2 s))) b) (nmin (nmax nzero nzero) none_)) (nsub (nadd a b) da) in
    far && soft = false -> ik2_soften j s = (nlt (nabs (nsub a b)) r && negb far, orig, vec3_length2_s orig).
  Proof.
    cbv zeta. intros H. unfold ik2_soften. set (orig := transform_point (s_inv_start s) (i2_target j)) in *. cbv zeta. clearbody orig.
    set (L := vec3_length2_s orig) in *. clearbody L. destruct s as [s0 s1 s2 s3 [A0 A1 A2 A3] [B0 B1 B2 B3] s6]. cbn [s_start_mid_len2 s_mid_end_len2] in *. destruct L as [L0 L1 L2 L3]. cbn [l0 l1 l2 l3] in H.
    match goal with |- (let '(_, _) := if ?b then _ else _ in _) = _ => replace b with false; [reflexivity|] end.
    symmetry. match type of H with ?p && ?q = false => match goal with |- _ && ?m && _ = false => change (p && m && q = false) end end.
    apply andb_false_iff in H. destruct H as [->| ->]; [reflexivity|]. apply andb_false_r.
  Qed.
End Form.
Section Soft.
  Context (j : ik2_job f32) (s1 s2 W e be : R) (A B t u v n : vec3 R) (G : bone_setting j s1 s2 W e be A B t u v n).
  Let S := ik2_setup j. Let a := len3 A. Let b := len3 B. Let l := Rmin a b. Let r := len3 t. Let c := len3 (plus3 A B).
  Lemma tb_t : l / 2 <= r <= 1048576.
  Proof using G. exact (ts_far _ _ _ _ _ _ _ _ _ _ _ _ G). Qed.
  Lemma lengths : exists A2 B2 T2 C2, fin (l0 (s_start_mid_len2 S)) A2 /\ fin (l0 (s_mid_end_len2 S)) B2 /\ fin (l0 (vec3_length2_s (transform_point (s_inv_start S) (i2_target j)))) T2 /\
    fin (l0 (s_start_end_len2 S)) C2 /\ Rabs (A2 - a * a) <= 1.94 * e * (a * l) /\ Rabs (B2 - b * b) <= 3.94 * e * (b * l) /\
    Rabs (T2 - r * r) <= e * (2.001 * (r * l) + 0.001 * (l * l) + 0.0062 * (r * r)) /\
    Rabs (C2 - c * c) <= e * (2.001 * (c * l) + 0.001 * (l * l) + 0.0062 * (c * c)).
  Proof using G.
    destruct (places _ _ _ _ _ _ _ _ _ _ _ _ G) as (A' & B' & C' & T' & u' & v' & FA & EA & FB & EB & FC & EC & FT & ET & _).
    destruct (tb_l _ _ _ _ _ _ _ _ _ _ _ _ G) as (LP & Ll & La & Lb & _). fold a b l in LP, Ll, La, Lb. fold a b l in EA, EB, EC, ET.
    pose proof (ts_bones _ _ _ _ _ _ _ _ _ _ _ _ G) as (H1 & H2 & _). fold a in H1. fold b in H2. pose proof tb_t as Ht.
    destruct (near_sq' _ _ _ _ _ _ _ _ _ _ _ _ G _ A' A 0.95 FA ltac:(fold a b l; lra) ltac:(lra) La ltac:(fold a; lra)) as (A2 & FA2 & EA2).
    destruct (near_sq' _ _ _ _ _ _ _ _ _ _ _ _ G _ B' B 1.95 FB ltac:(fold a b l; lra) ltac:(lra) Lb ltac:(fold b; lra)) as (B2 & FB2 & EB2).
    destruct (near_sq _ _ _ _ _ _ _ _ _ _ _ _ G _ T' t FT ET ltac:(fold r; lra)) as (T2 & FT2 & ET2).
    destruct (near_sq _ _ _ _ _ _ _ _ _ _ _ _ G _ C' (plus3 A B) FC EC) as (C2 & FC2 & EC2).
    { pose proof (len3_tri A B) as Q. fold a b in Q. lra. }
    fold a b l in EA2, EB2, ET2, EC2. fold r in ET2. fold c in EC2.
    exists A2, B2, T2, C2. repeat (split; [eassumption|]). split; [eapply Rle_trans; [exact EA2|lra]|]. split; [eapply Rle_trans; [exact EB2|lra]|]. split; assumption.
  Qed.
  Lemma roots : let orig := transform_point (s_inv_start S) (i2_target j) in
    exists a' b' r', fin (nsqrt (l0 (s_start_mid_len2 S))) a' /\ fin (nsqrt (l0 (s_mid_end_len2 S))) b' /\ fin (nsqrt (l0 (vec3_length2_s orig))) r' /\
      Rabs (a' - a) <= e * l /\ Rabs (b' - b) <= 2 * e * l /\ Rabs (r' - r) <= e * (1.01 * l + 0.006 * r).
  Proof using G.
    cbv zeta. destruct lengths as (A2 & B2 & T2 & _ & FA & FB & FT & _ & EA & EB & ET & _).
    destruct (tb_l _ _ _ _ _ _ _ _ _ _ _ _ G) as (LP & Ll & La & Lb & _). fold a b l in LP, Ll, La, Lb.
    pose proof (ts_bones _ _ _ _ _ _ _ _ _ _ _ _ G) as (H1 & H2 & _). fold a in H1. fold b in H2. pose proof tb_t as Ht.
    pose proof (ts_e _ _ _ _ _ _ _ _ _ _ _ _ G) as He. pose proof (eps_e e He) as Ee. assert (el : 0 < e * l <= / 2048 * l) by (split; [apply Rmult_lt_0_compat; lra|apply Rmult_le_compat_r; lra]).
    assert (PB : forall y, / 256 <= y <= 1048576 -> p2 (-60) <= y <= p2 60).
    { intros y Hy. split; [apply Rle_trans with (p2 (-8)); [apply bpow_le; lia|simpl; lra]|]. apply Rle_trans with (p2 20); [simpl; lra|apply bpow_le; lia]. }
    assert (er : 0 < e * r <= / 2048 * r) by (split; [apply Rmult_lt_0_compat; lra|apply Rmult_le_compat_r; lra]).
    destruct (root_near _ A2 a (1.94 * (e * l)) FA ltac:(lra) (PB a ltac:(lra)) ltac:(eapply Rle_trans; [exact EA|lra]) ltac:(lra)) as (a' & Fa & Ea).
    destruct (root_near _ B2 b (3.94 * (e * l)) FB ltac:(lra) (PB b ltac:(lra)) ltac:(eapply Rle_trans; [exact EB|lra]) ltac:(lra)) as (b' & Fb & Eb).
    destruct (root_near _ T2 r (2.003 * (e * l) + 0.0062 * (e * r)) FT ltac:(lra) (PB r ltac:(lra))) as (r' & Fr & Er).
    { eapply Rle_trans; [exact ET|]. assert (e * l * l <= e * l * (2 * r)) by (apply Rmult_le_compat_l; lra). lra. }
    { lra. }
    assert (EM : forall y, 0 <= y -> eps * y <= 0.002 * (e * y)) by (intros y Hy; rewrite <- Rmult_assoc; apply Rmult_le_compat_r; lra).
    pose proof (EM a ltac:(lra)). pose proof (EM b ltac:(lra)). pose proof (EM r ltac:(lra)).
    assert (e * a <= 4 * (e * l)) by (rewrite <- (Rmult_comm l), <- Rmult_assoc, (Rmult_comm e); apply Rmult_le_compat_r; lra).
    assert (e * b <= 4 * (e * l)) by (rewrite <- (Rmult_comm l), <- Rmult_assoc, (Rmult_comm e); apply Rmult_le_compat_r; lra).
    exists a', b', r'. repeat (split; [eassumption|]). repeat split; eapply Rle_trans; try eassumption; lra.
  Qed.
  (** Within reach, or without softening, the target is taken as it is. *)
  Let sf := Rmin (Rmax (B2R (i2_soften j)) 0) 1.
  Lemma soft_da : exists a' b' r' d', fin (nsqrt (l0 (s_start_mid_len2 S))) a' /\ fin (nsqrt (l0 (s_mid_end_len2 S))) b' /\ fin (nsqrt (l0 (vec3_length2_s (transform_point (s_inv_start S) (i2_target j))))) r' /\
      Rabs (a' - a) <= e * l /\ Rabs (b' - b) <= 2 * e * l /\ Rabs (r' - r) <= e * (1.01 * l + 0.006 * r) /\
      fin (nmul (nadd (nsqrt (l0 (s_start_mid_len2 S))) (nsqrt (l0 (s_mid_end_len2 S)))) (nmin (nmax (i2_soften j) nzero) none_)) d' /\ Rabs (d' - sf * (a + b)) <= 1.53 * (e * (sf * (a + b))) + 0.0001 * (e * r) /\
      exists ch, fin (nadd (nsqrt (l0 (s_start_mid_len2 S))) (nsqrt (l0 (s_mid_end_len2 S)))) ch /\ (sf = 1 -> d' = ch).
  Proof using G.
    destruct roots as (a' & b' & r' & Fa & Fb & Fr & Ea & Eb & Er). exists a', b', r'.
    destruct (tb_l _ _ _ _ _ _ _ _ _ _ _ _ G) as (LP & Ll & La & Lb & _). fold a b l in LP, Ll, La, Lb.
    pose proof (ts_bones _ _ _ _ _ _ _ _ _ _ _ _ G) as (H1 & H2 & _). fold a in H1. fold b in H2.
    pose proof (ts_e _ _ _ _ _ _ _ _ _ _ _ _ G) as He. pose proof (eps_e e He) as Ee. assert (el : 0 < e * l <= / 2048 * l) by (split; [apply Rmult_lt_0_compat; lra|apply Rmult_le_compat_r; lra]).
    destruct (ts_soften _ _ _ _ _ _ _ _ _ _ _ _ G) as (Ff & _). set (x := B2R (i2_soften j)) in *.
    assert (Fs : fin (nmin (nmax (i2_soften j) nzero) none_) sf) by (apply fin_min; [apply fin_max; [split; [exact Ff|reflexivity]|exact fin_zero]|exact fin_one]).
    assert (S1 : 0 <= sf <= 1) by (unfold sf, Rmin, Rmax; fold x; destruct (Rle_dec x 0), (Rle_dec _ 1); lra).
    apply Rabs_le_inv in Ea as Ea', Eb as Eb'.
    assert (HU : forall y, Rabs y <= 8388608 -> Rabs y <= HUGE) by (intros y Hy; apply (p2_le_HUGE 23); [lia|]; replace (p2 23) with 8388608 by (simpl; lra); exact Hy).
    pose proof (fin_add _ _ _ _ Fa Fb ltac:(apply HU, Rabs_le; lra)) as Fc. set (ch := rnd32 (a' + b')) in *.
    assert (TT : forall y, Rabs y <= 2.1 * (a + b) -> Rabs (rnd32 y - y) <= 0.005 * (e * (a + b))).
    { intros y Hy. pose proof (rnd_err y) as Q. pose proof (tiny_rel (-100) (a + b) ltac:(lia)) as T. assert (TY : p2 (-100) <= a + b) by (apply Rle_trans with (p2 (-7)); [apply bpow_le; lia|simpl; lra]). specialize (T TY).
      assert (eps * Rabs y <= eps * (2.1 * (a + b))) by (apply Rmult_le_compat_l; [unfold eps; lra|exact Hy]). assert (eps * (a + b) <= 0.002 * e * (a + b)) by (apply Rmult_le_compat_r; lra). assert (0 <= e * (a + b)) by (apply Rmult_le_pos; lra). lra. }
    pose proof (TT (a' + b') ltac:(apply Rabs_le; lra)) as Rc. fold ch in Rc. apply Rabs_le_inv in Rc.
    assert (eab : 2 * (e * l) <= e * (a + b)) by (replace (2 * (e * l)) with (e * (2 * l)) by ring; apply Rmult_le_compat_l; lra).
    assert (eab' : e * (a + b) <= / 2048 * (a + b)) by (apply Rmult_le_compat_r; lra).
    assert (Ec : Rabs (ch - (a + b)) <= 1.51 * (e * (a + b))) by (apply Rabs_le; lra). apply Rabs_le_inv in Ec as Ec'.
    assert (SA : 0 <= sf * (a + b) <= a + b) by (split; [apply Rmult_le_pos; lra|rewrite <- (Rmult_1_l (a + b)) at 2; apply Rmult_le_compat_r; lra]).
    assert (Sc : Rabs (ch * sf - sf * (a + b)) <= 1.51 * (e * (sf * (a + b)))).
    { replace (ch * sf - sf * (a + b)) with ((ch - (a + b)) * sf) by ring. rewrite Rabs_mult, (Rabs_pos_eq sf) by lra. apply Rle_trans with (1.51 * (e * (a + b)) * sf); [apply Rmult_le_compat_r; lra|lra]. }
    apply Rabs_le_inv in Sc. assert (es : 0 <= e * (sf * (a + b)) <= / 2048 * (sf * (a + b))) by (split; [apply Rmult_le_pos; lra|apply Rmult_le_compat_r; lra]).
    pose proof (fin_mul _ _ _ _ Fc Fs ltac:(apply HU, Rabs_le; lra)) as Fd.
    assert (Rd : Rabs (rnd32 (ch * sf) - ch * sf) <= 0.01 * (e * (sf * (a + b))) + 0.0001 * (e * r)).
    { pose proof (rnd_err (ch * sf)) as Q. pose proof tb_t as Ht. assert (T : tiny <= 0.0001 * (e * r)).
      { apply Rle_trans with (p2 (-45)); [unfold tiny; apply bpow_le; lia|]. replace (p2 (-45)) with (/ 35184372088832) by (simpl; lra). assert (/ 32768 * / 256 <= e * r) by (apply Rmult_le_compat; lra). lra. }
      assert (Rabs (ch * sf) <= 1.001 * (sf * (a + b))) by (apply Rabs_le; lra). assert (eps * Rabs (ch * sf) <= 0.002 * e * (1.001 * (sf * (a + b)))) by (apply Rmult_le_compat; [unfold eps; lra|apply Rabs_pos|lra|assumption]). lra. }
    apply Rabs_le_inv in Rd.
    exists (rnd32 (ch * sf)). repeat (split; [eassumption|]). split; [apply Rabs_le; lra|].
    exists ch. split; [exact Fc|]. intros ->. rewrite Rmult_1_r. unfold ch. apply round_generic; [typeclasses eauto|]. exact (fin_fmt _ _ Fc).
  Qed.
  Lemma soften_off : exists flag, ik2_soften j S = (flag, transform_point (s_inv_start S) (i2_target j), vec3_length2_s (transform_point (s_inv_start S) (i2_target j))) /\
    (Rabs (a - b) + 8 * e * (a + b) <= r -> (1 + 16 * e) * r <= sf * (a + b) -> flag = true) /\
    (r <= Rabs (a - b) - 8 * e * (a + b) \/ (sf + 8 * e) * (a + b) <= r -> flag = false).
  Proof using G.
    destruct soft_da as (a' & b' & r' & d' & Fa & Fb & Fr & Ea & Eb & Er & Fd & Ed & ch & Fc & Ech).
    destruct (tb_l _ _ _ _ _ _ _ _ _ _ _ _ G) as (LP & Ll & La & Lb & _). fold a b l in LP, Ll, La, Lb.
    pose proof (ts_bones _ _ _ _ _ _ _ _ _ _ _ _ G) as (H1 & H2 & _). fold a in H1. fold b in H2. pose proof tb_t as Ht.
    pose proof (ts_e _ _ _ _ _ _ _ _ _ _ _ _ G) as He. pose proof (eps_e e He) as Ee. assert (el : 0 < e * l <= / 2048 * l) by (split; [apply Rmult_lt_0_compat; lra|apply Rmult_le_compat_r; lra]).
    assert (er : 0 < e * r <= / 2048 * r) by (split; [apply Rmult_lt_0_compat; lra|apply Rmult_le_compat_r; lra]).
    assert (elr : e * l <= 2 * (e * r)) by (replace (2 * (e * r)) with (e * (2 * r)) by ring; apply Rmult_le_compat_l; lra).
    assert (eab : 2 * (e * l) <= e * (a + b)) by (replace (2 * (e * l)) with (e * (2 * l)) by ring; apply Rmult_le_compat_l; lra).
    pose proof (soften_form j S) as SF. cbv zeta in SF. change (@num_arith f32 f32num) with f32arith in *. rewrite (nlt_dec _ _ _ _ Fd Fr) in SF.
    apply Rabs_le_inv in Ea, Eb, Er, Ed.
    assert (S1 : 0 <= sf <= 1) by (unfold sf, Rmin, Rmax; destruct (Rle_dec (B2R (i2_soften j)) 0), (Rle_dec _ 1); lra).
    assert (SA : 0 <= sf * (a + b) <= a + b) by (split; [apply Rmult_le_pos; lra|rewrite <- (Rmult_1_l (a + b)) at 2; apply Rmult_le_compat_r; lra]).
    set (q := sf * (a + b)) in *. assert (eq : 0 <= e * q <= / 2048 * q) by (split; [apply Rmult_le_pos; lra|apply Rmult_le_compat_r; lra]).
    assert (NF : (1 + 16 * e) * r <= q -> ~ d' < r').
    { intros Q. assert (Q2 : (1 + 16 * e) * r * (1 - 1.53 * e) <= q * (1 - 1.53 * e)) by (apply Rmult_le_compat_r; lra).
      assert (e * (e * r) <= / 2048 * (e * r)) by (apply Rmult_le_compat_r; lra). lra. }
    assert (AB : Rabs (a - b) <= a + b) by (apply Rabs_le; lra).
    assert (eab' : 0 < e * (a + b) <= / 2048 * (a + b)) by (split; [apply Rmult_lt_0_compat; lra|apply Rmult_le_compat_r; lra]).
    assert (FX : fin (nabs (nsub (nsqrt (l0 (s_start_mid_len2 S))) (nsqrt (l0 (s_mid_end_len2 S))))) (Rabs (rnd32 (a' - b'))) /\ Rabs (Rabs (rnd32 (a' - b')) - Rabs (a - b)) <= 1.51 * (e * (a + b))).
    { assert (Y : Rabs (a' - b') <= 2.1 * (a + b)) by (apply Rabs_le; lra). split.
      - apply fin_abs, fin_sub; auto. apply (p2_le_HUGE 23); [lia|]; replace (p2 23) with 8388608 by (simpl; lra); lra.
      - pose proof (rnd_err (a' - b')) as Q. pose proof (tiny_rel (-100) (a + b) ltac:(lia)) as T. assert (TY : p2 (-100) <= a + b) by (apply Rle_trans with (p2 (-7)); [apply bpow_le; lia|simpl; lra]). specialize (T TY).
        assert (eps * Rabs (a' - b') <= 0.002 * e * (2.1 * (a + b))) by (apply Rmult_le_compat; [unfold eps; lra|apply Rabs_pos|lra|exact Y]).
        assert (eps * (a + b) <= 0.002 * e * (a + b)) by (apply Rmult_le_compat_r; lra). set (w := rnd32 (a' - b')) in *.
        eapply Rle_trans; [apply Rabs_triang_inv2|]. apply Rabs_le_inv in Q. apply Rabs_le. lra. }
    destruct FX as (FX & EX). apply Rabs_le_inv in EX. rewrite (nlt_dec _ _ _ _ FX Fr) in SF. eexists. split; [apply SF|split].
    - destruct (Rle_lt_dec 1 (B2R (i2_soften j))) as [H|X].
      + apply andb_false_iff. right. replace (nmin (nmax nzero nzero) none_) with (nzero : f32) by reflexivity. apply mul_zero_nlt.
        assert (sf = 1) by (unfold sf, Rmin, Rmax; destruct (Rle_dec (B2R (i2_soften j)) 0), (Rle_dec _ 1); lra). rewrite (Ech H0) in Fd.
        pose proof (fin_sub _ _ _ _ Fc Fd) as Z. replace (ch - ch) with 0 in Z by ring. rewrite rnd32_0 in Z. apply Z. rewrite Rabs_R0. apply Rlt_le, bpow_gt_0.
      + destruct (ts_soften _ _ _ _ _ _ _ _ _ _ _ _ G) as (_ & [H|H]); [lra|]. destruct (Rlt_dec d' r') as [Q|Q]; [|reflexivity]. exfalso. revert Q. apply NF. unfold q.
        assert (B0 : 0 <= B2R (i2_soften j)). { apply Rnot_lt_le. intros N. assert (B2R (i2_soften j) * (a + b) <= 0) by (rewrite <- (Rmult_0_l (a + b)); apply Rmult_le_compat_r; lra). fold a b r in H. assert (0 < (1 + 16 * e) * r) by (apply Rmult_lt_0_compat; lra). lra. }
        replace sf with (B2R (i2_soften j)); [exact H|]. unfold sf. rewrite Rmax_left by lra. rewrite Rmin_left by lra. reflexivity.
    - intros H3 H4. specialize (NF H4). destruct (Rlt_dec d' r') as [Q|_]; [contradiction|]. assert (er' : e * r <= e * (a + b)) by (apply Rmult_le_compat_l; lra).
      destruct (Rlt_dec (Rabs (rnd32 (a' - b'))) r') as [_|Q]; [reflexivity|exfalso; apply Q; lra].
    - intros [H3|H3].
      + assert (er' : e * r <= e * (a + b)) by (apply Rmult_le_compat_l; lra). destruct (Rlt_dec (Rabs (rnd32 (a' - b'))) r') as [Q|_]; [exfalso; lra|reflexivity].
      + destruct (Rlt_dec d' r') as [_|Q]; [apply andb_false_r|exfalso; apply Q]. replace ((sf + 8 * e) * (a + b)) with (q + 8 * (e * (a + b))) in H3 by (unfold q; ring).
        assert (e * q <= e * (a + b)) by (apply Rmult_le_compat_l; lra). assert ((q + 8 * (e * (a + b))) * (1 - 0.007 * e) <= r * (1 - 0.007 * e)) by (apply Rmult_le_compat_r; lra).
        assert (e * (e * (a + b)) <= / 2048 * (e * (a + b))) by (apply Rmult_le_compat_r; lra). lra.
  Qed.
End Soft.
