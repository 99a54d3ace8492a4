(** The matrix of a scaled joint, and one row of a matrix product. *)
From Coq Require Import Reals Lra Lia Psatz.
From Flocq Require Import Core.Core IEEE754.BinarySingleNaN.
From Verif Require Import Base Num NumF32 Math KeysSpec F32Facts F32Err InterpF32 NormF32 BlendF32 BlendF32Props RigidSpec RigidF32 RigidRow ScaleSpec.
Local Open Scope R_scope.

Lemma p2_40 : p2 (-40) = / 2 ^ 40 /\ p2 40 = 2 ^ 40.
Proof. split; [change (-40)%Z with (- (40))%Z; rewrite bpow_opp; f_equal; simpl; lra|simpl; lra]. Qed.
Lemma p2_60 : p2 (-60) = / 2 ^ 60 /\ p2 60 = 2 ^ 60.
Proof. split; [change (-60)%Z with (- (60))%Z; rewrite bpow_opp; f_equal; simpl; lra|simpl; lra]. Qed.
Lemma tiny_size x : p2 (-60) <= x -> 1000000 * tiny <= eps * x.
Proof.
  intros H. assert (T1 : tiny = p2 (-90) * p2 (-60)) by (unfold tiny; rewrite <- bpow_plus; reflexivity).
  assert (T2 : 1000000 * p2 (-90) <= eps) by (apply Rle_trans with (1000000 * p2 (-50)); [apply Rmult_le_compat_l; [lra|apply bpow_le; lia]|unfold eps; simpl; lra]).
  pose proof (p2_pos (-60)). pose proof (p2_pos (-90)).
  apply Rle_trans with (eps * p2 (-60)); [|apply Rmult_le_compat_l; [unfold eps; lra|exact H]]. rewrite T1, <- Rmult_assoc. apply Rmult_le_compat_r; lra.
Qed.
Lemma p2_huge x : x <= p2 100 -> 8 * x <= HUGE.
Proof.
  intros H. assert (E : p2 103 = 8 * p2 100) by (change 103%Z with (3 + 100)%Z; rewrite bpow_plus; reflexivity).
  assert (p2 103 <= HUGE) by (apply bpow_le; lia). lra.
Qed.

(** ** Multiplying by a scale *)
Section Scale.
  Variables (s : f32) (S sz : R).
  Hypotheses (Fs : fin s S) (HS : Rabs S <= sz) (Hz : p2 (-40) <= sz <= p2 40).
  Lemma sz_facts : 0 < sz /\ 1000000 * tiny <= eps * sz /\ 8 * sz <= HUGE.
  Proof using Hz.
    assert (p2 (-60) <= p2 (-40)) by (apply bpow_le; lia). assert (p2 40 <= p2 100) by (apply bpow_le; lia). pose proof (p2_pos (-40)).
    split; [lra|]. split; [apply tiny_size; lra|apply p2_huge; lra].
  Qed.
  Lemma scale_near y v f V : near y v f -> Rabs v <= V -> 0 <= f -> V + f <= 3 -> near (nmul s y) (S * v) (sz * f + eps * (sz * (V + f)) + eps * sz / 1000).
  Proof using Fs HS Hz.
    intros (r & Fr & Hr) HV Hf HB. destruct sz_facts as (P & T & B).
    assert (Br : Rabs r <= V + f) by (replace r with (v + (r - v)) by ring; eapply Rle_trans; [apply Rabs_triang|lra]).
    assert (Brs : Rabs (S * r) <= sz * (V + f)) by (rewrite Rabs_mult; apply Rmult_le_compat; auto using Rabs_pos).
    assert (V0 : 0 <= V) by (pose proof (Rabs_pos v); lra).
    assert (sz * (V + f) <= sz * 3) by (apply Rmult_le_compat_l; lra).
    exists (rnd32 (S * r)). split; [apply fin_mul; auto; lra|]. pose proof (rnd_close _ _ Brs) as C.
    replace (rnd32 (S * r) - S * v) with ((rnd32 (S * r) - S * r) + S * (r - v)) by ring.
    eapply Rle_trans; [apply Rabs_triang|]. assert (Rabs (S * (r - v)) <= sz * f) by (rewrite Rabs_mult; apply Rmult_le_compat; auto using Rabs_pos). pose proof (tiny_pos). lra.
  Qed.
  Lemma scale_twice y v f V : near y v f -> Rabs v <= V -> 0 <= f -> V + f <= 1 -> near (nmul (nmul s ntwo) y) (S * (2 * v)) (2 * (sz * f) + 4.2 * eps * (sz * (V + f)) + eps * sz / 100).
  Proof using Fs HS Hz.
    intros (r & Fr & Hr) HV Hf HB. destruct sz_facts as (P & T & B).
    assert (B2 : Rabs (S * 2) <= 2 * sz) by (rewrite Rabs_mult, (Rabs_pos_eq 2) by lra; lra).
    pose proof (fin_mul s ntwo S 2 Fs fin_two ltac:(lra)) as F2. pose proof (rnd_close _ _ B2) as C2. set (s2 := rnd32 (S * 2)) in *.
    assert (BS : Rabs s2 <= 2.01 * sz).
    { replace s2 with (S * 2 + (s2 - S * 2)) by ring. eapply Rle_trans; [apply Rabs_triang|]. unfold eps in *. lra. }
    assert (Br : Rabs r <= V + f) by (replace r with (v + (r - v)) by ring; eapply Rle_trans; [apply Rabs_triang|lra]).
    assert (V0 : 0 <= V) by (pose proof (Rabs_pos v); lra).
    assert (Brs : Rabs (s2 * r) <= 2.01 * sz * (V + f)) by (rewrite Rabs_mult; apply Rmult_le_compat; auto using Rabs_pos).
    assert (sz * (V + f) <= sz * 1) by (apply Rmult_le_compat_l; lra). assert (N : 0 <= sz * (V + f)) by (apply Rmult_le_pos; lra).
    exists (rnd32 (s2 * r)). split; [apply fin_mul; auto; lra|]. pose proof (rnd_close _ _ Brs) as C.
    replace (rnd32 (s2 * r) - S * (2 * v)) with ((rnd32 (s2 * r) - s2 * r) + ((s2 - S * 2) * r + S * (2 * (r - v)))) by ring.
    eapply Rle_trans; [apply Rabs_triang|]. assert (A1 : Rabs (S * (2 * (r - v))) <= sz * (2 * f)) by (rewrite Rabs_mult; apply Rmult_le_compat; auto using Rabs_pos; rewrite Rabs_mult, (Rabs_pos_eq 2) by lra; lra).
    assert (A2 : Rabs ((s2 - S * 2) * r) <= (eps * (2 * sz) + tiny) * (V + f)) by (rewrite Rabs_mult; apply Rmult_le_compat; auto using Rabs_pos).
    assert (A3 : tiny * (V + f) <= tiny * 1) by (apply Rmult_le_compat_l; pose proof tiny_pos; lra).
    pose proof (Rabs_triang ((s2 - S * 2) * r) (S * (2 * (r - v)))) as A4. pose proof tiny_pos. assert (0 <= eps * (sz * (V + f))) by (apply Rmult_le_pos; [unfold eps; lra|exact N]). lra.
  Qed.
End Scale.

(** ** The matrix of one joint *)
Lemma scaled_entry e sz t r c : / 1048576 <= e <= / 100 -> sound_joint e sz t -> p2 (-40) <= sz <= p2 40 -> (r < 3)%nat -> (c < 3)%nat ->
  near (entry (matrix_of t) r c) (turn_of (joint_map t) r c) (4.2 * e * sz).
Proof.
  intros He (_ & Fq & (F0 & F1 & F2) & Hn & HS) Hz Hr Hc. unfold sumsq in Hn.
  pose proof (HS 0%nat) as H0. pose proof (HS 1%nat) as H1. pose proof (HS 2%nat) as H2. clear HS.
  destruct t as [tt [x y z w] [s0 s1 s2]]. unfold at3 in H0, H1, H2. cbn [tr_r tr_s qx qy qz qw vx vy vz] in *.
  pose proof (conj (Fq 0%nat) eq_refl : fin x (B2R x)) as Fx. pose proof (conj (Fq 1%nat) eq_refl : fin y (B2R y)) as Fy.
  pose proof (conj (Fq 2%nat) eq_refl : fin z (B2R z)) as Fz. pose proof (conj (Fq 3%nat) eq_refl : fin w (B2R w)) as Fw.
  pose proof (conj F0 eq_refl : fin s0 (B2R s0)) as G0. pose proof (conj F1 eq_refl : fin s1 (B2R s1)) as G1. pose proof (conj F2 eq_refl : fin s2 (B2R s2)) as G2.
  unfold joint_map, rotation, matrix_of, from_affine, entry, at3. cbn [turn_of tr_r tr_s qx qy qz qw vx vy vz].
  set (X := B2R x) in *. set (Y := B2R y) in *. set (Z := B2R z) in *. set (W := B2R w) in *.
  set (S0 := B2R s0) in *. set (S1 := B2R s1) in *. set (S2 := B2R s2) in *. clearbody X Y Z W S0 S1 S2.
  assert (PX : 0 <= X * X) by nra. assert (PY : 0 <= Y * Y) by nra. assert (PZ : 0 <= Z * Z) by nra. assert (PW : 0 <= W * W) by nra.
  set (n := X * X + Y * Y + Z * Z + W * W) in *.
  assert (LX : X * X <= n) by (unfold n; lra). assert (LY : Y * Y <= n) by (unfold n; lra).
  assert (LZ : Z * Z <= n) by (unfold n; lra). assert (LW : W * W <= n) by (unfold n; lra).
  assert (C1 : forall A B C D, A * A + B * B + C * C + D * D = n -> Rabs (A * B + C * D) <= n / 2 /\ Rabs (A * B - C * D) <= n / 2).
  { intros A B C D E.
    pose proof (Rle_0_sqr (A + B)) as P1. pose proof (Rle_0_sqr (A - B)) as P2. pose proof (Rle_0_sqr (C + D)) as P3. pose proof (Rle_0_sqr (C - D)) as P4.
    unfold Rsqr in *. split; apply Rabs_le; lra. }
  assert (EE : 16 * eps <= e) by (unfold eps; lra). pose proof tiny_eps as TE.
  destruct (sz_facts sz Hz) as (Sz0 & _). assert (ESZ : 16 * eps * sz <= e * sz) by (apply Rmult_le_compat_r; lra). assert (EP : 0 < eps * sz) by (apply Rmult_lt_0_compat; [unfold eps; lra|exact Sz0]).
  pose proof Hn as Hn'. apply Rabs_le_inv in Hn'. assert (N0 : 0 < n) by lra. assert (N1 : n <> 0) by lra. assert (I0 : 0 < / n) by (apply Rinv_0_lt_compat, N0).
  assert (PN : forall a b A B, fin a A -> fin b B -> A * A <= n -> B * B <= n -> near (nmul a b) (A * B) (1.03 * eps)).
  { intros. eapply (prod_near X Y Z W e); eassumption. }
  (* against the exact rotation: S a, where a is off by [2 k e] with |k| <= 1 *)
  assert (FIN : forall u S v v', near u (S * v) (16 * eps * sz) -> Rabs S <= sz -> Rabs (v - v') <= 3.1 * e -> near u (v' * S) (4.2 * e * sz)).
  { intros u S v v' N HS D. eapply near_le; [eapply near_shift; [exact N|]|].
    - replace (S * v - v' * S) with (S * (v - v')) by ring. rewrite Rabs_mult. apply Rmult_le_compat; [apply Rabs_pos|apply Rabs_pos|exact HS|exact D].
    - lra. }
  assert (DG : forall s S a b A B, fin s S -> Rabs S <= sz -> fin a A -> fin b B -> A * A + B * B <= n -> 0 <= A * A -> 0 <= B * B ->
     near (nmul s (nsub none_ (nmul ntwo (nadd (nmul a a) (nmul b b))))) ((1 - 2 * (A * A + B * B) / n) * S) (4.2 * e * sz)).
  { intros s S a b A B Fs HS Fa Fb HAB HA HB. apply (FIN _ S (1 - 2 * (A * A + B * B))); [|exact HS|].
    - assert (NA : near (nadd (nmul a a) (nmul b b)) (A * A + B * B) (3.1 * eps)).
      { eapply near_le; [apply (near_add _ _ _ _ _ _ 1.01 (PN a a A A Fa Fa ltac:(lra) ltac:(lra)) (PN b b B B Fb Fb ltac:(lra) ltac:(lra)))|]; [apply Rabs_le; lra|unfold eps; lra|unfold eps in *; lra]. }
      assert (NB : near (nmul ntwo (nadd (nmul a a) (nmul b b))) (2 * (A * A + B * B)) (8.3 * eps)).
      { eapply near_le; [apply (near_mul _ _ 2 _ 0 _ 2 1.01 (near_fin _ _ fin_two) NA)|]; try (apply Rabs_le); unfold eps in *; lra. }
      assert (NC : near (nsub none_ (nmul ntwo (nadd (nmul a a) (nmul b b)))) (1 - 2 * (A * A + B * B)) (9.5 * eps)).
      { eapply near_le; [apply (near_sub _ _ 1 _ 0 _ 1.03 (near_fin _ _ fin_one) NB)|]; try (apply Rabs_le); unfold eps in *; lra. }
      eapply near_le; [apply (scale_near s S sz Fs HS Hz _ _ _ 1.03 NC); [apply Rabs_le; lra|unfold eps; lra|unfold eps; lra]|]. unfold eps in *. lra.
    - set (C := A * A + B * B) in *. replace (1 - 2 * C - (1 - 2 * C / n)) with (2 * (C * / n) * (1 - n)) by (field; exact N1).
      assert (K0 : 0 <= C * / n) by (apply Rmult_le_pos; unfold C; lra).
      assert (K1 : C * / n <= 1) by (apply Rle_trans with (n * / n); [apply Rmult_le_compat_r; lra|right; field; exact N1]).
      rewrite Rabs_mult. replace (3.1 * e) with (3.1 * e + 0) by ring. assert (Rabs (2 * (C * / n)) * Rabs (1 - n) <= 2 * e); [|lra]. apply Rmult_le_compat; try apply Rabs_pos; apply Rabs_le; lra. }
  assert (OF : forall s S a b a' b' A B A' B', fin s S -> Rabs S <= sz -> fin a A -> fin b B -> fin a' A' -> fin b' B' ->
     A * A + B * B + A' * A' + B' * B' = n -> 0 <= A * A -> 0 <= B * B -> 0 <= A' * A' -> 0 <= B' * B' ->
     near (nmul (nmul s ntwo) (nadd (nmul a b) (nmul a' b'))) (2 * (A * B + A' * B') / n * S) (4.2 * e * sz) /\
     near (nmul (nmul s ntwo) (nsub (nmul a b) (nmul a' b'))) (2 * (A * B - A' * B') / n * S) (4.2 * e * sz) /\
     near (nmul s (nmul ntwo (nadd (nmul a b) (nmul a' b')))) (2 * (A * B + A' * B') / n * S) (4.2 * e * sz)).
  { intros s S a b a' b' A B A' B' Fs HS Fa Fb Fa' Fb' HE P1 P2 P3 P4.
    destruct (C1 _ _ _ _ HE) as [K1 K2].
    assert (HE' : A * A + B * B + A' * A' + B' * B' <= X * X + Y * Y + Z * Z + W * W) by (fold n; lra).
    destruct (cross_le X Y Z W e He Hn _ _ _ _ HE') as [L1 L2].
    destruct (cross_near X Y Z W e He Hn (nmul a b) (nmul a' b') A B A' B') as [NA NB]; [apply PN; auto; lra|apply PN; auto; lra|exact HE'|].
    assert (UU : forall C, Rabs C <= n / 2 -> Rabs (2 * C - 2 * C / n) <= 3.1 * e).
    { intros C HC. replace (2 * C - 2 * C / n) with (2 * (C * / n) * (n - 1)) by (field; exact N1).
      assert (KK : Rabs (2 * (C * / n)) <= 1).
      { rewrite Rabs_mult, (Rabs_pos_eq 2), Rabs_mult, (Rabs_pos_eq (/ n)) by lra. apply Rle_trans with (2 * (n / 2 * / n)); [|right; field; exact N1].
        apply Rmult_le_compat_l; [lra|]. apply Rmult_le_compat_r; [lra|exact HC]. }
      rewrite Rabs_mult. assert (Rabs (2 * (C * / n)) * Rabs (n - 1) <= 1 * e) by (apply Rmult_le_compat; try apply Rabs_pos; assumption). lra. }
    assert (NT : forall q C, near q C (2.6 * eps) -> Rabs C <= 0.51 -> near (nmul (nmul s ntwo) q) (S * (2 * C)) (16 * eps * sz)).
    { intros q C Hq HC. eapply near_le; [apply (scale_twice s S sz Fs HS Hz _ _ _ 0.51 Hq HC); unfold eps; lra|]. unfold eps in *. lra. }
    split; [|split]; (eapply FIN; [|exact HS|apply UU]); [apply NT; eassumption|exact K1|apply NT; eassumption|exact K2| |exact K1].
    assert (NC : near (nmul ntwo (nadd (nmul a b) (nmul a' b'))) (2 * (A * B + A' * B')) (6.3 * eps)).
    { assert (B2 : Rabs 2 <= 2) by (apply Rabs_le; lra). eapply near_le; [apply (near_mul _ _ 2 _ 0 _ 2 0.51 (near_fin _ _ fin_two) NA B2 L1)|]; unfold eps in *; lra. }
    eapply near_le; [apply (scale_near s S sz Fs HS Hz _ _ _ 1.02 NC); [apply Rabs_le_inv in L1; apply Rabs_le; lra|unfold eps; lra|unfold eps; lra]|]. unfold eps in *. lra. }
  destruct r as [|[|[|r]]]; [..|lia]; (destruct c as [|[|[|c]]]; [..|lia]); cbn [lane l0 l1 l2 l3].
  - apply (DG s0 S0); auto; unfold n; lra.
  - apply (OF s1 S1 x y z w X Y Z W); auto; unfold n; lra.
  - apply (OF s2 S2 x z y w X Z Y W); auto; unfold n; lra.
  - apply (OF s0 S0 x y z w X Y Z W); auto; unfold n; lra.
  - apply (DG s1 S1); auto; unfold n; lra.
  - apply (OF s2 S2 y z x w Y Z X W); auto; unfold n; lra.
  - apply (OF s0 S0 x z y w X Z Y W); auto; unfold n; lra.
  - apply (OF s1 S1 y z x w Y Z X W); auto; unfold n; lra.
  - apply (DG s2 S2); auto; unfold n; lra.
Qed.

(** ** One step down a chain, for one row *)
Definition srow (e len D S : R) (m : mat4 f32) (r : nat) (u0 u1 u2 v : R) : Prop :=
  exists a0 a1 a2 p, fin (entry m r 0) a0 /\ fin (entry m r 1) a1 /\ fin (entry m r 2) a2 /\ fin (entry m r 3) p /\
    n3 (a0 - u0) (a1 - u1) (a2 - u2) <= 16 * D * e * S /\ Rabs (p - v) <= 10 * (D * D) * e * len /\
    n3 u0 u1 u2 <= S /\ Rabs v <= D * len.
Lemma n3_scaled x y z a b c sz : Rabs a <= sz -> Rabs b <= sz -> Rabs c <= sz -> n3 (x * a) (y * b) (z * c) <= n3 x y z * sz.
Proof.
  intros Ha Hb Hc. assert (P : 0 <= sz) by (pose proof (Rabs_pos a); lra). apply n3_le; [apply Rmult_le_pos; [apply n3_pos|exact P]|].
  replace (n3 x y z * sz * (n3 x y z * sz)) with ((n3 x y z * n3 x y z) * (sz * sz)) by ring. rewrite n3_sq.
  assert (Q : forall k, Rabs k <= sz -> k * k <= sz * sz) by (intros k H; apply Rabs_le_inv in H; nra).
  assert (M : forall k l, Rabs l <= sz -> k * l * (k * l) <= k * k * (sz * sz)).
  { intros k l H. replace (k * l * (k * l)) with (k * k * (l * l)) by ring. apply Rmult_le_compat_l; [nra|apply Q, H]. }
  pose proof (M x a Ha). pose proof (M y b Hb). pose proof (M z c Hc). lra.
Qed.

Section Step.
  Variables (e len D S sz : R) (m : mat4 f32) (t : transform f32) (r : nat) (u0 u1 u2 v : R).
  Hypotheses (He : / 1048576 <= e) (HD : 0 <= D) (HDe : D * e <= / 128) (He1 : e <= / 128) (HL : p2 (-60) <= len <= p2 60) (HD1 : D <= 10000000).
  Hypotheses (HS : p2 (-60) <= S <= p2 60) (Hz : p2 (-40) <= sz <= p2 40) (HSz : p2 (-60) <= S * sz <= p2 60).
  Hypotheses (Hr : (r < 3)%nat) (HT : sound_joint e sz t) (HB : S * bone t <= len) (HI : srow e len D S m r u0 u1 u2 v).
  Notation q := (turn_of (joint_map t)).
  Notation mv := (move_of (joint_map t)).
  Let w0 := u0 * q 0%nat 0%nat + u1 * q 1%nat 0%nat + u2 * q 2%nat 0%nat.
  Let w1 := u0 * q 0%nat 1%nat + u1 * q 1%nat 1%nat + u2 * q 2%nat 1%nat.
  Let w2 := u0 * q 0%nat 2%nat + u1 * q 1%nat 2%nat + u2 * q 2%nat 2%nat.
  Let v' := u0 * mv 0%nat + u1 * mv 1%nat + u2 * mv 2%nat + v.
  Let rt := rotation (B2R (qx (tr_r t))) (B2R (qy (tr_r t))) (B2R (qz (tr_r t))) (B2R (qw (tr_r t))).

  Lemma sc_rot : is_rotation rt.
  Proof using HT He1.
    destruct HT as (_ & _ & _ & Hn & _). apply Rabs_le_inv in Hn. unfold sumsq in Hn. apply rotation_rows. lra.
  Qed.
  Lemma sc_zero c : (c < 3)%nat -> fin (entry (matrix_of t) 3 c) 0.
  Proof using. clear Hr. intros Hc. destruct c as [|[|[|c]]]; [..|lia]; apply fin_zero. Qed.
  Lemma sc_move c : (c < 3)%nat -> fin (entry (matrix_of t) c 3) (mv c).
  Proof using HT.
    clear Hr. destruct HT as ((F0 & F1 & F2) & _). intros Hc. destruct c as [|[|[|c]]]; [..|lia]; (split; [assumption|reflexivity]).
  Qed.
  (** A row times the joint's matrix. *)
  Lemma row_norm x0 x1 x2 : n3 (x0 * q 0%nat 0%nat + x1 * q 1%nat 0%nat + x2 * q 2%nat 0%nat) (x0 * q 0%nat 1%nat + x1 * q 1%nat 1%nat + x2 * q 2%nat 1%nat)
     (x0 * q 0%nat 2%nat + x1 * q 1%nat 2%nat + x2 * q 2%nat 2%nat) <= n3 x0 x1 x2 * sz.
  Proof using HT He1.
    rewrite <- (rotate_norm rt x0 x1 x2 sc_rot). destruct HT as (_ & _ & _ & _ & HSC).
    eapply Rle_trans; [|apply (n3_scaled _ _ _ _ _ _ sz (HSC 0%nat) (HSC 1%nat) (HSC 2%nat))].
    right. cbn [joint_map turn_of]. fold rt. f_equal; ring.
  Qed.

  Lemma srow_entry a0 a1 a2 p c : fin (entry m r 0) a0 -> fin (entry m r 1) a1 -> fin (entry m r 2) a2 -> fin (entry m r 3) p ->
    n3 a0 a1 a2 <= 1.125 * S -> (c < 3)%nat ->
    exists x, fin (entry (mat_mul m (matrix_of t)) r c) x /\
      Rabs (x - (a0 * q 0%nat c + a1 * q 1%nat c + a2 * q 2%nat c)) <= 8.7 * e * (S * sz).
  Proof using He He1 Hr HT HS Hz HSz.
    intros A0 A1 A2 P HA Hc. rewrite entry_mul by lia.
    assert (E' : / 1048576 <= e <= / 100) by lra.
    destruct (scaled_entry e sz t 0 c E' HT Hz ltac:(lia) Hc) as (b0 & F0 & B0).
    destruct (scaled_entry e sz t 1 c E' HT Hz ltac:(lia) Hc) as (b1 & F1 & B1).
    destruct (scaled_entry e sz t 2 c E' HT Hz ltac:(lia) Hc) as (b2 & F2 & B2).
    pose proof (n3_sum a0 a1 a2) as SA. pose proof (n3_entry a0 a1 a2) as (NA0 & NA1 & NA2).
    pose proof (p2_pos (-60)) as PP. destruct (sz_facts sz Hz) as (Z0 & _). assert (S0 : 0 < S) by lra. assert (SZ0 : 0 < S * sz) by lra.
    assert (Q : forall k, (k < 3)%nat -> Rabs (q k c) <= sz).
    { intros k Hk. destruct sc_rot as [QR _]. specialize (QR k k Hk Hk). rewrite Nat.eqb_refl in QR. unfold sum3 in QR.
      assert (R1 : Rabs (rt k c) <= 1) by (apply Rabs_le; destruct c as [|[|[|c]]]; [..|lia]; split; nra).
      destruct HT as (_ & _ & _ & _ & HSC). cbn [joint_map turn_of]. fold rt. rewrite Rabs_mult. replace sz with (1 * sz) by ring. apply Rmult_le_compat; auto using Rabs_pos. }
    assert (BB : forall k b, (k < 3)%nat -> Rabs (b - q k c) <= 4.2 * e * sz -> Rabs b <= 1.04 * sz).
    { intros k b Hk H. replace b with (q k c + (b - q k c)) by ring. eapply Rle_trans; [apply Rabs_triang|]. pose proof (Q k Hk).
      assert (4.2 * e * sz <= 0.04 * sz) by (apply Rmult_le_compat_r; lra). lra. }
    assert (M : forall b a, Rabs b <= 1.04 * sz -> Rabs (b * a) <= 1.04 * (sz * Rabs a)).
    { intros b a H. rewrite Rabs_mult, <- Rmult_assoc. apply Rmult_le_compat_r; [apply Rabs_pos|exact H]. }
    pose proof (M b0 a0 (BB 0%nat b0 ltac:(lia) B0)) as M0. pose proof (M b1 a1 (BB 1%nat b1 ltac:(lia) B1)) as M1. pose proof (M b2 a2 (BB 2%nat b2 ltac:(lia) B2)) as M2.
    assert (Z3 : Rabs (0 * p) = 0) by (rewrite Rmult_0_l; apply Rabs_R0).
    assert (SS : sz * Rabs a0 + sz * Rabs a1 + sz * Rabs a2 <= 1.95 * (S * sz)).
    { rewrite <- !Rmult_plus_distr_l. apply Rle_trans with (sz * (1.95 * S)); [apply Rmult_le_compat_l; lra|right; ring]. }
    assert (PB : 2.1 * (S * sz) <= p2 100).
    { assert (p2 62 <= p2 100) by (apply bpow_le; lia). assert (p2 62 = 4 * p2 60) by (change 62%Z with (2 + 60)%Z; rewrite bpow_plus; reflexivity). lra. }
    destruct (dot4_err _ _ _ _ _ _ _ _ _ _ _ _ _ _ _ _ (2.1 * (S * sz)) F0 F1 F2 (sc_zero c Hc) A0 A1 A2 P) as (x & Fx & Ex); [lra|exact PB|].
    exists x. split; [exact Fx|].
    assert (DD : forall b k a, Rabs (b - q k c) <= 4.2 * e * sz -> Rabs (b * a - a * q k c) <= 4.2 * e * (sz * Rabs a)).
    { intros b k a H. replace (b * a - a * q k c) with ((b - q k c) * a) by ring. rewrite Rabs_mult, <- Rmult_assoc. apply Rmult_le_compat_r; [apply Rabs_pos|exact H]. }
    pose proof (DD _ _ a0 B0) as D0. pose proof (DD _ _ a1 B1) as D1. pose proof (DD _ _ a2 B2) as D2.
    assert (DS : 4.2 * e * (sz * Rabs a0) + 4.2 * e * (sz * Rabs a1) + 4.2 * e * (sz * Rabs a2) <= 4.2 * e * (1.95 * (S * sz))).
    { rewrite <- !Rmult_plus_distr_l. apply Rmult_le_compat_l; lra. }
    apply Rabs_le_inv in D0. apply Rabs_le_inv in D1. apply Rabs_le_inv in D2. apply Rabs_le_inv in Ex. pose proof (tiny_size (S * sz) ltac:(lra)) as TE.
    assert (EE : eps * (S * sz) <= / 16 * (e * (S * sz))) by (apply Rle_trans with ((/ 16 * e) * (S * sz)); [apply Rmult_le_compat_r; [lra|unfold eps; lra]|lra]).
    assert (0 <= e * (S * sz)) by (apply Rmult_le_pos; lra). pose proof tiny_pos. apply Rabs_le. lra.
  Qed.

  Lemma srow_step : srow e len (D + 1) (S * sz) (mat_mul m (matrix_of t)) r w0 w1 w2 v'.
  Proof using He He1 Hr HT HI HD HDe HL HD1 HS Hz HSz HB.
    destruct HI as (a0 & a1 & a2 & p & A0 & A1 & A2 & P & HA & HP & HU & HV).
    pose proof (p2_pos (-60)) as PP. destruct (sz_facts sz Hz) as (Z0 & _). assert (S0 : 0 < S) by lra. assert (SZ0 : 0 < S * sz) by lra.
    assert (DES : D * e * S <= / 128 * S) by (apply Rmult_le_compat_r; lra).
    assert (NA : n3 a0 a1 a2 <= 1.125 * S).
    { replace a0 with (u0 + (a0 - u0)) by ring. replace a1 with (u1 + (a1 - u1)) by ring. replace a2 with (u2 + (a2 - u2)) by ring.
      eapply Rle_trans; [apply n3_triang|]. lra. }
    destruct (srow_entry a0 a1 a2 p 0 A0 A1 A2 P NA ltac:(lia)) as (x0 & X0 & E0).
    destruct (srow_entry a0 a1 a2 p 1 A0 A1 A2 P NA ltac:(lia)) as (x1 & X1 & E1).
    destruct (srow_entry a0 a1 a2 p 2 A0 A1 A2 P NA ltac:(lia)) as (x2 & X2 & E2).
    assert (LP : 0 < len) by lra.
    assert (NT : S * n3 (mv 0%nat) (mv 1%nat) (mv 2%nat) <= len) by exact HB.
    set (bn := n3 (mv 0%nat) (mv 1%nat) (mv 2%nat)) in *. assert (B0 : 0 <= bn) by apply n3_pos.
    (* the position *)
    assert (HX : exists x3, fin (entry (mat_mul m (matrix_of t)) r 3) x3 /\ Rabs (x3 - v') <= 10 * ((D + 1) * (D + 1)) * e * len).
    { rewrite entry_mul by lia.
      pose proof (n3_cs (Rabs (mv 0%nat)) (Rabs (mv 1%nat)) (Rabs (mv 2%nat)) (Rabs a0) (Rabs a1) (Rabs a2)) as CS.
      assert (AB : forall x y z, n3 (Rabs x) (Rabs y) (Rabs z) = n3 x y z).
      { intros x y z. unfold n3. f_equal. rewrite <- !Rabs_mult, !Rabs_pos_eq by nra. reflexivity. }
      rewrite !AB, <- !Rabs_mult in CS. fold bn in CS. apply Rabs_le_inv in CS. destruct CS as [_ CS].
      assert (CS' : bn * n3 a0 a1 a2 <= len * 1.125).
      { apply Rle_trans with (bn * (1.125 * S)); [apply Rmult_le_compat_l; assumption|lra]. }
      assert (EL : 0 <= e * len) by (apply Rmult_le_pos; lra).
      assert (DL : 0 <= D * len) by (apply Rmult_le_pos; lra).
      assert (DEL : D * e * len <= / 128 * len) by (apply Rmult_le_compat_r; lra).
      assert (DEL0 : 0 <= D * e * len) by (rewrite Rmult_assoc; apply Rmult_le_pos; lra).
      assert (DDEL : 10 * (D * D) * e * len <= 10 / 128 * (D * len)).
      { replace (10 * (D * D) * e * len) with (10 * (D * e * (D * len))) by ring. 
        assert (D * e * (D * len) <= / 128 * (D * len)) by (apply Rmult_le_compat_r; lra). lra. }
      assert (BP : Rabs p <= 1.08 * (D * len)).
      { replace p with (v + (p - v)) by ring. eapply Rle_trans; [apply Rabs_triang|]. lra. }
      assert (M1 : Rabs (1 * p) = Rabs p) by (rewrite Rmult_1_l; reflexivity).
      assert (BIGL : len * 1.125 + 1.08 * (D * len) <= p2 100).
      { assert (E2' : p2 100 = 1099511627776 * p2 60) by (change 100%Z with (40 + 60)%Z; rewrite bpow_plus; reflexivity).
        pose proof (p2_pos 60). assert (D * len <= 10000000 * p2 60) by (apply Rmult_le_compat; lra). lra. }
      destruct (dot4_err _ _ _ _ _ _ _ _ _ _ _ _ _ _ _ _ (len * 1.125 + 1.08 * (D * len)) (sc_move 0 ltac:(lia)) (sc_move 1 ltac:(lia)) (sc_move 2 ltac:(lia))
        (fin_one : fin (entry (matrix_of t) 3 3) 1) A0 A1 A2 P) as (x3 & F3 & E3); [lra|exact BIGL|].
      exists x3. split; [exact F3|].
      pose proof (n3_cs (a0 - u0) (a1 - u1) (a2 - u2) (mv 0%nat) (mv 1%nat) (mv 2%nat)) as CD. fold bn in CD.
      assert (CD' : n3 (a0 - u0) (a1 - u1) (a2 - u2) * bn <= 16 * D * e * len).
      { apply Rle_trans with (16 * D * e * S * bn); [apply Rmult_le_compat_r; assumption|].
        replace (16 * D * e * S * bn) with (16 * (D * e) * (S * bn)) by ring. replace (16 * D * e * len) with (16 * (D * e) * len) by ring.
        apply Rmult_le_compat_l; [|exact NT]. assert (0 <= D * e) by (apply Rmult_le_pos; lra). lra. }
      assert (TL : 5 * tiny <= / 100 * (e * len)).
      { pose proof (tiny_size len ltac:(lra)). assert (eps * len <= e * len) by (apply Rmult_le_compat_r; [lra|unfold eps; lra]). pose proof tiny_pos. lra. }
      assert (EP : 3.1 * eps * (len * 1.125 + 1.08 * (D * len)) <= 0.22 * (e * len) + 0.22 * (D * e * len)).
      { assert (X1' : / 1048576 * len <= e * len) by (apply Rmult_le_compat_r; lra).
        assert (X2' : / 1048576 * (D * len) <= e * (D * len)) by (apply Rmult_le_compat_r; lra).
        replace (D * e * len) with (e * (D * len)) by ring. unfold eps. lra. }
      apply Rabs_le_inv in E3. apply Rabs_le_inv in CD. apply Rabs_le_inv in HP.
      assert (VV : v' = (mv 0%nat * a0 + mv 1%nat * a1 + mv 2%nat * a2 + 1 * p)
                  - ((a0 - u0) * mv 0%nat + (a1 - u1) * mv 1%nat + (a2 - u2) * mv 2%nat) - (p - v)) by (unfold v'; ring).
      assert (GO : 10 * ((D + 1) * (D + 1)) * e * len = 10 * (D * D) * e * len + 20 * (D * e * len) + 10 * (e * len)) by ring.
      rewrite GO. apply Rabs_le. lra. }
    destruct HX as (x3 & X3 & E3).
    exists x0, x1, x2, x3. split; [exact X0|]. split; [exact X1|]. split; [exact X2|]. split; [exact X3|].
    split; [|split; [exact E3|split]].
    - set (r0 := a0 * q 0%nat 0%nat + a1 * q 1%nat 0%nat + a2 * q 2%nat 0%nat) in *.
      set (r1 := a0 * q 0%nat 1%nat + a1 * q 1%nat 1%nat + a2 * q 2%nat 1%nat) in *.
      set (r2 := a0 * q 0%nat 2%nat + a1 * q 1%nat 2%nat + a2 * q 2%nat 2%nat) in *.
      replace (x0 - w0) with ((r0 - w0) + (x0 - r0)) by ring. replace (x1 - w1) with ((r1 - w1) + (x1 - r1)) by ring.
      replace (x2 - w2) with ((r2 - w2) + (x2 - r2)) by ring.
      eapply Rle_trans; [apply n3_triang|].
      assert (N1 : n3 (r0 - w0) (r1 - w1) (r2 - w2) <= 16 * D * e * S * sz).
      { eapply Rle_trans; [|apply Rmult_le_compat_r; [lra|exact HA]]. eapply Rle_trans; [|apply row_norm]. right. unfold r0, r1, r2, w0, w1, w2. f_equal; ring. }
      pose proof (n3_box _ _ _ _ E0 E1 E2) as N2. assert (0 <= e * (S * sz)) by (apply Rmult_le_pos; lra).
      replace (16 * (D + 1) * e * (S * sz)) with (16 * D * e * S * sz + 16 * (e * (S * sz))) by ring. lra.
    - eapply Rle_trans; [apply row_norm|]. apply Rmult_le_compat_r; lra.
    - unfold v'. eapply Rle_trans; [apply Rabs_triang|].
      pose proof (n3_cs u0 u1 u2 (mv 0%nat) (mv 1%nat) (mv 2%nat)) as C. fold bn in C. assert (n3 u0 u1 u2 * bn <= S * bn) by (apply Rmult_le_compat_r; assumption). lra.
  Qed.
End Step.
