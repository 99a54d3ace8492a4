(** Rounding of the matrix of a joint and of matrix products, for near-rigid matrices. *)
From Coq Require Import Reals Lra Lia Psatz.
From Flocq Require Import Core.Core IEEE754.BinarySingleNaN.
From Verif Require Import Base Num NumF32 Math KeysSpec F32Facts F32Err InterpF32 NormF32 BlendF32 BlendF32Props RigidSpec.
Local Open Scope R_scope.

(** ** One operation *)
Definition near (x : f32) (v e : R) : Prop := exists r, fin x r /\ Rabs (r - v) <= e.
Lemma near_le x v e e' : near x v e -> e <= e' -> near x v e'.
Proof. intros (r & F & H) L. exists r. split; [exact F|lra]. Qed.
Lemma near_fin x v : fin x v -> near x v 0.
Proof. intros F. exists v. split; [exact F|]. unfold Rminus. rewrite Rplus_opp_r, Rabs_R0. lra. Qed.
Lemma tiny_eps : 0 < tiny <= / 1000 * eps.
Proof. pose proof tiny_small as [T0 T1]. split; [exact T0|]. unfold eps. simpl in T1. lra. Qed.
Lemma near_mul x y v w e f V W : near x v e -> near y w f -> Rabs v <= V -> Rabs w <= W -> 0 <= e -> 0 <= f ->
  (V + e) * (W + f) <= 1000 ->
  near (nmul x y) (v * w) (V * f + W * e + e * f + eps * ((V + e) * (W + f)) + tiny).
Proof.
  intros (r & Fr & Hr) (s & Fs & Hs) HV HW He Hf HB.
  assert (Br : Rabs r <= V + e) by (replace r with (v + (r - v)) by ring; eapply Rle_trans; [apply Rabs_triang|lra]).
  assert (Bs : Rabs s <= W + f) by (replace s with (w + (s - w)) by ring; eapply Rle_trans; [apply Rabs_triang|lra]).
  assert (Brs : Rabs (r * s) <= (V + e) * (W + f)) by (rewrite Rabs_mult; apply Rmult_le_compat; auto using Rabs_pos).
  exists (rnd32 (r * s)). split; [apply fin_mul; auto; pose proof HUGE_big; lra|].
  pose proof (rnd_close _ _ Brs) as C.
  replace (rnd32 (r * s) - v * w) with ((rnd32 (r * s) - r * s) + (v * (s - w) + w * (r - v) + (r - v) * (s - w))) by ring.
  eapply Rle_trans; [apply Rabs_triang|].
  assert (D : Rabs (v * (s - w) + w * (r - v) + (r - v) * (s - w)) <= V * f + W * e + e * f).
  { eapply Rle_trans; [apply Rabs_triang|]. apply Rplus_le_compat; [eapply Rle_trans; [apply Rabs_triang|]; apply Rplus_le_compat|];
      rewrite Rabs_mult; apply Rmult_le_compat; auto using Rabs_pos. }
  lra.
Qed.
Lemma near_add x y v w e f V : near x v e -> near y w f -> Rabs (v + w) <= V -> V + e + f <= 1000 ->
  near (nadd x y) (v + w) (e + f + eps * (V + e + f) + tiny).
Proof.
  intros (r & Fr & Hr) (s & Fs & Hs) HV HB.
  assert (D : Rabs ((r - v) + (s - w)) <= e + f) by (eapply Rle_trans; [apply Rabs_triang|lra]).
  assert (B : Rabs (r + s) <= V + e + f) by (replace (r + s) with ((v + w) + ((r - v) + (s - w))) by ring; eapply Rle_trans; [apply Rabs_triang|lra]).
  exists (rnd32 (r + s)). split; [apply fin_add; auto; pose proof HUGE_big; lra|].
  pose proof (rnd_close _ _ B) as C.
  replace (rnd32 (r + s) - (v + w)) with ((rnd32 (r + s) - (r + s)) + ((r - v) + (s - w))) by ring.
  eapply Rle_trans; [apply Rabs_triang|]. lra.
Qed.
Lemma near_sub x y v w e f V : near x v e -> near y w f -> Rabs (v - w) <= V -> V + e + f <= 1000 ->
  near (nsub x y) (v - w) (e + f + eps * (V + e + f) + tiny).
Proof.
  intros (r & Fr & Hr) (s & Fs & Hs) HV HB.
  assert (D : Rabs ((r - v) - (s - w)) <= e + f).
  { unfold Rminus at 1. eapply Rle_trans; [apply Rabs_triang|]. rewrite Rabs_Ropp. lra. }
  assert (B : Rabs (r - s) <= V + e + f) by (replace (r - s) with ((v - w) + ((r - v) - (s - w))) by ring; eapply Rle_trans; [apply Rabs_triang|lra]).
  exists (rnd32 (r - s)). split; [apply fin_sub; auto; pose proof HUGE_big; lra|].
  pose proof (rnd_close _ _ B) as C.
  replace (rnd32 (r - s) - (v - w)) with ((rnd32 (r - s) - (r - s)) + ((r - v) - (s - w))) by ring.
  eapply Rle_trans; [apply Rabs_triang|]. lra.
Qed.

(** ** The matrix of one joint *)
Section Affine.
  Variables (x y z w s : f32) (X Y Z W S e : R).
  Hypotheses (Fx : fin x X) (Fy : fin y Y) (Fz : fin z Z) (Fw : fin w W) (Fs : fin s S).
  Let n := X * X + Y * Y + Z * Z + W * W.
  Hypotheses (He : / 1048576 <= e <= / 100) (Hn : Rabs (n - 1) <= e) (Hs : Rabs (S - 1) <= e).

  Lemma comp_le a : a * a <= n -> Rabs a <= 1.01.
  Proof using Hn He.
    intros H. apply Rabs_le_inv in Hn. apply Rabs_le. split; nra.
  Qed.
  Lemma prod_near a b A B : fin a A -> fin b B -> A * A <= n -> B * B <= n -> near (nmul a b) (A * B) (1.03 * eps).
  Proof using Hn He.
    intros Fa Fb HA HB. pose proof (comp_le A HA) as BA. pose proof (comp_le B HB) as BB.
    eapply near_le; [apply (near_mul a b A B 0 0 1.01 1.01 (near_fin _ _ Fa) (near_fin _ _ Fb)); lra|].
    pose proof tiny_eps. unfold eps in *. lra.
  Qed.
  (** A sum or difference of two products is at most 1.01. *)
  Lemma diag_near p q A B : near p (A * A) (1.03 * eps) -> near q (B * B) (1.03 * eps) -> A * A + B * B <= n ->
    near (nmul s (nsub none_ (nmul ntwo (nadd p q)))) (S * (1 - 2 * (A * A + B * B))) (16 * eps).
  Proof using Hn He Hs Fs.
    intros Hp Hq HAB. apply Rabs_le_inv in Hn. apply Rabs_le_inv in Hs. pose proof tiny_eps as TE.
    assert (P0 : 0 <= A * A + B * B) by nra.
    assert (N1 : near (nadd p q) (A * A + B * B) (3.1 * eps)).
    { eapply near_le; [apply (near_add p q _ _ _ _ 1.01 Hp Hq)|]; [apply Rabs_le; lra|unfold eps; lra|unfold eps in *; lra]. }
    assert (N2 : near (nmul ntwo (nadd p q)) (2 * (A * A + B * B)) (8.3 * eps)).
    { eapply near_le; [apply (near_mul _ _ 2 _ 0 _ 2 1.01 (near_fin _ _ fin_two) N1)|]; try (apply Rabs_le); unfold eps in *; lra. }
    assert (N3 : near (nsub none_ (nmul ntwo (nadd p q))) (1 - 2 * (A * A + B * B)) (9.5 * eps)).
    { eapply near_le; [apply (near_sub _ _ 1 _ 0 _ 1.03 (near_fin _ _ fin_one) N2)|]; try (apply Rabs_le); unfold eps in *; lra. }
    eapply near_le; [apply (near_mul _ _ S _ 0 _ 1.01 1.03 (near_fin _ _ Fs) N3)|]; try (apply Rabs_le); unfold eps in *; lra.
  Qed.
  Lemma cross_le A B C D : A * A + B * B + C * C + D * D <= n -> Rabs (A * B + C * D) <= 0.51 /\ Rabs (A * B - C * D) <= 0.51.
  Proof using Hn He.
    intros H. apply Rabs_le_inv in Hn.
    pose proof (Rle_0_sqr (A + B)) as P1. pose proof (Rle_0_sqr (A - B)) as P2. pose proof (Rle_0_sqr (C + D)) as P3. pose proof (Rle_0_sqr (C - D)) as P4.
    unfold Rsqr in *. split; apply Rabs_le; lra.
  Qed.
  Lemma cross_near p q A B C D : near p (A * B) (1.03 * eps) -> near q (C * D) (1.03 * eps) ->
    A * A + B * B + C * C + D * D <= n ->
    near (nadd p q) (A * B + C * D) (2.6 * eps) /\ near (nsub p q) (A * B - C * D) (2.6 * eps).
  Proof using Hn He.
    intros Hp Hq H. destruct (cross_le _ _ _ _ H) as [B1 B2]. pose proof tiny_eps as TE. split.
    - eapply near_le; [apply (near_add p q _ _ _ _ 0.51 Hp Hq B1)|]; unfold eps in *; lra.
    - eapply near_le; [apply (near_sub p q _ _ _ _ 0.51 Hp Hq B2)|]; unfold eps in *; lra.
  Qed.
  Lemma off_near c C : near c C (2.6 * eps) -> Rabs C <= 0.51 ->
    near (nmul (nmul s ntwo) c) (S * (2 * C)) (16 * eps) /\ near (nmul s (nmul ntwo c)) (S * (2 * C)) (16 * eps).
  Proof using Hn He Hs Fs.
    intros Hc HC. apply Rabs_le_inv in Hs. pose proof tiny_eps as TE.
    assert (BS : Rabs S <= 1.01) by (apply Rabs_le; lra).
    assert (B2 : Rabs 2 <= 2) by (apply Rabs_le; lra).
    assert (B3 : Rabs (S * 2) <= 2.02) by (apply Rabs_le_inv in BS; apply Rabs_le; lra).
    assert (B4 : Rabs (2 * C) <= 1.02) by (apply Rabs_le_inv in HC; apply Rabs_le; lra).
    split.
    - replace (S * (2 * C)) with ((S * 2) * C) by ring.
      assert (N1 : near (nmul s ntwo) (S * 2) (2.1 * eps)).
      { eapply near_le; [apply (near_mul _ _ S 2 0 0 1.01 2 (near_fin _ _ Fs) (near_fin _ _ fin_two) BS B2)|]; unfold eps in *; lra. }
      eapply near_le; [apply (near_mul _ _ _ _ _ _ 2.02 0.51 N1 Hc B3 HC)|]; unfold eps in *; lra.
    - assert (N1 : near (nmul ntwo c) (2 * C) (6.3 * eps)).
      { eapply near_le; [apply (near_mul _ _ 2 C 0 _ 2 0.51 (near_fin _ _ fin_two) Hc B2 HC)|]; unfold eps in *; lra. }
      eapply near_le; [apply (near_mul _ _ S _ 0 _ 1.01 1.02 (near_fin _ _ Fs) N1 BS B4)|]; unfold eps in *; lra.
  Qed.

  (** Against the exact rotation. *)
  Lemma off_unit C : Rabs C <= n / 2 -> Rabs (S * (2 * C) - 2 * C / n) <= 3.1 * e.
  Proof using Hn He Hs.
    intros HC. apply Rabs_le_inv in Hn. apply Rabs_le_inv in Hs.
    assert (N0 : 0 < n) by lra. assert (N1 : n <> 0) by lra.
    replace (S * (2 * C) - 2 * C / n) with (2 * (C * / n) * ((S - 1) * n + (n - 1))) by (field; exact N1).
    assert (K2 : Rabs (2 * (C * / n)) <= 1).
    { rewrite Rabs_mult, (Rabs_pos_eq 2), Rabs_mult, (Rabs_pos_eq (/ n)) by (try lra; apply Rlt_le, Rinv_0_lt_compat, N0).
      apply Rle_trans with (2 * (n / 2 * / n)); [|right; field; exact N1].
      apply Rmult_le_compat_l; [lra|]. apply Rmult_le_compat_r; [apply Rlt_le, Rinv_0_lt_compat, N0|exact HC]. }
    assert (M : Rabs ((S - 1) * n + (n - 1)) <= 2.01 * e).
    { apply Rabs_le. assert (P : Rabs ((S - 1) * n) <= e * 1.01).
      { rewrite Rabs_mult. apply Rmult_le_compat; try apply Rabs_pos; apply Rabs_le; lra. }
      apply Rabs_le_inv in P. lra. }
    rewrite Rabs_mult. eapply Rle_trans; [apply Rmult_le_compat; [apply Rabs_pos|apply Rabs_pos|exact K2|exact M]|]. lra.
  Qed.
  Lemma diag_unit C : 0 <= C <= n -> Rabs (S * (1 - 2 * C) - (1 - 2 * C / n)) <= 3.1 * e.
  Proof using Hn He Hs.
    intros HC. apply Rabs_le_inv in Hn. apply Rabs_le_inv in Hs.
    assert (N0 : 0 < n) by lra. assert (N1 : n <> 0) by lra.
    replace (S * (1 - 2 * C) - (1 - 2 * C / n)) with ((S - 1) * (1 - 2 * C) + 2 * (C * / n) * (1 - n)) by (field; exact N1).
    assert (I0 : 0 < / n) by (apply Rinv_0_lt_compat, N0).
    assert (K0 : 0 <= C * / n) by (apply Rmult_le_pos; lra).
    assert (K1 : C * / n <= 1) by (apply Rle_trans with (n * / n); [apply Rmult_le_compat_r; lra|right; field; exact N1]).
    eapply Rle_trans; [apply Rabs_triang|]. rewrite !Rabs_mult.
    assert (A1 : Rabs (S - 1) * Rabs (1 - 2 * C) <= e * 1.02) by (apply Rmult_le_compat; try apply Rabs_pos; apply Rabs_le; lra).
    assert (A2 : Rabs 2 * Rabs (C * / n) * Rabs (1 - n) <= 2 * e).
    { replace (2 * e) with (2 * 1 * e) by ring. rewrite !Rabs_pos_eq with (x := 2) by lra. rewrite (Rabs_pos_eq (C * / n)) by exact K0.
      apply Rmult_le_compat; try lra; [apply Rabs_pos|apply Rabs_le; lra]. }
    rewrite Rabs_mult in A2. lra.
  Qed.
End Affine.

Lemma near_shift x v v' e e' : near x v e -> Rabs (v - v') <= e' -> near x v' (e + e').
Proof.
  intros (r & F & H) L. exists r. split; [exact F|]. replace (r - v') with ((r - v) + (v - v')) by ring.
  eapply Rle_trans; [apply Rabs_triang|lra].
Qed.

Definition matrix_of (t : transform f32) : mat4 f32 := from_affine (tr_t t) (tr_r t) (tr_s t).
Lemma matrix_entry e len t r c : / 1048576 <= e <= / 100 -> near_rigid e len t -> (r < 3)%nat -> (c < 3)%nat ->
  near (entry (matrix_of t) r c) (turn_of (joint_motion t) r c) (4.2 * e).
Proof.
  intros He (_ & Fq & (F0 & F1 & F2) & _ & Hn & H0 & H1 & H2) Hr Hc. unfold sumsq in Hn.
  destruct t as [tt [x y z w] [s0 s1 s2]]. cbn [tr_r tr_s qx qy qz qw vx vy vz] in *.
  pose proof (conj (Fq 0%nat) eq_refl : fin x (B2R x)) as Fx. pose proof (conj (Fq 1%nat) eq_refl : fin y (B2R y)) as Fy.
  pose proof (conj (Fq 2%nat) eq_refl : fin z (B2R z)) as Fz. pose proof (conj (Fq 3%nat) eq_refl : fin w (B2R w)) as Fw.
  pose proof (conj F0 eq_refl : fin s0 (B2R s0)) as G0. pose proof (conj F1 eq_refl : fin s1 (B2R s1)) as G1. pose proof (conj F2 eq_refl : fin s2 (B2R s2)) as G2.
  unfold joint_motion, rotation, matrix_of, from_affine, entry. cbn [turn_of tr_r tr_s qx qy qz qw vx vy vz].
  set (X := B2R x) in *. set (Y := B2R y) in *. set (Z := B2R z) in *. set (W := B2R w) in *.
  set (S0 := B2R s0) in *. set (S1 := B2R s1) in *. set (S2 := B2R s2) in *. clearbody X Y Z W S0 S1 S2.
  assert (PX : 0 <= X * X) by nra. assert (PY : 0 <= Y * Y) by nra. assert (PZ : 0 <= Z * Z) by nra. assert (PW : 0 <= W * W) by nra.
  set (n := X * X + Y * Y + Z * Z + W * W) in *.
  assert (LX : X * X <= n) by (unfold n; lra). assert (LY : Y * Y <= n) by (unfold n; lra).
  assert (LZ : Z * Z <= n) by (unfold n; lra). assert (LW : W * W <= n) by (unfold n; lra).
  assert (C1 : forall A B C D, A * A + B * B + C * C + D * D = n -> Rabs (A * B + C * D) <= n / 2 /\ Rabs (A * B - C * D) <= n / 2).
  { intros A B C D E.
    pose proof (Rle_0_sqr (A + B)) as P1. pose proof (Rle_0_sqr (A - B)) as P2. pose proof (Rle_0_sqr (C + D)) as P3. pose proof (Rle_0_sqr (C - D)) as P4.
    unfold Rsqr in *. split; apply Rabs_le; lra. }
  assert (EE : 16 * eps <= e) by (unfold eps; lra).
  assert (FIN : forall u v v', near u v (16 * eps) -> Rabs (v - v') <= 3.1 * e -> near u v' (4.2 * e)).
  { intros u v v' N D. eapply near_le; [eapply near_shift; eassumption|lra]. }
  assert (PN : forall a b A B, fin a A -> fin b B -> A * A <= n -> B * B <= n -> near (nmul a b) (A * B) (1.03 * eps)).
  { intros. eapply (prod_near X Y Z W e); eassumption. }
  assert (DG : forall s S a b A B, fin s S -> Rabs (S - 1) <= e -> fin a A -> fin b B -> A * A + B * B <= n -> 0 <= A * A -> 0 <= B * B ->
     near (nmul s (nsub none_ (nmul ntwo (nadd (nmul a a) (nmul b b))))) (1 - 2 * (A * A + B * B) / n) (4.2 * e)).
  { intros s S a b A B Fs HS Fa Fb HAB HA HB. eapply FIN.
    - eapply (diag_near s X Y Z W S e Fs He Hn HS); [apply PN|apply PN|exact HAB]; auto; lra.
    - apply (diag_unit X Y Z W S e He Hn HS). fold n. lra. }
  assert (OF : forall s S a b a' b' A B A' B', fin s S -> Rabs (S - 1) <= e -> fin a A -> fin b B -> fin a' A' -> fin b' B' ->
     A * A + B * B + A' * A' + B' * B' = n -> 0 <= A * A -> 0 <= B * B -> 0 <= A' * A' -> 0 <= B' * B' ->
     near (nmul (nmul s ntwo) (nadd (nmul a b) (nmul a' b'))) (2 * (A * B + A' * B') / n) (4.2 * e) /\
     near (nmul (nmul s ntwo) (nsub (nmul a b) (nmul a' b'))) (2 * (A * B - A' * B') / n) (4.2 * e) /\
     near (nmul s (nmul ntwo (nadd (nmul a b) (nmul a' b')))) (2 * (A * B + A' * B') / n) (4.2 * e)).
  { intros s S a b a' b' A B A' B' Fs HS Fa Fb Fa' Fb' HE P1 P2 P3 P4.
    destruct (C1 _ _ _ _ HE) as [K1 K2].
    assert (HE' : A * A + B * B + A' * A' + B' * B' <= X * X + Y * Y + Z * Z + W * W) by (fold n; lra).
    destruct (cross_le X Y Z W e He Hn _ _ _ _ HE') as [L1 L2].
    destruct (cross_near X Y Z W e He Hn (nmul a b) (nmul a' b') A B A' B') as [N1 N2]; [apply PN; auto; lra|apply PN; auto; lra|exact HE'|].
    destruct (off_near s X Y Z W S e Fs He Hn HS _ _ N1 L1) as [O1 O2]. destruct (off_near s X Y Z W S e Fs He Hn HS _ _ N2 L2) as [O3 _].
    split; [|split]; (eapply FIN; [eassumption|]); apply (off_unit X Y Z W S e He Hn HS); fold n; assumption. }
  destruct r as [|[|[|r]]]; [..|lia]; (destruct c as [|[|[|c]]]; [..|lia]); cbn [lane l0 l1 l2 l3].
  - apply (DG s0 S0); auto; unfold n; lra.
  - apply (OF s1 S1 x y z w X Y Z W); auto; unfold n; lra.
  - apply (OF s2 S2 x z y w X Z Y W); auto; unfold n; lra.
  - apply (OF s0 S0 x y z w X Y Z W); auto; unfold n; lra.
  - apply (DG s1 S1); auto; unfold n; lra.
  - apply (OF s2 S2 y z x w Y Z X W); auto; unfold n; lra.
  - apply (OF s0 S0 x z y w X Z Y W); auto; unfold n; lra.
  - apply (OF s1 S1 y z x w Y Z X W); auto; unfold n; lra.
  - apply (DG s2 S2); auto; unfold n; lra.
Qed.
