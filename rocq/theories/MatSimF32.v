(** Joint matrices made of a rotation and a uniform scale, in binary32: their inverse, and points and directions taken through it. *)
From Coq Require Import Reals Lra Psatz.
From Flocq Require Import IEEE754.BinarySingleNaN Core.
From Verif Require Import Base Num NumF32 NumR F32Facts F32Err InterpF32 NormF32 BlendF32 Math MathSpec MathProofs MotionF32 MotionF32Proofs IkSpec IkProofs PolyErr MatInvF32 VecNorm.
Local Open Scope R_scope.

(** The inner product of two columns of the linear part. *)
Definition cols (m : mat4 R) (i j : nat) : R := ent m 0 i * ent m 0 j + ent m 1 i * ent m 1 j + ent m 2 i * ent m 2 j.
Definition kap := / 65536.
Record sim_joint (m : mat4 f32) (s W : R) : Prop := mk_sim_joint {
  sj_finite : forall i j, (i < 4)%nat -> (j < 4)%nat -> is_finite (ent m i j) = true;
  sj_affine : affine (real_mat m);
  sj_cols : forall i j, (i < 3)%nat -> (j < 3)%nat -> Rabs (cols (real_mat m) i j - (if Nat.eqb i j then s * s else 0)) <= kap * (s * s);
  sj_origin : forall i, (i < 3)%nat -> Rabs (ent (real_mat m) i 3) <= W;
  sj_s : / 1024 <= s <= 1024;
  sj_W : / 1024 <= W <= 1048576 }.

(** ** The real matrix *)
Lemma det_cols (m : mat4 R) : affine m -> det4 m * det4 m =
  cols m 0 0 * (cols m 1 1 * cols m 2 2 - cols m 1 2 * cols m 1 2) - cols m 0 1 * (cols m 0 1 * cols m 2 2 - cols m 1 2 * cols m 0 2)
  + cols m 0 2 * (cols m 0 1 * cols m 1 2 - cols m 1 1 * cols m 0 2).
Proof.
  destruct m as [[a0 a1 a2 a3] [b0 b1 b2 b3] [c0 c1 c2 c3] [d0 d1 d2 d3]]. intros (H0 & H1 & H2 & H3). unfold ent in *. cbn in H0, H1, H2, H3. subst a3 b3 c3 d3.
  unfold cols, det4, det3, det2, ent, skip, sum4. cbn. ring.
Qed.
Lemma gram_det k g00 g11 g22 g01 g02 g12 : 0 < k -> Rabs (g00 - k) <= kap * k -> Rabs (g11 - k) <= kap * k -> Rabs (g22 - k) <= kap * k ->
  Rabs g01 <= kap * k -> Rabs g02 <= kap * k -> Rabs g12 <= kap * k ->
  0.9999 * (k * k * k) <= g00 * (g11 * g22 - g12 * g12) - g01 * (g01 * g22 - g12 * g02) + g02 * (g01 * g12 - g11 * g02).
Proof.
  intros Hk A0 A1 A2 A3 A4 A5.
  assert (N : forall g, exists x, g = k * x). { intros g. exists (g / k). field. lra. }
  assert (U : forall x b, Rabs (k * x - k * b) <= kap * k -> b - kap <= x <= b + kap).
  { intros x b H. replace (k * x - k * b) with (k * (x - b)) in H by ring. rewrite Rabs_mult, (Rabs_pos_eq k) in H by lra. rewrite (Rmult_comm kap) in H. apply Rmult_le_reg_l in H; [|lra]. apply Rabs_le_inv in H. lra. }
  destruct (N g00) as (x & ->), (N g11) as (y & ->), (N g22) as (z & ->), (N g01) as (p & ->), (N g02) as (q & ->), (N g12) as (r & ->). clear N.
  assert (X : forall x, Rabs (k * x - k) <= kap * k -> 1 - kap <= x <= 1 + kap) by (intros v H; apply U; rewrite Rmult_1_r; exact H).
  assert (Y : forall x, Rabs (k * x) <= kap * k -> - kap <= x <= kap) by (intros v H; assert (H' : 0 - kap <= v <= 0 + kap) by (apply U; rewrite Rmult_0_r, Rminus_0_r; exact H); lra).
  apply X in A0, A1, A2. apply Y in A3, A4, A5. clear X Y U.
  replace (_ - _ + _) with ((x * (y * z - r * r) - p * (p * z - r * q) + q * (p * r - y * q)) * (k * k * k)) by ring.
  apply Rmult_le_compat_r; [repeat apply Rmult_le_pos; lra|]. clear Hk k. unfold kap in *.
  assert (M : forall u v a b, Rabs u <= a -> Rabs v <= b -> Rabs (u * v) <= a * b) by (intros; rewrite Rabs_mult; apply Rmult_le_compat; auto using Rabs_pos).
  set (h := / 65536) in *. assert (Hh : h <= 0.00002) by (unfold h; lra). assert (Hh0 : 0 < h) by (unfold h; lra). clearbody h.
  assert (B : forall v, - h <= v <= h -> Rabs v <= 0.00002) by (intros; apply Rabs_le; lra).
  assert (C : forall v, 1 - h <= v <= 1 + h -> Rabs v <= 1.1) by (intros; apply Rabs_le; lra).
  pose proof (M _ _ _ _ (B _ A5) (B _ A5)) as M1. pose proof (M _ _ _ _ (C _ A0) M1) as N1.
  pose proof (M _ _ _ _ (B _ A3) (C _ A2)) as M2. pose proof (M _ _ _ _ (B _ A5) (B _ A4)) as M3. pose proof (M _ _ _ _ (B _ A3) M2) as N2. pose proof (M _ _ _ _ (B _ A3) M3) as N3.
  pose proof (M _ _ _ _ (B _ A3) (B _ A5)) as M4. pose proof (M _ _ _ _ (C _ A1) (B _ A4)) as M5. pose proof (M _ _ _ _ (B _ A4) M4) as N4. pose proof (M _ _ _ _ (B _ A4) M5) as N5.
  apply Rabs_le_inv in N1, N2, N3, N4, N5.
  assert (YZ : 0.99996 <= y * z) by (apply Rle_trans with (0.99998 * 0.99998); [lra|apply Rmult_le_compat; lra]).
  assert (XYZ : 0.99994 <= x * (y * z)) by (apply Rle_trans with (0.99998 * 0.99996); [lra|apply Rmult_le_compat; lra]).
  lra.
Qed.

Section Real.
  Context (m : mat4 R) (s : R) (AF : affine m) (S0 : 0 < s)
    (CO : forall i j, (i < 3)%nat -> (j < 3)%nat -> Rabs (cols m i j - (if Nat.eqb i j then s * s else 0)) <= kap * (s * s)).
  Lemma sim_det : 0.9999 * (s * s * s) <= Rabs (det4 m).
  Proof using AF S0 CO.
    assert (K : 0 < s * s) by nra. assert (C0 : 0 < s * s * s) by (repeat apply Rmult_lt_0_compat; lra).
    pose proof (CO 0 0 ltac:(lia) ltac:(lia))%nat as A0. pose proof (CO 1 1 ltac:(lia) ltac:(lia))%nat as A1. pose proof (CO 2 2 ltac:(lia) ltac:(lia))%nat as A2. cbn [Nat.eqb] in A0, A1, A2.
    pose proof (gram_det (s * s) _ _ _ (cols m 0 1) (cols m 0 2) (cols m 1 2) K A0 A1 A2) as G.
    assert (Z : forall i j, (i < 3)%nat -> (j < 3)%nat -> Nat.eqb i j = false -> Rabs (cols m i j) <= kap * (s * s)) by (intros i j Hi Hj E; pose proof (CO i j Hi Hj) as Q; rewrite E, Rminus_0_r in Q; exact Q).
    specialize (G (Z 0 1 ltac:(lia) ltac:(lia) eq_refl)%nat (Z 0 2 ltac:(lia) ltac:(lia) eq_refl)%nat (Z 1 2 ltac:(lia) ltac:(lia) eq_refl)%nat). rewrite <- det_cols in G by exact AF.
    set (d := det4 m) in *. set (c := s * s * s) in *. replace (s * s * (s * s) * (s * s)) with (c * c) in G by (unfold c; ring).
    apply Rnot_lt_le. intros L. assert (Rabs d * Rabs d < 0.9999 * c * (0.9999 * c)) by (apply Rmult_le_0_lt_compat; auto using Rabs_pos).
    rewrite <- Rabs_mult, (Rabs_pos_eq (d * d)) in H by nra. assert (0 < c * c) by nra. lra.
  Qed.
  Definition col (j : nat) : vec3 R := V3 (ent m 0 j) (ent m 1 j) (ent m 2 j).
  Lemma col_len j : (j < 3)%nat -> len3 (col j) <= 1.0001 * s.
  Proof using S0 CO.
    intros Hj. apply len3_of_sq; [lra|]. pose proof (CO j j Hj Hj) as Q. rewrite Nat.eqb_refl in Q. apply Rabs_le_inv in Q.
    change (dot3 (col j) (col j)) with (cols m j j). unfold kap in Q. nra.
  Qed.
  Lemma lin_cols v : dot3 (lin m v) (lin m v) =
    cols m 0 0 * (vx v * vx v) + cols m 1 1 * (vy v * vy v) + cols m 2 2 * (vz v * vz v)
    + 2 * (cols m 0 1 * (vx v * vy v)) + 2 * (cols m 0 2 * (vx v * vz v)) + 2 * (cols m 1 2 * (vy v * vz v)).
  Proof using.
    clear. destruct m as [[a0 a1 a2 a3] [b0 b1 b2 b3] [c0 c1 c2 c3] [d0 d1 d2 d3]]. destruct v as [x y z]. unfold cols, ent, dot3, lin, minus3, pt, apply_point, origin, v3_of, ent. cbn. ring.
  Qed.
  Lemma lin_len v : Rabs (len3 (lin m v) - s * len3 v) <= 2 * kap * (s * len3 v).
  Proof using S0 CO.
    assert (SQ : Rabs (dot3 (lin m v) (lin m v) - s * s * dot3 v v) <= 3 * kap * (s * s * dot3 v v)).
    { rewrite lin_cols. pose proof (CO 0 0 ltac:(lia) ltac:(lia))%nat as A0. pose proof (CO 1 1 ltac:(lia) ltac:(lia))%nat as A1. pose proof (CO 2 2 ltac:(lia) ltac:(lia))%nat as A2.
      pose proof (CO 0 1 ltac:(lia) ltac:(lia))%nat as A3. pose proof (CO 0 2 ltac:(lia) ltac:(lia))%nat as A4. pose proof (CO 1 2 ltac:(lia) ltac:(lia))%nat as A5. cbn [Nat.eqb] in *.
      rewrite Rminus_0_r in A3, A4, A5. set (k := s * s) in *. assert (K0 : 0 < k) by (unfold k; nra). clearbody k.
      unfold dot3. destruct v as [x y z]. cbn [vx vy vz].
      assert (P : forall g b q, Rabs (g - b) <= kap * k -> 0 <= q -> Rabs ((g - b) * q) <= kap * k * q) by (intros; rewrite Rabs_mult, (Rabs_pos_eq q) by assumption; apply Rmult_le_compat_r; assumption).
      assert (X : forall a b, Rabs (a * b) <= / 2 * (a * a + b * b)) by (intros a b; apply Rabs_le; pose proof (Rle_0_sqr (a + b)); pose proof (Rle_0_sqr (a - b)); unfold Rsqr in *; lra).
      assert (Q : forall g a b, Rabs g <= kap * k -> Rabs (g * (a * b)) <= kap * k * (/ 2 * (a * a + b * b))) by (intros; rewrite Rabs_mult; apply Rmult_le_compat; auto using Rabs_pos).
      pose proof (P _ _ (x * x) A0 ltac:(nra)) as B0. pose proof (P _ _ (y * y) A1 ltac:(nra)) as B1. pose proof (P _ _ (z * z) A2 ltac:(nra)) as B2.
      pose proof (Q _ x y A3) as B3. pose proof (Q _ x z A4) as B4. pose proof (Q _ y z A5) as B5.
      apply Rabs_le_inv in B0, B1, B2, B3, B4, B5. apply Rabs_le. lra. }
    rewrite <- !len3_sq in SQ. pose proof (len3_nn v) as L0. pose proof (len3_nn (lin m v)) as L1. set (p := len3 (lin m v)) in *. set (q := len3 v) in *. clearbody p q.
    assert (SQ' : Rabs (p * p - (s * q) * (s * q)) <= 3 * kap * ((s * q) * (s * q))) by (replace (s * q * (s * q)) with (s * s * (q * q)) by ring; exact SQ).
    assert (G0 : 0 <= s * q) by nra. set (g := s * q) in *. clearbody g. clear SQ. unfold kap in *. apply Rabs_le_inv in SQ'. apply Rabs_le. split; apply Rnot_lt_le; intros L; nra.
  Qed.
End Real.

(** ** Terms of the minors *)
Lemma pair_cols m s a b p q : affine m -> 0 < s -> (forall i j, (i < 3)%nat -> (j < 3)%nat -> Rabs (cols m i j - (if Nat.eqb i j then s * s else 0)) <= kap * (s * s)) ->
  (a < 3)%nat -> (b < 3)%nat -> (p < 3)%nat -> (q < 3)%nat -> p <> q ->
  Rabs (ent m p a) * Rabs (ent m q b) + Rabs (ent m q a) * Rabs (ent m p b) <= 1.0003 * (s * s).
Proof.
  intros AF S0 CO Ha Hb Hp Hq PQ. pose proof (col_len m s S0 CO a Ha) as A. pose proof (col_len m s S0 CO b Hb) as B.
  rewrite <- !Rabs_mult. apply Rle_trans with (1.0001 * s * (1.0001 * s)); [|assert (0 < s * s) by nra; lra].
  pose proof (len3_sq (col m a)) as Sa. pose proof (len3_sq (col m b)) as Sb. pose proof (len3_nn (col m a)). pose proof (len3_nn (col m b)). unfold dot3, col in Sa, Sb. cbn [vx vy vz] in Sa, Sb. fold (col m a) in Sa. fold (col m b) in Sb.
  apply Rle_trans with (len3 (col m a) * len3 (col m b)); [|apply Rmult_le_compat; lra].
  pose proof (Rle_0_sqr (ent m 0 a)). pose proof (Rle_0_sqr (ent m 1 a)). pose proof (Rle_0_sqr (ent m 2 a)). pose proof (Rle_0_sqr (ent m 0 b)). pose proof (Rle_0_sqr (ent m 1 b)). pose proof (Rle_0_sqr (ent m 2 b)). unfold Rsqr in *.
  destruct p as [|[|[|]]], q as [|[|[|]]]; try lia; apply pair_abs; lra.
Qed.
Lemma ent_le m s i j : 0 < s -> (forall i j, (i < 3)%nat -> (j < 3)%nat -> Rabs (cols m i j - (if Nat.eqb i j then s * s else 0)) <= kap * (s * s)) ->
  (i < 3)%nat -> (j < 3)%nat -> Rabs (ent m i j) <= 1.0001 * s.
Proof.
  intros S0 CO Hi Hj. eapply Rle_trans; [|apply (col_len m s S0 CO j Hj)]. destruct (len3_comp (col m j)) as (A & B & C). unfold col in A, B, C. cbn [vx vy vz] in *. destruct i as [|[|[|]]]; [assumption..|lia].
Qed.

Lemma ratio_err2 f32' d m32 F dd m m' A Dm : fin f32' F -> fin m32 m' -> dd <> 0 ->
  Dm = Rabs dd -> p2 (-32) <= Dm <= p2 36 -> Rabs (F - / dd) <= 35.4 * eps * / Dm -> Rabs m <= A -> Rabs (m' - m) <= 7.01 * eps * A -> p2 (-40) <= A <= p2 60 -> d = m / dd ->
  exists p, fin (nmul f32' m32) p /\ Rabs (p - d) <= 43.5 * eps * (A * / Dm) /\ Rabs d <= A * / Dm.
Proof.
  intros Ff Fm Hd HDm (DL & DH) EF Hm Em (AL & AH) Hdd. set (J := / Dm) in *. pose proof (p2_pos (-32)) as P32. pose proof (p2_pos (-40)) as P40.
  assert (J0 : 0 < J) by (apply Rinv_0_lt_compat; lra).
  assert (JI : Rabs (/ dd) = J) by (rewrite Rabs_inv, <- HDm; reflexivity).
  assert (JH : J <= p2 32) by (unfold J; replace (p2 32) with (/ p2 (-32)) by (rewrite <- bpow_opp; reflexivity); apply Rinv_le_contravar; lra).
  assert (JL : p2 (-36) <= J) by (unfold J; change (-36)%Z with (- (36))%Z; rewrite bpow_opp; apply Rinv_le_contravar; lra).
  assert (A0 : 0 < A) by lra. assert (AJ : 0 < A * J) by (apply Rmult_lt_0_compat; lra).
  set (g := / dd) in *.
  assert (MP : Rabs m' <= 1.000001 * A) by (apply Rabs_le_inv in Hm; apply Rabs_le_inv in Em; apply Rabs_le; unfold eps in Em; lra).
  assert (FP : Rabs F <= 1.0001 * J).
  { assert (- J <= g <= J) by (apply Rabs_le_inv; lra). apply Rabs_le_inv in EF. apply Rabs_le. unfold eps in EF. lra. }
  assert (E1 : Rabs ((F - g) * m') <= 35.41 * eps * (A * J)).
  { rewrite Rabs_mult. apply Rle_trans with (35.4 * eps * J * (1.000001 * A)); [apply Rmult_le_compat; auto; apply Rabs_pos|]. unfold eps. lra. }
  assert (E2 : Rabs (g * (m' - m)) <= 7.01 * eps * (A * J)).
  { rewrite Rabs_mult, JI. apply Rle_trans with (J * (7.01 * eps * A)); [apply Rmult_le_compat_l; lra|]. lra. }
  assert (FM : Rabs (F * m') <= 1.001 * (A * J)).
  { rewrite Rabs_mult. apply Rle_trans with (1.0001 * J * (1.000001 * A)); [apply Rmult_le_compat; auto; apply Rabs_pos|]. lra. }
  assert (AJH : A * J <= p2 92) by (change 92%Z with (60 + 32)%Z; rewrite bpow_plus; apply Rmult_le_compat; lra).
  assert (AJL : p2 (-76) <= A * J) by (change (-76)%Z with (-40 + -36)%Z; rewrite bpow_plus; pose proof (p2_pos (-36)); apply Rmult_le_compat; lra).
  assert (T : tiny <= / 1000 * eps * (A * J)) by (apply (tiny_rel (-76)); [lia|exact AJL]).
  exists (rnd32 (F * m')). split; [|split].
  - apply fin_mul; auto. apply (p2_le_HUGE 93); [lia|]. change 93%Z with (1 + 92)%Z. rewrite (p2_shift 1 92 2) by (simpl; lra). lra.
  - assert (Ed : F * m' - d = (F - g) * m' + g * (m' - m)) by (rewrite Hdd; unfold Rdiv; fold g; ring).
    pose proof (rnd_err (F * m')) as R. apply Rabs_le_inv in R. apply Rabs_le_inv in E1. apply Rabs_le_inv in E2.
    set (r := rnd32 (F * m')) in *. set (a := Rabs (F * m')) in *. clearbody r a. clear - Ed R E1 E2 FM T AJ. apply Rabs_le. unfold eps in *. lra.
  - rewrite Hdd. unfold Rdiv. fold g. rewrite Rabs_mult, JI. apply Rmult_le_compat_r; lra.
Qed.

Section Inverse.
  Context (m : mat4 f32) (s W : R) (G : sim_joint m s W).
  Let M := real_mat m.
  Let E := mat_env 0 M.

  Lemma sj_env : (forall i, fin (mat_env nzero m i) (E i)) /\ (forall i, Rabs (E i) <= p2 20) /\
    E 3%nat = 0 /\ E 7%nat = 0 /\ E 11%nat = 0 /\ E 15%nat = 1 /\ Rabs (E 12%nat) <= W /\ Rabs (E 13%nat) <= W /\ Rabs (E 14%nat) <= W /\
    (forall i, In i [0; 1; 2; 4; 5; 6; 8; 9; 10]%nat -> Rabs (E i) <= 1.0001 * s).
  Proof using G.
    destruct G as [Fi AF CO Or Hs HW]. pose proof AF as (A0 & A1 & A2 & A3).
    assert (Ax : forall i, In i [0; 1; 2; 4; 5; 6; 8; 9; 10]%nat -> Rabs (E i) <= 1.0001 * s).
    { intros i Hi. assert (S0 : 0 < s) by lra. pose proof (fun i j => ent_le (real_mat m) s i j S0 CO) as Q. cbn in Hi.
      repeat (destruct Hi as [<-|Hi]; [first [exact (Q 0 0 ltac:(lia) ltac:(lia))%nat|exact (Q 1 0 ltac:(lia) ltac:(lia))%nat|exact (Q 2 0 ltac:(lia) ltac:(lia))%nat|exact (Q 0 1 ltac:(lia) ltac:(lia))%nat|exact (Q 1 1 ltac:(lia) ltac:(lia))%nat|exact (Q 2 1 ltac:(lia) ltac:(lia))%nat|exact (Q 0 2 ltac:(lia) ltac:(lia))%nat|exact (Q 1 2 ltac:(lia) ltac:(lia))%nat|exact (Q 2 2 ltac:(lia) ltac:(lia))%nat]|]). destruct Hi. }
    pose proof (Or 0%nat ltac:(lia)) as O0. pose proof (Or 1%nat ltac:(lia)) as O1. pose proof (Or 2%nat ltac:(lia)) as O2.
    change (E 12%nat) with (ent (real_mat m) 0 3). change (E 13%nat) with (ent (real_mat m) 1 3). change (E 14%nat) with (ent (real_mat m) 2 3).
    change (E 3%nat) with (ent (real_mat m) 3 0). change (E 7%nat) with (ent (real_mat m) 3 1). change (E 11%nat) with (ent (real_mat m) 3 2). change (E 15%nat) with (ent (real_mat m) 3 3).
    split; [|split; [|repeat split; assumption]].
    - intros i. do 16 (destruct i as [|i]; [split; [first [exact (Fi 0%nat 0%nat ltac:(lia) ltac:(lia)) | exact (Fi 1%nat 0%nat ltac:(lia) ltac:(lia)) | exact (Fi 2%nat 0%nat ltac:(lia) ltac:(lia)) | exact (Fi 3%nat 0%nat ltac:(lia) ltac:(lia)) | exact (Fi 0%nat 1%nat ltac:(lia) ltac:(lia)) | exact (Fi 1%nat 1%nat ltac:(lia) ltac:(lia)) | exact (Fi 2%nat 1%nat ltac:(lia) ltac:(lia)) | exact (Fi 3%nat 1%nat ltac:(lia) ltac:(lia)) | exact (Fi 0%nat 2%nat ltac:(lia) ltac:(lia)) | exact (Fi 1%nat 2%nat ltac:(lia) ltac:(lia)) | exact (Fi 2%nat 2%nat ltac:(lia) ltac:(lia)) | exact (Fi 3%nat 2%nat ltac:(lia) ltac:(lia)) | exact (Fi 0%nat 3%nat ltac:(lia) ltac:(lia)) | exact (Fi 1%nat 3%nat ltac:(lia) ltac:(lia)) | exact (Fi 2%nat 3%nat ltac:(lia) ltac:(lia)) | exact (Fi 3%nat 3%nat ltac:(lia) ltac:(lia))]|reflexivity]|]). apply fin_zero.
    - assert (P20 : p2 20 = 1048576) by (simpl; lra). rewrite P20.
      assert (K : forall i, (i < 16)%nat -> Rabs (E i) <= 1048576).
      { intros i Hi. destruct (in_dec Nat.eq_dec i [0; 1; 2; 4; 5; 6; 8; 9; 10]%nat) as [I|I]; [specialize (Ax i I); lra|].
        destruct (in_dec Nat.eq_dec i [3; 7; 11; 12; 13; 14; 15]%nat) as [J|J]; [|exfalso; cbn in I, J; lia]. cbn in J.
        destruct J as [<-|[<-|[<-|[<-|[<-|[<-|[<-|[]]]]]]]].
        - change (E 3%nat) with (ent (real_mat m) 3 0). rewrite A0, Rabs_R0. lra.
        - change (E 7%nat) with (ent (real_mat m) 3 1). rewrite A1, Rabs_R0. lra.
        - change (E 11%nat) with (ent (real_mat m) 3 2). rewrite A2, Rabs_R0. lra.
        - change (E 12%nat) with (ent (real_mat m) 0 3). lra.
        - change (E 13%nat) with (ent (real_mat m) 1 3). lra.
        - change (E 14%nat) with (ent (real_mat m) 2 3). lra.
        - change (E 15%nat) with (ent (real_mat m) 3 3). rewrite A3, Rabs_R1. lra. }
      intros i. destruct (le_lt_dec 16 i) as [L|L]; [|exact (K i L)].
      replace (E i) with 0; [rewrite Rabs_R0; lra|]. do 16 (destruct i as [|i]; [exfalso; lia|]). reflexivity.
  Qed.
  Lemma sj_pairs : let P (a b c d : nat) := Rabs (E a) * Rabs (E b) + Rabs (E c) * Rabs (E d) <= 1.0003 * (s * s) in
    ((P 0 5 1 4 /\ P 0 6 2 4 /\ P 1 6 2 5) /\ (P 0 9 1 8 /\ P 0 10 2 8 /\ P 1 10 2 9) /\ (P 4 9 5 8 /\ P 4 10 6 8 /\ P 5 10 6 9))%nat.
  Proof using G.
    intros P. destruct G as [Fi AF CO Or Hs HW]. assert (S0 : 0 < s) by lra. pose proof (fun a b p q => pair_cols (real_mat m) s a b p q AF S0 CO) as Q.
    split; [|split]; (split; [|split]).
    - exact (Q 0 1 0 1 ltac:(lia) ltac:(lia) ltac:(lia) ltac:(lia) ltac:(lia))%nat.
    - exact (Q 0 1 0 2 ltac:(lia) ltac:(lia) ltac:(lia) ltac:(lia) ltac:(lia))%nat.
    - exact (Q 0 1 1 2 ltac:(lia) ltac:(lia) ltac:(lia) ltac:(lia) ltac:(lia))%nat.
    - exact (Q 0 2 0 1 ltac:(lia) ltac:(lia) ltac:(lia) ltac:(lia) ltac:(lia))%nat.
    - exact (Q 0 2 0 2 ltac:(lia) ltac:(lia) ltac:(lia) ltac:(lia) ltac:(lia))%nat.
    - exact (Q 0 2 1 2 ltac:(lia) ltac:(lia) ltac:(lia) ltac:(lia) ltac:(lia))%nat.
    - exact (Q 1 2 0 1 ltac:(lia) ltac:(lia) ltac:(lia) ltac:(lia) ltac:(lia))%nat.
    - exact (Q 1 2 0 2 ltac:(lia) ltac:(lia) ltac:(lia) ltac:(lia) ltac:(lia))%nat.
    - exact (Q 1 2 1 2 ltac:(lia) ltac:(lia) ltac:(lia) ltac:(lia) ltac:(lia))%nat.
  Qed.
  Definition term2 (k : nat) : R := if Nat.eqb k 3 then 3.001 * (W * (s * s)) else 1.0003 * (s * s).
  Lemma sj_terms k i : (k < 4)%nat -> (i < 3)%nat -> evA E (mex k i) <= term2 k.
  Proof using G.
    intros Hk Hi. destruct sj_env as (_ & _ & E3 & E7 & E11 & E15 & O0 & O1 & O2 & _). destruct sj_pairs as ((P1 & P2 & P3) & (P4 & P5 & P6) & (P7 & P8 & P9)).
    destruct G as [_ _ _ _ Hs HW]. assert (S2 : 0 < s * s) by nra. set (k2 := s * s) in *. unfold term2. fold k2.
    assert (X : forall o p, Rabs o <= W -> 0 <= p -> p <= 1.0003 * k2 -> Rabs o * p <= 1.0003 * (W * k2)) by (intros o p A B C; replace (1.0003 * (W * k2)) with (W * (1.0003 * k2)) by ring; apply Rmult_le_compat; auto using Rabs_pos).
    assert (NN : forall a b c d, 0 <= Rabs a * Rabs b + Rabs c * Rabs d) by (intros; pose proof (Rmult_le_pos _ _ (Rabs_pos a) (Rabs_pos b)); pose proof (Rmult_le_pos _ _ (Rabs_pos c) (Rabs_pos d)); lra).
    assert (WK : 0 < W * k2) by (apply Rmult_lt_0_compat; lra).
    do 4 (destruct k as [|k]; [do 3 (destruct i as [|i];
      [match goal with |- context [mex ?a ?b] => let e := eval vm_compute in (mex a b) in change (mex a b) with e end; cbn [Nat.eqb evA]; rewrite ?E3, ?E7, ?E11, ?E15, ?Rabs_R0, ?Rabs_R1;
        first [lra|
          pose proof (X _ _ O0 (NN _ _ _ _) P1); pose proof (X _ _ O0 (NN _ _ _ _) P2); pose proof (X _ _ O0 (NN _ _ _ _) P3); pose proof (X _ _ O0 (NN _ _ _ _) P4); pose proof (X _ _ O0 (NN _ _ _ _) P5); pose proof (X _ _ O0 (NN _ _ _ _) P6); pose proof (X _ _ O0 (NN _ _ _ _) P7); pose proof (X _ _ O0 (NN _ _ _ _) P8); pose proof (X _ _ O0 (NN _ _ _ _) P9);
          pose proof (X _ _ O1 (NN _ _ _ _) P1); pose proof (X _ _ O1 (NN _ _ _ _) P2); pose proof (X _ _ O1 (NN _ _ _ _) P3); pose proof (X _ _ O1 (NN _ _ _ _) P4); pose proof (X _ _ O1 (NN _ _ _ _) P5); pose proof (X _ _ O1 (NN _ _ _ _) P6); pose proof (X _ _ O1 (NN _ _ _ _) P7); pose proof (X _ _ O1 (NN _ _ _ _) P8); pose proof (X _ _ O1 (NN _ _ _ _) P9);
          pose proof (X _ _ O2 (NN _ _ _ _) P1); pose proof (X _ _ O2 (NN _ _ _ _) P2); pose proof (X _ _ O2 (NN _ _ _ _) P3); pose proof (X _ _ O2 (NN _ _ _ _) P4); pose proof (X _ _ O2 (NN _ _ _ _) P5); pose proof (X _ _ O2 (NN _ _ _ _) P6); pose proof (X _ _ O2 (NN _ _ _ _) P7); pose proof (X _ _ O2 (NN _ _ _ _) P8); pose proof (X _ _ O2 (NN _ _ _ _) P9); lra]|]); lia|]); lia.
  Qed.
  Lemma sj_terms_det : evA E (mex 4 0) <= 3.002 * (s * s * s).
  Proof using G.
    destruct sj_env as (_ & _ & E3 & E7 & E11 & E15 & O0 & O1 & O2 & Ax). destruct sj_pairs as ((P1 & P2 & P3) & (P4 & P5 & P6) & (P7 & P8 & P9)).
    destruct G as [_ _ _ _ Hs HW]. assert (S2 : 0 < s * s) by nra.
    assert (NN : forall a b c d, 0 <= Rabs a * Rabs b + Rabs c * Rabs d) by (intros; pose proof (Rmult_le_pos _ _ (Rabs_pos a) (Rabs_pos b)); pose proof (Rmult_le_pos _ _ (Rabs_pos c) (Rabs_pos d)); lra).
    assert (S3 : 0 < s * s * s) by (apply Rmult_lt_0_compat; lra).
    assert (X : forall i p, In i [0; 1; 2; 4; 5; 6; 8; 9; 10]%nat -> 0 <= p -> p <= 1.0003 * (s * s) -> Rabs (E i) * p <= 1.00045 * (s * s * s)).
    { intros i p A B C. apply Rle_trans with (1.0001 * s * (1.0003 * (s * s))); [apply Rmult_le_compat; auto using Rabs_pos|]. nra. }
    pose proof (X 0%nat _ ltac:(cbn; auto) (NN _ _ _ _) P9) as X0. pose proof (X 4%nat _ ltac:(cbn; auto) (NN _ _ _ _) P6) as X1. pose proof (X 8%nat _ ltac:(cbn; auto 10) (NN _ _ _ _) P3) as X2.
    match goal with |- context [mex ?a ?b] => let e := eval vm_compute in (mex a b) in change (mex a b) with e end. cbn [evA]. rewrite ?E3, ?E7, ?E11, ?E15, ?Rabs_R0, ?Rabs_R1. lra.
  Qed.

  Lemma inverse_err2 i k : (i < 3)%nat -> (k < 4)%nat ->
    let A := if Nat.eqb k 3 then 3.003 * (W * / s) else 1.0006 * / s in
    exists p, fin (ent (mat_invert m) i k) p /\ Rabs (p - ent (mat_invert M) i k) <= 43.5 * eps * A /\ Rabs (ent (mat_invert M) i k) <= A.
  Proof using G.
    intros Hi Hk A. destruct sj_env as (E1 & E2 & _). pose proof (sj_s _ _ _ G) as Hs. pose proof (sj_W _ _ _ G) as HW. pose proof (sim_det _ s (sj_affine _ _ _ G) ltac:(lra) (sj_cols _ _ _ G)) as HD. fold M in HD.
    set (c := s * s * s) in *. assert (S0 : 0 < s) by lra. assert (C0 : 0 < c) by (unfold c; repeat apply Rmult_lt_0_compat; lra).
    assert (CL : p2 (-30) <= c).
    { replace (p2 (-30)) with (/ 1024 * / 1024 * / 1024) by (simpl; lra). unfold c. repeat apply Rmult_le_compat; try lra; apply Rmult_le_pos; lra. }
    assert (CH : c <= p2 30).
    { replace (p2 30) with (1024 * 1024 * 1024) by (simpl; lra). unfold c. repeat apply Rmult_le_compat; try lra; apply Rmult_le_pos; lra. }
    (* the determinant *)
    destruct (poly_err 20 _ _ (mex 4 0) ltac:(lia) E1 E2 (mex_small 4 0 ltac:(lia) ltac:(lia))) as (D & FD & BD & ED). pose proof sj_terms_det as TD.
    assert (ED0 : Rabs (D - evR E (mex 4 0)) <= IZR (cost (mex 4 0)) * eta * (3.002 * (s * s * s)) + p2 (under 20 (mex 4 0)) * tiny).
    { eapply Rle_trans; [exact ED|]. apply Rplus_le_compat_r, Rmult_le_compat_l; [|exact TD]. apply Rmult_le_pos; [apply IZR_le, cost_nonneg|unfold eta, eps; lra]. }
    clear ED. rename ED0 into ED. assert (BD0 := Rle_trans _ _ _ BD TD). clear BD. rename BD0 into BD. unfold E in BD, ED, FD.
    rewrite det_ev in BD, ED. rewrite <- (minors_ev nzero m 4 0) in FD by lia.
    replace (cost (mex 4 0)) with 10%Z in ED by (vm_compute; reflexivity). replace (under 20 (mex 4 0)) with 80%Z in ED by (vm_compute; reflexivity).
    set (d := det4 M) in *. fold c in BD, ED.
    assert (T80 : p2 80 * tiny <= 0.001 * eps * c).
    { unfold tiny. rewrite <- bpow_plus. apply Rle_trans with (p2 (-10) * p2 (-24) * p2 (-30)); [rewrite <- !bpow_plus; apply bpow_le; lia|].
      replace (p2 (-24)) with eps by (unfold eps; simpl; lra). apply Rle_trans with (p2 (-10) * eps * c); [apply Rmult_le_compat_l; [|exact CL]; apply Rmult_le_pos; [apply bpow_ge_0|unfold eps; lra]|].
      apply Rmult_le_compat_r; [lra|]. apply Rmult_le_compat_r; [unfold eps; lra|simpl; lra]. }
    assert (d0 : d <> 0) by (intros Z; rewrite Z, Rabs_R0 in HD; lra).
    assert (ED' : Rabs (D - d) <= 30.1 * eps * Rabs d).
    { eapply Rle_trans; [exact ED|]. apply Rle_trans with (30.08 * eps * c); [unfold eta, eps in *; lra|]. unfold eps. lra. }
    set (Dm := Rabs d) in *. assert (DL : p2 (-32) <= Dm) by (change (-30)%Z with (2 + -32)%Z in CL; rewrite (p2_shift 2 (-32) 4) in CL by (simpl; lra); lra).
    assert (DH : Dm <= p2 33) by (change 33%Z with (3 + 30)%Z; rewrite (p2_shift 3 30 8) by (simpl; lra); lra).
    pose proof (p2_pos (-32)) as P32. assert (Dm0 : 0 < Dm) by lra.
    assert (DDm : Dm - 0.0001 * Dm <= Rabs D <= Dm + 0.0001 * Dm).
    { pose proof (Rabs_triang_inv D d) as T1. pose proof (Rabs_triang_inv d D) as T2. rewrite (Rabs_minus_sym d D) in T2. fold Dm in T1, T2. unfold eps in ED'. lra. }
    assert (DR : p2 (-40) <= Rabs D <= p2 40).
    { split; [apply Rle_trans with (/ 2 * p2 (-32)); [replace (/ 2) with (p2 (-1)) by (simpl; lra); rewrite <- bpow_plus; apply bpow_le; lia|lra]|].
      apply Rle_trans with (2 * p2 33); [lra|]. change 2 with (p2 1). rewrite <- bpow_plus. apply bpow_le. lia. }
    destruct (inv_factor_err _ D FD DR) as (f & Ff & Ef).
    assert (DI : / Rabs D <= 1.001 * / Dm).
    { apply Rmult_le_reg_r with (Rabs D); [lra|]. rewrite Rinv_l by lra. apply Rmult_le_reg_l with Dm; [lra|].
      replace (Dm * (1.001 * / Dm * Rabs D)) with (1.001 * Rabs D) by (field; lra). lra. }
    assert (D0 : D <> 0) by (intros Z; rewrite Z, Rabs_R0 in DDm; lra).
    assert (EF : Rabs (f - / d) <= 35.4 * eps * / Dm).
    { assert (H1 : Rabs (/ D - / d) <= 30.1 * eps * / Rabs D).
      { replace (/ D - / d) with (- (D - d) * (/ D * / d)) by (field; auto). rewrite Rabs_mult, Rabs_Ropp, Rabs_mult, !Rabs_inv. fold Dm.
        apply Rle_trans with (30.1 * eps * Dm * (/ Rabs D * / Dm)); [apply Rmult_le_compat_r; [|exact ED']; apply Rmult_le_pos; apply Rlt_le, Rinv_0_lt_compat; lra|].
        apply Req_le. field. split; lra. }
      assert (H2 : Rabs (f - / d) <= 35.2 * eps * / Rabs D).
      { replace (f - / d) with ((f - / D) + (/ D - / d)) by ring. eapply Rle_trans; [apply Rabs_triang|]. unfold eps in *. lra. }
      eapply Rle_trans; [exact H2|]. 
      assert (DI' : / Rabs D <= 1.0001 * / Dm * 1.0001).
      { apply Rmult_le_reg_r with (Rabs D); [lra|]. rewrite Rinv_l by lra. apply Rmult_le_reg_l with Dm; [lra|].
        replace (Dm * (1.0001 * / Dm * 1.0001 * Rabs D)) with (1.0001 * 1.0001 * Rabs D) by (field; lra). lra. }
      assert (0 < / Dm) by (apply Rinv_0_lt_compat; lra). unfold eps. lra. }
    (* the minor *)
    pose proof (sj_terms k i Hk Hi) as TM.
    destruct (poly_err 20 _ _ (mex k i) ltac:(lia) E1 E2 (mex_small k i ltac:(lia) ltac:(lia))) as (m' & Fm & Bm & Em).
    assert (Em0 : Rabs (m' - evR E (mex k i)) <= IZR (cost (mex k i)) * eta * term2 k + p2 (under 20 (mex k i)) * tiny).
    { eapply Rle_trans; [exact Em|]. apply Rplus_le_compat_r, Rmult_le_compat_l; [|exact TM]. apply Rmult_le_pos; [apply IZR_le, cost_nonneg|unfold eta, eps; lra]. }
    clear Em. rename Em0 into Em. assert (Bm0 := Rle_trans _ _ _ Bm TM). clear Bm. rename Bm0 into Bm. unfold E in Bm, Em, Fm.
    destruct (mex_cost k i Hk ltac:(lia)) as [Ec Eu]. rewrite Ec, Eu in Em. rewrite <- (minors_ev nzero m k i) in Fm by lia.
    set (B := term2 k) in *.
    assert (SS : / 1024 * / 1024 <= s * s <= 1024 * 1024) by (split; apply Rmult_le_compat; lra).
    assert (BB : p2 (-40) <= B <= p2 60).
    { unfold B, term2. destruct (Nat.eqb k 3); [|simpl; lra]. 
      assert (/ 1024 * (/ 1024 * / 1024) <= W * (s * s) <= 1048576 * (1024 * 1024)) by (split; apply Rmult_le_compat; lra). simpl. lra. }
    assert (TB : p2 54 * tiny <= 0.001 * eps * B).
    { unfold tiny. rewrite <- bpow_plus. apply Rle_trans with (p2 (-10) * p2 (-24) * p2 (-40)); [rewrite <- !bpow_plus; apply bpow_le; lia|].
      replace (p2 (-24)) with eps by (unfold eps; simpl; lra). apply Rle_trans with (p2 (-10) * eps * B); [apply Rmult_le_compat_l; [|lra]; apply Rmult_le_pos; [apply bpow_ge_0|unfold eps; lra]|].
      pose proof (p2_pos (-40)). apply Rmult_le_compat_r; [lra|]. apply Rmult_le_compat_r; [unfold eps; lra|simpl; lra]. }
    assert (Em' : Rabs (m' - evR (mat_env 0 M) (mex k i)) <= 7.01 * eps * B) by (eapply Rle_trans; [exact Em|]; pose proof (p2_pos (-40)); unfold eta, eps in *; lra).
    assert (ER : ent (mat_invert M) i k = evR (mat_env 0 M) (mex k i) / d).
    { rewrite invert_ent by exact Hk. rewrite (minors_ev 0 M 4 0), (minors_ev 0 M k i), !ev_R, det_ev by lia. fold d. rewrite inv_factor_R by exact d0.
      change (nmul (/ d) (evR (mat_env 0 M) (mex k i))) with (/ d * evR (mat_env 0 M) (mex k i)). unfold Rdiv. ring. }
    assert (DH' : Dm <= p2 36) by (eapply Rle_trans; [exact DH|apply bpow_le; lia]).
    destruct (ratio_err2 _ (ent (mat_invert M) i k) _ f d _ m' B Dm Ff Fm d0 eq_refl (Logic.conj DL DH') EF Bm Em' BB ER) as (p & Fp & Ep & Bp).
    assert (BA : B * / Dm <= A).
    { assert (HI : / Dm <= 1.0002 * / c).
      { apply Rmult_le_reg_r with Dm; [lra|]. rewrite Rinv_l by lra. apply Rmult_le_reg_l with c; [lra|]. replace (c * (1.0002 * / c * Dm)) with (1.0002 * Dm) by (field; lra). lra. }
      assert (B0 : 0 <= B) by (pose proof (p2_pos (-40)); lra).
      apply Rle_trans with (B * (1.0002 * / c)); [apply Rmult_le_compat_l; assumption|]. unfold A, B, term2, c. assert (0 < W * / s) by (apply Rmult_lt_0_compat; [lra|apply Rinv_0_lt_compat; lra]). assert (0 < / s) by (apply Rinv_0_lt_compat; lra). destruct (Nat.eqb k 3);
        [replace (3.001 * (W * (s * s)) * (1.0002 * / (s * s * s))) with (3.001 * 1.0002 * (W * / s)) by (field; lra)|replace (1.0003 * (s * s) * (1.0002 * / (s * s * s))) with (1.0003 * 1.0002 * / s) by (field; lra)]; lra. }
    exists p. rewrite invert_ent by exact Hk. split; [exact Fp|]. split; [|lra].
    eapply Rle_trans; [exact Ep|]. apply Rmult_le_compat_l; [unfold eps; lra|exact BA].
  Qed.
End Inverse.

Lemma point_err2 m s W p P : sim_joint m s W -> fin4 p P -> within3 W P -> forall i, (i < 3)%nat ->
  exists t, fin (lane (transform_point (mat_invert m) p) i) t /\ Rabs (t - apply_point (mat_invert (real_mat m)) P i) <= 280 * eps * (W * / s).
Proof.
  intros G (F0 & F1 & F2) (B0 & B1 & B2) i Hi. pose proof (sj_s _ _ _ G) as Hs. pose proof (sj_W _ _ _ G) as HW.
  destruct (inverse_err2 m s W G i 0 Hi ltac:(lia)) as (a & Fa & Ea & Ba). destruct (inverse_err2 m s W G i 1 Hi ltac:(lia)) as (b & Fb & Eb & Bb).
  destruct (inverse_err2 m s W G i 2 Hi ltac:(lia)) as (c & Fc & Ec & Bc). destruct (inverse_err2 m s W G i 3 Hi ltac:(lia)) as (d & Fd & Ed & Bd). cbn [Nat.eqb] in *.
  set (M := mat_invert (real_mat m)) in *. set (J := / s) in *.
  assert (J0 : / 1024 <= J <= 1024).
  { unfold J. split; [apply Rinv_le_contravar; lra|]. rewrite <- (Rinv_inv 1024). apply Rinv_le_contravar; lra. }
  set (Q := W * J) in *. assert (Q0 : / 1024 * / 1024 <= Q <= 1048576 * 1024) by (unfold Q; split; apply Rmult_le_compat; lra).
  rewrite (point_ev _ _ nzero) by exact Hi.
  set (v := row_env _ _ _ _ _ _ _ _). set (r := row_env 0 a b c d (vx P) (vy P) (vz P)). set (w := row_env 0 (1.001 * J) (1.001 * J) (1.001 * J) (3.006 * Q) W W W).
  assert (V : forall j, fin (v j) (r j)) by (intros j; do 7 (destruct j as [|j]; [assumption|]); apply fin_zero).
  assert (NB : forall e y A, Rabs (e - y) <= 43.5 * eps * A -> Rabs y <= A -> 0 <= A -> Rabs e <= A + 0.0001 * A).
  { clear. intros e y A H1 H2 H3. apply Rabs_le_inv in H1. apply Rabs_le_inv in H2. unfold eps in H1. apply Rabs_le. lra. }
  assert (Wb : forall j, Rabs (r j) <= w j).
  { intros j. pose proof (NB _ _ _ Ea Ba ltac:(lra)). pose proof (NB _ _ _ Eb Bb ltac:(lra)). pose proof (NB _ _ _ Ec Bc ltac:(lra)). pose proof (NB _ _ _ Ed Bd ltac:(lra)).
    unfold r, w. do 7 (destruct j as [|j]; [cbn [row_env]; lra|]). cbn [row_env]. rewrite Rabs_R0. lra. }
  assert (Wp : forall j, w j <= p2 40).
  { intros j. replace (p2 40) with 1099511627776 by (simpl; lra). unfold w. do 7 (destruct j as [|j]; [cbn [row_env]; lra|]). cbn [row_env]. lra. }
  assert (WA : evA w (pe 0 1 2 3 4 5 6) <= 6.05 * Q).
  { unfold w. cbn [evA pe row_env]. rewrite !Rabs_pos_eq by lra. unfold Q in *. lra. }
  assert (Sm : small 40 (pe 0 1 2 3 4 5 6) = true) by (vm_compute; reflexivity).
  clearbody v. destruct (poly_bound 40 v r w _ _ ltac:(lia) V Wb Wp Sm WA) as (t & Ft & _ & Et).
  exists t. split; [exact Ft|]. change (cost (pe 0 1 2 3 4 5 6)) with 3%Z in Et.
  assert (TQ : p2 (under 40 (pe 0 1 2 3 4 5 6)) * tiny <= 0.001 * eps * Q).
  { replace (under 40 (pe 0 1 2 3 4 5 6)) with 46%Z by (vm_compute; reflexivity).
    unfold tiny. rewrite <- bpow_plus. apply Rle_trans with (0.001 * eps * (/ 1024 * / 1024)); [unfold eps; simpl; lra|]. apply Rmult_le_compat_l; [unfold eps; lra|lra]. }
  unfold apply_point. 
  assert (Er : Rabs (evR r (pe 0 1 2 3 4 5 6) - (ent M i 0 * vx P + ent M i 1 * vy P + ent M i 2 * vz P + ent M i 3)) <= 43.5 * eps * (6.005 * Q)).
  { unfold r. cbn [evR pe row_env].
    assert (X : forall e y x, Rabs (e - y) <= 43.5 * eps * (1.0006 * J) -> Rabs x <= W -> Rabs (x * (e - y)) <= 43.5 * eps * (1.0006 * Q)).
    { intros e y x H1 H2. rewrite Rabs_mult. apply Rle_trans with (W * (43.5 * eps * (1.0006 * J))); [apply Rmult_le_compat; auto; apply Rabs_pos|]. unfold Q. lra. }
    pose proof (X _ _ _ Ea B0) as X0. pose proof (X _ _ _ Eb B1) as X1. pose proof (X _ _ _ Ec B2) as X2.
    apply Rabs_le_inv in X0. apply Rabs_le_inv in X1. apply Rabs_le_inv in X2. apply Rabs_le_inv in Ed. unfold eps in *. apply Rabs_le. lra. }
  apply Rabs_le_inv in Er. apply Rabs_le_inv in Et. unfold eta, eps in *. apply Rabs_le. lra.
Qed.

(** A direction taken into joint space, and out of it. *)
Definition vecr (e0 e1 e2 : R) (P : vec3 R) : R := e0 * vx P + e1 * vy P + e2 * vz P.
Lemma row_vec (a b c : f32) (p : V4 f32) ra rb rc P k bb : fin a ra -> fin b rb -> fin c rc -> fin4 p P -> Rabs ra <= k -> Rabs rb <= k -> Rabs rc <= k -> within3 bb P ->
  / 2097152 <= k <= 2097152 -> / 2097152 <= bb <= 4194304 ->
  exists t, fin (ev (row_env nzero a b c nzero (l0 p) (l1 p) (l2 p)) (ve 0 1 2 4 5 6)) t /\ Rabs (t - vecr ra rb rc P) <= 9.02 * eps * (k * bb).
Proof.
  intros Fa Fb Fc (F0 & F1 & F2) Ka Kb Kc (B0 & B1 & B2) Hk Hb.
  set (v := row_env _ _ _ _ _ _ _ _). set (r := row_env 0 ra rb rc 0 (vx P) (vy P) (vz P)). set (w := row_env 0 k k k 0 bb bb bb).
  assert (V : forall j, fin (v j) (r j)) by (intros j; do 7 (destruct j as [|j]; [first [assumption|apply fin_zero]|]); apply fin_zero).
  assert (Wb : forall j, Rabs (r j) <= w j) by (intros j; unfold r, w; do 7 (destruct j as [|j]; [cbn [row_env]; rewrite ?Rabs_R0; lra|]); cbn [row_env]; rewrite Rabs_R0; lra).
  assert (Wp : forall j, w j <= p2 22) by (intros j; replace (p2 22) with 4194304 by (simpl; lra); unfold w; do 7 (destruct j as [|j]; [cbn [row_env]; lra|]); cbn [row_env]; lra).
  assert (WA : evA w (ve 0 1 2 4 5 6) <= 3 * (k * bb)) by (unfold w; cbn [evA ve row_env]; rewrite !Rabs_pos_eq by lra; lra).
  assert (Sm : small 22 (ve 0 1 2 4 5 6) = true) by (vm_compute; reflexivity).
  clearbody v. destruct (poly_bound 22 v r w _ _ ltac:(lia) V Wb Wp Sm WA) as (t & Ft & _ & Et).
  exists t. split; [exact Ft|]. change (cost (ve 0 1 2 4 5 6)) with 3%Z in Et.
  assert (KB : / 2097152 * / 2097152 <= k * bb) by (apply Rmult_le_compat; lra).
  assert (TQ : p2 (under 22 (ve 0 1 2 4 5 6)) * tiny <= 0.001 * eps * (k * bb)).
  { replace (under 22 (ve 0 1 2 4 5 6)) with 28%Z by (vm_compute; reflexivity).
    unfold tiny. rewrite <- bpow_plus. apply Rle_trans with (0.001 * eps * (/ 2097152 * / 2097152)); [unfold eps; simpl; lra|]. apply Rmult_le_compat_l; [unfold eps; lra|lra]. }
  replace (evR r (ve 0 1 2 4 5 6)) with (vecr ra rb rc P) in Et by (unfold vecr, r; cbn [evR ve row_env]; ring).
  eapply Rle_trans; [exact Et|]. unfold eta, eps in *. lra.
Qed.
Lemma lin_row (m : mat4 R) P i : (i < 3)%nat -> lane (mk4 (vx (lin m P)) (vy (lin m P)) (vz (lin m P)) 0) i = vecr (ent m i 0) (ent m i 1) (ent m i 2) P.
Proof.
  intros Hi. destruct m as [[a0 a1 a2 a3] [b0 b1 b2 b3] [c0 c1 c2 c3] [d0 d1 d2 d3]], P as [x y z]. unfold lin, minus3, pt, apply_point, origin, v3_of, vecr, ent. do 3 (destruct i as [|i]; [cbn; ring|]). lia.
Qed.
Lemma in_err m s W p P b : sim_joint m s W -> fin4 p P -> within3 b P -> / 2097152 <= b <= 4194304 ->
  exists t, fin4 (transform_vector (mat_invert m) p) t /\ len3 (minus3 t (lin (mat_invert (real_mat m)) P)) <= 243 * eps * (b * / s).
Proof.
  intros G Fp Bp Hb. pose proof (sj_s _ _ _ G) as Hs. set (M := mat_invert (real_mat m)). set (J := / s) in *.
  assert (J0 : / 1024 <= J <= 1024) by (unfold J; split; [apply Rinv_le_contravar; lra|]; rewrite <- (Rinv_inv 1024); apply Rinv_le_contravar; lra).
  assert (BJ : 0 < b * J) by (apply Rmult_lt_0_compat; lra).
  assert (X : forall i, (i < 3)%nat -> exists t, fin (lane (transform_vector (mat_invert m) p) i) t /\ Rabs (t - vecr (ent M i 0) (ent M i 1) (ent M i 2) P) <= 140 * eps * (b * J)).
  { intros i Hi. destruct (inverse_err2 m s W G i 0 Hi ltac:(lia)) as (a0 & Fa & Ea & Ba). destruct (inverse_err2 m s W G i 1 Hi ltac:(lia)) as (a1 & Fb & Eb & Bb).
    destruct (inverse_err2 m s W G i 2 Hi ltac:(lia)) as (a2 & Fc & Ec & Bc). cbn [Nat.eqb] in *. fold M in Ea, Eb, Ec, Ba, Bb, Bc. fold J in Ea, Eb, Ec, Ba, Bb, Bc.
    assert (NB : forall e y, Rabs (e - y) <= 43.5 * eps * (1.0006 * J) -> Rabs y <= 1.0006 * J -> Rabs e <= 1.001 * J) by (clear - J0; intros e y H1 H2; apply Rabs_le_inv in H1; apply Rabs_le_inv in H2; unfold eps in H1; apply Rabs_le; lra).
    rewrite (vector_ev _ _ nzero) by exact Hi.
    destruct (row_vec _ _ _ p a0 a1 a2 P (1.001 * J) b Fa Fb Fc Fp (NB _ _ Ea Ba) (NB _ _ Eb Bb) (NB _ _ Ec Bc) Bp ltac:(lra) Hb) as (t & Ft & Et).
    exists t. split; [exact Ft|]. destruct Bp as (B0 & B1 & B2). unfold vecr in *.
    assert (Y : forall e y x, Rabs (e - y) <= 43.5 * eps * (1.0006 * J) -> Rabs x <= b -> Rabs ((e - y) * x) <= 43.55 * eps * (b * J)).
    { intros e y x H1 H2. rewrite Rabs_mult. apply Rle_trans with (43.5 * eps * (1.0006 * J) * b); [apply Rmult_le_compat; auto using Rabs_pos|]. unfold eps. lra. }
    pose proof (Y _ _ _ Ea B0) as Y0. pose proof (Y _ _ _ Eb B1) as Y1. pose proof (Y _ _ _ Ec B2) as Y2. apply Rabs_le_inv in Y0, Y1, Y2, Et. unfold eps in *. apply Rabs_le. lra. }
  destruct (X 0%nat ltac:(lia)) as (t0 & F0 & E0), (X 1%nat ltac:(lia)) as (t1 & F1 & E1), (X 2%nat ltac:(lia)) as (t2 & F2 & E2).
  pose proof (lin_row M P 0 ltac:(lia)) as L0. pose proof (lin_row M P 1 ltac:(lia)) as L1. pose proof (lin_row M P 2 ltac:(lia)) as L2. cbn [lane l0 l1 l2] in L0, L1, L2. rewrite <- L0 in E0. rewrite <- L1 in E1. rewrite <- L2 in E2.
  exists (V3 t0 t1 t2). split; [exact (Logic.conj F0 (Logic.conj F1 F2))|]. eapply Rle_trans; [apply (len3_le _ (140 * eps * (b * J))); [unfold eps; lra|cbn [minus3 vx vy vz]; assumption..]|]. unfold eps. lra.
Qed.
Lemma out_err m s W p P b : sim_joint m s W -> fin4 p P -> within3 b P -> / 2097152 <= b <= 4194304 ->
  exists t, fin4 (transform_vector m p) t /\ len3 (minus3 t (lin (real_mat m) P)) <= 16 * eps * (b * s).
Proof.
  intros G Fp Bp Hb. pose proof (sj_s _ _ _ G) as Hs. set (M := real_mat m).
  assert (BJ : 0 < b * s) by (apply Rmult_lt_0_compat; lra).
  assert (X : forall i, (i < 3)%nat -> exists t, fin (lane (transform_vector m p) i) t /\ Rabs (t - vecr (ent M i 0) (ent M i 1) (ent M i 2) P) <= 9.1 * eps * (b * s)).
  { intros i Hi. rewrite (vector_ev _ _ nzero) by exact Hi. pose proof (fun j Hj => ent_le M s i j ltac:(lra) (sj_cols _ _ _ G) Hi Hj) as EL. pose proof (fun j Hj => sj_finite _ _ _ G i j ltac:(lia) Hj) as EF.
    assert (EV : forall j, (j < 3)%nat -> fin (ent m i j) (ent M i j)).
    { intros j Hj. split; [apply EF; lia|]. unfold M, real_mat, ent. rewrite !lane_map4. reflexivity. }
    destruct (row_vec _ _ _ p _ _ _ P (1.0001 * s) b (EV 0%nat ltac:(lia)) (EV 1%nat ltac:(lia)) (EV 2%nat ltac:(lia)) Fp (EL 0%nat ltac:(lia)) (EL 1%nat ltac:(lia)) (EL 2%nat ltac:(lia)) Bp ltac:(lra) Hb) as (t & Ft & Et).
    exists t. split; [exact Ft|]. eapply Rle_trans; [exact Et|]. unfold eps. lra. }
  destruct (X 0%nat ltac:(lia)) as (t0 & F0 & E0), (X 1%nat ltac:(lia)) as (t1 & F1 & E1), (X 2%nat ltac:(lia)) as (t2 & F2 & E2).
  pose proof (lin_row M P 0 ltac:(lia)) as L0. pose proof (lin_row M P 1 ltac:(lia)) as L1. pose proof (lin_row M P 2 ltac:(lia)) as L2. cbn [lane l0 l1 l2] in L0, L1, L2. rewrite <- L0 in E0. rewrite <- L1 in E1. rewrite <- L2 in E2.
  exists (V3 t0 t1 t2). split; [exact (Logic.conj F0 (Logic.conj F1 F2))|]. eapply Rle_trans; [apply (len3_le _ (9.1 * eps * (b * s))); [unfold eps; lra|cbn [minus3 vx vy vz]; assumption..]|]. unfold eps. lra.
Qed.
Lemma place_err m s W p P : sim_joint m s W -> fin4 p P -> within3 W P ->
  exists t, fin4 (transform_point (mat_invert m) p) t /\ len3 (minus3 t (pt (mat_invert (real_mat m)) P)) <= 486 * eps * (W * / s).
Proof.
  intros G Fp Bp. pose proof (sj_s _ _ _ G) as Hs. pose proof (sj_W _ _ _ G) as HW. pose proof (point_err2 m s W p P G Fp Bp) as X. set (M := mat_invert (real_mat m)) in *.
  assert (BJ : 0 < W * / s) by (apply Rmult_lt_0_compat; [lra|apply Rinv_0_lt_compat; lra]).
  destruct (X 0%nat ltac:(lia)) as (t0 & F0 & E0), (X 1%nat ltac:(lia)) as (t1 & F1 & E1), (X 2%nat ltac:(lia)) as (t2 & F2 & E2).
  exists (V3 t0 t1 t2). split; [exact (Logic.conj F0 (Logic.conj F1 F2))|]. eapply Rle_trans; [apply (len3_le _ (280 * eps * (W * / s))); [unfold eps; lra|cbn [minus3 vx vy vz pt]; assumption..]|]. unfold eps. lra.
Qed.
