(** The inverse of a joint matrix in binary32. *)
From Coq Require Import Reals Lra Psatz.
From Flocq Require Import IEEE754.BinarySingleNaN Core.
From Verif Require Import Base Num NumF32 NumR F32Facts F32Err InterpF32 NormF32 BlendF32 Math MathSpec MathProofs MotionF32 MotionF32Proofs PolyErr.
Local Open Scope R_scope.

Definition mat_env {A} (z : A) (m : mat4 A) (i : nat) : A :=
  match i with
  | 0 => l0 (l0 m) | 1 => l1 (l0 m) | 2 => l2 (l0 m) | 3 => l3 (l0 m) | 4 => l0 (l1 m) | 5 => l1 (l1 m) | 6 => l2 (l1 m) | 7 => l3 (l1 m)
  | 8 => l0 (l2 m) | 9 => l1 (l2 m) | 10 => l2 (l2 m) | 11 => l3 (l2 m) | 12 => l0 (l3 m) | 13 => l1 (l3 m) | 14 => l2 (l3 m) | 15 => l3 (l3 m)
  | _ => z
  end%nat.
Definition mx : mat4 expr := mk4 (mk4 (Var 0) (Var 1) (Var 2) (Var 3)) (mk4 (Var 4) (Var 5) (Var 6) (Var 7)) (mk4 (Var 8) (Var 9) (Var 10) (Var 11)) (mk4 (Var 12) (Var 13) (Var 14) (Var 15)).
Definition minors5 {A : Type} (p : V4 A * V4 A * V4 A * V4 A * V4 A) (k i : nat) : A :=
  let '(a, b, c, d, e) := p in lane (match k with 0%nat => a | 1%nat => b | 2%nat => c | 3%nat => d | _ => e end) i.
Definition mex (k i : nat) : expr := minors5 (mat_minors mx) k i.
Lemma minors_ev {F} {NF : Num F} (z : F) (m : mat4 F) k i : (k < 5)%nat -> (i < 4)%nat -> minors5 (mat_minors m) k i = ev (mat_env z m) (mex k i).
Proof.
  intros Hk Hi. destruct m as [[a0 a1 a2 a3] [b0 b1 b2 b3] [c0 c1 c2 c3] [d0 d1 d2 d3]].
  do 5 (destruct k as [|k]; [do 4 (destruct i as [|i]; [reflexivity|]); lia|]); lia.
Qed.
(** The factor all the minors are multiplied by. *)
Definition inv_factor {F} {NF : Num F} (d : F) : F := let t := keep (negb (neq d nzero)) (nrecip d) in nsub (nadd t t) (nmul d (nmul t t)).
Lemma invert_ent {F} {NF : Num F} (m : mat4 F) i k : (k < 4)%nat ->
  ent (mat_invert m) i k = nmul (inv_factor (minors5 (mat_minors m) 4 0)) (minors5 (mat_minors m) k i).
Proof.
  intros Hk. unfold mat_invert. destruct (mat_minors m) as [[[[m0 m1] m2] m3] d]. unfold minors5, ent.
  set (f := inv_factor (lane d 0)).
  match goal with |- context [mk4 (nmul ?a m0) _ _ _] => change a with (splat f) end.
  assert (Ev : forall (v : V4 F), lane (nmul (splat f) v) i = nmul f (lane v i)).
  { intros v. change (nmul (splat f) v) with (zip4 nmul (splat f) v). rewrite lane_zip4, lane_splat. reflexivity. }
  destruct k as [|[|[|[|k]]]]; try (exfalso; lia); cbn [lane l0 l1 l2 l3]; apply Ev.
Qed.
Lemma inv_factor_R d : d <> 0 -> inv_factor d = / d.
Proof.
  intros H. unfold inv_factor. cbv zeta. change (@num_arith R Rnum) with Rarith. rewrite nzero_R. change (neq d 0) with (Reqb d 0). destruct (Reqb_spec d 0); [contradiction|]. cbn [negb keep].
  unfold keep, nrecip. rewrite none_R. change ((1 / d + 1 / d) - d * (1 / d * (1 / d)) = / d). field. exact H.
Qed.

(** The reciprocal of the determinant, refined by one Newton step. *)
Lemma inv_factor_err d D : fin d D -> p2 (-40) <= Rabs D <= p2 40 -> exists f, fin (inv_factor d) f /\ Rabs (f - / D) <= 5.1 * eps * / Rabs D.
Proof.
  intros Fd (DL & DH). pose proof (p2_pos (-40)) as P40. assert (D0 : D <> 0) by (intros ->; rewrite Rabs_R0 in DL; lra).
  assert (AD : 0 < Rabs D) by lra.
  assert (NZ : neq d (nzero : f32) = false) by (rewrite (neq_fin0 d D Fd); destruct (Req_EM_T D 0); [contradiction|reflexivity]).
  unfold inv_factor. cbv zeta. change (@num_arith f32 f32num) with f32arith. rewrite NZ. cbn [negb]. unfold keep.
  set (I := / D). assert (AI : Rabs I = / Rabs D) by (unfold I; apply Rabs_inv). rewrite <- AI.
  assert (IL : p2 (-40) <= Rabs I).
  { rewrite AI. change (-40)%Z with (- (40))%Z. rewrite bpow_opp. apply Rinv_le_contravar; lra. }
  assert (IH : Rabs I <= p2 40).
  { rewrite AI. replace (p2 40) with (/ p2 (-40)) by (rewrite <- bpow_opp; reflexivity). apply Rinv_le_contravar; lra. }
  assert (DI : D * I = 1) by (apply Rinv_r; exact D0).
  unfold nrecip. 
  assert (Fr : fin (ndiv (none_ : f32) d) (rnd32 (1 / D))).
  { apply fin_div; auto using fin_one. apply (p2_le_HUGE 40); [lia|]. unfold Rdiv. rewrite Rmult_1_l. exact IH. }
  unfold Rdiv in Fr. rewrite Rmult_1_l in Fr. fold I in Fr. set (r32 := ndiv (none_ : f32) d) in *. clearbody r32.
  assert (TI : tiny <= / 1000000 * eps * Rabs I).
  { apply Rle_trans with (p2 (-20) * p2 (-24) * p2 (-40)); [rewrite <- !bpow_plus; apply bpow_le; lia|].
    replace (p2 (-24)) with eps by (unfold eps; simpl; lra). apply Rmult_le_compat; [|lra| |exact IL].
    - apply Rmult_le_pos; [apply Rlt_le, p2_pos|unfold eps; lra].
    - apply Rmult_le_compat_r; [unfold eps; lra|simpl; lra]. }
  pose proof (rnd_err I) as E0. set (r := rnd32 I) in *. clearbody r.
  assert (Er : Rabs (r - I) <= 1.001 * eps * Rabs I) by (unfold eps in *; lra).
  (* everything relative to I: r = I (1 + a) *)
  assert (REL : forall x y k, y <> 0 -> Rabs (x - y) <= k * Rabs y -> exists a, x = y * (1 + a) /\ Rabs a <= k).
  { clear. intros x y k Hy H. exists ((x - y) / y). split; [field; exact Hy|]. unfold Rdiv. rewrite Rabs_mult, Rabs_inv.
    apply Rmult_le_reg_r with (Rabs y); [apply Rabs_pos_lt; exact Hy|]. rewrite Rmult_assoc, Rinv_l by (apply Rabs_no_R0; exact Hy). lra. }
  assert (I0 : I <> 0) by (unfold I; apply Rinv_neq_0_compat; exact D0).
  destruct (REL r I _ I0 Er) as (a & Ra & Ha). apply Rabs_le_inv in Ha. unfold eps in Ha.
  (* r + r *)
  assert (F2 : fin (nadd r32 r32) (rnd32 (r + r))).
  { apply fin_add; auto. apply (p2_le_HUGE 42); [lia|]. replace (r + r) with (I * (2 + 2 * a)) by (rewrite Ra; ring). rewrite Rabs_mult.
    change 42%Z with (2 + 40)%Z. rewrite (p2_shift 2 40 4) by (simpl; lra). rewrite (Rabs_pos_eq (2 + 2 * a)) by lra. nra. }
  assert (RN : forall z, / 2 <= z <= 4 -> exists c, rnd32 (I * z) = I * z * (1 + c) /\ Rabs c <= 1.001 * eps).
  { intros z Hz. apply REL; [apply Rmult_integral_contrapositive_currified; lra|]. pose proof (rnd_err (I * z)) as E. rewrite Rabs_mult, (Rabs_pos_eq z) in * by lra.
    assert (/ 2 * Rabs I <= Rabs I * z) by (rewrite (Rmult_comm (Rabs I)); apply Rmult_le_compat_r; lra). unfold eps in *. lra. }
  destruct (RN (2 + 2 * a) ltac:(lra)) as (c2 & E2 & C2). replace (I * (2 + 2 * a)) with (r + r) in E2 by (rewrite Ra; ring). apply Rabs_le_inv in C2. unfold eps in C2.
  (* r * r *)
  assert (RR : r * r = I * I * ((1 + a) * (1 + a))) by (rewrite Ra; ring).
  assert (II : p2 (-80) <= Rabs (I * I) <= p2 80).
  { rewrite Rabs_mult. split; [change (-80)%Z with (-40 + -40)%Z|change 80%Z with (40 + 40)%Z]; rewrite bpow_plus; apply Rmult_le_compat; lra. }
  assert (A2 : 0.9 <= (1 + a) * (1 + a) <= 1.1) by (clear - Ha; split; nra).
  assert (F3 : fin (nmul r32 r32) (rnd32 (r * r))).
  { apply fin_mul; auto. apply (p2_le_HUGE 81); [lia|]. change 81%Z with (1 + 80)%Z. rewrite (p2_shift 1 80 2) by (simpl; lra). rewrite RR, Rabs_mult, (Rabs_pos_eq ((1 + a) * (1 + a))) by lra. rewrite Rmult_comm. apply Rmult_le_compat; try lra; apply Rabs_pos. }
  assert (TI2 : tiny <= / 1000000 * eps * Rabs (I * I)).
  { apply Rle_trans with (p2 (-20) * p2 (-24) * p2 (-80)); [rewrite <- !bpow_plus; apply bpow_le; lia|].
    replace (p2 (-24)) with eps by (unfold eps; simpl; lra). pose proof (p2_pos (-80)). apply Rmult_le_compat; [|lra| |lra].
    - apply Rmult_le_pos; [apply Rlt_le, p2_pos|unfold eps; lra].
    - apply Rmult_le_compat_r; [unfold eps; lra|simpl; lra]. }
  assert (Q : exists c, rnd32 (r * r) = r * r * (1 + c) /\ Rabs c <= 1.001 * eps).
  { apply REL; [rewrite Ra; repeat apply Rmult_integral_contrapositive_currified; lra|]. pose proof (rnd_err (r * r)) as E. 
    assert (/ 2 * Rabs (I * I) <= Rabs (r * r)). { rewrite RR, (Rabs_mult (I * I)), (Rabs_pos_eq ((1 + a) * (1 + a))) by lra. rewrite (Rmult_comm (Rabs _)). apply Rmult_le_compat_r; [apply Rabs_pos|lra]. }
    unfold eps in *. set (x1 := Rabs (r * r)) in *. set (x2 := Rabs (I * I)) in *. pose proof (Rabs_pos (I * I)) as X2. fold x2 in X2. clear - E H TI2 X2. lra. }
  destruct Q as (c3 & E3 & C3). apply Rabs_le_inv in C3. unfold eps in C3. set (q := rnd32 (r * r)) in *. clearbody q.
  (* D * (r * r) *)
  assert (DQ : D * q = I * ((1 + a) * (1 + a) * (1 + c3))).
  { rewrite E3, RR. replace (D * (I * I * ((1 + a) * (1 + a)) * (1 + c3))) with ((D * I) * (I * ((1 + a) * (1 + a) * (1 + c3)))) by ring. rewrite DI. ring. }
  set (z := (1 + a) * (1 + a) * (1 + c3)) in *. assert (Hz : 1 - 0.0000005 <= z <= 1 + 0.0000005) by (unfold z; clear - Ha C3; split; nra).
  assert (F4 : fin (nmul d (nmul r32 r32)) (rnd32 (D * q))).
  { apply fin_mul; auto. apply (p2_le_HUGE 41); [lia|]. change 41%Z with (1 + 40)%Z. rewrite (p2_shift 1 40 2) by (simpl; lra). rewrite DQ, Rabs_mult, (Rabs_pos_eq z) by lra. rewrite Rmult_comm. apply Rmult_le_compat; try lra; apply Rabs_pos. }
  destruct (RN z ltac:(lra)) as (c4 & E4 & C4). rewrite <- DQ in E4. apply Rabs_le_inv in C4. unfold eps in C4.
  set (u := rnd32 (r + r)) in *. set (w := rnd32 (D * q)) in *. clearbody u w.
  assert (U : u = I * (2 * (1 + a) * (1 + c2))) by (rewrite E2, Ra; ring). assert (W : w = I * (z * (1 + c4))) by (rewrite E4, DQ; ring).
  assert (UW : u - w = I * (2 * (1 + a) * (1 + c2) - z * (1 + c4))) by (rewrite U, W; ring).
  set (y := 2 * (1 + a) * (1 + c2) - z * (1 + c4)) in *.
  assert (Y : Rabs (y - 1) <= 4.05 / 16777216).
  { unfold y, z. clear - Ha C2 C3 C4. set (h := 1.001 / 16777216). assert (Hh : 0 < h <= 0.0000001) by (unfold h; lra).
    assert (B : forall x, - (1.001 * / 16777216) <= x <= 1.001 * / 16777216 -> Rabs x <= h) by (intros; unfold h; apply Rabs_le; lra).
    apply B in Ha, C2, C3, C4. 
    replace (2 * (1 + a) * (1 + c2) - (1 + a) * (1 + a) * (1 + c3) * (1 + c4) - 1) with
      (2 * c2 + (- c3) + (- c4) + (2 * (a * c2) + (- (a * a)) + (- (c3 * c4)) + (- (2 * a + a * a) * (c3 + c4 + c3 * c4)))) by ring.
    assert (M : forall x x' k k', Rabs x <= k -> Rabs x' <= k' -> Rabs (x * x') <= k * k') by (intros; rewrite Rabs_mult; apply Rmult_le_compat; auto; apply Rabs_pos).
    pose proof (M _ _ _ _ Ha C2) as M1. pose proof (M _ _ _ _ Ha Ha) as M2. pose proof (M _ _ _ _ C3 C4) as M3.
    assert (M4 : Rabs (- (2 * a + a * a) * (c3 + c4 + c3 * c4)) <= (3 * h) * (3 * h)).
    { apply M; [rewrite Rabs_Ropp|]; apply Rabs_le; apply Rabs_le_inv in Ha; apply Rabs_le_inv in C3; apply Rabs_le_inv in C4; apply Rabs_le_inv in M2; apply Rabs_le_inv in M3; assert (h * h <= h * 0.1) by (apply Rmult_le_compat_l; lra); lra. }
    assert (HH : h * h <= 0.0000001 * h) by (apply Rmult_le_compat_r; lra).
    apply Rabs_le_inv in C2. apply Rabs_le_inv in C3. apply Rabs_le_inv in C4. apply Rabs_le_inv in M1. apply Rabs_le_inv in M2. apply Rabs_le_inv in M3. apply Rabs_le_inv in M4.
    apply Rabs_le. unfold h in *. lra. }
  apply Rabs_le_inv in Y.
  assert (F5 : fin (nsub (nadd r32 r32) (nmul d (nmul r32 r32))) (rnd32 (u - w))).
  { apply fin_sub; auto. apply (p2_le_HUGE 41); [lia|]. change 41%Z with (1 + 40)%Z. rewrite (p2_shift 1 40 2) by (simpl; lra). rewrite UW, Rabs_mult, (Rabs_pos_eq y) by lra. rewrite Rmult_comm. apply Rmult_le_compat; try lra; apply Rabs_pos. }
  exists (rnd32 (u - w)). split; [exact F5|]. destruct (RN y ltac:(lra)) as (c5 & E5 & C5). rewrite UW, E5.
  apply Rabs_le_inv in C5. unfold eps in *.
  replace (I * y * (1 + c5) - I) with (I * (y - 1 + y * c5)) by ring. rewrite Rabs_mult, (Rmult_comm (Rabs I)).
  apply Rmult_le_compat_r; [apply Rabs_pos|]. apply Rabs_le.
  assert (- (1.0011 * / 16777216) <= y * c5 <= 1.0011 * / 16777216) by (clear - Y C5; split; nra). lra.
Qed.

(** One entry of the inverse: a determinant, a minor, their terms. *)
Lemma ratio_err f32' d m32 F dd m m' A Dm : fin f32' F -> fin m32 m' -> dd <> 0 ->
  Dm = Rabs dd -> p2 (-32) <= Dm <= p2 36 -> Rabs (F - / dd) <= 125.4 * eps * / Dm -> Rabs m <= A -> Rabs (m' - m) <= 7.01 * eps * A -> p2 (-40) <= A <= p2 60 -> d = m / dd ->
  exists p, fin (nmul f32' m32) p /\ Rabs (p - d) <= 134 * eps * (A * / Dm) /\ Rabs d <= A * / Dm.
Proof.
  intros Ff Fm Hd HDm (DL & DH) EF Hm Em (AL & AH) Hdd. set (J := / Dm) in *. pose proof (p2_pos (-32)) as P32. pose proof (p2_pos (-40)) as P40.
  assert (J0 : 0 < J) by (apply Rinv_0_lt_compat; lra).
  assert (JI : Rabs (/ dd) = J) by (rewrite Rabs_inv, <- HDm; reflexivity).
  assert (JH : J <= p2 32) by (unfold J; replace (p2 32) with (/ p2 (-32)) by (rewrite <- bpow_opp; reflexivity); apply Rinv_le_contravar; lra).
  assert (JL : p2 (-36) <= J) by (unfold J; change (-36)%Z with (- (36))%Z; rewrite bpow_opp; apply Rinv_le_contravar; lra).
  assert (A0 : 0 < A) by lra. assert (AJ : 0 < A * J) by (apply Rmult_lt_0_compat; lra).
  set (g := / dd) in *.
  assert (MP : Rabs m' <= 1.000001 * A) by (apply Rabs_le_inv in Hm; apply Rabs_le_inv in Em; apply Rabs_le; unfold eps in Em; lra).
  assert (FP : Rabs F <= 1.0001 * J).
  { assert (- J <= g <= J) by (apply Rabs_le_inv; lra). apply Rabs_le_inv in EF. apply Rabs_le. unfold eps in EF. lra. }
  assert (E1 : Rabs ((F - g) * m') <= 125.41 * eps * (A * J)).
  { rewrite Rabs_mult. apply Rle_trans with (125.4 * eps * J * (1.000001 * A)); [apply Rmult_le_compat; auto; apply Rabs_pos|]. unfold eps. lra. }
  assert (E2 : Rabs (g * (m' - m)) <= 7.01 * eps * (A * J)).
  { rewrite Rabs_mult, JI. apply Rle_trans with (J * (7.01 * eps * A)); [apply Rmult_le_compat_l; lra|]. lra. }
  assert (FM : Rabs (F * m') <= 1.001 * (A * J)).
  { rewrite Rabs_mult. apply Rle_trans with (1.0001 * J * (1.000001 * A)); [apply Rmult_le_compat; auto; apply Rabs_pos|]. lra. }
  assert (AJH : A * J <= p2 92) by (change 92%Z with (60 + 32)%Z; rewrite bpow_plus; apply Rmult_le_compat; lra).
  assert (AJL : p2 (-76) <= A * J) by (change (-76)%Z with (-40 + -36)%Z; rewrite bpow_plus; pose proof (p2_pos (-36)); apply Rmult_le_compat; lra).
  assert (T : tiny <= / 1000 * eps * (A * J)) by (apply (tiny_rel (-76)); [lia|exact AJL]).
  exists (rnd32 (F * m')). split; [|split].
  - apply fin_mul; auto. apply (p2_le_HUGE 93); [lia|]. change 93%Z with (1 + 92)%Z. rewrite (p2_shift 1 92 2) by (simpl; lra). lra.
  - assert (Ed : F * m' - d = (F - g) * m' + g * (m' - m)) by (rewrite Hdd; unfold Rdiv; fold g; ring).
    pose proof (rnd_err (F * m')) as R. apply Rabs_le_inv in R. apply Rabs_le_inv in E1. apply Rabs_le_inv in E2.
    set (r := rnd32 (F * m')) in *. set (a := Rabs (F * m')) in *. clearbody r a. clear - Ed R E1 E2 FM T AJ. apply Rabs_le. unfold eps in *. lra.
  - rewrite Hdd. unfold Rdiv. fold g. rewrite Rabs_mult, JI. apply Rmult_le_compat_r; lra.
Qed.

(** ** A usable joint
    Its matrix is affine, its axes at most [s] long with a determinant of at least half of [s^3], its
    origin within [W]. *)
Definition real_mat (m : mat4 f32) : mat4 R := map4 (map4 (@B2R 24 128)) m.
Record good_joint (m : mat4 f32) (s W : R) : Prop := mk_good_joint {
  gj_finite : forall i j, (i < 4)%nat -> (j < 4)%nat -> is_finite (ent m i j) = true;
  gj_affine : ent (real_mat m) 3 0 = 0 /\ ent (real_mat m) 3 1 = 0 /\ ent (real_mat m) 3 2 = 0 /\ ent (real_mat m) 3 3 = 1;
  gj_axes : forall i j, (i < 3)%nat -> (j < 3)%nat -> Rabs (ent (real_mat m) i j) <= s;
  gj_origin : forall i, (i < 3)%nat -> Rabs (ent (real_mat m) i 3) <= W;
  gj_det : s * s * s / 2 <= Rabs (det4 (real_mat m));
  gj_s : / 1024 <= s <= 1024;
  gj_W : / 1024 <= W <= 1048576 }.

Definition bound_env (s W : R) (i : nat) : R :=
  (match i with 0 | 1 | 2 | 4 | 5 | 6 | 8 | 9 | 10 => s | 12 | 13 | 14 => W | 15 => 1%R | _ => 0%R end)%nat.
Definition term (k i : nat) (s W : R) : R := if Nat.eqb k 3 then 6 * (W * (s * s)) else 2 * (s * s).
Lemma terms s W k i : 0 <= s -> 0 <= W -> (k < 4)%nat -> (i < 3)%nat -> evA (bound_env s W) (mex k i) <= term k i s W.
Proof.
  intros Hs HW Hk Hi. apply Req_le. 
  do 4 (destruct k as [|k]; [do 3 (destruct i as [|i];
    [match goal with |- context [mex ?a ?b] => let e := eval vm_compute in (mex a b) in change (mex a b) with e end;
     unfold term; cbn [Nat.eqb evA bound_env]; rewrite ?(Rabs_pos_eq s), ?(Rabs_pos_eq W), ?Rabs_R0, ?(Rabs_pos_eq 1) by lra; ring|]); lia|]); lia.
Qed.
Lemma terms_det s W : 0 <= s -> 0 <= W -> evA (bound_env s W) (mex 4 0) <= 6 * (s * s * s).
Proof.
  intros Hs HW. apply Req_le. match goal with |- context [mex ?a ?b] => let e := eval vm_compute in (mex a b) in change (mex a b) with e end.
  cbn [evA bound_env]. rewrite ?(Rabs_pos_eq s), ?(Rabs_pos_eq W), ?Rabs_R0, ?(Rabs_pos_eq 1) by lra. ring.
Qed.
Lemma det_ev (m : mat4 R) : evR (mat_env 0 m) (mex 4 0) = det4 m.
Proof.
  rewrite <- ev_R, <- (minors_ev 0 m 4 0) by lia. pose proof (minors_adj m) as A. destruct (mat_minors m) as [[[[m0 m1] m2] m3] d]. cbv zeta in A.
  destruct A as [D _]. exact (D 0%nat ltac:(lia)).
Qed.
Lemma mex_small k i : (k < 5)%nat -> (i < 4)%nat -> small 20 (mex k i) = true.
Proof. intros Hk Hi. do 5 (destruct k as [|k]; [do 4 (destruct i as [|i]; [vm_compute; reflexivity|]); lia|]); lia. Qed.
Lemma mex_cost k i : (k < 4)%nat -> (i < 4)%nat -> cost (mex k i) = 7%Z /\ under 20 (mex k i) = 54%Z.
Proof. intros Hk Hi. do 4 (destruct k as [|k]; [do 4 (destruct i as [|i]; [vm_compute; auto|]); lia|]); lia. Qed.

Section Inverse.
  Context (m : mat4 f32) (s W : R) (G : good_joint m s W).
  Let M := real_mat m.

  Lemma gj_env : (forall i, fin (mat_env nzero m i) (mat_env 0 M i)) /\ (forall i, Rabs (mat_env 0 M i) <= bound_env s W i) /\ (forall i, bound_env s W i <= p2 20).
  Proof using G.
    destruct G as [Fi (A0 & A1 & A2 & A3) Ax Or _ Hs HW]. subst M. split; [|split].
    - intros i. do 16 (destruct i as [|i]; [split; [first [exact (Fi 0%nat 0%nat ltac:(lia) ltac:(lia)) | exact (Fi 1%nat 0%nat ltac:(lia) ltac:(lia)) | exact (Fi 2%nat 0%nat ltac:(lia) ltac:(lia)) | exact (Fi 3%nat 0%nat ltac:(lia) ltac:(lia)) | exact (Fi 0%nat 1%nat ltac:(lia) ltac:(lia)) | exact (Fi 1%nat 1%nat ltac:(lia) ltac:(lia)) | exact (Fi 2%nat 1%nat ltac:(lia) ltac:(lia)) | exact (Fi 3%nat 1%nat ltac:(lia) ltac:(lia)) | exact (Fi 0%nat 2%nat ltac:(lia) ltac:(lia)) | exact (Fi 1%nat 2%nat ltac:(lia) ltac:(lia)) | exact (Fi 2%nat 2%nat ltac:(lia) ltac:(lia)) | exact (Fi 3%nat 2%nat ltac:(lia) ltac:(lia)) | exact (Fi 0%nat 3%nat ltac:(lia) ltac:(lia)) | exact (Fi 1%nat 3%nat ltac:(lia) ltac:(lia)) | exact (Fi 2%nat 3%nat ltac:(lia) ltac:(lia)) | exact (Fi 3%nat 3%nat ltac:(lia) ltac:(lia))]|reflexivity]|]). apply fin_zero.
    - intros i. do 3 (destruct i as [|i]; [first [exact (Ax 0%nat 0%nat ltac:(lia) ltac:(lia)) | exact (Ax 1%nat 0%nat ltac:(lia) ltac:(lia)) | exact (Ax 2%nat 0%nat ltac:(lia) ltac:(lia))]|]).
      destruct i as [|i]; [cbn [bound_env]; change (mat_env 0 (real_mat m) 3) with (ent (real_mat m) 3 0); rewrite A0, Rabs_R0; lra|].
      do 3 (destruct i as [|i]; [first [exact (Ax 0%nat 1%nat ltac:(lia) ltac:(lia)) | exact (Ax 1%nat 1%nat ltac:(lia) ltac:(lia)) | exact (Ax 2%nat 1%nat ltac:(lia) ltac:(lia))]|]).
      destruct i as [|i]; [cbn [bound_env]; change (mat_env 0 (real_mat m) 7) with (ent (real_mat m) 3 1); rewrite A1, Rabs_R0; lra|].
      do 3 (destruct i as [|i]; [first [exact (Ax 0%nat 2%nat ltac:(lia) ltac:(lia)) | exact (Ax 1%nat 2%nat ltac:(lia) ltac:(lia)) | exact (Ax 2%nat 2%nat ltac:(lia) ltac:(lia))]|]).
      destruct i as [|i]; [cbn [bound_env]; change (mat_env 0 (real_mat m) 11) with (ent (real_mat m) 3 2); rewrite A2, Rabs_R0; lra|].
      do 3 (destruct i as [|i]; [first [exact (Or 0%nat ltac:(lia)) | exact (Or 1%nat ltac:(lia)) | exact (Or 2%nat ltac:(lia))]|]).
      destruct i as [|i]; [cbn [bound_env]; change (mat_env 0 (real_mat m) 15) with (ent (real_mat m) 3 3); rewrite A3, (Rabs_pos_eq 1); lra|].
      cbn [mat_env bound_env]. rewrite Rabs_R0. lra.
    - intros i. assert (p2 20 = 1048576) by (simpl; lra). unfold bound_env. do 16 (destruct i as [|i]; [lra|]). lra.
  Qed.

  (** Every entry of the upper rows of the inverse, against the inverse over the reals. *)
  Lemma inverse_err i k : (i < 3)%nat -> (k < 4)%nat ->
    let A := if Nat.eqb k 3 then 12 * (W * / s) else 4 * / s in
    exists p, fin (ent (mat_invert m) i k) p /\ Rabs (p - ent (mat_invert M) i k) <= 134 * eps * A /\ Rabs (ent (mat_invert M) i k) <= A.
  Proof using G.
    intros Hi Hk A. destruct gj_env as (E1 & E2 & E3). pose proof (gj_s _ _ _ G) as Hs. pose proof (gj_W _ _ _ G) as HW. pose proof (gj_det _ _ _ G) as HD. fold M in HD.
    set (c := s * s * s) in *. assert (S0 : 0 < s) by lra. assert (C0 : 0 < c) by (unfold c; repeat apply Rmult_lt_0_compat; lra).
    assert (CL : p2 (-30) <= c).
    { replace (p2 (-30)) with (/ 1024 * / 1024 * / 1024) by (simpl; lra). unfold c. repeat apply Rmult_le_compat; try lra; apply Rmult_le_pos; lra. }
    assert (CH : c <= p2 30).
    { replace (p2 30) with (1024 * 1024 * 1024) by (simpl; lra). unfold c. repeat apply Rmult_le_compat; try lra; apply Rmult_le_pos; lra. }
    (* the determinant *)
    destruct (poly_bound 20 _ _ _ (mex 4 0) _ ltac:(lia) E1 E2 E3 (mex_small 4 0 ltac:(lia) ltac:(lia)) (terms_det s W ltac:(lra) ltac:(lra))) as (D & FD & BD & ED).
    rewrite det_ev in BD, ED. rewrite <- (minors_ev nzero m 4 0) in FD by lia.
    replace (cost (mex 4 0)) with 10%Z in ED by (vm_compute; reflexivity). replace (under 20 (mex 4 0)) with 80%Z in ED by (vm_compute; reflexivity).
    set (d := det4 M) in *. fold c in BD, ED.
    assert (T80 : p2 80 * tiny <= 0.001 * eps * c).
    { unfold tiny. rewrite <- bpow_plus. apply Rle_trans with (p2 (-10) * p2 (-24) * p2 (-30)); [rewrite <- !bpow_plus; apply bpow_le; lia|].
      replace (p2 (-24)) with eps by (unfold eps; simpl; lra). apply Rle_trans with (p2 (-10) * eps * c); [apply Rmult_le_compat_l; [|exact CL]; apply Rmult_le_pos; [apply bpow_ge_0|unfold eps; lra]|].
      apply Rmult_le_compat_r; [lra|]. apply Rmult_le_compat_r; [unfold eps; lra|simpl; lra]. }
    assert (d0 : d <> 0) by (intros Z; rewrite Z, Rabs_R0 in HD; lra).
    assert (ED' : Rabs (D - d) <= 120.2 * eps * Rabs d).
    { eapply Rle_trans; [exact ED|]. apply Rle_trans with (60.1 * eps * c); [unfold eta, eps in *; lra|]. unfold eps. lra. }
    set (Dm := Rabs d) in *. assert (DL : p2 (-32) <= Dm) by (change (-30)%Z with (2 + -32)%Z in CL; rewrite (p2_shift 2 (-32) 4) in CL by (simpl; lra); lra).
    assert (DH : Dm <= p2 33) by (change 33%Z with (3 + 30)%Z; rewrite (p2_shift 3 30 8) by (simpl; lra); lra).
    pose proof (p2_pos (-32)) as P32. assert (Dm0 : 0 < Dm) by lra.
    assert (DDm : Dm - 0.0001 * Dm <= Rabs D <= Dm + 0.0001 * Dm).
    { pose proof (Rabs_triang_inv D d) as T1. pose proof (Rabs_triang_inv d D) as T2. rewrite (Rabs_minus_sym d D) in T2. fold Dm in T1, T2. unfold eps in ED'. lra. }
    assert (DR : p2 (-40) <= Rabs D <= p2 40).
    { split; [apply Rle_trans with (/ 2 * p2 (-32)); [replace (/ 2) with (p2 (-1)) by (simpl; lra); rewrite <- bpow_plus; apply bpow_le; lia|lra]|].
      apply Rle_trans with (2 * p2 33); [lra|]. change 2 with (p2 1). rewrite <- bpow_plus. apply bpow_le. lia. }
    destruct (inv_factor_err _ D FD DR) as (f & Ff & Ef).
    assert (DI : / Rabs D <= 1.001 * / Dm).
    { apply Rmult_le_reg_r with (Rabs D); [lra|]. rewrite Rinv_l by lra. apply Rmult_le_reg_l with Dm; [lra|].
      replace (Dm * (1.001 * / Dm * Rabs D)) with (1.001 * Rabs D) by (field; lra). lra. }
    assert (D0 : D <> 0) by (intros Z; rewrite Z, Rabs_R0 in DDm; lra).
    assert (EF : Rabs (f - / d) <= 125.4 * eps * / Dm).
    { assert (H1 : Rabs (/ D - / d) <= 120.2 * eps * / Rabs D).
      { replace (/ D - / d) with (- (D - d) * (/ D * / d)) by (field; auto). rewrite Rabs_mult, Rabs_Ropp, Rabs_mult, !Rabs_inv. fold Dm.
        apply Rle_trans with (120.2 * eps * Dm * (/ Rabs D * / Dm)); [apply Rmult_le_compat_r; [|exact ED']; apply Rmult_le_pos; apply Rlt_le, Rinv_0_lt_compat; lra|].
        apply Req_le. field. split; lra. }
      assert (H2 : Rabs (f - / d) <= 125.3 * eps * / Rabs D).
      { replace (f - / d) with ((f - / D) + (/ D - / d)) by ring. eapply Rle_trans; [apply Rabs_triang|]. unfold eps in *. lra. }
      eapply Rle_trans; [exact H2|]. 
      assert (DI' : / Rabs D <= 1.0001 * / Dm * 1.0001).
      { apply Rmult_le_reg_r with (Rabs D); [lra|]. rewrite Rinv_l by lra. apply Rmult_le_reg_l with Dm; [lra|].
        replace (Dm * (1.0001 * / Dm * 1.0001 * Rabs D)) with (1.0001 * 1.0001 * Rabs D) by (field; lra). lra. }
      unfold eps. lra. }
    (* the minor *)
    pose proof (terms s W k i ltac:(lra) ltac:(lra) Hk Hi) as TM.
    destruct (poly_bound 20 _ _ _ (mex k i) _ ltac:(lia) E1 E2 E3 (mex_small k i ltac:(lia) ltac:(lia)) TM) as (m' & Fm & Bm & Em).
    destruct (mex_cost k i Hk ltac:(lia)) as [Ec Eu]. rewrite Ec, Eu in Em. rewrite <- (minors_ev nzero m k i) in Fm by lia.
    set (B := term k i s W) in *.
    assert (SS : / 1024 * / 1024 <= s * s <= 1024 * 1024) by (split; apply Rmult_le_compat; lra).
    assert (BB : p2 (-40) <= B <= p2 60).
    { unfold B, term. destruct (Nat.eqb k 3); [|simpl; lra]. 
      assert (/ 1024 * (/ 1024 * / 1024) <= W * (s * s) <= 1048576 * (1024 * 1024)) by (split; apply Rmult_le_compat; lra). simpl. lra. }
    assert (TB : p2 54 * tiny <= 0.001 * eps * B).
    { unfold tiny. rewrite <- bpow_plus. apply Rle_trans with (p2 (-10) * p2 (-24) * p2 (-40)); [rewrite <- !bpow_plus; apply bpow_le; lia|].
      replace (p2 (-24)) with eps by (unfold eps; simpl; lra). apply Rle_trans with (p2 (-10) * eps * B); [apply Rmult_le_compat_l; [|lra]; apply Rmult_le_pos; [apply bpow_ge_0|unfold eps; lra]|].
      pose proof (p2_pos (-40)). apply Rmult_le_compat_r; [lra|]. apply Rmult_le_compat_r; [unfold eps; lra|simpl; lra]. }
    assert (Em' : Rabs (m' - evR (mat_env 0 M) (mex k i)) <= 7.01 * eps * B) by (eapply Rle_trans; [exact Em|]; pose proof (p2_pos (-40)); unfold eta, eps in *; lra).
    assert (ER : ent (mat_invert M) i k = evR (mat_env 0 M) (mex k i) / d).
    { rewrite invert_ent by exact Hk. rewrite (minors_ev 0 M 4 0), (minors_ev 0 M k i), !ev_R, det_ev by lia. fold d. rewrite inv_factor_R by exact d0.
      change (nmul (/ d) (evR (mat_env 0 M) (mex k i))) with (/ d * evR (mat_env 0 M) (mex k i)). unfold Rdiv. ring. }
    assert (DH' : Dm <= p2 36) by (eapply Rle_trans; [exact DH|apply bpow_le; lia]).
    destruct (ratio_err _ (ent (mat_invert M) i k) _ f d _ m' B Dm Ff Fm d0 eq_refl (Logic.conj DL DH') EF Bm Em' BB ER) as (p & Fp & Ep & Bp).
    assert (BA : B * / Dm <= A).
    { assert (HI : / Dm <= 2 * / c).
      { apply Rmult_le_reg_r with Dm; [lra|]. rewrite Rinv_l by lra. apply Rmult_le_reg_l with c; [lra|]. replace (c * (2 * / c * Dm)) with (2 * Dm) by (field; lra). lra. }
      assert (B0 : 0 <= B) by (pose proof (p2_pos (-40)); lra).
      apply Rle_trans with (B * (2 * / c)); [apply Rmult_le_compat_l; assumption|]. apply Req_le. unfold A, B, term, c. destruct (Nat.eqb k 3); field; lra. }
    exists p. rewrite invert_ent by exact Hk. split; [exact Fp|]. split; [|lra].
    eapply Rle_trans; [exact Ep|]. apply Rmult_le_compat_l; [unfold eps; lra|exact BA].
  Qed.
End Inverse.

(** A point taken into joint space. *)
Definition pe (a b c d x y z : nat) : expr := Add (Add (Mul (Var y) (Var b)) (Mul (Var x) (Var a))) (Add (Mul (Var z) (Var c)) (Var d)).
Definition ve (a b c x y z : nat) : expr := Add (Mul (Var y) (Var b)) (Add (Mul (Var z) (Var c)) (Mul (Var x) (Var a))).
Definition row_env {A} (o : A) (a b c d x y z : A) (i : nat) : A :=
  (match i with 0 => a | 1 => b | 2 => c | 3 => d | 4 => x | 5 => y | 6 => z | _ => o end)%nat.
Lemma point_ev {F} {NF : Num F} (m : mat4 F) (p : V4 F) o i : (i < 3)%nat ->
  lane (transform_point m p) i = ev (row_env o (ent m i 0) (ent m i 1) (ent m i 2) (ent m i 3) (l0 p) (l1 p) (l2 p)) (pe 0 1 2 3 4 5 6).
Proof. intros Hi. destruct m as [[a0 a1 a2 a3] [b0 b1 b2 b3] [c0 c1 c2 c3] [d0 d1 d2 d3]], p. do 3 (destruct i as [|i]; [reflexivity|]). lia. Qed.
Lemma vector_ev {F} {NF : Num F} (m : mat4 F) (p : V4 F) o i : (i < 3)%nat ->
  lane (transform_vector m p) i = ev (row_env o (ent m i 0) (ent m i 1) (ent m i 2) o (l0 p) (l1 p) (l2 p)) (ve 0 1 2 4 5 6).
Proof. intros Hi. destruct m as [[a0 a1 a2 a3] [b0 b1 b2 b3] [c0 c1 c2 c3] [d0 d1 d2 d3]], p. do 3 (destruct i as [|i]; [reflexivity|]). lia. Qed.

Definition fin4 (v : V4 f32) (r : vec3 R) : Prop := fin (l0 v) (vx r) /\ fin (l1 v) (vy r) /\ fin (l2 v) (vz r).
Definition within3 (b : R) (r : vec3 R) : Prop := Rabs (vx r) <= b /\ Rabs (vy r) <= b /\ Rabs (vz r) <= b.

Lemma point_err m s W p P : good_joint m s W -> fin4 p P -> within3 W P -> forall i, (i < 3)%nat ->
  exists t, fin (lane (transform_point (mat_invert m) p) i) t /\ Rabs (t - apply_point (mat_invert (real_mat m)) P i) <= 3300 * eps * (W * / s).
Proof.
  intros G (F0 & F1 & F2) (B0 & B1 & B2) i Hi. pose proof (gj_s _ _ _ G) as Hs. pose proof (gj_W _ _ _ G) as HW.
  destruct (inverse_err m s W G i 0 Hi ltac:(lia)) as (a & Fa & Ea & Ba). destruct (inverse_err m s W G i 1 Hi ltac:(lia)) as (b & Fb & Eb & Bb).
  destruct (inverse_err m s W G i 2 Hi ltac:(lia)) as (c & Fc & Ec & Bc). destruct (inverse_err m s W G i 3 Hi ltac:(lia)) as (d & Fd & Ed & Bd). cbn [Nat.eqb] in *.
  set (M := mat_invert (real_mat m)) in *. set (J := / s) in *.
  assert (J0 : / 1024 <= J <= 1024).
  { unfold J. split; [apply Rinv_le_contravar; lra|]. rewrite <- (Rinv_inv 1024). apply Rinv_le_contravar; lra. }
  set (Q := W * J) in *. assert (Q0 : / 1024 * / 1024 <= Q <= 1048576 * 1024) by (unfold Q; split; apply Rmult_le_compat; lra).
  rewrite (point_ev _ _ nzero) by exact Hi.
  set (v := row_env _ _ _ _ _ _ _ _). set (r := row_env 0 a b c d (vx P) (vy P) (vz P)). set (w := row_env 0 (4.1 * J) (4.1 * J) (4.1 * J) (12.1 * Q) W W W).
  assert (V : forall j, fin (v j) (r j)) by (intros j; do 7 (destruct j as [|j]; [assumption|]); apply fin_zero).
  assert (NB : forall e y A, Rabs (e - y) <= 134 * eps * A -> Rabs y <= A -> 0 <= A -> Rabs e <= A + 0.001 * A).
  { clear. intros e y A H1 H2 H3. apply Rabs_le_inv in H1. apply Rabs_le_inv in H2. unfold eps in H1. apply Rabs_le. lra. }
  assert (Wb : forall j, Rabs (r j) <= w j).
  { intros j. pose proof (NB _ _ _ Ea Ba ltac:(lra)). pose proof (NB _ _ _ Eb Bb ltac:(lra)). pose proof (NB _ _ _ Ec Bc ltac:(lra)). pose proof (NB _ _ _ Ed Bd ltac:(lra)).
    unfold r, w. do 7 (destruct j as [|j]; [cbn [row_env]; lra|]). cbn [row_env]. rewrite Rabs_R0. lra. }
  assert (Wp : forall j, w j <= p2 40).
  { intros j. replace (p2 40) with 1099511627776 by (simpl; lra). unfold w. do 7 (destruct j as [|j]; [cbn [row_env]; lra|]). cbn [row_env]. lra. }
  assert (WA : evA w (pe 0 1 2 3 4 5 6) <= 24.4 * Q).
  { unfold w. cbn [evA pe row_env]. rewrite !Rabs_pos_eq by lra. unfold Q. lra. }
  assert (Sm : small 40 (pe 0 1 2 3 4 5 6) = true) by (vm_compute; reflexivity).
  clearbody v. destruct (poly_bound 40 v r w _ _ ltac:(lia) V Wb Wp Sm WA) as (t & Ft & _ & Et).
  exists t. split; [exact Ft|]. change (cost (pe 0 1 2 3 4 5 6)) with 3%Z in Et.
  assert (TQ : p2 (under 40 (pe 0 1 2 3 4 5 6)) * tiny <= 0.001 * eps * Q).
  { replace (under 40 (pe 0 1 2 3 4 5 6)) with 46%Z by (vm_compute; reflexivity).
    unfold tiny. rewrite <- bpow_plus. apply Rle_trans with (0.001 * eps * (/ 1024 * / 1024)); [unfold eps; simpl; lra|]. apply Rmult_le_compat_l; [unfold eps; lra|lra]. }
  unfold apply_point. 
  assert (Er : Rabs (evR r (pe 0 1 2 3 4 5 6) - (ent M i 0 * vx P + ent M i 1 * vy P + ent M i 2 * vz P + ent M i 3)) <= 134 * eps * (24 * Q)).
  { unfold r. cbn [evR pe row_env].
    assert (X : forall e y x, Rabs (e - y) <= 134 * eps * (4 * J) -> Rabs x <= W -> Rabs (x * (e - y)) <= 134 * eps * (4 * Q)).
    { intros e y x H1 H2. rewrite Rabs_mult. apply Rle_trans with (W * (134 * eps * (4 * J))); [apply Rmult_le_compat; auto; apply Rabs_pos|]. unfold Q. lra. }
    pose proof (X _ _ _ Ea B0) as X0. pose proof (X _ _ _ Eb B1) as X1. pose proof (X _ _ _ Ec B2) as X2.
    apply Rabs_le_inv in X0. apply Rabs_le_inv in X1. apply Rabs_le_inv in X2. apply Rabs_le_inv in Ed. unfold eps in *. apply Rabs_le. lra. }
  apply Rabs_le_inv in Er. apply Rabs_le_inv in Et. unfold eta, eps in *. apply Rabs_le. lra.
Qed.
(** A direction taken into joint space: only its size matters. *)
Lemma vector_bound m s W p P b : good_joint m s W -> fin4 p P -> within3 (p2 b) P -> (0 <= b <= 40)%Z -> forall i, (i < 3)%nat ->
  exists t, fin (lane (transform_vector (mat_invert m) p) i) t /\ Rabs t <= p2 (b + 15).
Proof.
  intros G (F0 & F1 & F2) (B0 & B1 & B2) Hb i Hi. pose proof (gj_s _ _ _ G) as Hs.
  destruct (inverse_err m s W G i 0 Hi ltac:(lia)) as (a & Fa & Ea & Ba). destruct (inverse_err m s W G i 1 Hi ltac:(lia)) as (e & Fb & Eb & Bb).
  destruct (inverse_err m s W G i 2 Hi ltac:(lia)) as (c & Fc & Ec & Bc). cbn [Nat.eqb] in *.
  set (M := mat_invert (real_mat m)) in *. set (J := / s) in *.
  assert (J0 : / 1024 <= J <= 1024).
  { unfold J. split; [apply Rinv_le_contravar; lra|]. rewrite <- (Rinv_inv 1024). apply Rinv_le_contravar; lra. }
  assert (P1 : 1 <= p2 b) by (change 1 with (p2 0); apply bpow_le; lia).
  rewrite (vector_ev _ _ nzero) by exact Hi.
  set (v := row_env _ _ _ _ _ _ _ _). set (r := row_env 0 a e c 0 (vx P) (vy P) (vz P)). set (w := row_env 0 4200 4200 4200 0 (p2 b) (p2 b) (p2 b)).
  assert (V : forall j, fin (v j) (r j)) by (intros j; do 7 (destruct j as [|j]; [first [assumption|apply fin_zero]|]); apply fin_zero).
  assert (NB : forall e y, Rabs (e - y) <= 134 * eps * (4 * J) -> Rabs y <= 4 * J -> Rabs e <= 4200).
  { clear - J0. intros e y H1 H2. apply Rabs_le_inv in H1. apply Rabs_le_inv in H2. unfold eps in H1. apply Rabs_le. lra. }
  assert (Wb : forall j, Rabs (r j) <= w j).
  { intros j. pose proof (NB _ _ Ea Ba). pose proof (NB _ _ Eb Bb). pose proof (NB _ _ Ec Bc).
    unfold r, w. do 7 (destruct j as [|j]; [cbn [row_env]; rewrite ?Rabs_R0; lra|]). cbn [row_env]. rewrite Rabs_R0. lra. }
  assert (Wp : forall j, w j <= p2 40).
  { intros j. assert (p2 b <= p2 40) by (apply bpow_le; lia). replace (p2 40) with 1099511627776 in * by (simpl; lra). unfold w. do 7 (destruct j as [|j]; [cbn [row_env]; lra|]). cbn [row_env]. lra. }
  assert (WA : evA w (ve 0 1 2 4 5 6) <= 12600 * p2 b).
  { unfold w. cbn [evA ve row_env]. rewrite !Rabs_pos_eq by lra. lra. }
  assert (Sm : small 40 (ve 0 1 2 4 5 6) = true) by (vm_compute; reflexivity).
  clearbody v. destruct (poly_bound 40 v r w _ _ ltac:(lia) V Wb Wp Sm WA) as (t & Ft & Bt & Et).
  exists t. split; [exact Ft|]. change (cost (ve 0 1 2 4 5 6)) with 3%Z in Et.
  assert (TQ : p2 (under 40 (ve 0 1 2 4 5 6)) * tiny <= 0.001).
  { replace (under 40 (ve 0 1 2 4 5 6)) with 46%Z by (vm_compute; reflexivity). unfold tiny. rewrite <- bpow_plus. simpl. lra. }
  rewrite Z.add_comm, (p2_shift 15 b 32768) by (simpl; lra).
  apply Rabs_le_inv in Bt. apply Rabs_le_inv in Et. unfold eta, eps in *. apply Rabs_le. lra.
Qed.
