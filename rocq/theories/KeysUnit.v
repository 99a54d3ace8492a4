(** Decoded rotation keys are unit quaternions up to rounding. *)
From Coq Require Import Reals Lra Psatz.
From Flocq Require Import IEEE754.BinarySingleNaN Core.
From Verif Require Import Base Num NumF32 Math F32Facts F32Err Keys KeysSpec KeysHalf KeysProofs.
Local Open Scope R_scope.

(** 11863284 / 2^24 = 0.70710683..., the float just above 0.7071068. *)
Definition CMAX : f32 := f32_lit 11863284 (-24).
Definition component (n : N) : f32 := nadd (nmul SCALE (f32_of_u32 n)) OFFSET.
Definition component_check (n : N) : bool :=
  is_finite (component n) && Bleb (Babs (component n)) CMAX.
Lemma components_checked : all_bits 15 0 component_check = true.
Proof. vm_compute. reflexivity. Qed.

Definition KR : R := 11863284 / 16777216.
Lemma component_fin n : (n < 32768)%N -> exists r, fin (component n) r /\ Rabs r <= KR.
Proof.
  intros Hn. pose proof (all_bits_spec _ _ _ components_checked n) as H.
  assert (C : component_check n = true) by (apply H; lia). clear H.
  unfold component_check in C. apply andb_prop in C. destruct C as [F C].
  exists (B2R (component n)). split; [split; [exact F|reflexivity]|].
  apply Bleb_iff in C. destruct C as (_ & _ & C).
  destruct (fin_abs (component n) _ (conj F eq_refl)) as [Fa Ea].
  rewrite ext_finite in C by exact Fa. change (Babs (component n)) with (nabs (component n)) in C. rewrite Ea in C.
  destruct (fin_lit 11863284 (-24)) as [Fc Ec]; [simpl; lia|lia|].
  unfold CMAX in C. rewrite ext_finite in C by exact Fc. rewrite Ec in C. unfold KR. simpl in C. lra.
Qed.

Lemma sq_bound r : Rabs r <= KR -> 0 <= r * r <= 0.50001.
Proof. intros H. unfold KR in H. apply Rabs_le_inv in H. split; nra. Qed.

Lemma ub x a e : Rabs (x - a) <= e -> a - e <= x <= a + e.
Proof. intros H. apply Rabs_le_inv in H. lra. Qed.

Lemma unit_core x0 x1 x2 x3 r0 r1 r2 r3 :
  fin x0 r0 -> fin x1 r1 -> fin x2 r2 -> fin x3 r3 ->
  Rabs r0 <= KR -> Rabs r1 <= KR -> Rabs r2 <= KR -> Rabs r3 <= KR ->
  let dot := nadd (nadd (nadd (nmul x0 x0) (nmul x1 x1)) (nmul x2 x2)) (nmul x3 x3) in
  let w := nsqrt (nmax nzero (nsub none_ dot)) : f32 in
  let S := r0 * r0 + r1 * r1 + r2 * r2 + r3 * r3 in
  exists rw, fin w rw /\ 0 <= rw <= 1.001 /\
    1 - / 1048576 <= S + rw * rw /\ (S <= 1 -> S + rw * rw <= 1 + / 1048576).
Proof.
  intros F0 F1 F2 F3 B0 B1 B2 B3. cbv zeta.
  apply sq_bound in B0, B1, B2, B3. pose proof HUGE_big as HB. pose proof tiny_small as TS.
  assert (T : 0 < tiny < / 1000000000000000000) by (destruct TS as [? TS]; split; [assumption|]; eapply Rlt_le_trans; [exact TS|]; simpl; lra).
  clear TS. set (t := tiny) in *.
  assert (M : forall x r, fin x r -> 0 <= r * r <= 0.50001 ->
    exists m, fin (nmul x x) m /\ 0 <= m <= 0.50002 /\ Rabs (m - r * r) <= eps * 0.50001 + t).
  { intros x r F B. exists (rnd32 (r * r)). split; [apply fin_mul; auto; rewrite Rabs_pos_eq; lra|].
    assert (E : Rabs (rnd32 (r * r) - r * r) <= eps * 0.50001 + t) by (apply rnd_close; rewrite Rabs_pos_eq; lra).
    split; [|exact E]. split; [apply rnd32_ge0; lra|]. apply ub in E. unfold eps in E. lra. }
  destruct (M _ _ F0 B0) as (m0 & G0 & C0 & E0). destruct (M _ _ F1 B1) as (m1 & G1 & C1 & E1).
  destruct (M _ _ F2 B2) as (m2 & G2 & C2 & E2). destruct (M _ _ F3 B3) as (m3 & G3 & C3 & E3). clear M.
  assert (A : forall x y a b k, fin x a -> fin y b -> 0 <= a -> 0 <= b -> a + b <= k -> k <= 3 ->
    exists s, fin (nadd x y) s /\ 0 <= s <= k * (1 + eps) + t /\ Rabs (s - (a + b)) <= eps * k + t).
  { intros x y a b k Fx Fy Ha Hb Hk Hk3. exists (rnd32 (a + b)). split; [apply fin_add; auto; rewrite Rabs_pos_eq; lra|].
    assert (E : Rabs (rnd32 (a + b) - (a + b)) <= eps * k + t) by (apply rnd_close; rewrite Rabs_pos_eq; lra).
    split; [|exact E]. split; [apply rnd32_ge0; lra|]. apply ub in E. lra. }
  destruct (A _ _ _ _ 1.00004 G0 G1) as (s1 & H1 & D1 & X1); try lra.
  assert (K1 : s1 <= 1.00005) by (unfold eps in *; lra).
  destruct (A _ _ _ _ 1.50007 H1 G2) as (s2 & H2 & D2 & X2); try lra.
  assert (K2 : s2 <= 1.50008) by (unfold eps in *; lra).
  destruct (A _ _ _ _ 2.0001 H2 G3) as (s3 & H3 & D3 & X3); try lra.
  assert (K3 : 0 <= s3 <= 2.0002) by (unfold eps in *; lra). clear A.
  set (S := r0 * r0 + r1 * r1 + r2 * r2 + r3 * r3).
  assert (XD : Rabs (s3 - S) <= 7 * eps).
  { apply ub in E0, E1, E2, E3, X1, X2, X3. unfold S. apply Rabs_le. unfold eps in *. lra. }
  clear E0 E1 E2 E3 X1 X2 X3 D1 D2 D3.
  assert (FS : fin (nsub none_ (nadd (nadd (nadd (nmul x0 x0) (nmul x1 x1)) (nmul x2 x2)) (nmul x3 x3))) (rnd32 (1 - s3))).
  { apply (fin_sub none_ _ 1 s3 fin_one H3). apply Rabs_le. lra. }
  assert (ES : Rabs (rnd32 (1 - s3) - (1 - s3)) <= eps * 1.001 + t) by (apply rnd_close, Rabs_le; lra).
  set (d := rnd32 (1 - s3)) in *. apply fin_max0 in FS.
  set (a := Rmax 0 d) in *.
  assert (Ha : 0 <= a <= 1.0001).
  { unfold a. split; [apply Rmax_l|]. apply Rmax_lub; [lra|]. apply ub in ES. unfold eps in ES. lra. }
  pose proof (fin_sqrt _ _ FS (proj1 Ha)) as FW. set (w := rnd32 (sqrt a)) in *.
  assert (Hs : 0 <= sqrt a <= 1.0001).
  { split; [apply sqrt_pos|]. pose proof (sqrt_sqrt a (proj1 Ha)). pose proof (sqrt_pos a). nra. }
  assert (EW : Rabs (w - sqrt a) <= eps * Rabs (sqrt a) + t) by apply rnd_err.
  rewrite (Rabs_pos_eq (sqrt a)) in EW by lra.
  assert (W0 : 0 <= w) by (apply rnd32_ge0; lra).
  apply ub in EW.
  assert (Q : Rabs (w * w - a) <= 2.1 * eps).
  { pose proof (sqrt_sqrt a (proj1 Ha)) as SS. set (q := sqrt a) in *. clearbody q w.
    apply Rabs_le. rewrite <- SS. unfold eps in *. split; nra. }
  exists w. split; [exact FW|]. split; [split; [exact W0|unfold eps in *; lra]|].
  apply ub in Q, XD, ES. unfold a in *. clear - Q XD ES T.
  fold S. generalize (w * w) Q. intros ww Qw. clear Q. unfold eps in *.
  split.
  - pose proof (Rmax_r 0 d). lra.
  - intros HS. assert (Rmax 0 d <= 1 - S + 9 * / 16777216) by (apply Rmax_lub; lra). lra.
Qed.

(** Distance of a decoded component to the real number it stands for. *)
Lemma sqrt2_bounds : 1.4142135623 < sqrt 2 < 1.4142135624.
Proof.
  pose proof (sqrt_sqrt 2 ltac:(lra)) as E. pose proof (sqrt_pos 2) as P. split.
  - destruct (Rlt_or_le 1.4142135623 (sqrt 2)); [assumption|exfalso; nra].
  - destruct (Rlt_or_le (sqrt 2) 1.4142135624); [assumption|exfalso; nra].
Qed.
Lemma component_close n : (n < 32768)%N ->
  Rabs (B2R (component n) - sqrt 2 * (IZR (Z.of_N n) / 32767 - / 2)) <= / 2097152.
Proof.
  intros Hn. pose proof sqrt2_bounds as S2. pose proof tiny_small as TS. pose proof HUGE_big as HB.
  assert (T : 0 < tiny < / 1000000000000000000) by (destruct TS as [? TS]; split; [assumption|]; eapply Rlt_le_trans; [exact TS|]; simpl; lra).
  clear TS.
  set (z := IZR (Z.of_N n)).
  assert (Hz : 0 <= z <= 32767) by (unfold z; split; apply IZR_le; lia).
  assert (FN : fin (f32_of_u32 n) z).
  { unfold f32_of_u32. destruct (fin_lit (Z.of_N n) 0) as [F E]; [lia|lia|]. split; [exact F|]. rewrite E. simpl. unfold z. ring. }
  assert (FSc : fin SCALE (11863645 / 274877906944)).
  { destruct (fin_lit 11863645 (-38)) as [F E]; [simpl; lia|lia|]. split; [exact F|]. unfold SCALE. rewrite E. simpl. lra. }
  assert (FO : fin OFFSET (-11863283 / 16777216)).
  { destruct (fin_lit (-11863283) (-24)) as [F E]; [simpl; lia|lia|]. split; [exact F|]. unfold OFFSET. rewrite E. simpl. lra. }
  set (sc := 11863645 / 274877906944) in *. set (off := -11863283 / 16777216) in *.
  assert (B1 : 0 <= sc * z <= 1.415) by (unfold sc; lra).
  pose proof (fin_mul _ _ _ _ FSc FN ltac:(rewrite Rabs_pos_eq; lra)) as FM.
  pose proof (rnd_close (sc * z) 1.415 ltac:(rewrite Rabs_pos_eq; lra)) as EM.
  set (m := rnd32 (sc * z)) in *. apply ub in EM.
  assert (B2 : Rabs (m + off) <= 0.71) by (apply Rabs_le; unfold off, eps in *; lra).
  pose proof (fin_add _ _ _ _ FM FO ltac:(lra)) as FA.
  pose proof (rnd_close (m + off) 0.71 B2) as EA. set (c := rnd32 (m + off)) in *. apply ub in EA.
  unfold component. destruct FA as [_ FA]. rewrite FA.
  assert (D : Rabs (sc * z + off - sqrt 2 * (z / 32767 - / 2)) <= 0.0000001).
  { replace (sc * z + off - sqrt 2 * (z / 32767 - / 2))
      with ((sc - sqrt 2 / 32767) * z + (off + sqrt 2 / 2)) by field.
    assert (A1 : Rabs (sc - sqrt 2 / 32767) <= 0.000000000002) by (apply Rabs_le; unfold sc; lra).
    assert (A2 : Rabs (off + sqrt 2 / 2) <= 0.00000002) by (apply Rabs_le; unfold off; lra).
    eapply Rle_trans; [apply Rabs_triang|]. rewrite Rabs_mult, (Rabs_pos_eq z) by lra.
    assert (Rabs (sc - sqrt 2 / 32767) * z <= 0.000000000002 * 32767) by (apply Rmult_le_compat; try lra; apply Rabs_pos).
    lra. }
  apply ub in D. apply Rabs_le. unfold eps in *. lra.
Qed.

Lemma decompress_unit g s v : (g < 4)%N -> (s < 2)%N -> (vx v < 32768)%N -> (vy v < 32768)%N -> (vz v < 32768)%N ->
  let q := quat_decompress (pack g s v) in
  (forall i, (i < 4)%nat -> is_finite (qcomp q i) = true) /\
  (forall j, (j < 3)%nat -> qcomp q (place (N.to_nat g) j) = component (vec3_at v j)) /\
  Bsign (qcomp q (N.to_nat g)) = (s =? 1)%N /\
  1 - / 1048576 <= sumsq q /\
  (sumsq q - B2R (qcomp q (N.to_nat g)) * B2R (qcomp q (N.to_nat g)) <= 1 -> sumsq q <= 1 + / 1048576).
Proof.
  intros Hg Hs H0 H1 H2. cbv zeta.
  assert (E : unpack (pack g s v) = (g, s, v)) by (apply unpack_pack; assumption).
  unfold quat_decompress. rewrite E. clear E.
  destruct (component_fin _ H0) as (r0 & F0 & B0). destruct (component_fin _ H1) as (r1 & F1 & B1).
  destruct (component_fin _ H2) as (r2 & F2 & B2).
  assert (BZ : Rabs 0 <= KR) by (rewrite Rabs_R0; unfold KR; lra).
  set (cs := map4 _ _).
  assert (Hcs : forall i, lane cs i = component (vec3_at v (lane (MAPPING g) i))).
  { intros i. unfold cs. rewrite !lane_map4. reflexivity. }
  clearbody cs. 
  set (c1 := set_lane cs (N.to_nat g) nzero).
  set (dot := nadd (nadd (nadd (nmul (l0 c1) (l0 c1)) (nmul (l1 c1) (l1 c1))) (nmul (l2 c1) (l2 c1))) (nmul (l3 c1) (l3 c1))).
  set (w := nsqrt (nmax nzero (nsub none_ dot)) : f32).
  set (rest := if (s =? 0)%N then w else nneg w).
  match goal with |- context [qcomp ?x 0%nat] => idtac | |- context [sumsq ?x] => set (q := x) end.
  assert (Eq : q = let c2 := set_lane c1 (N.to_nat g) rest in Q4 (l0 c2) (l1 c2) (l2 c2) (l3 c2)) by reflexivity.
  clearbody q.
  assert (Sw : Bsign w = false /\ is_nan w = false).
  { destruct (max0_nonneg (nsub none_ dot)) as [P1 P2]. apply (sqrt_nonneg _ P1 P2). }
  assert (SR : forall y : f32, Bsign y = false -> is_nan y = false ->
     Bsign (if (s =? 0)%N then y else nneg y) = (s =? 1)%N).
  { intros y Hy Ny. assert (Z : s = 0%N \/ s = 1%N) by lia. destruct Z as [Z|Z]; subst s; cbn [N.eqb Pos.eqb]; [exact Hy|].
    destruct y; try discriminate; cbn in Hy |- *; rewrite Hy; reflexivity. }
  assert (FR : forall y r, fin y r -> exists r', fin (if (s =? 0)%N then y else nneg y) r' /\ r' * r' = r * r).
  { intros y r F. destruct (s =? 0)%N; [exists r; auto|]. exists (- r). split; [apply fin_neg, F|ring]. }
  assert (G : g = 0%N \/ g = 1%N \/ g = 2%N \/ g = 3%N) by lia.
  pose proof (Hcs 0%nat) as L0. pose proof (Hcs 1%nat) as L1. pose proof (Hcs 2%nat) as L2. pose proof (Hcs 3%nat) as L3.
  destruct cs as [k0 k1 k2 k3]. cbn [lane l0 l1 l2 l3] in *.
  destruct G as [G|[G|[G|G]]]; subst g; change (N.to_nat 0) with 0%nat in *; change (N.to_nat 1) with 1%nat in *;
    change (N.to_nat 2) with 2%nat in *; change (N.to_nat 3) with 3%nat in *;
    cbn [MAPPING lane l0 l1 l2 l3 vec3_at] in L0, L1, L2, L3;
    cbn [set_lane l0 l1 l2 l3] in c1; cbn [l0 l1 l2 l3 c1] in dot.
  1: destruct (unit_core nzero k1 k2 k3 0 r0 r1 r2) as (rw & Fw & Bw & U1 & U2); try assumption; try apply fin_zero; try (subst; assumption).
  2: destruct (unit_core k0 nzero k2 k3 r0 0 r1 r2) as (rw & Fw & Bw & U1 & U2); try assumption; try apply fin_zero; try (subst; assumption).
  3: destruct (unit_core k0 k1 nzero k3 r0 r1 0 r2) as (rw & Fw & Bw & U1 & U2); try assumption; try apply fin_zero; try (subst; assumption).
  4: destruct (unit_core k0 k1 k2 nzero r0 r1 r2 0) as (rw & Fw & Bw & U1 & U2); try assumption; try apply fin_zero; try (subst; assumption).
  all: change (fin w rw) in Fw; destruct (FR _ _ Fw) as (rw' & [Ff Fb] & Sq).
  all: pose proof (SR w (proj1 Sw) (proj2 Sw)) as Sg.
  all: change (Bsign rest = (s =? 1)%N) in Sg; change (is_finite rest = true) in Ff; change (B2R rest = rw') in Fb.
  all: clearbody rest; cbn [set_lane l0 l1 l2 l3 c1] in Eq; clear c1 dot w Sw SR FR Fw Hcs.
  all: subst; destruct F0 as [F0 E0], F1 as [F1 E1], F2 as [F2 E2].
  all: split; [intros [|[|[|[|i]]]] Hi; try (exfalso; lia); cbn [qcomp qx qy qz qw]; assumption|].
  all: split; [intros [|[|[|j]]] Hj; try (exfalso; lia); reflexivity|].
  all: split; [exact Sg|].
  all: unfold sumsq; cbn [qcomp qx qy qz qw]; rewrite E0, E1, E2, Sq; split; [lra|intros HS].
  all: assert (HS' : r0 * r0 + r1 * r1 + r2 * r2 <= 1) by lra.
  all: lra.
Qed.
