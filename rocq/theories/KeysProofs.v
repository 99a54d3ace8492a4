(** Proofs about the compressed keys. *)
From Coq Require Import Reals Lra.
From Flocq Require Import IEEE754.BinarySingleNaN Core.
From Verif Require Import Base Num NumF32 F32Facts Math Gv4Proofs Keys KeysSpec KeysHalf.
Local Open Scope N_scope.

Lemma float3_lanes k0 k1 k2 k3 l : (l < 4)%nat ->
  lane_v3 (float3_simd_decompress k0 k1 k2 k3) l =
  let k := lane (mk4 k0 k1 k2 k3) l in
  V3 (simd_f16_lane (vx k)) (simd_f16_lane (vy k)) (simd_f16_lane (vz k)).
Proof. intros H. destruct l as [|[|[|[|l]]]]; try lia; reflexivity. Qed.

(** * Quaternion keys: packing *)
Lemma lor_shift_add x y s : x < 2 ^ s -> N.lor x (N.shiftl y s) = x + N.shiftl y s.
Proof.
  intros Hx. rewrite lor_shiftl_add by exact Hx. rewrite N.shiftl_mul_pow2. reflexivity.
Qed.
Lemma unpack_arith k : u16_3 k ->
  unpack k = (vx k mod 4, (vx k / 4) mod 2,
    V3 (vx k / 8 + 8192 * (vy k mod 4)) (vy k / 4 + 16384 * (vz k mod 2)) (vz k / 2)).
Proof.
  intros (H0 & H1 & H2). destruct k as [a b c]. unfold unpack. cbn [vx vy vz] in *.
  change 4294967295 with (N.ones 32). change 32767 with (N.ones 15). change (N.land a 3) with (N.land a (N.ones 2)).
  change (N.land (N.shiftr a 2) 1) with (N.land (N.shiftr a 2) (N.ones 1)).
  rewrite !N.land_ones, !N.shiftr_div_pow2, !N.shiftl_mul_pow2.
  change (2 ^ 1) with 2. change (2 ^ 2) with 4. change (2 ^ 3) with 8. change (2 ^ 13) with 8192.
  change (2 ^ 29) with 536870912. change (2 ^ 32) with 4294967296. change (2 ^ 15) with 32768.
  rewrite (N.mod_small (b * 8192)) by lia.
  replace ((c * 536870912) mod 4294967296) with (c mod 8 * 536870912).
  2:{ apply (N.mod_unique _ _ (c / 8)).
      - pose proof (N.mod_lt c 8 ltac:(discriminate)). lia.
      - pose proof (N.div_mod c 8 ltac:(discriminate)). lia. }
  assert (E : N.lor (N.lor (a / 8) (b * 8192)) (c mod 8 * 536870912)
              = a / 8 + b * 8192 + c mod 8 * 536870912).
  { assert (A : forall x y s, x < 2 ^ s -> N.lor x (y * 2 ^ s) = x + y * 2 ^ s).
    { intros x y s Hx. rewrite <- N.shiftl_mul_pow2. apply lor_shift_add. exact Hx. }
    change 8192 with (2 ^ 13). change 536870912 with (2 ^ 29).
    pose proof (N.div_lt_upper_bound a 8 8192 ltac:(discriminate) ltac:(lia)).
    rewrite (A (a / 8) b 13) by assumption.
    rewrite A; [reflexivity|]. change (2 ^ 29) with 536870912. change (2 ^ 13) with 8192. lia. }
  rewrite E. clear E.
  set (q := a / 8) in *. assert (Hq : q < 8192) by (apply N.div_lt_upper_bound; lia). clearbody q.
  pose proof (N.div_mod b 4 ltac:(discriminate)) as Db. pose proof (N.mod_lt b 4 ltac:(discriminate)) as Mb.
  pose proof (N.div_mod c 8 ltac:(discriminate)) as Dc. pose proof (N.mod_lt c 8 ltac:(discriminate)) as Mc.
  assert (M2 : c mod 2 = (c mod 8) mod 2).
  { pose proof (N.div_mod (c mod 8) 2 ltac:(discriminate)).
    pose proof (N.mod_lt (c mod 8) 2 ltac:(discriminate)).
    symmetry. apply (N.mod_unique _ _ (4 * (c / 8) + (c mod 8) / 2)); lia. }
  f_equal. f_equal.
  - symmetry. apply (N.mod_unique _ _ (b / 4 + c mod 8 * 16384)); lia.
  - replace ((q + b * 8192 + c mod 8 * 536870912) / 32768) with (b / 4 + c mod 8 * 16384).
    2:{ apply (N.div_unique _ _ _ (q + 8192 * (b mod 4))); lia. }
    rewrite M2. set (d := c mod 8) in *. clearbody d.
    pose proof (N.div_mod d 2 ltac:(discriminate)) as Dd. pose proof (N.mod_lt d 2 ltac:(discriminate)) as Md.
    symmetry. apply (N.mod_unique _ _ (d / 2)); [|lia].
    pose proof (N.div_lt_upper_bound b 4 16384 ltac:(discriminate) ltac:(lia)). lia.
Qed.

Lemma unpack_pack largest sign v :
  largest < 4 -> sign < 2 -> vx v < 32768 -> vy v < 32768 -> vz v < 32768 ->
  unpack (pack largest sign v) = (largest, sign, v) /\ u16_3 (pack largest sign v).
Proof.
  intros Hl Hs H0 H1 H2. destruct v as [a b c]. cbn [vx vy vz] in *.
  unfold pack. cbn [vx vy vz].
  set (bits := largest + 4 * sign + 8 * a + 262144 * b + 8589934592 * c).
  pose proof (N.div_mod a 8192 ltac:(discriminate)) as Da. pose proof (N.mod_lt a 8192 ltac:(discriminate)) as Ma.
  pose proof (N.div_mod b 16384 ltac:(discriminate)) as Db. pose proof (N.mod_lt b 16384 ltac:(discriminate)) as Mb.
  assert (La : a / 8192 < 4) by (apply N.div_lt_upper_bound; lia).
  assert (Lb : b / 16384 < 2) by (apply N.div_lt_upper_bound; lia).
  set (a1 := a / 8192) in *. set (a0 := a mod 8192) in *. clearbody a1 a0.
  set (b1 := b / 16384) in *. set (b0 := b mod 16384) in *. clearbody b1 b0.
  assert (E0 : bits mod 65536 = largest + 4 * sign + 8 * a0).
  { symmetry. apply (N.mod_unique _ _ (a1 + 4 * b + 131072 * c)); unfold bits; lia. }
  assert (E1 : bits / 65536 = a1 + 4 * b + 131072 * c).
  { symmetry. apply (N.div_unique _ _ _ (largest + 4 * sign + 8 * a0)); unfold bits; lia. }
  assert (E2 : (bits / 65536) mod 65536 = a1 + 4 * b0).
  { rewrite E1. symmetry. apply (N.mod_unique _ _ (b1 + 2 * c)); lia. }
  assert (E3 : bits / 4294967296 = b1 + 2 * c).
  { symmetry. apply (N.div_unique _ _ _ (largest + 4 * sign + 8 * a0 + 65536 * (a1 + 4 * b0)));
      unfold bits; lia. }
  rewrite E0, E2, E3. assert (U : u16_3 (V3 (largest + 4 * sign + 8 * a0) (a1 + 4 * b0) (b1 + 2 * c))).
  { repeat split; cbn [vx vy vz]; lia. }
  split; [|exact U]. rewrite unpack_arith by exact U. cbn [vx vy vz]. clear E0 E1 E2 E3 U bits.
  replace ((largest + 4 * sign + 8 * a0) mod 4) with largest
    by (apply (N.mod_unique _ _ (sign + 2 * a0)); lia).
  replace ((largest + 4 * sign + 8 * a0) / 4) with (sign + 2 * a0)
    by (apply (N.div_unique _ _ _ largest); lia).
  replace ((sign + 2 * a0) mod 2) with sign by (apply (N.mod_unique _ _ a0); lia).
  replace ((largest + 4 * sign + 8 * a0) / 8) with a0
    by (apply (N.div_unique _ _ _ (largest + 4 * sign)); lia).
  replace ((a1 + 4 * b0) mod 4) with a1 by (apply (N.mod_unique _ _ b0); lia).
  replace ((a1 + 4 * b0) / 4) with b0 by (apply (N.div_unique _ _ _ a1); lia).
  replace ((b1 + 2 * c) mod 2) with b1 by (apply (N.mod_unique _ _ c); lia).
  replace ((b1 + 2 * c) / 2) with c by (apply (N.div_unique _ _ _ b1); lia).
  f_equal. f_equal; lia.
Qed.

Lemma pack_unpack k : u16_3 k ->
  exists largest sign v, unpack k = (largest, sign, v) /\ largest < 4 /\ sign < 2 /\
    vx v < 32768 /\ vy v < 32768 /\ vz v < 32768 /\ pack largest sign v = k.
Proof.
  intros U. rewrite unpack_arith by exact U. destruct U as (H0 & H1 & H2). destruct k as [a b c].
  cbn [vx vy vz] in *. eexists _, _, _. split; [reflexivity|]. cbn [vx vy vz].
  pose proof (N.div_mod a 4 ltac:(discriminate)) as Da. pose proof (N.mod_lt a 4 ltac:(discriminate)) as Ma.
  assert (D8 : a / 8 = a / 4 / 2) by (rewrite N.div_div by discriminate; reflexivity).
  pose proof (N.div_mod (a / 4) 2 ltac:(discriminate)) as Da2. pose proof (N.mod_lt (a / 4) 2 ltac:(discriminate)) as Ma2.
  pose proof (N.div_mod b 4 ltac:(discriminate)) as Db. pose proof (N.mod_lt b 4 ltac:(discriminate)) as Mb.
  pose proof (N.div_mod c 2 ltac:(discriminate)) as Dc. pose proof (N.mod_lt c 2 ltac:(discriminate)) as Mc.
  rewrite D8. set (x := a / 4 / 2) in *. set (y := (a / 4) mod 2) in *. set (z := a mod 4) in *.
  clearbody x y z. rewrite Da2 in Da. clear Da2 D8.
  set (b1 := b / 4) in *. set (b0 := b mod 4) in *. clearbody b1 b0.
  set (c1 := c / 2) in *. set (c0 := c mod 2) in *. clearbody c1 c0.
  repeat split; try lia. unfold pack. cbn [vx vy vz].
  set (bits := z + 4 * y + 8 * (x + 8192 * b0) + 262144 * (b1 + 16384 * c0) + 8589934592 * c1).
  assert (E : bits = a + 65536 * b + 4294967296 * c) by (unfold bits; lia).
  f_equal.
  - symmetry. apply (N.mod_unique _ _ (b + 65536 * c)); lia.
  - replace (bits / 65536) with (b + 65536 * c) by (apply (N.div_unique _ _ _ a); lia).
    symmetry. apply (N.mod_unique _ _ c); lia.
  - symmetry. apply (N.div_unique _ _ _ (a + 65536 * b)); lia.
Qed.

(** * Quaternion keys: SIMD = scalar *)
Lemma or_zero (y : f32) : or_bits (f32_of_bits 0) (f32_to_bits y) = y.
Proof. unfold or_bits. change (f32_to_bits (f32_of_bits 0)) with 0. rewrite N.lor_0_l. apply of_to_bits. Qed.

Lemma or_sign (w : f32) s : Bsign w = false -> is_nan w = false -> s < 2 ->
  or_bits w (N.shiftl s 31) = if s =? 0 then w else nneg w.
Proof.
  intros Hs Hn Hs2. unfold or_bits. destruct (N.eqb_spec s 0) as [->|E].
  - rewrite N.shiftl_0_l, N.lor_0_r. apply of_to_bits.
  - assert (s = 1) by lia. subst s. change (N.shiftl 1 31) with 2147483648.
    rewrite <- (of_to_bits (nneg w)). f_equal. simpl nneg.
    destruct w as [sw|sw| |sw m e b]; try discriminate; simpl in Hs; subst sw; try reflexivity.
    cbn [Bopp f32_to_bits negb].
    destruct (finite_shape m e b) as [Hsh _]. change (2 ^ 23)%Z with 8388608%Z in Hsh.
    change (2 ^ 24)%Z with 16777216%Z in Hsh.
    set (mm := if N.pos m <? 8388608 then _ else _).
    assert (Hmm : mm < 2147483648).
    { unfold mm. destruct (N.ltb_spec (N.pos m) 8388608); lia. }
    rewrite N.add_0_l, N.lor_comm. change 2147483648 with (N.shiftl 1 31).
    rewrite N.lor_comm, lor_shift_add by exact Hmm. lia.
Qed.

Lemma max0_nonneg (y : f32) : Bsign (nmax nzero y) = false /\ is_nan (nmax nzero y) = false.
Proof.
  change (@nmax f32 _ nzero y)
    with (if is_nan y then B754_zero false else if Bleb y (B754_zero false) then B754_zero false else y).
  destruct (is_nan y) eqn:Ny; [split; reflexivity|].
  destruct (Bleb y (B754_zero false)) eqn:L; [split; reflexivity|].
  split; [|exact Ny]. destruct y as [[]|[]| |[] m e b]; try reflexivity; try discriminate.
Qed.
Lemma sqrt_nonneg (y : f32) : Bsign y = false -> is_nan y = false ->
  Bsign (nsqrt y) = false /\ is_nan (nsqrt y) = false.
Proof.
  intros Hs Hn. simpl nsqrt.
  destruct (Bsqrt_correct 24 128 _ _ mode_NE y) as (_ & Hf & Hsg).
  destruct y as [s|s| |s m e b]; try discriminate; simpl in Hs; subst s; try (split; reflexivity).
  destruct (Bsqrt mode_NE (B754_finite false m e b)) eqn:E; simpl in Hf; try discriminate;
    (split; [apply Hsg; reflexivity|reflexivity]).
Qed.

Lemma lane_set_lane {A} (v : V4 A) i j x : (i < 4)%nat -> (j < 4)%nat ->
  lane (set_lane v i x) j = if (i =? j)%nat then x else lane v j.
Proof.
  intros Hi Hj. destruct i as [|[|[|[|i]]]]; try lia; destruct j as [|[|[|[|j]]]]; try lia; reflexivity.
Qed.
Lemma lane_clear_at c j i a b : (j < 4)%nat -> (i < 4)%nat -> (a < 4)%nat -> (b < 4)%nat ->
  lane (lane (clear_at c j i) a) b =
  if (j =? a)%nat && (i =? b)%nat then f32_of_bits 0 else lane (lane c a) b.
Proof.
  intros. unfold clear_at. rewrite lane_set_lane by assumption.
  destruct (Nat.eqb_spec j a) as [->|]; cbn [andb]; [|reflexivity].
  rewrite lane_set_lane by assumption. destruct (i =? b)%nat; reflexivity.
Qed.
Lemma lane_or_at c r j i a b : (j < 4)%nat -> (i < 4)%nat -> (a < 4)%nat -> (b < 4)%nat ->
  lane (lane (or_at c r j i) a) b =
  if (j =? a)%nat && (i =? b)%nat then or_bits (lane (lane c a) b) (f32_to_bits (lane r b))
  else lane (lane c a) b.
Proof.
  intros. unfold or_at. rewrite lane_set_lane by assumption.
  destruct (Nat.eqb_spec j a) as [->|]; cbn [andb]; [|reflexivity].
  rewrite lane_set_lane by assumption. destruct (Nat.eqb_spec i b) as [->|]; reflexivity.
Qed.

Lemma unpack_bounds k : exists g s v, unpack k = (g, s, v) /\ g < 4 /\ s < 2.
Proof.
  unfold unpack. eexists _, _, _. split; [reflexivity|].
  change 3 with (N.ones 2). change 1 with (N.ones 1). rewrite !N.land_ones.
  split; apply N.mod_lt; discriminate.
Qed.
Lemma quat_lanes k0 k1 k2 k3 l : (l < 4)%nat ->
  lane_q (quat_simd_decompress k0 k1 k2 k3) l = quat_decompress (lane (mk4 k0 k1 k2 k3) l).
Proof.
  intros Hl.
  destruct (unpack_bounds k0) as (g0 & s0 & v0 & E0 & G0 & S0).
  destruct (unpack_bounds k1) as (g1 & s1 & v1 & E1 & G1 & S1).
  destruct (unpack_bounds k2) as (g2 & s2 & v2 & E2 & G2 & S2).
  destruct (unpack_bounds k3) as (g3 & s3 & v3 & E3 & G3 & S3).
  unfold quat_simd_decompress, quat_simd_decompress_with. rewrite E0, E1, E2, E3.
  set (n0 := N.to_nat g0) in *. set (n1 := N.to_nat g1) in *.
  set (n2 := N.to_nat g2) in *. set (n3 := N.to_nat g3) in *.
  assert (N0 : (n0 < 4)%nat) by (unfold n0; lia). assert (N1 : (n1 < 4)%nat) by (unfold n1; lia).
  assert (N2 : (n2 < 4)%nat) by (unfold n2; lia). assert (N3 : (n3 < 4)%nat) by (unfold n3; lia).
  set (C0 := build4 _).
  set (C1 := clear_at (clear_at (clear_at (clear_at C0 n0 0) n1 1) n2 2) n3 3).
  cbv zeta.
  set (DOT := nadd (nadd (nadd (nmul (l0 C1) (l0 C1)) (nmul (l1 C1) (l1 C1))) (nmul (l2 C1) (l2 C1))) (nmul (l3 C1) (l3 C1))).
  set (W0 := nsqrt (zip4 f32_max nzero (nsub none_ DOT))).
  set (RS := zip4 or_bits W0 _).
  set (C2 := or_at (or_at (or_at (or_at C1 RS n0 0) RS n1 1) RS n2 2) RS n3 3).
  set (g := lane (mk4 g0 g1 g2 g3) l). set (s := lane (mk4 s0 s1 s2 s3) l).
  set (v := lane (mk4 v0 v1 v2 v3) l). set (n := lane (mk4 n0 n1 n2 n3) l).
  assert (Hn : (n < 4)%nat) by (destruct l as [|[|[|[|l]]]]; try lia; assumption).
  assert (Hs : s < 2) by (destruct l as [|[|[|[|l]]]]; try lia; assumption).
  assert (Eu : unpack (lane (mk4 k0 k1 k2 k3) l) = (g, s, v))
    by (destruct l as [|[|[|[|l]]]]; try lia; assumption).
  assert (En : n = N.to_nat g) by (destruct l as [|[|[|[|l]]]]; try lia; reflexivity).
  (* one lane of each stage *)
  set (c0 := map4 (fun c => nadd (nmul SCALE (f32_of_u32 c)) OFFSET) (map4 (vec3_at v) (MAPPING g))).
  assert (L0 : forall a, (a < 4)%nat -> lane (lane C0 a) l = lane c0 a).
  { intros a Ha. unfold C0, c0. rewrite lane_build4 by assumption. rewrite !lane_map4.
    destruct l as [|[|[|[|l]]]]; try lia; reflexivity. }
  set (c1 := set_lane c0 n nzero).
  assert (L1 : forall a, (a < 4)%nat -> lane (lane C1 a) l = lane c1 a).
  { intros a Ha. unfold C1, c1. rewrite !lane_clear_at by (try assumption; lia).
    rewrite lane_set_lane by assumption. rewrite L0 by assumption. unfold n.
    destruct l as [|[|[|[|l]]]]; try lia; cbn [Nat.eqb lane l0 l1 l2 l3]; rewrite ?andb_false_r, ?andb_true_r;
      (match goal with |- context [(?x =? a)%nat] => destruct (x =? a)%nat end); reflexivity. }
  assert (LD : lane DOT l = nadd (nadd (nadd (nmul (l0 c1) (l0 c1)) (nmul (l1 c1) (l1 c1))) (nmul (l2 c1) (l2 c1))) (nmul (l3 c1) (l3 c1))).
  { pose proof (L1 0%nat ltac:(lia)) as A0. pose proof (L1 1%nat ltac:(lia)) as A1.
    pose proof (L1 2%nat ltac:(lia)) as A2. pose proof (L1 3%nat ltac:(lia)) as A3.
    cbn [lane] in A0, A1, A2, A3. rewrite <- A0, <- A1, <- A2, <- A3.
    unfold DOT. destruct l as [|[|[|l]]]; reflexivity. }
  set (w0 := nsqrt (nmax nzero (nsub none_ (lane DOT l)))).
  assert (LW : lane W0 l = w0).
  { unfold W0, w0. destruct l as [|[|[|l]]]; reflexivity. }
  assert (LR : lane RS l = if s =? 0 then w0 else nneg w0).
  { unfold RS. rewrite lane_zip4, LW.
    replace (lane (mk4 (N.shiftl s0 31) (N.shiftl s1 31) (N.shiftl s2 31) (N.shiftl s3 31)) l)
      with (N.shiftl s 31) by (destruct l as [|[|[|l]]]; reflexivity).
    destruct (max0_nonneg (nsub none_ (lane DOT l))) as [P1 P2].
    destruct (sqrt_nonneg _ P1 P2) as [Q1 Q2].
    apply or_sign; assumption. }
  set (c2 := set_lane c1 n (if s =? 0 then w0 else nneg w0)).
  assert (L2 : forall a, (a < 4)%nat -> lane (lane C2 a) l = lane c2 a).
  { intros a Ha. unfold C2, c2. rewrite !lane_or_at by (try assumption; lia).
    rewrite lane_set_lane by assumption. rewrite L1 by assumption. rewrite LR.
    assert (Z : (n =? a)%nat = true -> lane c1 a = f32_of_bits 0).
    { intros Hna. unfold c1. rewrite lane_set_lane by assumption. rewrite Hna. reflexivity. }
    unfold n in Z |- *.
    destruct l as [|[|[|[|l]]]]; try lia; cbn [Nat.eqb lane l0 l1 l2 l3] in Z |- *; rewrite ?andb_false_r, ?andb_true_r;
      (match goal with |- context [(?x =? a)%nat] => destruct (x =? a)%nat end);
      try reflexivity; rewrite Z by reflexivity; apply or_zero. }
  unfold quat_decompress. rewrite Eu. cbv zeta. rewrite <- En.
  fold c0. fold c1. rewrite <- LD. fold w0. fold c2.
  pose proof (L2 0%nat ltac:(lia)) as A0. pose proof (L2 1%nat ltac:(lia)) as A1.
  pose proof (L2 2%nat ltac:(lia)) as A2. pose proof (L2 3%nat ltac:(lia)) as A3.
  cbn [lane] in A0, A1, A2, A3. unfold lane_q. cbn [qx qy qz qw]. congruence.
Qed.
