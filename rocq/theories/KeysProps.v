(** C17-C19: compressed keys. *)
From Coq Require Import Reals.
From Flocq Require Import IEEE754.BinarySingleNaN.
From Verif Require Import Base Num NumF32 Math Keys KeysSpec KeysHalf KeysProofs.
Local Open Scope N_scope.

(** C17.  For every half float but 0x7BFF and 0xFBFF (the largest finite ones) the SIMD decoder
    used by sampling and the scalar decoder give the same binary32 value. *)
Theorem C17_half_simd_scalar_partial :
  forall n, n < 65536 -> n <> 31743 -> n <> 64511 -> simd_f16_lane n = f16_to_f32 n.
Proof.
  intros n Hn H1 H2. apply half_simd_scalar; [exact Hn|]. intros E.
  destruct (N.lt_ge_cases n 32768) as [L|L].
  - change 32767 with (N.ones 15) in E. rewrite N.land_ones, N.mod_small in E by exact L. exact (H1 E).
  - change 32767 with (N.ones 15) in E. rewrite N.land_ones in E.
    pose proof (N.div_mod n (2 ^ 15) ltac:(discriminate)) as D. rewrite E in D.
    assert (n / 2 ^ 15 = 1).
    { symmetry. apply N.div_unique with (n - 32768); change (2 ^ 15) with 32768; lia. }
    rewrite H in D. exact (H2 D).
Qed.
Print Assumptions C17_half_simd_scalar_partial.

(** C17 as stated is false: on 0x7BFF (65504) the SIMD decoder gives NaN. *)
Theorem C17_half_simd_scalar_refuted :
  exists n, n < 65536 /\ simd_f16_lane n = B754_nan /\ f16_to_f32 n = f32_lit 65504 0.
Proof.
  exists 31743. split; [reflexivity|]. split; apply F32Facts.to_bits_inj; vm_compute; reflexivity.
Qed.
Print Assumptions C17_half_simd_scalar_refuted.

(** C17: the scalar decoder is exact: a finite half gives the same number and sign, infinities and
    NaNs are kept. *)
Theorem C17_half_exact :
  forall n, n < 65536 ->
    (half_exp n <> 31 -> is_finite (f16_to_f32 n) = true /\ Bsign (f16_to_f32 n) = half_sign n /\
                         B2R (f16_to_f32 n) = half_value n) /\
    (half_exp n = 31 -> half_frac n = 0 -> f16_to_f32 n = B754_infinity (half_sign n)) /\
    (half_exp n = 31 -> half_frac n <> 0 -> f16_to_f32 n = B754_nan).
Proof. exact (fun n H => conj (half_finite n H) (conj (half_inf n H) (half_nan n H))). Qed.
Print Assumptions C17_half_exact.

(** C17 for whole keys: the four lanes of a SIMD-decoded translation/scale are the four keys
    decoded one by one, provided no component is one of the two halves above. *)
Theorem C17_float3_simd_scalar :
  forall k0 k1 k2 k3 l, (l < 4)%nat ->
    let k := lane (mk4 k0 k1 k2 k3) l in
    u16_3 k ->
    (forall n, n = vx k \/ n = vy k \/ n = vz k -> n <> 31743 /\ n <> 64511) ->
    lane_v3 (float3_simd_decompress k0 k1 k2 k3) l = float3_decompress k.
Proof.
  intros k0 k1 k2 k3 l Hl k (U0 & U1 & U2) H. rewrite (float3_lanes k0 k1 k2 k3 l Hl). fold k.
  unfold float3_decompress. cbv zeta.
  rewrite !C17_half_simd_scalar_partial by (first [assumption|apply H; auto]). reflexivity.
Qed.
Print Assumptions C17_float3_simd_scalar.
Example C17_example :
  let k := V3 15360 49152 1 in
  u16_3 k /\ (forall n, n = vx k \/ n = vy k \/ n = vz k -> n <> 31743 /\ n <> 64511) /\
  f32_to_bits (vy (float3_decompress k)) = f32_to_bits (f32_lit (-2) 0).
Proof.
  split; [repeat split|]. split; [|vm_compute; reflexivity].
  intros n [E|[E|E]]; rewrite E; split; discriminate.
Qed.

(** C18.  The four lanes of a SIMD-decoded rotation are, bit for bit, the four keys decoded one by
    one. *)
Theorem C18_quat_simd_scalar :
  forall k0 k1 k2 k3 l, (l < 4)%nat ->
    lane_q (quat_simd_decompress k0 k1 k2 k3) l = quat_decompress (lane (mk4 k0 k1 k2 k3) l).
Proof. exact quat_lanes. Qed.
Print Assumptions C18_quat_simd_scalar.
Example C18_example :
  f32_to_bits (qz (lane_q (quat_simd_decompress (V3 0 0 0) (pack 2 1 (V3 16000 17000 5))
                                                (V3 1 2 3) (V3 65535 65535 65535)) 1)) = 3207914899.
Proof. vm_compute. reflexivity. Qed.

(** C19.  [unpack] inverts the 48-bit packing, and every key is the packing of what [unpack]
    reads. *)
Theorem C19_unpack_pack :
  forall largest sign v,
    largest < 4 -> sign < 2 -> vx v < 32768 -> vy v < 32768 -> vz v < 32768 ->
    unpack (pack largest sign v) = (largest, sign, v) /\ u16_3 (pack largest sign v).
Proof. exact unpack_pack. Qed.
Print Assumptions C19_unpack_pack.
Theorem C19_pack_unpack :
  forall k, u16_3 k ->
    exists largest sign v, unpack k = (largest, sign, v) /\ largest < 4 /\ sign < 2 /\
      vx v < 32768 /\ vy v < 32768 /\ vz v < 32768 /\ pack largest sign v = k.
Proof. exact pack_unpack. Qed.
Print Assumptions C19_pack_unpack.
Example C19_example : unpack (pack 2 1 (V3 12345 32767 20000)) = (2, 1, V3 12345 32767 20000).
Proof. vm_compute. reflexivity. Qed.
