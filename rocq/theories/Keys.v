(** Model of the compressed keys: animation.rs 16-158 and the half-float conversions of math.rs
    900-939.  A key is three u16 values, as [N]. *)
From Flocq Require Import IEEE754.BinarySingleNaN.
From Verif Require Import Base Num NumF32 Math.
Local Open Scope N_scope.

(** animation.rs 21 [Float3Key([u16; 3])], 54 [QuaternionKey([u16; 3])] *)
Definition key := vec3 N.

(** ** Half floats *)

(** math.rs 905, 926: [f32::from_bits((254 - 15) << 23)] *)
Definition MAGIC : f32 := f32_of_bits (N.shiftl (254 - 15) 23).
(** math.rs 901-939: reinterpret, OR some bits in, reinterpret back. *)
Definition or_bits (x : f32) (bits : N) : f32 := f32_of_bits (N.lor (f32_to_bits x) bits).

(** math.rs 901-920 [f16_to_f32] *)
Definition f16_to_f32 (n : N) : f32 :=
  let sign := N.land n 32768 in
  let expo := N.land n 31744 in
  if expo =? 31744 then
    let base := N.land n 1023 in
    if negb (base =? 0) then B754_nan
    else if sign =? 32768 then B754_infinity true else B754_infinity false
  else
    let expmant := N.land n 32767 in
    let shifted := f32_of_bits (N.shiftl expmant 13) in
    let scaled := nmul shifted MAGIC in
    or_bits scaled (N.shiftl sign 16).

(** math.rs 923-939 [simd_f16_to_f32], one lane. *)
Definition WAS_INFNAN : N := 31743.
Definition EXP_INFNAN : N := N.shiftl 255 23.
Definition simd_f16_lane (n : N) : f32 :=
  let expmant := N.land 32767 n in
  let shifted := N.shiftl expmant 13 in
  let scaled := nmul (f32_of_bits shifted) MAGIC in
  let was_infnan := WAS_INFNAN <=? expmant in
  let sign := N.shiftl (N.lxor n expmant) 16 in
  let infnanexp := if was_infnan then EXP_INFNAN else 0 in
  or_bits scaled (N.lor sign infnanexp).
Definition simd_f16_to_f32 (h : V4 N) : V4 f32 := map4 simd_f16_lane h.

(** animation.rs 28-32 [Float3Key::decompress] *)
Definition float3_decompress (k : key) : vec3 f32 :=
  V3 (f16_to_f32 (vx k)) (f16_to_f32 (vy k)) (f16_to_f32 (vz k)).
(** animation.rs 34-39 [Float3Key::simd_decompress] *)
Definition float3_simd_decompress (k0 k1 k2 k3 : key) : vec3 (V4 f32) :=
  V3 (simd_f16_to_f32 (mk4 (vx k0) (vx k1) (vx k2) (vx k3)))
     (simd_f16_to_f32 (mk4 (vy k0) (vy k1) (vy k2) (vy k3)))
     (simd_f16_to_f32 (mk4 (vz k0) (vz k1) (vz k2) (vz k3))).

(** ** Quaternion keys *)

(** animation.rs 61-68 [unpack].  Shifts of u32 drop the bits above 32. *)
Definition unpack (k : key) : N * N * vec3 N :=
  let packed := N.lor (N.lor (N.shiftr (vx k) 3) (N.land (N.shiftl (vy k) 13) 4294967295))
                      (N.land (N.shiftl (vz k) 29) 4294967295) in
  let bigest := N.land (vx k) 3 in
  let sign := N.land (N.shiftr (vx k) 2) 1 in
  (bigest, sign, V3 (N.land packed 32767) (N.land (N.shiftr packed 15) 32767) (N.shiftr (vz k) 1)).

(** animation.rs 72, 109 [MAPPING] *)
Definition MAPPING (largest : N) : V4 nat :=
  match largest with
  | 0 => (mk4 0 0 1 2)%nat
  | 1 => (mk4 0 0 1 2)%nat
  | 2 => (mk4 0 1 0 2)%nat
  | _ => (mk4 0 1 2 0)%nat
  end.
Definition vec3_at {A} (v : vec3 A) (i : nat) : A :=
  match i with 0%nat => vx v | 1%nat => vy v | _ => vz v end.

(** animation.rs 81-84, 126-129: [x as f32] for x < 2^24 (exact). *)
Definition f32_of_u32 (x : N) : f32 := f32_lit (Z.of_N x) 0.
(** animation.rs 73-74, 112-113: [SQRT_2 / 32767.0] and [-SQRT_2 / 2.0], evaluated in binary32. *)
Definition SCALE : f32 := f32_lit 11863645 (-38).
Definition OFFSET : f32 := f32_lit (-11863283) (-24).

(** animation.rs 70-94 [QuaternionKey::decompress] *)
Definition quat_decompress (k : key) : quat f32 :=
  let '(largest, sign, value) := unpack k in
  let mask := MAPPING largest in
  let cmp_keys := map4 (vec3_at value) mask in
  let cpnt := map4 (fun c => nadd (nmul SCALE (f32_of_u32 c)) OFFSET) cmp_keys in
  let cpnt := set_lane cpnt (N.to_nat largest) nzero in
  let dot := nadd (nadd (nadd (nmul (l0 cpnt) (l0 cpnt)) (nmul (l1 cpnt) (l1 cpnt)))
                        (nmul (l2 cpnt) (l2 cpnt))) (nmul (l3 cpnt) (l3 cpnt)) in
  let ww0 := nmax nzero (nsub none_ dot) in
  let w0 := nsqrt ww0 in
  let restored := if sign =? 0 then w0 else nneg w0 in
  let cpnt := set_lane cpnt (N.to_nat largest) restored in
  Q4 (l0 cpnt) (l1 cpnt) (l2 cpnt) (l3 cpnt).

(** animation.rs 138-141: [cpnt[j] = fx4(ix4(cpnt[j]) & !MASK)] where MASK covers lane [i]: that lane becomes +0. *)
Definition clear_at (cpnt : V4 (V4 f32)) (j i : nat) : V4 (V4 f32) :=
  set_lane cpnt j (set_lane (lane cpnt j) i (f32_of_bits 0)).
(** animation.rs 149-152: [cpnt[j] = fx4(ix4(cpnt[j]) | (restored & MASK))] *)
Definition or_at (cpnt : V4 (V4 f32)) (restored : V4 f32) (j i : nat) : V4 (V4 f32) :=
  let c := lane cpnt j in
  set_lane cpnt j (set_lane c i (or_bits (lane c i) (f32_to_bits (lane restored i)))).

(** animation.rs 96-158 [QuaternionKey::simd_decompress], for any [simd_max] (144). *)
Definition quat_simd_decompress_with (simd_max : f32 -> f32 -> f32) (k0 k1 k2 k3 : key) : quat (V4 f32) :=
  let '(largest0, sign0, value0) := unpack k0 in
  let '(largest1, sign1, value1) := unpack k1 in
  let '(largest2, sign2, value2) := unpack k2 in
  let '(largest3, sign3, value3) := unpack k3 in
  let m0 := MAPPING largest0 in
  let m1 := MAPPING largest1 in
  let m2 := MAPPING largest2 in
  let m3 := MAPPING largest3 in
  let cmp_key j :=
    mk4 (f32_of_u32 (vec3_at value0 (lane m0 j))) (f32_of_u32 (vec3_at value1 (lane m1 j)))
        (f32_of_u32 (vec3_at value2 (lane m2 j))) (f32_of_u32 (vec3_at value3 (lane m3 j))) in
  let cpnt := build4 (fun j => nadd (nmul (splat SCALE) (cmp_key j)) (splat OFFSET)) in
  let cpnt := clear_at cpnt (N.to_nat largest0) 0 in
  let cpnt := clear_at cpnt (N.to_nat largest1) 1 in
  let cpnt := clear_at cpnt (N.to_nat largest2) 2 in
  let cpnt := clear_at cpnt (N.to_nat largest3) 3 in
  let dot := nadd (nadd (nadd (nmul (l0 cpnt) (l0 cpnt)) (nmul (l1 cpnt) (l1 cpnt)))
                        (nmul (l2 cpnt) (l2 cpnt))) (nmul (l3 cpnt) (l3 cpnt)) in
  let ww0 := zip4 simd_max nzero (nsub none_ dot) in
  let w0 := nsqrt ww0 in
  let sign := mk4 (N.shiftl sign0 31) (N.shiftl sign1 31) (N.shiftl sign2 31) (N.shiftl sign3 31) in
  let restored := zip4 or_bits w0 sign in
  let cpnt := or_at cpnt restored (N.to_nat largest0) 0 in
  let cpnt := or_at cpnt restored (N.to_nat largest1) 1 in
  let cpnt := or_at cpnt restored (N.to_nat largest2) 2 in
  let cpnt := or_at cpnt restored (N.to_nat largest3) 3 in
  Q4 (l0 cpnt) (l1 cpnt) (l2 cpnt) (l3 cpnt).
Definition quat_simd_decompress : key -> key -> key -> key -> quat (V4 f32) := quat_simd_decompress_with f32_max.
