(** Formats of the compressed keys, independent of the model. *)
From Coq Require Import Reals.
From Flocq Require Import IEEE754.BinarySingleNaN.
From Verif Require Import Base Num NumF32 Math.
Local Open Scope N_scope.

(** IEEE-754 binary16: sign bit 15, 5 exponent bits, 10 fraction bits. *)
Definition half_sign (n : N) : bool := 32768 <=? n.
Definition half_exp (n : N) : N := (n / 1024) mod 32.
Definition half_frac (n : N) : N := n mod 1024.
(** Value of a finite half: +-(1024 + frac) * 2^(exp - 25), or +-frac * 2^-24 when exp = 0. *)
Definition half_mant (n : N) : Z :=
  let m := Z.of_N (if half_exp n =? 0 then half_frac n else 1024 + half_frac n) in
  if half_sign n then (- m)%Z else m.
Definition half_scale (n : N) : Z := (Z.max 1 (Z.of_N (half_exp n)) - 25)%Z.
Definition half_value (n : N) : R := (IZR (half_mant n) * powerRZ 2 (half_scale n))%R.

(** Packing of a quaternion key in 48 bits, lowest first: index of the largest component (2 bits),
    its sign (1 bit), the three other components (15 bits each); then cut in three u16. *)
Definition pack (largest sign : N) (v : vec3 N) : vec3 N :=
  let bits := largest + 4 * sign + 8 * vx v + 262144 * vy v + 8589934592 * vz v in
  V3 (bits mod 65536) ((bits / 65536) mod 65536) (bits / 4294967296).

Definition u16_3 (k : vec3 N) : Prop := vx k < 65536 /\ vy k < 65536 /\ vz k < 65536.

(** Component [i] of a quaternion. *)
Definition qcomp {A} (q : quat A) (i : nat) : A :=
  match i with 0%nat => qx q | 1%nat => qy q | 2%nat => qz q | _ => qw q end.
(** The three stored components go, in order, to the places other than [g]. *)
Definition place (g j : nat) : nat := if Nat.ltb j g then j else S j.
(** Sum of the squares of the four components. *)
Definition sumsq (q : quat f32) : R := (
  B2R (qx q) * B2R (qx q) + B2R (qy q) * B2R (qy q) + B2R (qz q) * B2R (qz q) + B2R (qw q) * B2R (qw q))%R.
(** The stored component [j] (0, 1, 2) of a key, a 15-bit number, and the real number it
    stands for: [-sqrt 2 / 2 .. sqrt 2 / 2] divided in 32767 steps. *)
Definition stored (v : vec3 N) (j : nat) : N := match j with 0%nat => vx v | 1%nat => vy v | _ => vz v end.
Definition dequantized (n : N) : R := (sqrt 2 * (IZR (Z.of_N n) / 32767 - / 2))%R.
