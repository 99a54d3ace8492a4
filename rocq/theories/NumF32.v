(** IEEE-754 binary32 instance of [Num], on Flocq's [binary_float 24 128] (one NaN). *)
From Coq Require Import Reals.
From Flocq Require Import IEEE754.BinarySingleNaN Core.
From Verif Require Import Base Num.
Local Open Scope Z_scope.

Definition f32 := binary_float 24 128.

#[global] Instance prec24 : Prec_gt_0 24 := eq_refl.
#[global] Instance prec24_emax : Prec_lt_emax 24 128 := eq_refl.

Definition f32_lit (m e : Z) : f32 := binary_normalize 24 128 _ _ mode_NE m e false.

(** Rust [f32::min]/[f32::max] (IEEE minNum/maxNum): a NaN operand is ignored.  For operands
    comparing equal Rust may return either; they differ only for +0/-0; the model returns the
    first. *)
Definition f32_min (x y : f32) : f32 :=
  if is_nan x then y else if is_nan y then x else if Bleb x y then x else y.
Definition f32_max (x y : f32) : f32 :=
  if is_nan x then y else if is_nan y then x else if Bleb y x then x else y.

(** Rust [x as i32]: truncation toward zero, saturating; NaN gives 0. *)
Definition f32_to_i32 (x : f32) : Z :=
  match x with
  | B754_nan => 0
  | B754_infinity s => if s then -2147483648 else 2147483647
  | _ => Z.max (-2147483648) (Z.min 2147483647 (Btrunc x))
  end.

#[global] Instance f32arith : Arith f32 := {
  nadd := Bplus mode_NE; nsub := Bminus mode_NE; nmul := Bmult mode_NE; ndiv := Bdiv mode_NE;
  nneg := @Bopp 24 128; nabs := @Babs 24 128; nsqrt := Bsqrt mode_NE;
  ntrunc := Bnearbyint mode_ZR;
  nmin := f32_min; nmax := f32_max; nlit := f32_lit
}.

#[global] Instance f32num : Num f32 := {
  nlt := @Bltb 24 128; nle := @Bleb 24 128; neq := @Beqb 24 128; nto_i32 := f32_to_i32
}.

(** * Bit patterns *)

(** [f32::from_bits] (all NaN patterns are identified). *)
Definition f32_of_SF (x : SpecFloat.spec_float) : f32 :=
  (if SpecFloat.valid_binary 24 128 x as b
      return (SpecFloat.valid_binary 24 128 x = b -> f32)
   then fun H => SF2B x H else fun _ => B754_nan) eq_refl.

Definition f32_of_bits (b : N) : f32 :=
  let s := N.testbit b 31 in
  let e := Z.of_N (N.land (N.shiftr b 23) 255) in
  let m := N.land b 8388607 in
  if e =? 255 then (if (m =? 0)%N then B754_infinity s else B754_nan)
  else if e =? 0 then
    match m with N0 => B754_zero s | Npos p => f32_of_SF (SpecFloat.S754_finite s p (-149)) end
  else match (m + 8388608)%N with
       | N0 => B754_nan
       | Npos p => f32_of_SF (SpecFloat.S754_finite s p (e - 150))
       end.

(** [f32::to_bits], with the canonical quiet NaN 0x7FC00000 for the single NaN. *)
Definition f32_to_bits (x : f32) : N :=
  match x with
  | B754_zero s => if s then 2147483648%N else 0%N
  | B754_infinity s => ((if s then 2147483648 else 0) + 2139095040)%N
  | B754_nan => 2143289344%N
  | B754_finite s m e _ =>
      ((if s then 2147483648 else 0) +
       (if (N.pos m <? 8388608)%N then N.pos m
        else Z.to_N (e + 150) * 8388608 + (N.pos m - 8388608)))%N
  end.
