(** Specification for C94: what every platform guarantees about [min] and [max], and the inputs
    that could tell two platforms apart. *)
From Coq Require Import ZArith.
From Flocq Require Import IEEE754.BinarySingleNaN.
From Verif Require Import Base Num NumF32 Math Keys Skeleton Blending Sampling Ik Player Platform.

(** Rust's documentation of [f32::min]: a NaN argument is ignored, otherwise the smaller of the two;
    if they compare equal, either may be returned. *)
Definition min_ok (mn : f32 -> f32 -> f32) : Prop :=
  forall x y,
    (is_nan x = true -> mn x y = y) /\ (is_nan y = true -> mn x y = x) /\
    (Bltb x y = true -> mn x y = x) /\ (Bltb y x = true -> mn x y = y) /\
    (Beqb x y = true -> mn x y = x \/ mn x y = y).
Definition max_ok (mx : f32 -> f32 -> f32) : Prop :=
  forall x y,
    (is_nan x = true -> mx x y = y) /\ (is_nan y = true -> mx x y = x) /\
    (Bltb x y = true -> mx x y = y) /\ (Bltb y x = true -> mx x y = x) /\
    (Beqb x y = true -> mx x y = x \/ mx x y = y).
Definition platform_ok (P : platform) : Prop :=
  min_ok (p_min P) /\ max_ok (p_max P) /\ forall j, (p_outside P j < 256)%N.

(** The one number whose [max] with zero depends on the platform. *)
Definition minus_zero : f32 := B754_zero true.
Definition no_minus_zero (v : V4 f32) : Prop :=
  l0 v <> minus_zero /\ l1 v <> minus_zero /\ l2 v <> minus_zero /\ l3 v <> minus_zero.

(** Buffers of an animation hold bytes. *)
Definition byte_buffers (a : animf) : Prop :=
  Forall (fun b => (b < 256)%N) (k_ientries (an_t a)) /\
  Forall (fun b => (b < 256)%N) (k_ientries (an_r a)) /\
  Forall (fun b => (b < 256)%N) (k_ientries (an_s a)).

(** No joint weight of a layer is -0.0. *)
Definition plain_layer (l : layer f32) : Prop := Forall no_minus_zero (ly_joint_weights l).
Definition plain_job (j : bjob f32) : Prop :=
  Forall plain_layer (bj_layers j) /\ Forall plain_layer (bj_additive j).
(** Nothing the user sets for a frame is -0.0 where it would matter. *)
Definition plain_input (i : layer_input) : Prop :=
  byte_buffers (in_anim i) /\ in_ratio i <> minus_zero /\ Forall no_minus_zero (in_joint_weights i).
Definition plain_frame (fr : frame) : Prop := Forall plain_input (fr_layers fr).
