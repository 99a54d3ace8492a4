(** Animations and skeletons without scaling: C80. *)
From Coq Require Import Reals.
From Flocq Require Import IEEE754.BinarySingleNaN.
From Verif Require Import Base Num NumF32 Math Keys KeysSpec Skeleton Blending BlendingSpec Sampling PoseSpec Player.
Local Open Scope R_scope.

(** Every scale key is 1 (half 0x3c00) and no translation key is longer than [len] in any coordinate;
    this need not hold of layers that do not count. *)
Definition unscaled_input (len : R) (i : layer_input) : Prop :=
  0 < B2R (in_weight i) ->
  (forall k, In k (an_skeys (in_anim i)) -> k = V3 15360%N 15360%N 15360%N) /\
  (forall k c, In k (an_tkeys (in_anim i)) -> Rabs (half_value (coord k c)) <= len).
Definition unscaled_rest (len : R) (sk : skeleton f32) : Prop :=
  forall j, (j < 4 * num_soa_joints sk)%nat ->
    forall c, B2R (coord (tr_s (joint (sk_rest sk) j)) c) = 1 /\ Rabs (B2R (coord (tr_t (joint (sk_rest sk) j)) c)) <= len.
