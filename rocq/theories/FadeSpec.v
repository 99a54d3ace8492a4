(** How far a blended pose may move when weights and layers change: C99. *)
From Coq Require Import Reals.
From Flocq Require Import IEEE754.BinarySingleNaN.
From Verif Require Import Base Num NumR NumF32 Math Blending BlendingSpec BlendF32Spec.
Local Open Scope R_scope.

(** By how much the weights of joint [i] change, summed over the layers. *)
Definition weight_change (i : nat) (ls ls' : list (layer f32)) : R :=
  Rsum (fun p => Rabs (joint_weight (real_layer (fst p)) i - joint_weight (real_layer (snd p)) i)) (combine ls ls').
(** Component [k] of joint [i] (of translation or scale) in a layer before and after: unless the layer has no
    weight before or after, at most [M] in absolute value, and moved by at most [d]. *)
Definition near_layer (i k : nat) (M d : R) (l l' : layer f32) : Prop :=
  let x := B2R (linear (joint (ly_transform l) i) k) in let x' := B2R (linear (joint (ly_transform l') i) k) in
  0 < B2R (ly_weight l) \/ 0 < B2R (ly_weight l') -> Rabs x <= M /\ Rabs x' <= M /\ Rabs (x - x') <= d.
