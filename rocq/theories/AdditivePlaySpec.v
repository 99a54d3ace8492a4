(** Frames with additive layers, and the poses they must give: C86. *)
From Coq Require Import Reals.
From Flocq Require Import IEEE754.BinarySingleNaN.
From Verif Require Import Base Num NumF32 Math Keys KeysSpec Skeleton Blending BlendingSpec Sampling SamplingSpec.
From Verif Require Import SamplingProps PoseSpec Player PlayerSpec BlendF32Spec PlaybackSpec RigidPlaySpec.
Local Open Scope R_scope.

Definition additive_count (fr : frame) : nat := length (filter in_additive (fr_layers fr)).
(** An additive layer: weight between -1 and 1, joint weights up to 1, an exported animation whose
    scale keys are between 5/8 and 15/8 (a layer of weight zero may play anything). *)
Definition sound_additive (n : nat) (i : layer_input) : Prop :=
  is_finite (in_weight i) = true /\ Rabs (B2R (in_weight i)) <= 1 /\
  (B2R (in_weight i) <> 0 ->
   exported (in_anim i) /\
   (forall k c, In k (an_skeys (in_anim i)) -> 5 / 8 <= half_value (coord k c) <= 15 / 8) /\
   forall j, (j < 4 * n)%nat -> in_joint_weights i <> [] ->
     is_finite (lane (nth (j / 4) (in_joint_weights i) nzero) (j mod 4)) = true /\
     B2R (lane (nth (j / 4) (in_joint_weights i) nzero) (j mod 4)) <= 1).
(** The other layers are those of C77. *)
Definition sound_layer (n : nat) (i : layer_input) : Prop :=
  if in_additive i then sound_additive n i else sound_input n i.
Definition sound_mixed (sk : skeleton f32) (fr : frame) : Prop :=
  usable_threshold (fr_threshold fr) /\ Forall (sound_layer (num_soa_joints sk)) (fr_layers fr) /\ (additive_count fr <= 32)%nat.
(** A pose that can be drawn: finite, with unit rotations up to [e]. *)
Definition sound_within (e : R) (sk : skeleton f32) (pose : list soaf) : Prop :=
  forall j, (j < 4 * num_soa_joints sk)%nat ->
    (forall c, is_finite (linear (joint pose j) c) = true) /\
    (forall c, is_finite (qcomp (tr_r (joint pose j)) c) = true) /\
    Rabs (sumsq (tr_r (joint pose j)) - 1) <= e.
(** No scaling (C80), in additive layers of either sign too. *)
Definition unscaled_layer (len : R) (i : layer_input) : Prop :=
  if in_additive i then
    B2R (in_weight i) <> 0 ->
    (forall k, In k (an_skeys (in_anim i)) -> k = V3 15360%N 15360%N 15360%N) /\
    (forall k c, In k (an_tkeys (in_anim i)) -> Rabs (half_value (coord k c)) <= len)
  else unscaled_input len i.
