(** A frame whose inputs are sound, and the pose it must give: C77. *)
From Coq Require Import Reals.
From Flocq Require Import IEEE754.BinarySingleNaN.
From Verif Require Import Base Num NumF32 Math Keys KeysSpec Skeleton Blending BlendingSpec Sampling SamplingSpec.
From Verif Require Import SamplingProps PoseSpec Player PlayerSpec BlendF32Spec.
Local Open Scope R_scope.

(** An animation as the ozz builder exports it (C71, C72): every track ends at ratio 1, keys decode
    to finite numbers and to rotations, neighbouring rotation keys are less than half a turn apart. *)
Definition exported (a : animf) : Prop :=
  covers a = true /\ Forall key3_ok (an_tkeys a) /\ Forall key3_ok (an_skeys a) /\ Forall keyq_ok (an_rkeys a) /\
  hemisphere (4 * num_soa a) (an_r a) (an_rkeys a) key0.
(** Weights as in C74.  The ratio may be anything, NaN included; a layer of weight zero may even
    play a broken animation. *)
Definition sound_input (n : nat) (i : layer_input) : Prop :=
  in_additive i = false /\ usable_weight (in_weight i) /\
  (0 < B2R (in_weight i) ->
   exported (in_anim i) /\
   forall j, (j < 4 * n)%nat -> in_joint_weights i <> [] ->
     usable_weight (lane (nth (j / 4) (in_joint_weights i) nzero) (j mod 4))).
Definition sound_frame (sk : skeleton f32) (fr : frame) : Prop :=
  usable_threshold (fr_threshold fr) /\ Forall (sound_input (num_soa_joints sk)) (fr_layers fr).
Definition sound_rest (sk : skeleton f32) : Prop :=
  forall j, (j < 4 * num_soa_joints sk)%nat -> usable_transform (joint (sk_rest sk) j).
(** A pose that can be drawn: finite, with unit rotations (within 2^-19). *)
Definition sound_pose (sk : skeleton f32) (pose : list soaf) : Prop :=
  forall j, (j < 4 * num_soa_joints sk)%nat ->
    (forall c, is_finite (linear (joint pose j) c) = true) /\
    (forall c, is_finite (qcomp (tr_r (joint pose j)) c) = true) /\
    Rabs (sumsq (tr_r (joint pose j)) - 1) <= / 2 ^ 19.
