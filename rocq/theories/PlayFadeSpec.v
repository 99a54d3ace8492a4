(** Two frames of a crossfade between loaded animations: C100. *)
From Coq Require Import Reals.
From Flocq Require Import IEEE754.BinarySingleNaN.
From Verif Require Import Base Num NumF32 Math Keys KeysSpec Blending Sampling Player AuthorSpec SmoothSpec.
Local Open Scope R_scope.

(** The weights a frame sets. *)
Definition settings (fr : frame) : list (layer f32) :=
  map (fun i => mk_layer [] (in_weight i) (in_joint_weights i)) (fr_layers fr).
(** The authored track behind component [k] (translation, then scale) of joint [t]. *)
Definition channel (au : authored) (k t : nat) : list (f32 * key) :=
  curve (au_times au) (nth t (if (k <? 3)%nat then au_t au else au_s au) []).
(** A layer in the two frames plays the same animation.  Unless it has no weight in both, its ratios (as
    [set_ratio] keeps them) are at most [d] apart, and the animation stores an authored one whose track for the
    component changes by at most [L] per unit of time and stays within [M]. *)
Definition near_input (t k : nat) (L M d : R) (i i' : layer_input) : Prop :=
  in_anim i = in_anim i' /\
  (0 < B2R (in_weight i) \/ 0 < B2R (in_weight i') ->
   Rabs (B2R (set_ratio (in_ratio i)) - B2R (set_ratio (in_ratio i'))) <= d /\
   exists au, authored_ok au /\ stores (in_anim i) au /\ (t < length (au_t au))%nat /\
     speed3 (channel au k t) L /\ within3 (channel au k t) M).
