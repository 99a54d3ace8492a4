(** Poses with scales, in real numbers: C93.  Motions of space, [follow], [entry] and [is_motion] are those of C78 (RigidSpec.v);
    here a motion may stretch space as well. *)
From Coq Require Import Reals List.
From Flocq Require Import IEEE754.BinarySingleNaN.
From Verif Require Import Base Num NumF32 Math Keys KeysSpec Skeleton Blending BlendingSpec Sampling PoseSpec Player RigidSpec.
Import ListNotations.
Local Open Scope R_scope.

(** A component of a vector. *)
Definition at3 (v : vec3 f32) (i : nat) : R := match i with 0%nat => B2R (vx v) | 1%nat => B2R (vy v) | _ => B2R (vz v) end.
(** What a joint does to a point of its space: scale it along the axes, turn it, move it. *)
Definition joint_map (t : transform f32) : motion :=
  mk_motion (fun i j => rotation (B2R (qx (tr_r t))) (B2R (qy (tr_r t))) (B2R (qz (tr_r t))) (B2R (qw (tr_r t))) i j * at3 (tr_s t) j)
            (at3 (tr_t t)).
(** A finite joint transform whose rotation is a unit quaternion up to [e] and whose scales are at most [size]. *)
Definition sound_joint (e size : R) (t : transform f32) : Prop :=
  (is_finite (vx (tr_t t)) = true /\ is_finite (vy (tr_t t)) = true /\ is_finite (vz (tr_t t)) = true) /\
  (forall c, is_finite (qcomp (tr_r t) c) = true) /\
  (is_finite (vx (tr_s t)) = true /\ is_finite (vy (tr_s t)) = true /\ is_finite (vz (tr_s t)) = true) /\
  Rabs (sumsq (tr_r t) - 1) <= e /\ (forall i, Rabs (at3 (tr_s t) i) <= size).
(** The length of the bone, in the parent's space. *)
Definition bone (t : transform f32) : R := sqrt (at3 (tr_t t) 0 * at3 (tr_t t) 0 + at3 (tr_t t) 1 * at3 (tr_t t) 1 + at3 (tr_t t) 2 * at3 (tr_t t) 2).
(** Down a chain of joints, each with a bound on its scales, below something of size [S]: no joint is larger or smaller than single
    precision can hold in model space, and no bone is longer than [len] there. *)
Fixpoint sound_chain (e len S : R) (l : list (transform f32 * R)) : Prop :=
  match l with
  | [] => True
  | (t, size) :: l => sound_joint e size t /\ S * bone t <= len /\ / 2 ^ 40 <= size <= 2 ^ 40 /\ / 2 ^ 60 <= S * size <= 2 ^ 60 /\ sound_chain e len (S * size) l
  end.
(** The size of the last joint of the chain in model space. *)
Definition chain_size (S : R) (l : list (transform f32 * R)) : R := fold_left (fun s p => s * snd p) l S.
(** The motion does not stretch anything by more than [S]: its rows are no longer than that. *)
Definition rows_within (S : R) (q : motion) : Prop := forall r, (r < 3)%nat -> sum3 (fun k => turn_of q r k * turn_of q r k) <= S * S.
(** No scale key is larger than [size] and no translation key than [len], in any coordinate; this need not hold of layers that do
    not count.  The same of a skeleton's rest pose. *)
Definition sized_input (size len : R) (i : layer_input) : Prop :=
  0 < B2R (in_weight i) ->
  (forall k c, In k (an_skeys (in_anim i)) -> Rabs (half_value (coord k c)) <= size) /\
  (forall k c, In k (an_tkeys (in_anim i)) -> Rabs (half_value (coord k c)) <= len).
Definition sized_rest (size len : R) (sk : skeleton f32) : Prop :=
  forall j, (j < 4 * num_soa_joints sk)%nat ->
    forall c, Rabs (B2R (coord (tr_s (joint (sk_rest sk) j)) c)) <= size /\ Rabs (B2R (coord (tr_t (joint (sk_rest sk) j)) c)) <= len.
