(** The public structure-of-arrays types of math.rs as a user handles them: building, reading and writing one of the four
    values, and the constants.  The operators are those of Math.v at [V4 F]. *)
From Verif Require Import Base Num NumF32 Math.
From Flocq Require Import IEEE754.BinarySingleNaN.
Local Open Scope nat_scope.

Section Soa.
  Context {A : Type}.
  (** math.rs 91-94 [SoaVec3::vec3], 290-293 [SoaQuat::quat], 537-544 [SoaTransform::transform]: indexing a vector of four
      panics from 4 on *)
  Definition soa_vec3 (v : vec3 (V4 A)) (i : nat) : res (vec3 A) := if i <? 4 then Ok (lane_v3 v i) else Panic.
  Definition soa_quat (q : quat (V4 A)) (i : nat) : res (quat A) := if i <? 4 then Ok (lane_q q i) else Panic.
  Definition soa_transform (t : transform (V4 A)) (i : nat) : res (transform A) :=
    let* t' := soa_vec3 (tr_t t) i in let* r := soa_quat (tr_r t) i in let* s := soa_vec3 (tr_s t) i in Ok (TR t' r s).
  (** math.rs 97-101 [SoaVec3::set_vec3], 296-301 [SoaQuat::set_quat], 547-551 [SoaTransform::set_transform] *)
  Definition soa_set_vec3 (v : vec3 (V4 A)) (i : nat) (x : vec3 A) : res (vec3 (V4 A)) := if i <? 4 then Ok (set_v3 v i x) else Panic.
  Definition soa_set_quat (q : quat (V4 A)) (i : nat) (x : quat A) : res (quat (V4 A)) := if i <? 4 then Ok (set_q q i x) else Panic.
  Definition soa_set_transform (t : transform (V4 A)) (i : nat) (x : transform A) : res (transform (V4 A)) :=
    let* t' := soa_set_vec3 (tr_t t) i (tr_t x) in let* r := soa_set_quat (tr_r t) i (tr_r x) in
    let* s := soa_set_vec3 (tr_s t) i (tr_s x) in Ok (TR t' r s).
  (** What a user does to a [SoaTransform] variable: write one value (547-551), or assign what [splat_transform] returns
      (526-535). *)
  Inductive soa_op := SetOne (i : nat) (x : transform A) | SplatAll (x : transform A).
  Definition soa_apply (t : transform (V4 A)) (o : soa_op) : res (transform (V4 A)) :=
    match o with SetOne i x => soa_set_transform t i x | SplatAll x => Ok (splat_tr x) end.
  Fixpoint soa_exec (t : transform (V4 A)) (ops : list soa_op) : res (transform (V4 A)) :=
    match ops with [] => Ok t | o :: ops => let* t' := soa_apply t o in soa_exec t' ops end.
End Soa.

(** math.rs 62-67: [X], [Y], [Z], [NEG_X], [NEG_Y], [NEG_Z] from glam's constants *)
Section Axes.
  Context {F : Type} {NF : Num F}.
  Definition SOA_X : vec3 (V4 F) := splat_v3 (V3 none_ nzero nzero).
  Definition SOA_Y : vec3 (V4 F) := splat_v3 (V3 nzero none_ nzero).
  Definition SOA_Z : vec3 (V4 F) := splat_v3 (V3 nzero nzero none_).
  Definition SOA_NEG_X : vec3 (V4 F) := splat_v3 (V3 nmone nzero nzero).
  Definition SOA_NEG_Y : vec3 (V4 F) := splat_v3 (V3 nzero nmone nzero).
  Definition SOA_NEG_Z : vec3 (V4 F) := splat_v3 (V3 nzero nzero nmone).
  (** math.rs 77-81 [SoaVec3::splat], 54-56 [ZERO], [ONE], [NEG_ONE] *)
  Definition soa_splat (f : F) : vec3 (V4 F) := V3 (splat f) (splat f) (splat f).
  Definition SOA_ZERO : vec3 (V4 F) := soa_splat nzero.
  Definition SOA_ONE : vec3 (V4 F) := soa_splat none_.
  Definition SOA_NEG_ONE : vec3 (V4 F) := soa_splat nmone.
  (** math.rs 260 [SoaQuat::IDENTITY], 512 [SoaTransform::IDENTITY] *)
  Definition SOA_Q_IDENTITY : quat (V4 F) := splat_q (Q4 nzero nzero nzero none_).
  Definition SOA_T_IDENTITY : transform (V4 F) := TR SOA_ZERO SOA_Q_IDENTITY SOA_ONE.
End Axes.
