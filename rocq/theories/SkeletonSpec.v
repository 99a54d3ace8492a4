(** Skeleton hierarchies and model-space matrices, independent of the model of the code. *)
From Verif Require Import Base Num Math.
Local Open Scope Z_scope.

(** [ps] lists the parent of each joint, -1 for a root. *)

(** Parents are stored before their children. *)
Definition parents_first (ps : list Z) : Prop :=
  forall i p, nth_error ps i = Some p -> -1 <= p < Z.of_nat i.

(** [below ps f i]: joint [i] is [f] or one of its descendants. *)
Inductive below (ps : list Z) (f : nat) : nat -> Prop :=
| below_self : (f < length ps)%nat -> below ps f f
| below_child i p : nth_error ps i = Some (Z.of_nat p) -> below ps f p -> below ps f i.

(** Depth-first order: the parent of the next joint is the current joint or one of its ancestors
    (or the next joint is a root). *)
Definition depth_first (ps : list Z) : Prop :=
  parents_first ps /\
  forall i p, nth_error ps (S i) = Some (Z.of_nat p) -> below ps p i.

(** [chain ps i c]: [c] is the list of joints from a root down to [i]. *)
Inductive chain (ps : list Z) : nat -> list nat -> Prop :=
| chain_root i : nth_error ps i = Some (-1) -> chain ps i [i]
| chain_child i p c : nth_error ps i = Some (Z.of_nat p) -> chain ps p c -> chain ps i (c ++ [i]).

Section Matrices.
  Context {F : Type} {NF : Num F}.

  (** The affine matrix of joint [i]'s local transform (lane [i mod 4] of element [i / 4]). *)
  Definition local_matrix (input : list (transform (V4 F))) (i : nat) : mat4 F :=
    match nth_error input (i / 4) with
    | Some t => let t := lane_tr t (i mod 4) in from_affine (tr_t t) (tr_r t) (tr_s t)
    | None => mat_identity
    end.

  (** The matrix joint [i] must have, given its parent's in [out]. *)
  Definition child_of (ps : list Z) (root : mat4 F) (out : list (mat4 F)) (i : nat) : mat4 F :=
    match nth_error ps i with
    | Some p => if p <? 0 then root else nth (Z.to_nat p) out mat_identity
    | None => root
    end.
  Definition consistent (ps : list Z) (root : mat4 F) (input : list (transform (V4 F)))
      (out : list (mat4 F)) (i : nat) : Prop :=
    nth_error out i = Some (mat_mul (child_of ps root out i) (local_matrix input i)).
End Matrices.

(** The joints LocalToModelJob must rewrite: the subtree of [from] (everything for a negative
    [from]), without [from] itself when excluded, up to [to]. *)
Definition selected (ps : list Z) (from to : Z) (excluded : bool) (i : nat) : Prop :=
  (i < length ps)%nat /\ Z.of_nat i <= to /\
  (from < 0 \/ below ps (Z.to_nat from) i /\ (excluded = true -> Z.of_nat i <> from)).
