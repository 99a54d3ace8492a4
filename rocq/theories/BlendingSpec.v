(** Blending, as a user thinks of it: joints, weights, weighted sums of real numbers. *)
From Coq Require Import Reals.
From Verif Require Import Base Num NumR Math MathSpec Skeleton Blending.
Local Open Scope R_scope.

(** Joint [i]'s transform in a SoA buffer: lane [i mod 4] of element [i / 4]. *)
Definition joint {F} {NF : Num F} (l : list (transform (V4 F))) (i : nat) : transform F :=
  lane_tr (nth (i / 4) l tr_identity) (i mod 4).
(** Joint [i]'s weight in a per-joint weight buffer; 1 when the layer has no such buffer. *)
Definition mask (ws : list (V4 R)) (i : nat) : R :=
  match ws with [] => 1 | _ => Rmax 0 (lane (nth (i / 4) ws nzero) (i mod 4)) end.
(** The weight of a layer for joint [i]. *)
Definition joint_weight (l : layer R) (i : nat) : R := Rmax 0 (ly_weight l) * mask (ly_joint_weights l) i.

Definition Rsum {A} (f : A -> R) (l : list A) : R := fold_right (fun x a => f x + a) 0 l.
Definition total (ls : list (layer R)) (i : nat) : R := Rsum (fun l => joint_weight l i) ls.

(** The six real components of translation and scale. *)
Inductive linear_component : (transform R -> R) -> Prop :=
| comp_tx : linear_component (fun t => vx (tr_t t))
| comp_ty : linear_component (fun t => vy (tr_t t))
| comp_tz : linear_component (fun t => vz (tr_t t))
| comp_sx : linear_component (fun t => vx (tr_s t))
| comp_sy : linear_component (fun t => vy (tr_s t))
| comp_sz : linear_component (fun t => vz (tr_s t)).

(** The weighted mean of the layers, completed with the rest pose up to the threshold. *)
Definition mean (thr : R) (ls : list (layer R)) (rest : list (transform (V4 R))) (i : nat) (c : transform R -> R) : R :=
  (Rsum (fun l => joint_weight l i * c (joint (ly_transform l) i)) ls
   + Rmax 0 (thr - total ls i) * c (joint rest i)) / Rmax thr (total ls i).

(** A weighted sum of quaternions in which each new term is negated when it points away from the
    sum so far (q and -q are the same rotation). *)
Definition qadd (a b : quat R) : quat R := Q4 (qx a + qx b) (qy a + qy b) (qz a + qz b) (qw a + qw b).
Definition qscale (k : R) (a : quat R) : quat R := Q4 (k * qx a) (k * qy a) (k * qz a) (k * qw a).
Definition qdot (a b : quat R) : R := qx a * qx b + qy a * qy b + qz a * qz b + qw a * qw b.
Inductive aligned_sum : list (R * quat R) -> quat R -> Prop :=
| al_nil : aligned_sum [] (Q4 0 0 0 0)
| al_same l s w q : aligned_sum l s -> 0 <= qdot s q -> aligned_sum (l ++ [(w, q)]) (qadd s (qscale w q))
| al_flip l s w q : aligned_sum l s -> qdot s q < 0 -> aligned_sum (l ++ [(w, q)]) (qadd s (qscale (- w) q)).

(** The rotations entering the blend of joint [i], with their weights. *)
Definition terms (thr : R) (ls : list (layer R)) (rest : list (transform (V4 R))) (i : nat) : list (R * quat R) :=
  map (fun l => (joint_weight l i, tr_r (joint (ly_transform l) i))) (filter (fun l => Rltb 0 (ly_weight l)) ls)
  ++ [(Rmax 0 (thr - total ls i), tr_r (joint rest i))].

(** Buffers the job was given, minus what must not matter. *)
Definition is_nonzero (q : quat R) : Prop := norm2 q <> 0.

(** A skeleton as built by the loaders: one SoA rest pose per four joints. *)
Definition rest_sized {F} (sk : skeleton F) : Prop := length (sk_rest sk) = num_soa_joints sk.
