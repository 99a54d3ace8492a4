(** What additive layers do to a pose, joint by joint: C85. *)
From Coq Require Import Reals.
From Flocq Require Import IEEE754.BinarySingleNaN.
From Verif Require Import Base Num NumR NumF32 Math MathSpec KeysSpec Skeleton Blending BlendingSpec BlendF32Spec.
Local Open Scope R_scope.

(** The weight of an additive layer for joint [i]; a negative layer weight subtracts. *)
Definition additive_weight (l : layer R) (i : nat) : R := Rabs (ly_weight l) * mask (ly_joint_weights l) i.
(** Of q and -q, the same rotation, the one nearer to the identity. *)
Definition nearer (q : quat R) : quat R := if Rlt_dec (qw q) 0 then qscale (-1) q else q.
(** The rotation a fraction [w] of the way from the identity to [q]. *)
Definition partial_turn (w : R) (q : quat R) : quat R :=
  let s := qadd (qscale (1 - w) (Q4 0 0 0 1)) (qscale w (nearer q)) in
  qscale (/ sqrt (norm2 s)) s.
(** The factor a scale component [s] applied with weight [w] stands for. *)
Definition partial_scale (w s : R) : R := 1 + w * (s - 1).

Definition added (i : nat) (p : transform R) (l : layer R) : transform R :=
  let t := joint (ly_transform l) i in
  let w := additive_weight l i in
  if Rlt_dec 0 (ly_weight l) then
    TR (plus3 (tr_t p) (scale3 w (tr_t t)))
       (hamilton (tr_r p) (partial_turn w (tr_r t)))
       (V3 (vx (tr_s p) * partial_scale w (vx (tr_s t))) (vy (tr_s p) * partial_scale w (vy (tr_s t)))
           (vz (tr_s p) * partial_scale w (vz (tr_s t))))
  else if Rlt_dec (ly_weight l) 0 then
    TR (minus3 (tr_t p) (scale3 w (tr_t t)))
       (hamilton (tr_r p) (conj (partial_turn w (tr_r t))))
       (V3 (vx (tr_s p) / partial_scale w (vx (tr_s t))) (vy (tr_s p) / partial_scale w (vy (tr_s t)))
           (vz (tr_s p) / partial_scale w (vz (tr_s t))))
  else p.
(** The layers apply one after the other. *)
Definition with_layers (i : nat) (p : transform R) (adds : list (layer R)) : transform R := fold_left (added i) adds p.

(** ** Single precision *)
(** A layer weight up to 4 and joint weights up to 1; the transform as in C74.  A layer of weight zero
    is not looked at. *)
Definition usable_additive (i : nat) (l : layer f32) : Prop :=
  is_finite (ly_weight l) = true /\ Rabs (B2R (ly_weight l)) <= 4 /\
  (B2R (ly_weight l) <> 0 ->
   usable_transform (joint (ly_transform l) i) /\
   (ly_joint_weights l <> [] ->
    is_finite (lane (nth (i / 4) (ly_joint_weights l) nzero) (i mod 4)) = true /\
    B2R (lane (nth (i / 4) (ly_joint_weights l) nzero) (i mod 4)) <= 1)).
(** A layer that at most doubles or halves scale component [k] of joint [i]. *)
Definition moderate_scale (i k : nat) (l : layer R) : Prop :=
  / 2 <= partial_scale (additive_weight l i) (rlinear k (joint (ly_transform l) i)) <= 2.
(** The exact transform an f32 transform stands for. *)
Definition exact (t : transform f32) : transform R :=
  TR (V3 (B2R (vx (tr_t t))) (B2R (vy (tr_t t))) (B2R (vz (tr_t t))))
     (Q4 (B2R (qx (tr_r t))) (B2R (qy (tr_r t))) (B2R (qz (tr_r t))) (B2R (qw (tr_r t))))
     (V3 (B2R (vx (tr_s t))) (B2R (vy (tr_s t))) (B2R (vz (tr_s t)))).
(** Distance between the rotations as points of the unit sphere. *)
Definition qdist (a b : quat R) : R := sqrt (norm2 (qadd a (qscale (-1) b))).
