(** Vocabulary for the inverse-kinematics properties: placed joints, corrected chains, exact
    trigonometry.  Nothing here mentions the jobs' algorithms. *)
From Coq Require Import Reals.
From Verif Require Import Base Num NumR Math MathSpec.
Local Open Scope R_scope.

(** The image of a point and of a vector under a joint matrix. *)
Definition pt (m : mat4 R) (p : vec3 R) : vec3 R := V3 (apply_point m p 0) (apply_point m p 1) (apply_point m p 2).
Definition origin (m : mat4 R) : vec3 R := v3_of (l3 m).
Definition lin (m : mat4 R) (v : vec3 R) : vec3 R := minus3 (pt m v) (origin m).
Definition affine (m : mat4 R) : Prop := ent m 3 0 = 0 /\ ent m 3 1 = 0 /\ ent m 3 2 = 0 /\ ent m 3 3 = 1.
(** A joint placed by a translation, a rotation and a uniform positive scale. *)
Definition placed (m : mat4 R) (q : quat R) (k : R) : Prop :=
  affine m /\ unitq q /\ 0 < k /\ forall v, pt m v = plus3 (origin m) (scale3 k (rotate q v)).

(** ** Correcting one joint
    A correction rotates in the joint's own space: a point [x] of that space goes to
    [pt joint (rotate c x)] in model space.

    ** Correcting a chain start - mid - end
    [mc] rotates everything attached to the mid joint in mid space, then [sc] everything attached
    to the start joint in start space.  [p], a model-space point attached to the mid joint (the end
    joint, say), goes to [p']. *)
Definition mid_corrected (mid : mat4 R) (mc : quat R) (p p' : vec3 R) : Prop :=
  exists e, pt mid e = p /\ p' = pt mid (rotate mc e).
Definition start_corrected (start : mat4 R) (sc : quat R) (p p' : vec3 R) : Prop :=
  exists x, pt start x = p /\ p' = pt start (rotate sc x).

(** ** Distances *)
Definition dist (a b : vec3 R) : R := len3 (minus3 b a).
Definition clampR (lo hi x : R) : R := Rmax lo (Rmin hi x).

(** The distance at which the job aims when the target is at distance [d], the bones are [l1] and
    [l2] long and the softening is [s]: beyond [da = s (l1+l2)] the distance is eased so that it
    approaches [l1+l2] without reaching it. *)
Definition softened (l1 l2 s d : R) : R :=
  let da := (l1 + l2) * clampR 0 1 s in
  let ds := (l1 + l2) - da in
  if Rlt_dec da d then
    if Rlt_dec 0 d then
    if Rlt_dec 0 ds then da + ds - ds * (81 / ((d - da) / ds + 3) ^ 4) else d else d
  else d.

(** ** Exact trigonometry, in place of the crate's polynomial approximations *)
Definition exact_acos4 (v : V4 R) : V4 R := map4 acos v.
Definition exact_axis_angle (axis angle : V4 R) : option (V4 R) :=
  let h := l0 angle / 2 in
  Some (mk4 (sin h * l0 axis) (sin h * l1 axis) (sin h * l2 axis) (cos h)).
