(** Textbook vocabulary for the math properties: real 4x4 matrices, quaternions, rotations.
    Nothing here mentions the crate's algorithms; only its data types (columns of rows, xyzw). *)
From Coq Require Import Reals.
From Verif Require Import Base Num Math.
Local Open Scope R_scope.

(** Row [i], column [j]. *)
Definition ent {A} (m : mat4 A) (i j : nat) : A := lane (lane m j) i.

Definition sum4 (f : nat -> R) : R := f 0%nat + f 1%nat + f 2%nat + f 3%nat.
Definition delta (i j : nat) : R := if Nat.eqb i j then 1 else 0.

(** [c] is the matrix product [a b]. *)
Definition is_product (a b c : mat4 R) : Prop :=
  forall i j, (i < 4)%nat -> (j < 4)%nat -> ent c i j = sum4 (fun k => ent a i k * ent b k j).
(** [b] is a two-sided inverse of [a]. *)
Definition is_inverse (a b : mat4 R) : Prop :=
  forall i j, (i < 4)%nat -> (j < 4)%nat ->
    sum4 (fun k => ent a i k * ent b k j) = delta i j /\
    sum4 (fun k => ent b i k * ent a k j) = delta i j.

(** Determinant by Laplace expansion along the first row. *)
Definition skip (j k : nat) : nat := if Nat.ltb k j then k else S k.
Definition det2 (m : nat -> nat -> R) : R := m 0%nat 0%nat * m 1%nat 1%nat - m 0%nat 1%nat * m 1%nat 0%nat.
Definition det3 (m : nat -> nat -> R) : R :=
  m 0%nat 0%nat * det2 (fun i j => m (S i) (skip 0 j))
  - m 0%nat 1%nat * det2 (fun i j => m (S i) (skip 1 j))
  + m 0%nat 2%nat * det2 (fun i j => m (S i) (skip 2 j)).
Definition det4 (m : mat4 R) : R :=
  ent m 0 0 * det3 (fun i j => ent m (S i) (skip 0 j))
  - ent m 0 1 * det3 (fun i j => ent m (S i) (skip 1 j))
  + ent m 0 2 * det3 (fun i j => ent m (S i) (skip 2 j))
  - ent m 0 3 * det3 (fun i j => ent m (S i) (skip 3 j)).

(** ** Quaternions x i + y j + z k + w *)
(** Hamilton's product: scalar and vector parts. *)
Definition dot3 (a b : vec3 R) : R := vx a * vx b + vy a * vy b + vz a * vz b.
Definition cross3 (a b : vec3 R) : vec3 R :=
  V3 (vy a * vz b - vz a * vy b) (vz a * vx b - vx a * vz b) (vx a * vy b - vy a * vx b).
Definition hvec (q : quat R) : vec3 R := V3 (qx q) (qy q) (qz q).
(** (v,s)(v',s') = (s v' + s' v + v x v', s s' - v.v') *)
Definition hamilton (a b : quat R) : quat R :=
  let v := hvec a in let u := hvec b in let c := cross3 v u in
  Q4 (qw a * vx u + qw b * vx v + vx c)
     (qw a * vy u + qw b * vy v + vy c)
     (qw a * vz u + qw b * vz v + vz c)
     (qw a * qw b - dot3 v u).
Definition conj (q : quat R) : quat R := Q4 (- qx q) (- qy q) (- qz q) (qw q).
Definition norm2 (q : quat R) : R := qx q * qx q + qy q * qy q + qz q * qz q + qw q * qw q.
Definition unitq (q : quat R) : Prop := norm2 q = 1.
Definition pure (v : vec3 R) : quat R := Q4 (vx v) (vy v) (vz v) 0.
(** q v q^-1 for a unit quaternion. *)
Definition rotate (q : quat R) (v : vec3 R) : vec3 R := hvec (hamilton (hamilton q (pure v)) (conj q)).

Definition scale3 (k : R) (v : vec3 R) : vec3 R := V3 (k * vx v) (k * vy v) (k * vz v).
Definition neg3 (v : vec3 R) : vec3 R := scale3 (-1) v.
Definition len3 (v : vec3 R) : R := sqrt (dot3 v v).
Definition hadamard (s p : vec3 R) : vec3 R := V3 (vx s * vx p) (vy s * vy p) (vz s * vz p).
Definition plus3 (a b : vec3 R) : vec3 R := V3 (vx a + vx b) (vy a + vy b) (vz a + vz b).
Definition minus3 (a b : vec3 R) : vec3 R := V3 (vx a - vx b) (vy a - vy b) (vz a - vz b).

(** The image of the point [p] under the matrix [m] in homogeneous coordinates. *)
Definition apply_point (m : mat4 R) (p : vec3 R) (i : nat) : R :=
  ent m i 0 * vx p + ent m i 1 * vy p + ent m i 2 * vz p + ent m i 3.

(** f32x4 registers holding a 3-vector (the fourth lane is ignored) and a quaternion. *)
Definition v3_of (v : V4 R) : vec3 R := V3 (l0 v) (l1 v) (l2 v).
Definition q_of (v : V4 R) : quat R := Q4 (l0 v) (l1 v) (l2 v) (l3 v).
