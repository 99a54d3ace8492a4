(** Rigid motions in real numbers, and poses that are rigid up to small errors: C78. *)
From Coq Require Import Reals.
From Flocq Require Import IEEE754.BinarySingleNaN.
From Verif Require Import Base Num NumF32 Math KeysSpec.
Local Open Scope R_scope.

(** A motion of space: [x] goes to [turn x + move]. *)
Record motion := mk_motion { turn_of : nat -> nat -> R; move_of : nat -> R }.
Definition sum3 (f : nat -> R) : R := f 0%nat + f 1%nat + f 2%nat.
Definition stay : motion := mk_motion (fun i j => if Nat.eqb i j then 1 else 0) (fun _ => 0).
(** First [n], then [m]. *)
Definition follow (m n : motion) : motion :=
  mk_motion (fun i j => sum3 (fun k => turn_of m i k * turn_of n k j))
            (fun i => sum3 (fun k => turn_of m i k * move_of n k) + move_of m i).
(** The rotation of a quaternion of any length other than 0: [v] goes to [q v / q]. *)
Definition rotation (x y z w : R) (i j : nat) : R :=
  let n := x * x + y * y + z * z + w * w in
  match i, j with
  | 0%nat, 0%nat => 1 - 2 * (y * y + z * z) / n
  | 0%nat, 1%nat => 2 * (x * y - z * w) / n
  | 0%nat, _ => 2 * (x * z + y * w) / n
  | 1%nat, 0%nat => 2 * (x * y + z * w) / n
  | 1%nat, 1%nat => 1 - 2 * (x * x + z * z) / n
  | 1%nat, _ => 2 * (y * z - x * w) / n
  | _, 0%nat => 2 * (x * z - y * w) / n
  | _, 1%nat => 2 * (y * z + x * w) / n
  | _, _ => 1 - 2 * (x * x + y * y) / n
  end.
(** The motion a joint transform stands for, its scale apart. *)
Definition joint_motion (t : transform f32) : motion :=
  mk_motion (rotation (B2R (qx (tr_r t))) (B2R (qy (tr_r t))) (B2R (qz (tr_r t))) (B2R (qw (tr_r t))))
            (fun i => match i with 0%nat => B2R (vx (tr_t t)) | 1%nat => B2R (vy (tr_t t)) | _ => B2R (vz (tr_t t)) end).
(** Rotations: orthogonal, and not mirrored. *)
Definition det3 (q : nat -> nat -> R) : R :=
  q 0%nat 0%nat * (q 1%nat 1%nat * q 2%nat 2%nat - q 1%nat 2%nat * q 2%nat 1%nat)
  - q 0%nat 1%nat * (q 1%nat 0%nat * q 2%nat 2%nat - q 1%nat 2%nat * q 2%nat 0%nat)
  + q 0%nat 2%nat * (q 1%nat 0%nat * q 2%nat 1%nat - q 1%nat 1%nat * q 2%nat 0%nat).
Definition is_rotation (q : nat -> nat -> R) : Prop :=
  (forall i j, (i < 3)%nat -> (j < 3)%nat -> sum3 (fun k => q i k * q j k) = if Nat.eqb i j then 1 else 0) /\ det3 q = 1.

(** A joint transform that is rigid up to [e], with a bone no longer than [len]. *)
Definition near_rigid (e len : R) (t : transform f32) : Prop :=
  (is_finite (vx (tr_t t)) = true /\ is_finite (vy (tr_t t)) = true /\ is_finite (vz (tr_t t)) = true) /\
  (forall c, is_finite (qcomp (tr_r t) c) = true) /\
  (is_finite (vx (tr_s t)) = true /\ is_finite (vy (tr_s t)) = true /\ is_finite (vz (tr_s t)) = true) /\
  B2R (vx (tr_t t)) * B2R (vx (tr_t t)) + B2R (vy (tr_t t)) * B2R (vy (tr_t t)) + B2R (vz (tr_t t)) * B2R (vz (tr_t t)) <= len * len /\
  Rabs (sumsq (tr_r t) - 1) <= e /\
  Rabs (B2R (vx (tr_s t)) - 1) <= e /\ Rabs (B2R (vy (tr_s t)) - 1) <= e /\ Rabs (B2R (vz (tr_s t)) - 1) <= e.

(** Row [r], column [c] of a matrix. *)
Definition entry (m : mat4 f32) (r c : nat) : f32 := lane (lane m c) r.
(** [m] is [q] up to [a] in the rotation and [b] in the position; the bottom row is (0,0,0,1). *)
Definition is_motion (m : mat4 f32) (q : motion) (a b : R) : Prop :=
  (forall r c, (r < 4)%nat -> (c < 4)%nat -> is_finite (entry m r c) = true) /\
  (forall r c, (r < 3)%nat -> (c < 3)%nat -> Rabs (B2R (entry m r c) - turn_of q r c) <= a) /\
  (forall r, (r < 3)%nat -> Rabs (B2R (entry m r 3) - move_of q r) <= b) /\
  (forall c, (c < 3)%nat -> B2R (entry m 3 c) = 0) /\ B2R (entry m 3 3) = 1.
