(** What motion blending in single precision is compared with. *)
From Coq Require Import Reals.
From Flocq Require Import IEEE754.BinarySingleNaN Core.
From Verif Require Import Base Num NumF32 NumR F32Facts Math MathSpec BlendingSpec Motion MotionProps.
Local Open Scope R_scope.

(** A transform and a layer with each binary32 number replaced by the real number it stands for. *)
Definition real3 (v : vec3 f32) : vec3 R := V3 (B2R (vx v)) (B2R (vy v)) (B2R (vz v)).
Definition real4 (q : quat f32) : quat R := Q4 (B2R (qx q)) (B2R (qy q)) (B2R (qz q)) (B2R (qw q)).
Definition real_delta (t : transform f32) : transform R := TR (real3 (tr_t t)) (real4 (tr_r t)) (real3 (tr_s t)).
Definition real_mlayer (l : mlayer f32) : mlayer R := mk_mlayer (B2R (ml_weight l)) (real_delta (ml_delta l)).
Definition finite3 (v : vec3 f32) : Prop := is_finite (vx v) = true /\ is_finite (vy v) = true /\ is_finite (vz v) = true.
Definition finite4 (q : quat f32) : Prop :=
  is_finite (qx q) = true /\ is_finite (qy q) = true /\ is_finite (qz q) = true /\ is_finite (qw q) = true.

(** A layer in the range the theorems cover: its weight is zero or below (the job skips it), or lies
    between 2^-20 and 2^20 with a translation that is zero or of length between 2^-20 and 2^40 and a
    rotation that is a unit quaternion to within a hundredth. *)
Definition usable_mlayer (l : mlayer f32) : Prop :=
  nle (ml_weight l) nzero = true \/
  (is_finite (ml_weight l) = true /\ bpow radix2 (-20) <= B2R (ml_weight l) <= bpow radix2 20 /\
   finite3 (tr_t (ml_delta l)) /\
   (real3 (tr_t (ml_delta l)) = V3 0 0 0 \/ bpow radix2 (-20) <= len3 (real3 (tr_t (ml_delta l))) <= bpow radix2 40) /\
   finite4 (tr_r (ml_delta l)) /\ Rabs (norm2 (real4 (tr_r (ml_delta l))) - 1) <= / 100).

(** The weighted sum of the rotations. *)
Definition mean_rot (ls : list (mlayer R)) : quat R :=
  Q4 (wsum (fun l => qx (tr_r (ml_delta l))) ls) (wsum (fun l => qy (tr_r (ml_delta l))) ls)
     (wsum (fun l => qz (tr_r (ml_delta l))) ls) (wsum (fun l => qw (tr_r (ml_delta l))) ls).
(** The mean length of the translations, and the result of C45: that length along the mean direction. *)
Definition mean_len (ls : list (mlayer R)) : R := wsum mlen ls / total_weight ls.
Definition mean_move (ls : list (mlayer R)) : vec3 R := scale3 (mean_len ls / len3 (mean_dir ls)) (mean_dir ls).
