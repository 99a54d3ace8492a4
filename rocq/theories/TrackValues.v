(** The interpolations of the vector and rotation tracks (track.rs 45-107): [Vec2::lerp], [Vec3::lerp],
    [Vec4::lerp] and [Quat::lerp] of glam.

    glam's source is not in /repo.  Its versions interpolate as [a + (b - a) * t] or as
    [a * (1 - t) + b * t]; its rotations turn the second one round when the dot product is below zero,
    or when its sign bit is set (for -0, but not for 0), and normalise the result, by a division or by a
    reciprocal, with the dot products added in one of the orders of MotionGlam.v.  All of these are
    modelled; the theorems hold for each.  Both answers at a zero dot product are modelled, so a test
    of the sign bit is covered without modelling the sign of zero. *)
From Verif Require Import Base Num Math Motion MotionGlam Tracks.
Local Open Scope num_scope.

Inductive lerp_form := Delta | Weighted.

Section Values.
  Context {F : Type} {NF : Num F}.
  (** track.rs 51, 68, 85, 102, [lerp] of glam.  One component. *)
  Definition lerp1 (m : lerp_form) (a b t : F) : F :=
    match m with Delta => a + (b - a) * t | Weighted => a * (none_ - t) + b * t end.
  (** track.rs 45-58 Vec2, 60-73 Vec3, 75-88 Vec4: a vector is the list of its components. *)
  Fixpoint lerp_vec (m : lerp_form) (a b : list F) (t : F) : list F :=
    match a, b with x :: a, y :: b => lerp1 m x y t :: lerp_vec m a b t | _, _ => [] end.
  (** track.rs 90-103 Quat.  [z]: turned round at zero as well. *)
  Definition turned (z : bool) (d : F) : bool := if z then nle d nzero else nlt d nzero.
  Definition lerp_quat (m : lerp_form) (o : order) (z div : bool) (a b : quat F) (t : F) : quat F :=
    let s := turned z (g_dot o a b) in
    g_normalize o div (Q4 (lerp1 m (qx a) (flip s (qx b)) t) (lerp1 m (qy a) (flip s (qy b)) t)
                          (lerp1 m (qz a) (flip s (qz b)) t) (lerp1 m (qw a) (flip s (qw b)) t)).
  (** track_sampling_job.rs 116, glam: [Vec2::default()], [Vec3::default()], [Vec4::default()]: zeroes; [Quat::default()]: the identity. *)
  Definition vec_default (n : nat) : list F := repeat nzero n.
End Values.
