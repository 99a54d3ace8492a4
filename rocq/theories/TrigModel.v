(** The public scalar trigonometric functions of math.rs 1165-1238: they splat their argument and
    keep the first lane.  [None] stands for undefined behaviour, see [sin_cos_lane]. *)
From Verif Require Import Base Num Math.

Section Trig.
  Context {F : Type} {NF : Num F}.
  (** math.rs 1165-1169 *)
  Definition f32_sin_cos (x : F) : option (F * F) :=
    match fx4_sin_cos (splat x) with Some (s, c) => Some (lane s 0, lane c 0) | None => None end.
  (** math.rs 1171-1175 *)
  Definition f32_sin (x : F) : option F := match fx4_sin_cos (splat x) with Some (s, _) => Some (lane s 0) | None => None end.
  (** math.rs 1177-1181 *)
  Definition f32_cos (x : F) : option F := match fx4_sin_cos (splat x) with Some (_, c) => Some (lane c 0) | None => None end.
  (** math.rs 1230-1233 *)
  Definition f32_asin (x : F) : F := lane (fx4_asin (splat x)) 0.
  (** math.rs 1235-1238 *)
  Definition f32_acos (x : F) : F := lane (fx4_acos (splat x)) 0.
End Trig.
