(** The GV4 format, as an encoder: groups of four values; a prefix byte holding the four byte
    counts minus one, two bits each, lowest value first; then each value on that many bytes, least
    significant byte first.  Independent of the model. *)
From Verif Require Import Base.
Local Open Scope N_scope.

(** [v] on [w] bytes, little endian. *)
Fixpoint le_bytes (w : nat) (v : N) : list N :=
  match w with O => [] | S w' => (v mod 256) :: le_bytes w' (v / 256) end.

(** A value with the number of bytes chosen for it, 1 to 4. *)
Definition fits (x : nat * N) : Prop :=
  (1 <= fst x <= 4)%nat /\ snd x < 256 ^ N.of_nat (fst x).

(** Encode a list of (width, value), four at a time. *)
Fixpoint gv4 (l : list (nat * N)) : list N :=
  match l with
  | (w0, v0) :: (w1, v1) :: (w2, v2) :: (w3, v3) :: t =>
      (N.of_nat (w0 - 1) + 4 * N.of_nat (w1 - 1) + 16 * N.of_nat (w2 - 1)
         + 64 * N.of_nat (w3 - 1))
      :: le_bytes w0 v0 ++ le_bytes w1 v1 ++ le_bytes w2 v2 ++ le_bytes w3 v3 ++ gv4 t
  | _ => []
  end.

(** The usual choice of width: the least number of bytes that holds the value. *)
Definition min_width (v : N) : nat :=
  if v <? 256 then 1%nat else if v <? 65536 then 2%nat else if v <? 16777216 then 3%nat else 4%nat.
Definition gv4_min (l : list N) : list N := gv4 (map (fun v => (min_width v, v)) l).

(** A byte string. *)
Definition bytes (l : list N) : Prop := Forall (fun b => b < 256) l.
