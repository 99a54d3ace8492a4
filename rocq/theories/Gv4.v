(** Model of the group-varint decoder of src/sampling_job.rs (1390-1442). *)
From Verif Require Import Base.
Local Open Scope N_scope.

(** The decoder is handed a slice; [outside i] is whatever byte lies [i] bytes after its end in
    memory.  A load also reports how many of its bytes lay outside the slice. *)
Definition byte_at (outside : nat -> N) (input : list N) (i : nat) : N :=
  match nth_error input i with Some b => b | None => outside (i - length input)%nat end.

(** sampling_job.rs 1396-1410 [load]: four unchecked byte reads. *)
Definition load (outside : nat -> N) (input : list N) : N :=
  let i0 := byte_at outside input 0 in
  let i1 := N.shiftl (byte_at outside input 1) 8 in
  let i2 := N.shiftl (byte_at outside input 2) 16 in
  let i3 := N.shiftl (byte_at outside input 3) 24 in
  N.lor (N.lor (N.lor i0 i1) i2) i3.
(** Number of bytes of that load that lie past the end of the slice. *)
Definition load_outside (input : list N) : nat := (4 - length input)%nat.

(** 1415 MASK *)
Definition MASK (k : nat) : N :=
  match k with 0%nat => 255 | 1%nat => 65535 | 2%nat => 16777215 | _ => 4294967295 end.

(** [&in_buf[k..]]: panics when [k > len]. *)
Definition slice_from {A} (l : list A) (k : nat) : res (list A) :=
  if (length l <? k)%nat then Panic else Ok (skipn k l).

(** 1390-1428 [decode_gv4].  [out_len] is the length of the output chunk.  The result is the four
    values, the rest of the buffer, and the number of out-of-slice bytes touched (largest of the
    four loads). *)
Definition decode_gv4 (outside : nat -> N) (buffer : list N) (out_len : nat)
  : res (list N * list N * nat) :=
  let* _ := assert_ (5 <=? length buffer)%nat in
  let* _ := assert_ (out_len =? 4)%nat in
  let* prefix := get buffer 0 in
  let* in0 := slice_from buffer 1 in
  let k0 := N.to_nat (N.land prefix 3) in
  let o0 := N.land (load outside in0) (MASK k0) in
  let* in1 := slice_from in0 (k0 + 1) in
  let k1 := N.to_nat (N.land (N.shiftr prefix 2) 3) in
  let o1 := N.land (load outside in1) (MASK k1) in
  let* in2 := slice_from in1 (k1 + 1) in
  let k2 := N.to_nat (N.land (N.shiftr prefix 4) 3) in
  let o2 := N.land (load outside in2) (MASK k2) in
  let* in3 := slice_from in2 (k2 + 1) in
  let k3 := N.to_nat (N.shiftr prefix 6) in
  let o3 := N.land (load outside in3) (MASK k3) in
  let* in4 := slice_from in3 (k3 + 1) in
  Ok ([o0; o1; o2; o3], in4,
      Nat.max (Nat.max (load_outside in0) (load_outside in1))
              (Nat.max (load_outside in2) (load_outside in3))).

(** 1430-1442 [decode_gv4_stream]; [groups] is the number of chunks of the output. *)
Fixpoint decode_groups (outside : nat -> N) (buffer : list N) (groups : nat)
  : res (list N * list N * nat) :=
  match groups with
  | O => Ok ([], buffer, 0%nat)
  | S g =>
      let* (vs, rest, oob) := decode_gv4 outside buffer 4 in
      let* (ws, rest', oob') := decode_groups outside rest g in
      Ok (vs ++ ws, rest', Nat.max oob oob')
  end.
Definition decode_gv4_stream (outside : nat -> N) (buffer : list N) (len : nat)
  : res (list N * list N * nat) :=
  let* _ := assert_ (Nat.modulo len 4 =? 0)%nat in
  let* _ := assert_ (len + Nat.div len 4 <=? length buffer)%nat in
  decode_groups outside buffer (Nat.div len 4).
