(** C06-C08: the group-varint decoder. *)
From Verif Require Import Base Gv4 Gv4Spec Gv4Proofs.
Local Open Scope N_scope.

(** C06.  For every list of (width, value) pairs (each width 1..4 bytes, each value fitting its
    width), any length that is a multiple of 4, any bytes after it: decoding the encoded stream
    gives the values and leaves exactly the bytes after it. *)
Theorem C06_gv4_round_trip :
  forall (outside : nat -> N) (l : list (nat * N)) (t : list N),
    Nat.modulo (length l) 4 = 0%nat -> Forall fits l -> bytes t -> (forall j, outside j < 256) ->
    exists k, decode_gv4_stream outside (gv4 l ++ t) (length l) = Ok (map snd l, t, k).
Proof.
  exact (fun o l t Hm Hl Ht Ho =>
    match decode_stream_encoded o l t Hm Hl Ht Ho with
    | ex_intro _ k (conj E _) => ex_intro _ k E end).
Qed.
Print Assumptions C06_gv4_round_trip.

(** C06, with the least number of bytes for each u32 value. *)
Theorem C06_gv4_round_trip_u32 :
  forall (outside : nat -> N) (l : list N) (t : list N),
    Nat.modulo (length l) 4 = 0%nat -> Forall (fun v => v < 4294967296) l -> bytes t ->
    (forall j, outside j < 256) ->
    exists k, decode_gv4_stream outside (gv4_min l ++ t) (length l) = Ok (l, t, k).
Proof. exact decode_stream_min. Qed.
Print Assumptions C06_gv4_round_trip_u32.

Example C06_example :
  decode_gv4_stream (fun _ => 9) (gv4_min [1; 70000; 256; 4294967295; 0; 0; 0; 0] ++ [7]) 8
  = Ok ([1; 70000; 256; 4294967295; 0; 0; 0; 0], [7], 2%nat) /\
  decode_gv4_stream (fun _ => 9) (gv4 [(4%nat, 1); (3%nat, 70000); (2%nat, 256); (1%nat, 255)]) 4
  = Ok ([1; 70000; 256; 255], [], 3%nat).
Proof. split; vm_compute; reflexivity. Qed.

(** C07.  Whatever lies in memory after the buffer, the result of decoding (values, rest,
    panic) is the same. *)
Theorem C07_gv4_ignores_outside :
  forall (outside outside' : nat -> N) (len : nat) (buffer : list N),
    bytes buffer -> (forall j, outside j < 256) -> (forall j, outside' j < 256) ->
    decode_gv4_stream outside buffer len = decode_gv4_stream outside' buffer len.
Proof. exact decode_gv4_stream_indep. Qed.
Print Assumptions C07_gv4_ignores_outside.

Example C07_example :
  decode_gv4_stream (fun _ => 0) [0; 1; 2; 3; 4] 4 = Ok ([1; 2; 3; 4], [], 3%nat) /\
  decode_gv4_stream (fun _ => 255) [0; 1; 2; 3; 4] 4 = Ok ([1; 2; 3; 4], [], 3%nat).
Proof. split; vm_compute; reflexivity. Qed.

(** C08 as stated ("only reads bytes of the buffer") is false: a five-byte buffer that passes
    both assertions, decodes successfully, and touches three bytes past its end. *)
Theorem C08_gv4_in_bounds_refuted :
  exists (buffer : list N) (len : nat) (vs rest : list N) (k : nat),
    decode_gv4_stream (fun _ => 0) buffer len = Ok (vs, rest, k) /\ (0 < k)%nat.
Proof.
  exact (ex_intro _ [0; 1; 2; 3; 4] (ex_intro _ 4%nat (ex_intro _ [1; 2; 3; 4]
    (ex_intro _ [] (ex_intro _ 3%nat (conj eq_refl (Nat.lt_0_succ 2))))))).
Qed.
Print Assumptions C08_gv4_in_bounds_refuted.

(** C08, the part that holds: a successful decode never touches more than three bytes past the
    end, and none when at least three bytes follow the encoded groups. *)
Theorem C08_gv4_in_bounds_partial :
  forall (outside : nat -> N) (len : nat) (buffer vs rest : list N) (k : nat),
    decode_gv4_stream outside buffer len = Ok (vs, rest, k) ->
    (k <= 3)%nat /\ length vs = len /\ (exists m, rest = skipn m buffer) /\
    ((3 <= length rest)%nat -> k = 0%nat).
Proof. exact decode_stream_oob. Qed.
Print Assumptions C08_gv4_in_bounds_partial.
