(** Specification of the ozz binary formats: what a file holding a given content looks like.
    Nothing here mentions the readers. *)
From Verif Require Import Base Archive.
From Coq Require Import Ascii String.
Local Open Scope N_scope.
Notation length := List.length.

(** The [w] base-256 digits of [v], least significant first in a little-endian file and most
    significant first in a big-endian file. *)
Definition digit (v : N) (i : nat) : N := (v / 256 ^ N.of_nat i) mod 256.
Definition enc (o : endian) (w : nat) (v : N) : list N :=
  match o with
  | Little => map (digit v) (seq 0 w)
  | Big => map (digit v) (rev (seq 0 w))
  end.

(** ASCII codes of a literal. *)
Definition ascii (s : string) : list N := map N_of_ascii (list_ascii_of_string s).

(** Unsigned image of a signed integer. *)
Definition unsigned (w : nat) (v : Z) : N := Z.to_N (v mod 2 ^ (8 * Z.of_nat w)).

Definition fits (w : nat) (v : N) : Prop := v < 2 ^ (8 * N.of_nat w).
Definition sfits (w : nat) (v : Z) : Prop :=
  (- 2 ^ (8 * Z.of_nat w - 1) <= v < 2 ^ (8 * Z.of_nat w - 1))%Z.

(** UTF-8 encoding of Unicode scalar values. *)
Definition scalar (c : N) : Prop := c < 55296 \/ (57344 <= c /\ c < 1114112).
Definition utf8_char (c : N) : list N :=
  if c <? 128 then [c]
  else if c <? 2048 then [192 + c / 64; 128 + c mod 64]
  else if c <? 65536 then [224 + c / 4096; 128 + (c / 64) mod 64; 128 + c mod 64]
  else [240 + c / 262144; 128 + (c / 4096) mod 64; 128 + (c / 64) mod 64; 128 + c mod 64].
Definition utf8 (s : list N) : list N := flat_map utf8_char s.

(** A text is the UTF-8 encoding of some scalar values. *)
Definition text (bs : list N) : Prop := exists s, Forall scalar s /\ bs = utf8 s.

(** First byte of a file. *)
Definition endian_byte (o : endian) (b : N) : Prop :=
  match o with Big => b = 0 | Little => b <> 0 end.

Definition len {A} (l : list A) : N := N.of_nat (length l).

Definition header (o : endian) (tag : list N) (version : N) : list N :=
  tag ++ [0] ++ enc o 4 version.

(** File contents. *)
Definition bytes (l : list N) : Prop := Forall (fits 1) l.

(** ** Animations *)
Definition w_keys (o : endian) (ks : list (list N)) : list N := flat_map (flat_map (enc o 2)) ks.

Definition w_channel (o : endian) (u8 : bool) (c : channel) : list N :=
  flat_map (enc o (if u8 then 1%nat else 2%nat)) (ch_ratios c)
  ++ flat_map (enc o 2) (ch_previouses c)
  ++ ch_entries c
  ++ flat_map (enc o 4) (ch_desc c)
  ++ enc o 4 (ch_interval c)
  ++ w_keys o (ch_keys c).

Definition w_animation (o : endian) (a : animation) : list N :=
  let u8 := len (an_timepoints a) <=? 255 in
  header o (ascii "ozz-animation") 7
  ++ enc o 4 (an_duration a) ++ enc o 4 (an_num_tracks a)
  ++ enc o 4 (len (an_name a)) ++ enc o 4 (len (an_timepoints a))
  ++ enc o 4 (len (ch_keys (an_t a))) ++ enc o 4 (len (ch_keys (an_r a)))
  ++ enc o 4 (len (ch_keys (an_s a)))
  ++ enc o 4 (len (ch_entries (an_t a))) ++ enc o 4 (len (ch_desc (an_t a)))
  ++ enc o 4 (len (ch_entries (an_r a))) ++ enc o 4 (len (ch_desc (an_r a)))
  ++ enc o 4 (len (ch_entries (an_s a))) ++ enc o 4 (len (ch_desc (an_s a)))
  ++ an_name a
  ++ flat_map (enc o 4) (an_timepoints a)
  ++ w_channel o u8 (an_t a) ++ w_channel o u8 (an_r a) ++ w_channel o u8 (an_s a).

Definition channel_ok (u8 : bool) (c : channel) : Prop :=
  length (ch_ratios c) = length (ch_keys c) /\
  length (ch_previouses c) = length (ch_keys c) /\
  Forall (fits (if u8 then 1 else 2)) (ch_ratios c) /\
  Forall (fits 2) (ch_previouses c) /\
  Forall (fits 1) (ch_entries c) /\
  Forall (fits 4) (ch_desc c) /\
  fits 4 (ch_interval c) /\
  Forall (fun k => length k = 3%nat /\ Forall (fits 2) k) (ch_keys c) /\
  fits 4 (len (ch_keys c)) /\ fits 4 (len (ch_entries c)) /\ fits 4 (len (ch_desc c)).

Definition animation_ok (a : animation) : Prop :=
  let u8 := len (an_timepoints a) <=? 255 in
  fits 4 (an_duration a) /\ fits 4 (an_num_tracks a) /\
  text (an_name a) /\ fits 4 (len (an_name a)) /\
  Forall (fits 4) (an_timepoints a) /\ fits 4 (len (an_timepoints a)) /\
  channel_ok u8 (an_t a) /\ channel_ok u8 (an_r a) /\ channel_ok u8 (an_s a).

(** ** Skeletons: content as plain lists *)
Record skel_content := {
  sc_names : list (list N);            (* one per joint *)
  sc_parents : list Z;
  sc_poses : list (list N) }.

Definition w_skeleton (o : endian) (c : skel_content) : list N :=
  header o (ascii "ozz-skeleton") 2
  ++ enc o 4 (len (sc_parents c))
  ++ enc o 4 (len (flat_map (fun n => n ++ [0]) (sc_names c)))
  ++ flat_map (fun n => n ++ [0]) (sc_names c)
  ++ flat_map (fun p => enc o 2 (unsigned 2 p)) (sc_parents c)
  ++ flat_map (flat_map (enc o 4)) (sc_poses c).

Definition skeleton_ok (c : skel_content) : Prop :=
  (0 < length (sc_parents c))%nat /\
  len (sc_parents c) < 2 ^ 15 /\
  length (sc_names c) = length (sc_parents c) /\
  Forall (fun n => text n /\ ~ In 0 n) (sc_names c) /\
  Forall (sfits 2) (sc_parents c) /\
  length (sc_poses c) = ((length (sc_parents c) + 3) / 4)%nat /\
  Forall (fun p => length p = 40%nat /\ Forall (fits 4) p) (sc_poses c).

(** A skeleton file whose character count field (never checked) is [count]. *)
Definition w_skeleton_count (o : endian) (count : N) (c : skel_content) : list N :=
  header o (ascii "ozz-skeleton") 2
  ++ enc o 4 (len (sc_parents c)) ++ enc o 4 count
  ++ flat_map (fun n => n ++ [0]) (sc_names c)
  ++ flat_map (fun p => enc o 2 (unsigned 2 p)) (sc_parents c)
  ++ flat_map (flat_map (enc o 4)) (sc_poses c).

(** ** Tracks *)
Definition track_dim (k : track_kind) : nat :=
  match k with TFloat => 1 | TFloat2 => 2 | TFloat3 => 3 | TFloat4 => 4 | TQuat => 4 end.

Definition track_name (k : track_kind) : list N :=
  match k with
  | TFloat => ascii "ozz-float_track" | TFloat2 => ascii "ozz-float2_track"
  | TFloat3 => ascii "ozz-float3_track" | TFloat4 => ascii "ozz-float4_track"
  | TQuat => ascii "ozz-quat_track"
  end.

Definition w_track (o : endian) (k : track_kind) (t : track) : list N :=
  header o (track_name k) 1
  ++ enc o 4 (len (tr_values t)) ++ enc o 4 (len (tr_name t))
  ++ flat_map (enc o 4) (tr_ratios t)
  ++ flat_map (flat_map (enc o 4)) (tr_values t)
  ++ tr_steps t ++ tr_name t.

Definition track_ok (k : track_kind) (t : track) : Prop :=
  tr_key_count t = len (tr_values t) /\
  len (tr_values t) < 2 ^ 32 - 7 /\
  length (tr_ratios t) = length (tr_values t) /\
  Forall (fits 4) (tr_ratios t) /\
  Forall (fun v => length v = track_dim k /\ Forall (fits 4) v) (tr_values t) /\
  len (tr_steps t) = (len (tr_values t) + 7) / 8 /\
  Forall (fits 1) (tr_steps t) /\
  text (tr_name t) /\ fits 4 (len (tr_name t)).

(** Proper prefixes: where a write was interrupted. *)
Definition proper_prefix (p l : list N) : Prop := exists x s, l = p ++ x :: s.
