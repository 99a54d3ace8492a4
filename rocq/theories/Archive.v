(** Model of src/archive.rs, src/endian.rs and of the archive readers of
    src/skeleton.rs, src/track.rs and src/animation.rs.

    Bytes are [N] (meant below 256); fixed-width integers are [N] (unsigned) or [Z] (signed);
    f32/f64 values are represented by their bit patterns. *)
From Verif Require Import Base.
From Coq Require Import Ascii String.
Local Open Scope N_scope.

(** * Bytes and machine integers *)

(** archive.rs 150-180, endian.rs 31-93: [u8..u64::to_le_bytes] on [w] bytes. *)
Fixpoint le_bytes (w : nat) (v : N) : list N :=
  match w with
  | O => []
  | S w' => (v mod 256) :: le_bytes w' (v / 256)
  end.

(** archive.rs 150-180: [from_le_bytes]. *)
Fixpoint le_val (bs : list N) : N :=
  match bs with
  | [] => 0
  | b :: t => b + 256 * le_val t
  end.

(** archive.rs 150-180.  Two's complement reinterpretation of a [w]-byte pattern. *)
Definition to_signed (w : nat) (v : N) : Z :=
  if v <? 2 ^ (8 * N.of_nat w - 1) then Z.of_N v
  else (Z.of_N v - 2 ^ (8 * Z.of_nat w))%Z.

(** endian.rs 6-9 *)
Inductive endian := Big | Little.

Definition endian_eqb (a b : endian) : bool :=
  match a, b with Big, Big | Little, Little => true | _, _ => false end.

(** endian.rs 22-28 [Endian::from_tag] *)
Definition endian_from_tag (tag : N) : endian := if tag =? 0 then Big else Little.

(** The value a [w]-byte integer has when its memory is filled with [bs] on a machine of the
    given byte order (archive.rs 155-160 fills the memory of a native integer). *)
Definition from_ne_bytes (native : endian) (bs : list N) : N :=
  match native with Little => le_val bs | Big => le_val (rev bs) end.

(** endian.rs 31-95 [swap_bytes] on [w] bytes. *)
Definition swap_bytes (w : nat) (v : N) : N := le_val (rev (le_bytes w v)).

(** * Archive *)

(** archive.rs 19-22.  [native] is the machine's byte order, [eswap] the [endian_swap] field,
    [io_kind] the kind of the error the underlying stream reports when its bytes are exhausted
    (UnexpectedEof for a file or cursor, any other kind for a failing device). *)
Record env := { native : endian; eswap : bool; io_kind : N }.

(** archive.rs 18-61: a reader consumes a prefix of the remaining bytes; [?] stops at the first error. *)
Definition reader (A : Type) := env -> list N -> res (A * list N).

Definition ret {A} (a : A) : reader A := fun _ bs => Ok (a, bs).
Definition fail {A} (e : ozz_error) : reader A := fun _ _ => Err e.
Definition panic {A} : reader A := fun _ _ => Panic.
Definition rbind {A B} (r : reader A) (k : A -> reader B) : reader B :=
  fun e bs => match r e bs with
              | Ok (a, bs') => k a e bs'
              | Err x => Err x
              | Panic => Panic
              end.

Declare Scope reader_scope.
Delimit Scope reader_scope with reader.
Notation "x <- r ; k" := (rbind r (fun x => k))
  (at level 100, r at next level, right associativity) : reader_scope.
Local Open Scope reader_scope.

(** [Read::read_exact] on [n] bytes (std). *)
Definition read_exact (n : nat) : reader (list N) := fun e bs =>
  if (n <=? List.length bs)%nat then Ok (firstn n bs, skipn n bs) else Err (IO (io_kind e)).

(** archive.rs 150-168 [primitive_reader!] for an unsigned [w]-byte integer. *)
Definition read_uint (w : nat) : reader N :=
  raw <- read_exact w;
  fun e bs =>
    let val := from_ne_bytes (native e) raw in
    ret (if eswap e then swap_bytes w val else val) e bs.

Definition read_u8 := read_uint 1.     (* archive.rs 171 *)
Definition read_u16 := read_uint 2.    (* archive.rs 173 *)
Definition read_u32 := read_uint 4.    (* archive.rs 175 *)
Definition read_u64 := read_uint 8.    (* archive.rs 177 *)
(** archive.rs 179-180 and endian.rs 73-83: floats are swapped through their bits, so an f32
    (f64) is read like a u32 (u64) and kept here as its bit pattern. *)
Definition read_f32 := read_uint 4.
Definition read_f64 := read_uint 8.

(** archive.rs 172, 174, 176, 178: signed integers (the byte swap acts on the same bits). *)
Definition read_sint (w : nat) : reader Z :=
  v <- read_uint w; ret (to_signed w v).
Definition read_i8 := read_sint 1.
Definition read_i16 := read_sint 2.
Definition read_i32 := read_sint 4.
Definition read_i64 := read_sint 8.

(** archive.rs 170: one byte, never swapped (endian.rs 43-47).  The Rust code would have
    undefined behaviour for a byte other than 0 and 1; no format of the crate contains a bool. *)
Definition read_bool : reader N := read_uint 1.

(** archive.rs 131-137 [read_vec] and 142-147 [read_slice]: [n] consecutive reads (the slice
    version fills a buffer of length [n]; an error leaves the whole object unreachable). *)
Fixpoint read_n {A} (n : nat) (r : reader A) : reader (list A) :=
  match n with
  | O => ret []
  | S n' => a <- r; l <- read_n n' r; ret (a :: l)
  end.

(** archive.rs 182-221: Vec2, Vec3, Vec4 and Quat read their components in order. *)
Definition read_vec2 : reader (list N) := read_n 2 read_f32.
Definition read_vec3 : reader (list N) := read_n 3 read_f32.
Definition read_vec4 : reader (list N) := read_n 4 read_f32.
Definition read_quat : reader (list N) := read_n 4 read_f32.

(** ** UTF-8: std::str::from_utf8 (Unicode 15, table 3-7) *)

Definition in_range (lo hi b : N) : bool := (lo <=? b) && (b <=? hi).
Definition is_cont (b : N) : bool := in_range 128 191 b.

(** archive.rs 235, [String::from_utf8]: [None] when the bytes are valid UTF-8, [Some n] with [n] = [Utf8Error::valid_up_to]
    otherwise. *)
Fixpoint utf8_error (pos : N) (bs : list N) {struct bs} : option N :=
  match bs with
  | [] => None
  | b0 :: t0 =>
    if b0 <? 128 then utf8_error (pos + 1) t0
    else match t0 with
    | [] => Some pos
    | b1 :: t1 =>
      if in_range 194 223 b0 then
        if is_cont b1 then utf8_error (pos + 2) t1 else Some pos
      else match t1 with
      | [] => Some pos
      | b2 :: t2 =>
        if in_range 224 239 b0 then
          if (if b0 =? 224 then in_range 160 191 b1
              else if b0 =? 237 then in_range 128 159 b1
              else is_cont b1) && is_cont b2
          then utf8_error (pos + 3) t2 else Some pos
        else match t2 with
        | [] => Some pos
        | b3 :: t3 =>
          if in_range 240 244 b0 then
            if (if b0 =? 240 then in_range 144 191 b1
                else if b0 =? 244 then in_range 128 143 b1
                else is_cont b1) && is_cont b2 && is_cont b3
            then utf8_error (pos + 4) t3 else Some pos
          else Some pos
        end
      end
    end
  end.

(** [String::from_utf8(buf).map_err(|e| e.utf8_error())?] and base.rs 52-56
    ([valid_up_to() as u32]). *)
Definition from_utf8 (bs : list N) : reader (list N) :=
  match utf8_error 0 bs with
  | None => ret bs
  | Some n => fail (Utf8 (n mod 2 ^ 32))
  end.

(** archive.rs 223-238: bytes up to the first NUL.  The loop reads one [u8] per iteration; a
    one-byte read delivers the next byte unchanged (lemma [read_u8_cons] in ArchiveProofs). *)
Fixpoint read_cstr_from (acc : list N) (e : env) (bs : list N) : res (list N * list N) :=
  match bs with
  | [] => Err (IO (io_kind e))
  | b :: t => if b =? 0 then Ok (rev acc, t) else read_cstr_from (b :: acc) e t
  end.
Definition read_string : reader (list N) :=
  buffer <- read_cstr_from []; from_utf8 buffer.

(** archive.rs 26-35 [Archive::new]: reads the endian tag. *)
Definition archive_new (nat_endian : endian) (kind : N) (bs : list N) : res (env * list N) :=
  match bs with
  | [] => Err (IO kind)
  | tag :: t =>
    Ok ({| native := nat_endian;
           eswap := negb (endian_eqb (endian_from_tag tag) nat_endian);
           io_kind := kind |}, t)
  end.

(** skeleton.rs 74-77, animation.rs 304-307, track.rs 18, 29, 46, 63, 80, 97, 131-134: the tags, ASCII literals, and their comparison. *)
Definition ascii_bytes (s : string) : list N :=
  List.map N_of_ascii (list_ascii_of_string s).

Fixpoint bytes_eqb (a b : list N) : bool :=
  match a, b with
  | [], [] => true
  | x :: a', y :: b' => (x =? y) && bytes_eqb a' b'
  | _, _ => false
  end.

(** The "check tag then version" prologue shared by animation.rs 316-321, skeleton.rs 86-91 and
    track.rs 157-162. *)
Definition check_header (tag : list N) (version : N) : reader unit :=
  t <- read_string;
  if negb (bytes_eqb t tag) then fail InvalidTag else
  v <- read_u32;
  if negb (v =? version) then fail InvalidVersion else ret tt.

(** [if name_len != 0 { String::from_utf8(read_vec(name_len)) }]
    (animation.rs 337-341, track.rs 172-176). *)
Definition read_name (name_len : N) : reader (list N) :=
  if name_len =? 0 then ret []
  else buf <- read_n (N.to_nat name_len) read_u8; from_utf8 buf.

(** * Animation (animation.rs) *)

(** animation.rs 250-266 (the version field is the constant 7 and is dropped). *)
Record anim_meta := {
  m_duration : N; m_num_tracks : N; m_name : list N; m_timepoints : N;
  m_translations : N; m_rotations : N; m_scales : N;
  m_t_entries : N; m_t_desc : N; m_r_entries : N; m_r_desc : N; m_s_entries : N; m_s_desc : N }.

(** One keyframe channel: animation.rs 276-281 (resp. 283-288, 290-295).  A key is its three
    u16 words (animation.rs 21, 54). *)
Record channel := {
  ch_ratios : list N; ch_previouses : list N; ch_entries : list N; ch_desc : list N;
  ch_interval : N; ch_keys : list (list N) }.

(** animation.rs 183-220 without the memory addresses (see Layout.v for those). *)
Record animation := {
  an_duration : N; an_num_tracks : N; an_name : list N; an_timepoints : list N;
  an_t : channel; an_r : channel; an_s : channel }.

Definition animation_tag := ascii_bytes "ozz-animation".   (* animation.rs 304-306 *)
Definition animation_version : N := 7.                      (* animation.rs 310-312 *)

(** animation.rs 315-359 [Animation::read_meta] *)
Definition animation_read_meta : reader anim_meta :=
  _ <- check_header animation_tag animation_version;
  duration <- read_f32;
  num_tracks <- read_u32;
  name_len <- read_u32;
  timepoints_count <- read_u32;
  translations_count <- read_u32;
  rotations_count <- read_u32;
  scales_count <- read_u32;
  t_iframe_entries_count <- read_u32;
  t_iframe_desc_count <- read_u32;
  r_iframe_entries_count <- read_u32;
  r_iframe_desc_count <- read_u32;
  s_iframe_entries_count <- read_u32;
  s_iframe_desc_count <- read_u32;
  name <- read_name name_len;
  ret {| m_duration := duration; m_num_tracks := num_tracks; m_name := name;
         m_timepoints := timepoints_count; m_translations := translations_count;
         m_rotations := rotations_count; m_scales := scales_count;
         m_t_entries := t_iframe_entries_count; m_t_desc := t_iframe_desc_count;
         m_r_entries := r_iframe_entries_count; m_r_desc := r_iframe_desc_count;
         m_s_entries := s_iframe_entries_count; m_s_desc := s_iframe_desc_count |}.

(** animation.rs 41-47, 161-167: a key is three u16. *)
Definition read_key : reader (list N) := read_n 3 read_u16.

(** animation.rs 369-380 (resp. 382-393, 395-406): one channel.  [u8] ratios are widened. *)
Definition read_channel (is_ratio_u8 : bool) (keys entries desc : N) : reader channel :=
  ratios <- read_n (N.to_nat keys) (if is_ratio_u8 then read_u8 else read_u16);
  previouses <- read_n (N.to_nat keys) read_u16;
  iframe_entries <- read_n (N.to_nat entries) read_u8;
  iframe_desc <- read_n (N.to_nat desc) read_u32;
  interval <- read_f32;
  ks <- read_n (N.to_nat keys) read_key;
  ret {| ch_ratios := ratios; ch_previouses := previouses; ch_entries := iframe_entries;
         ch_desc := iframe_desc; ch_interval := interval; ch_keys := ks |}.

(** animation.rs 362-408 [Animation::from_archive].  [Animation::new] only allocates
    (animation.rs 497-607, see Layout.v); an allocation failure is not modelled. *)
Definition animation_from_archive : reader animation :=
  meta <- animation_read_meta;
  timepoints <- read_n (N.to_nat (m_timepoints meta)) read_f32;
  let is_ratio_u8 := m_timepoints meta <=? 255 in
  t <- read_channel is_ratio_u8 (m_translations meta) (m_t_entries meta) (m_t_desc meta);
  r <- read_channel is_ratio_u8 (m_rotations meta) (m_r_entries meta) (m_r_desc meta);
  s <- read_channel is_ratio_u8 (m_scales meta) (m_s_entries meta) (m_s_desc meta);
  ret {| an_duration := m_duration meta; an_num_tracks := m_num_tracks meta;
         an_name := m_name meta; an_timepoints := timepoints;
         an_t := t; an_r := r; an_s := s |}.

(** * Skeleton (skeleton.rs) *)

(** skeleton.rs 15, 98-110, 130, 239-253: bimap::BiHashMap as an association list without repetition on either side.
    [insert] removes any pair sharing the left or the right value (crate bimap). *)
Definition bimap := list (list N * Z).

Definition bimap_insert (m : bimap) (k : list N) (v : Z) : bimap :=
  (k, v) :: filter (fun p => negb (bytes_eqb (fst p) k) && negb (Z.eqb (snd p) v)) m.

Fixpoint get_by_left (m : bimap) (k : list N) : option Z :=
  match m with
  | [] => None
  | (k', v) :: t => if bytes_eqb k' k then Some v else get_by_left t k
  end.

Fixpoint get_by_right (m : bimap) (v : Z) : option (list N) :=
  match m with
  | [] => None
  | (k, v') :: t => if Z.eqb v' v then Some k else get_by_right t v
  end.

(** A SoaTransform as read from a file: the 40 f32 of math.rs 498-508 in memory order
    (translation x,y,z, rotation x,y,z,w, scale x,y,z; 4 lanes each; the transmute of line 506
    is the identity on this list). *)
Definition read_soa_transform : reader (list N) := read_n 40 read_f32.

(** skeleton.rs 110, 130: [idx as i16] *)
Definition as_i16 (v : N) : Z := to_signed 2 (v mod 65536).

(** skeleton.rs 108-110 and 129-131: [insert(read::<String>()?, idx as i16)] for
    [idx] in [idx .. idx+n]. *)
Fixpoint read_names (n : nat) (idx : N) (m : bimap) : reader bimap :=
  match n with
  | O => ret m
  | S n' => s <- read_string; read_names n' (idx + 1) (bimap_insert m s (as_i16 idx))
  end.

(** skeleton.rs 29-36 without the memory addresses. *)
Record skeleton := {
  sk_num_joints : N; sk_rest_poses : list (list N); sk_names : bimap; sk_parents : list Z }.

Record skel_meta := { sm_num_joints : N; sm_names : bimap; sm_parents : list Z }.

Definition skeleton_tag := ascii_bytes "ozz-skeleton".    (* skeleton.rs 74-76 *)
Definition skeleton_version : N := 2.                       (* skeleton.rs 80-82 *)

(** skeleton.rs 85-121 [Skeleton::read_meta] *)
Definition skeleton_read_meta (with_joints : bool) : reader skel_meta :=
  _ <- check_header skeleton_tag skeleton_version;
  num_joints <- read_u32;
  if (num_joints =? 0) || negb with_joints then
    ret {| sm_num_joints := num_joints; sm_names := []; sm_parents := [] |}
  else
    _ <- read_u32;
    names <- read_names (N.to_nat num_joints) 0 [];
    parents <- read_n (N.to_nat num_joints) read_i16;
    ret {| sm_num_joints := num_joints; sm_names := names; sm_parents := parents |}.

(** animation.rs 643: [num_joints.div_ceil(4)] *)
Definition div_ceil (a b : N) : N := (a + b - 1) / b.

(** skeleton.rs 124-136 [Skeleton::from_archive] *)
Definition skeleton_from_archive : reader skeleton :=
  meta <- skeleton_read_meta false;
  let num_joints := sm_num_joints meta in
  _ <- read_u32;
  names <- read_names (N.to_nat num_joints) 0 [];
  parents <- read_n (N.to_nat num_joints) read_i16;
  poses <- read_n (N.to_nat (div_ceil num_joints 4)) read_soa_transform;
  ret {| sk_num_joints := num_joints; sk_rest_poses := poses; sk_names := names;
         sk_parents := parents |}.

(** skeleton.rs 245-247 and 251-253 *)
Definition joint_by_name (s : skeleton) (name : list N) : option Z := get_by_left (sk_names s) name.
Definition name_by_joint (s : skeleton) (idx : Z) : option (list N) := get_by_right (sk_names s) idx.

(** * Track (track.rs) *)

(** The value kinds of track.rs 27-107 with their tag and number of f32 components. *)
Inductive track_kind := TFloat | TFloat2 | TFloat3 | TFloat4 | TQuat.

Definition track_tag (k : track_kind) : list N :=
  ascii_bytes (match k with
               | TFloat => "ozz-float_track" | TFloat2 => "ozz-float2_track"
               | TFloat3 => "ozz-float3_track" | TFloat4 => "ozz-float4_track"
               | TQuat => "ozz-quat_track" end).
Definition track_version : N := 1.                          (* track.rs 137-139 *)

Definition read_track_value (k : track_kind) : reader (list N) :=
  match k with
  | TFloat => read_n 1 read_f32
  | TFloat2 => read_vec2
  | TFloat3 => read_vec3
  | TFloat4 => read_vec4
  | TQuat => read_quat
  end.

(** track.rs 117-123 *)
Record track := {
  tr_key_count : N; tr_ratios : list N; tr_values : list (list N); tr_steps : list N;
  tr_name : list N }.

(** track.rs 156-184 [Track::from_archive]; [key_count + 7] is a u32 addition which panics on
    overflow in debug mode. *)
Definition track_from_archive (k : track_kind) : reader track :=
  _ <- check_header (track_tag k) track_version;
  key_count <- read_u32;
  name_len <- read_u32;
  ratios <- read_n (N.to_nat key_count) read_f32;
  values <- read_n (N.to_nat key_count) (read_track_value k);
  if 2 ^ 32 <=? key_count + 7 then panic else
  steps <- read_n (N.to_nat ((key_count + 7) / 8)) read_u8;
  name <- read_name name_len;
  ret {| tr_key_count := key_count; tr_ratios := ratios; tr_values := values;
         tr_steps := steps; tr_name := name |}.

(** * Whole-file loading: [Archive::new] followed by [from_archive]
    (animation.rs 412-415, skeleton.rs 140-143, track.rs 189-192; opening the file itself is not
    modelled). *)
Definition load {A} (r : reader A) (nat_endian : endian) (kind : N) (file : list N)
  : res (A * list N) :=
  match archive_new nat_endian kind file with
  | Ok (e, bs) => r e bs
  | Err x => Err x
  | Panic => Panic
  end.
