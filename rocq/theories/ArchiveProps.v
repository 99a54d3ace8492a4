(** Properties C09-C16: archives.  Specification: ArchiveSpec.v (file formats). *)
From Verif Require Import Base Archive ArchiveSpec Utf8Proofs ArchiveProofs ArchiveExamples.
From Coq Require Import String.
Local Open Scope N_scope.
Notation length := List.length.

(** C09: every unsigned (hence f32/f64 bit pattern) and signed integer, on any machine. *)
Theorem C09_unsigned : forall machine o kind b w v rest,
  endian_byte o b -> fits w v ->
  load (read_uint w) machine kind (b :: enc o w v ++ rest) = Ok (v, rest).
Proof. exact load_uint. Qed.
Print Assumptions C09_unsigned.

Theorem C09_signed : forall machine o kind b w v rest,
  (0 < w)%nat -> endian_byte o b -> sfits w v ->
  load (read_sint w) machine kind (b :: enc o w (unsigned w v) ++ rest) = Ok (v, rest).
Proof. exact load_sint. Qed.
Print Assumptions C09_signed.

(** The readers of the primitive types are those of their width. *)
Theorem C09_primitives : forall machine o kind b rest,
  endian_byte o b ->
  (forall v, fits 1 v -> load read_u8 machine kind (b :: enc o 1 v ++ rest) = Ok (v, rest)) /\
  (forall v, fits 2 v -> load read_u16 machine kind (b :: enc o 2 v ++ rest) = Ok (v, rest)) /\
  (forall v, fits 4 v -> load read_u32 machine kind (b :: enc o 4 v ++ rest) = Ok (v, rest)) /\
  (forall v, fits 8 v -> load read_u64 machine kind (b :: enc o 8 v ++ rest) = Ok (v, rest)) /\
  (forall v, fits 4 v -> load read_f32 machine kind (b :: enc o 4 v ++ rest) = Ok (v, rest)) /\
  (forall v, fits 8 v -> load read_f64 machine kind (b :: enc o 8 v ++ rest) = Ok (v, rest)) /\
  (forall v, sfits 1 v -> load read_i8 machine kind (b :: enc o 1 (unsigned 1 v) ++ rest) = Ok (v, rest)) /\
  (forall v, sfits 2 v -> load read_i16 machine kind (b :: enc o 2 (unsigned 2 v) ++ rest) = Ok (v, rest)) /\
  (forall v, sfits 4 v -> load read_i32 machine kind (b :: enc o 4 (unsigned 4 v) ++ rest) = Ok (v, rest)) /\
  (forall v, sfits 8 v -> load read_i64 machine kind (b :: enc o 8 (unsigned 8 v) ++ rest) = Ok (v, rest)).
Proof. exact load_primitives. Qed.
Print Assumptions C09_primitives.

(** Composites: vectors, quaternions, arrays and strings. *)
Theorem C09_composites : forall machine o kind b rest,
  endian_byte o b ->
  (forall x y, fits 4 x -> fits 4 y ->
    load read_vec2 machine kind (b :: enc o 4 x ++ enc o 4 y ++ rest) = Ok ([x; y], rest)) /\
  (forall x y z, fits 4 x -> fits 4 y -> fits 4 z ->
    load read_vec3 machine kind (b :: enc o 4 x ++ enc o 4 y ++ enc o 4 z ++ rest) = Ok ([x; y; z], rest)) /\
  (forall x y z w, fits 4 x -> fits 4 y -> fits 4 z -> fits 4 w ->
    load read_vec4 machine kind (b :: enc o 4 x ++ enc o 4 y ++ enc o 4 z ++ enc o 4 w ++ rest)
      = Ok ([x; y; z; w], rest) /\
    load read_quat machine kind (b :: enc o 4 x ++ enc o 4 y ++ enc o 4 z ++ enc o 4 w ++ rest)
      = Ok ([x; y; z; w], rest)) /\
  (forall w l, Forall (fits w) l ->
    load (read_n (length l) (read_uint w)) machine kind (b :: flat_map (enc o w) l ++ rest) = Ok (l, rest)) /\
  (forall s, text s -> ~ In 0 s ->
    load read_string machine kind (b :: s ++ 0 :: rest) = Ok (s, rest)).
Proof. exact load_composites. Qed.
Print Assumptions C09_composites.

Example C09_case :
  load read_i32 Little 0 (0 :: [255; 255; 255; 254] ++ [9]) = Ok ((-2)%Z, [9]) /\
  load read_i32 Big 0 (1 :: [254; 255; 255; 255] ++ [9]) = Ok ((-2)%Z, [9]) /\
  enc Big 4 (unsigned 4 (-2)) = [255; 255; 255; 254].
Proof. vm_compute. auto. Qed.

(** C10 *)
Theorem C10_animation_round_trip : forall machine o kind b a rest,
  endian_byte o b -> animation_ok a ->
  load animation_from_archive machine kind (b :: w_animation o a ++ rest) = Ok (a, rest).
Proof. exact load_animation. Qed.
Print Assumptions C10_animation_round_trip.

Example C10_case : animation_ok ex_animation /\ length (an_timepoints ex_animation) = 3%nat
  /\ length (ch_keys (an_t ex_animation)) = 9%nat.
Proof. exact (conj ex_animation_ok (conj eq_refl eq_refl)). Qed.
Example C10_case_u16 : animation_ok ex_animation_u16 /\ 255 < len (an_timepoints ex_animation_u16).
Proof. exact (conj ex_animation_u16_ok eq_refl). Qed.

(** C11 *)
Theorem C11_skeleton_round_trip : forall machine o kind b c rest,
  endian_byte o b -> skeleton_ok c -> NoDup (sc_names c) ->
  fits 4 (len (flat_map (fun n => n ++ [0]) (sc_names c))) ->
  exists s, load skeleton_from_archive machine kind (b :: w_skeleton o c ++ rest) = Ok (s, rest) /\
    sk_num_joints s = len (sc_parents c) /\
    sk_parents s = sc_parents c /\
    sk_rest_poses s = sc_poses c /\
    (forall i, name_by_joint s (Z.of_nat i) = nth_error (sc_names c) i) /\
    (forall i, (i < 0)%Z -> name_by_joint s i = None) /\
    (forall i n, nth_error (sc_names c) i = Some n -> joint_by_name s n = Some (Z.of_nat i)) /\
    (forall n, ~ In n (sc_names c) -> joint_by_name s n = None).
Proof. exact load_skeleton. Qed.
Print Assumptions C11_skeleton_round_trip.

Example C11_case : skeleton_ok ex_skeleton /\ NoDup (sc_names ex_skeleton)
  /\ fits 4 (len (flat_map (fun n => n ++ [0]) (sc_names ex_skeleton)))
  /\ length (sc_parents ex_skeleton) = 5%nat.
Proof. exact (conj ex_skeleton_ok (conj ex_skeleton_nodup (conj eq_refl eq_refl))). Qed.

(** C12 *)
Theorem C12_track_round_trip : forall machine o kind b k t rest,
  endian_byte o b -> track_ok k t ->
  load (track_from_archive k) machine kind (b :: w_track o k t ++ rest) = Ok (t, rest).
Proof. exact load_track. Qed.
Print Assumptions C12_track_round_trip.

Example C12_case : track_ok TFloat3 ex_track /\ length (tr_values ex_track) = 9%nat.
Proof. exact (conj ex_track_ok eq_refl). Qed.

(** C13: interrupted files. *)
Theorem C13_truncated_valid : forall machine o kind b p,
  endian_byte o b ->
  (forall a, animation_ok a -> proper_prefix p (b :: w_animation o a) ->
     load animation_from_archive machine kind p = Err (IO kind)) /\
  (forall c, skeleton_ok c -> fits 4 (len (flat_map (fun n => n ++ [0]) (sc_names c))) ->
     proper_prefix p (b :: w_skeleton o c) ->
     load skeleton_from_archive machine kind p = Err (IO kind)) /\
  (forall k t, track_ok k t -> proper_prefix p (b :: w_track o k t) ->
     load (track_from_archive k) machine kind p = Err (IO kind)).
Proof. exact truncated_valid. Qed.
Print Assumptions C13_truncated_valid.

(** The same for every stream that loads, well-formed or not: the object was made of a prefix
    [used] of the file; cut anywhere before the end of [used], loading reports the IO error. *)
Theorem C13_truncated_any : forall machine kind file,
  (forall a rest, load animation_from_archive machine kind file = Ok (a, rest) ->
     exists used, file = used ++ rest /\
       (forall rest', load animation_from_archive machine kind (used ++ rest') = Ok (a, rest')) /\
       forall p, proper_prefix p used -> load animation_from_archive machine kind p = Err (IO kind)) /\
  (forall s rest, load skeleton_from_archive machine kind file = Ok (s, rest) ->
     exists used, file = used ++ rest /\
       (forall rest', load skeleton_from_archive machine kind (used ++ rest') = Ok (s, rest')) /\
       forall p, proper_prefix p used -> load skeleton_from_archive machine kind p = Err (IO kind)) /\
  (forall k t rest, load (track_from_archive k) machine kind file = Ok (t, rest) ->
     exists used, file = used ++ rest /\
       (forall rest', load (track_from_archive k) machine kind (used ++ rest') = Ok (t, rest')) /\
       forall p, proper_prefix p used -> load (track_from_archive k) machine kind p = Err (IO kind)).
Proof. exact truncated_any. Qed.
Print Assumptions C13_truncated_any.

Example C13_case : proper_prefix (firstn 40 (1 :: w_animation Little ex_animation)) (1 :: w_animation Little ex_animation)
  /\ load animation_from_archive Little 7 (firstn 40 (1 :: w_animation Little ex_animation)) = Err (IO 7).
Proof. exact ex_truncated. Qed.

(** C14 *)
Theorem C14_header_required : forall machine kind file,
  Forall (fun x => x < 256) file ->
  (forall a rest, load animation_from_archive machine kind file = Ok (a, rest) ->
     exists b o rest', endian_byte o b /\ file = b :: ascii "ozz-animation" ++ [0] ++ enc o 4 7 ++ rest') /\
  (forall s rest, load skeleton_from_archive machine kind file = Ok (s, rest) ->
     exists b o rest', endian_byte o b /\ file = b :: ascii "ozz-skeleton" ++ [0] ++ enc o 4 2 ++ rest') /\
  (forall k t rest, load (track_from_archive k) machine kind file = Ok (t, rest) ->
     exists b o rest', endian_byte o b /\ file = b :: track_name k ++ [0] ++ enc o 4 1 ++ rest').
Proof. exact header_required. Qed.
Print Assumptions C14_header_required.

Theorem C14_wrong_tag : forall machine kind b s rest,
  text s -> ~ In 0 s ->
  (s <> ascii "ozz-animation" ->
     load animation_from_archive machine kind (b :: s ++ [0] ++ rest) = Err InvalidTag) /\
  (s <> ascii "ozz-skeleton" ->
     load skeleton_from_archive machine kind (b :: s ++ [0] ++ rest) = Err InvalidTag) /\
  (forall k, s <> track_name k ->
     load (track_from_archive k) machine kind (b :: s ++ [0] ++ rest) = Err InvalidTag).
Proof. exact wrong_tag. Qed.
Print Assumptions C14_wrong_tag.

Theorem C14_wrong_version : forall machine kind b o v rest,
  endian_byte o b -> fits 4 v ->
  (v <> 7 -> load animation_from_archive machine kind
     (b :: ascii "ozz-animation" ++ [0] ++ enc o 4 v ++ rest) = Err InvalidVersion) /\
  (v <> 2 -> load skeleton_from_archive machine kind
     (b :: ascii "ozz-skeleton" ++ [0] ++ enc o 4 v ++ rest) = Err InvalidVersion) /\
  (forall k, v <> 1 -> load (track_from_archive k) machine kind
     (b :: track_name k ++ [0] ++ enc o 4 v ++ rest) = Err InvalidVersion).
Proof. exact wrong_version. Qed.
Print Assumptions C14_wrong_version.

Example C14_case :
  load animation_from_archive Little 7 (1 :: w_skeleton Little ex_skeleton) = Err InvalidTag /\
  load animation_from_archive Little 7 (1 :: ascii "ozz-animation" ++ [0; 6; 0; 0; 0]) = Err InvalidVersion /\
  text (ascii "ozz-skeleton") /\ ascii "ozz-skeleton" <> ascii "ozz-animation".
Proof. exact ex_tags. Qed.

(** C15 *)
Theorem C15_meta_agrees : forall machine kind file s rest,
  load skeleton_from_archive machine kind file = Ok (s, rest) ->
  exists rest', load (skeleton_read_meta true) machine kind file =
    Ok ({| sm_num_joints := sk_num_joints s; sm_names := sk_names s; sm_parents := sk_parents s |}, rest').
Proof. exact skeleton_meta_agrees. Qed.
Print Assumptions C15_meta_agrees.

(** The second half is false: the header of an empty skeleton is a complete file for
    [read_meta], but [from_archive] always expects the length of the name block. *)
Theorem C15_empty_refuted : exists file,
  load (skeleton_read_meta true) Little 7 file
    = Ok ({| sm_num_joints := 0; sm_names := []; sm_parents := [] |}, []) /\
  load skeleton_from_archive Little 7 file = Err (IO 7).
Proof. exact empty_skeleton_refuted. Qed.
Print Assumptions C15_empty_refuted.

(** What is true instead: an accepted non-empty meta followed by its rest poses loads. *)
Theorem C15_nonempty_loads : forall machine o kind b file m rest poses rest',
  endian_byte o b ->
  load (skeleton_read_meta true) machine kind (b :: file ++ rest) = Ok (m, rest) ->
  0 < sm_num_joints m ->
  length poses = N.to_nat ((sm_num_joints m + 3) / 4) ->
  Forall (fun p => length p = 40%nat /\ Forall (fits 4) p) poses ->
  load skeleton_from_archive machine kind (b :: file ++ flat_map (flat_map (enc o 4)) poses ++ rest')
  = Ok ({| sk_num_joints := sm_num_joints m; sk_rest_poses := poses; sk_names := sm_names m;
           sk_parents := sm_parents m |}, rest').
Proof. exact meta_then_poses. Qed.
Print Assumptions C15_nonempty_loads.

(** C16 *)
Theorem C16_bijection : forall machine kind file s rest,
  load skeleton_from_archive machine kind file = Ok (s, rest) ->
  forall n i, joint_by_name s n = Some i <-> name_by_joint s i = Some n.
Proof. exact names_bijection. Qed.
Print Assumptions C16_bijection.

(** With any list of names, repeated or not: a name belongs to the last joint carrying it (the
    earlier joints become nameless). *)
Theorem C16_last_owner : forall machine o kind b c rest,
  endian_byte o b -> skeleton_ok c ->
  fits 4 (len (flat_map (fun n => n ++ [0]) (sc_names c))) ->
  exists s, load skeleton_from_archive machine kind (b :: w_skeleton o c ++ rest) = Ok (s, rest) /\
    forall n i, joint_by_name s n = Some i <->
      exists j, i = Z.of_nat j /\ nth_error (sc_names c) j = Some n /\
        forall j', (j < j')%nat -> nth_error (sc_names c) j' <> Some n.
Proof. exact names_last_owner. Qed.
Print Assumptions C16_last_owner.

Example C16_case : skeleton_ok ex_skeleton_dup /\
  nth_error (sc_names ex_skeleton_dup) 0 = nth_error (sc_names ex_skeleton_dup) 2 /\
  fits 4 (len (flat_map (fun n => n ++ [0]) (sc_names ex_skeleton_dup))).
Proof. exact (conj ex_skeleton_dup_ok (conj eq_refl eq_refl)). Qed.

(** C57: loading arbitrary bytes never panics (for a track: unless more than 16 GiB of ratios
    were read, when the u32 addition [key_count + 7] overflows). *)
Theorem C57_loading_never_panics : forall machine kind file,
  load animation_from_archive machine kind file <> Panic /\
  load animation_read_meta machine kind file <> Panic /\
  load skeleton_from_archive machine kind file <> Panic /\
  (forall with_joints, load (skeleton_read_meta with_joints) machine kind file <> Panic) /\
  (forall k, len file < 4 * (2 ^ 32 - 7) -> load (track_from_archive k) machine kind file <> Panic).
Proof. exact loading_never_panics. Qed.
Print Assumptions C57_loading_never_panics.

(** C58: strings: exactly the UTF-8 texts are accepted. *)
Theorem C58_strings_are_text : forall machine kind b s rest,
  ~ In 0 s ->
  (text s <-> load read_string machine kind (b :: s ++ 0 :: rest) = Ok (s, rest)) /\
  (~ text s -> exists n, load read_string machine kind (b :: s ++ 0 :: rest) = Err (Utf8 n)).
Proof. exact strings_are_text. Qed.
Print Assumptions C58_strings_are_text.

Example C58_case : text [195; 169] /\ ~ text [195; 40].
Proof. exact ex_text. Qed.
