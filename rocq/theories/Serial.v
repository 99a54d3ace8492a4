(** Serialisation of the runtime objects: the raw conversions (animation.rs 424-495, skeleton.rs
    152-171), the serde implementations and the rkyv ones.

    Objects carry bit patterns (f32 as [N]), so equality below is bitwise.  Objects of Archive.v
    are reused: their array lengths play the role of the count fields. *)
From Coq Require Import String.
From Verif Require Import Base Num Math Archive.
From Verif Require Sampling.
Local Open Scope N_scope.
Local Open Scope res_scope.

Definition key (s : string) : list N := ascii_bytes s.

Definition is_key (k : list N) (s : string) : bool := bytes_eqb k (key s).

(** * Raw forms *)

(** animation.rs 430-437: [x as u32] *)
Definition as_u32 (x : N) : N := x mod 2 ^ 32.
Definition llen {A} (l : list A) : N := N.of_nat (length l).

(** animation.rs 442-463, sampling_job.rs 860-892: [dst.copy_from_slice(src)] for a destination of [n] elements: panics on a length mismatch. *)
Definition copy_from_slice {A} (n : N) (src : list A) : res (list A) :=
  if llen src =? n then Ok src else Panic.

(** animation.rs 268-295 [AnimationRaw] *)
Record anim_raw := AnimRaw {
  ra_duration : N; ra_num_tracks : N; ra_name : list N; ra_timepoints : list N;
  ra_translations : list (list N); ra_t_ratios : list N; ra_t_previouses : list N;
  ra_t_interval : N; ra_t_entries : list N; ra_t_desc : list N;
  ra_rotations : list (list N); ra_r_ratios : list N; ra_r_previouses : list N;
  ra_r_interval : N; ra_r_entries : list N; ra_r_desc : list N;
  ra_scales : list (list N); ra_s_ratios : list N; ra_s_previouses : list N;
  ra_s_interval : N; ra_s_entries : list N; ra_s_desc : list N }.

(** animation.rs 467-495 [Animation::to_raw] *)
Definition anim_to_raw (a : animation) : anim_raw :=
  AnimRaw (an_duration a) (an_num_tracks a) (an_name a) (an_timepoints a)
    (ch_keys (an_t a)) (ch_ratios (an_t a)) (ch_previouses (an_t a))
    (ch_interval (an_t a)) (ch_entries (an_t a)) (ch_desc (an_t a))
    (ch_keys (an_r a)) (ch_ratios (an_r a)) (ch_previouses (an_r a))
    (ch_interval (an_r a)) (ch_entries (an_r a)) (ch_desc (an_r a))
    (ch_keys (an_s a)) (ch_ratios (an_s a)) (ch_previouses (an_s a))
    (ch_interval (an_s a)) (ch_entries (an_s a)) (ch_desc (an_s a)).

(** animation.rs 444-449 (and 451-456, 458-463): one channel; the counts are the lengths of the
    key, entry and descriptor vectors (animation.rs 430-439). *)
Definition chan_from_raw (keys : list (list N)) (ratios previouses : list N) (interval : N)
    (entries desc : list N) : res channel :=
  let count := as_u32 (llen keys) in
  let* ks := copy_from_slice count keys in
  let* rs := copy_from_slice count ratios in
  let* ps := copy_from_slice count previouses in
  let* es := copy_from_slice (as_u32 (llen entries)) entries in
  let* ds := copy_from_slice (as_u32 (llen desc)) desc in
  Ok {| ch_ratios := rs; ch_previouses := ps; ch_entries := es; ch_desc := ds;
        ch_interval := interval; ch_keys := ks |}.

(** animation.rs 424-465 [Animation::from_raw] *)
Definition anim_from_raw (r : anim_raw) : res animation :=
  let* tp := copy_from_slice (as_u32 (llen (ra_timepoints r))) (ra_timepoints r) in
  let* t := chan_from_raw (ra_translations r) (ra_t_ratios r) (ra_t_previouses r)
              (ra_t_interval r) (ra_t_entries r) (ra_t_desc r) in
  let* ro := chan_from_raw (ra_rotations r) (ra_r_ratios r) (ra_r_previouses r)
              (ra_r_interval r) (ra_r_entries r) (ra_r_desc r) in
  let* s := chan_from_raw (ra_scales r) (ra_s_ratios r) (ra_s_previouses r)
              (ra_s_interval r) (ra_s_entries r) (ra_s_desc r) in
  Ok {| an_duration := ra_duration r; an_num_tracks := ra_num_tracks r; an_name := ra_name r;
        an_timepoints := tp; an_t := t; an_r := ro; an_s := s |}.

(** skeleton.rs 63-69 [SkeletonRaw] *)
Record skel_raw := SkelRaw { rs_poses : list (list N); rs_parents : list Z; rs_names : bimap }.

(** skeleton.rs 165-171 [Skeleton::to_raw] *)
Definition skel_to_raw (s : skeleton) : skel_raw :=
  SkelRaw (sk_rest_poses s) (sk_parents s) (sk_names s).

(** skeleton.rs 152-163 [Skeleton::from_raw] *)
Definition skel_from_raw (r : skel_raw) : res skeleton :=
  let joints := as_u32 (llen (rs_parents r)) in
  let* poses := copy_from_slice (div_ceil joints 4) (rs_poses r) in
  let* parents := copy_from_slice joints (rs_parents r) in
  Ok {| sk_num_joints := joints; sk_rest_poses := poses; sk_names := rs_names r;
        sk_parents := parents |}.

(** * serde *)

(** math.rs 224-235, 463-475, animation.rs 1076-1082, skeleton.rs 398-404, sampling_job.rs 800-822 and serde's derived code: the calls made on the [Serializer]: integers carry their width in bytes, sequences and maps
    the announced length. *)
Inductive sd :=
| SInt (w : nat) (z : Z)
| SFlt (bits : N)
| SStr (s : list N)
| SSeq (hint : option N) (l : list sd)
| STup (l : list sd)
| SStruct (l : list (list N * sd))
| SMap (hint : option N) (l : list (list N * sd)).

Definition ser_u (w : nat) (n : N) : sd := SInt w (Z.of_N n).
Definition ser_vec {A} (ser : A -> sd) (l : list A) : sd := SSeq (Some (llen l)) (map ser l).
Definition ser_arr {A} (ser : A -> sd) (l : list A) : sd := STup (map ser l).

(** [Float3Key([u16; 3])], [QuaternionKey([u16; 3])]: derived, newtype structs are transparent
    (animation.rs 20-21, 53-54). *)
Definition ser_key (k : list N) : sd := ser_arr (ser_u 2) k.

(** Derived on [AnimationRaw] (animation.rs 269), in field order. *)
Definition ser_anim_raw (r : anim_raw) : sd :=
  SStruct
    [ (key "duration", SFlt (ra_duration r)); (key "num_tracks", ser_u 4 (ra_num_tracks r));
      (key "name", SStr (ra_name r)); (key "timepoints", ser_vec SFlt (ra_timepoints r));
      (key "translations", ser_vec ser_key (ra_translations r));
      (key "t_ratios", ser_vec (ser_u 2) (ra_t_ratios r));
      (key "t_previouses", ser_vec (ser_u 2) (ra_t_previouses r));
      (key "t_iframe_interval", SFlt (ra_t_interval r));
      (key "t_iframe_entries", ser_vec (ser_u 1) (ra_t_entries r));
      (key "t_iframe_desc", ser_vec (ser_u 4) (ra_t_desc r));
      (key "rotations", ser_vec ser_key (ra_rotations r));
      (key "r_ratios", ser_vec (ser_u 2) (ra_r_ratios r));
      (key "r_previouses", ser_vec (ser_u 2) (ra_r_previouses r));
      (key "r_iframe_interval", SFlt (ra_r_interval r));
      (key "r_iframe_entries", ser_vec (ser_u 1) (ra_r_entries r));
      (key "r_iframe_desc", ser_vec (ser_u 4) (ra_r_desc r));
      (key "scales", ser_vec ser_key (ra_scales r));
      (key "s_ratios", ser_vec (ser_u 2) (ra_s_ratios r));
      (key "s_previouses", ser_vec (ser_u 2) (ra_s_previouses r));
      (key "s_iframe_interval", SFlt (ra_s_interval r));
      (key "s_iframe_entries", ser_vec (ser_u 1) (ra_s_entries r));
      (key "s_iframe_desc", ser_vec (ser_u 4) (ra_s_desc r)) ].

(** animation.rs 1076-1081 *)
Definition ser_animation (a : animation) : sd := ser_anim_raw (anim_to_raw a).

(** A list cut in [n] pieces of [k] elements. *)
Fixpoint chunk {A} (k n : nat) (l : list A) : list (list A) :=
  match n with O => [] | S n' => firstn k l :: chunk k n' (skipn k l) end.

(** math.rs 226-234, 465-474: the four lanes of each component, as arrays.  Both announce three
    elements; the quaternion one writes four. *)
Definition ser_soa_vec3 (rows : list (list N)) : sd := SSeq (Some 3) (map (ser_arr SFlt) rows).
Definition ser_soa_quat (rows : list (list N)) : sd := SSeq (Some 3) (map (ser_arr SFlt) rows).

(** Derived on SoaTransform (math.rs 491-496): 40 f32 in memory order. *)
Definition ser_transform (l : list N) : sd :=
  let rows := chunk 4 10 l in
  SStruct [ (key "translation", ser_soa_vec3 (firstn 3 rows));
            (key "rotation", ser_soa_quat (firstn 4 (skipn 3 rows)));
            (key "scale", ser_soa_vec3 (skipn 7 rows)) ].

(** Derived on SkeletonRaw (skeleton.rs 64); bimap's [collect_map].  The iteration order of the
    map is the list order. *)
Definition ser_skel_raw (r : skel_raw) : sd :=
  SStruct [ (key "joint_rest_poses", ser_vec ser_transform (rs_poses r));
            (key "joint_parents", ser_vec (SInt 2) (rs_parents r));
            (key "joint_names", SMap (Some (llen (rs_names r)))
                                  (map (fun p => (fst p, SInt 2 (snd p))) (rs_names r))) ].
(** skeleton.rs 398-403 *)
Definition ser_skeleton (s : skeleton) : sd := ser_skel_raw (skel_to_raw s).

(** Derived on [Track] (track.rs 117-126); a value is its components, glam writes a tuple struct
    (f32 itself for scalar tracks). *)
Definition ser_track_value (k : track_kind) (v : list N) : sd :=
  match k with TFloat => SFlt (nth 0 v 0) | _ => ser_arr SFlt v end.
Definition ser_track (k : track_kind) (t : track) : sd :=
  SStruct [ (key "key_count", ser_u 4 (tr_key_count t)); (key "ratios", ser_vec SFlt (tr_ratios t));
            (key "values", ser_vec (ser_track_value k) (tr_values t));
            (key "steps", ser_vec (ser_u 1) (tr_steps t)); (key "name", SStr (tr_name t)) ].

(** sampling_job.rs 142-164: the sampling context over bit patterns. *)
Definition ctx := Sampling.context N.
Definition lanes (v : V4 N) : list N := [l0 v; l1 v; l2 v; l3 v].
Definition rows3 (v : vec3 (V4 N)) : list (list N) := [lanes (vx v); lanes (vy v); lanes (vz v)].
Definition rowsq (q : quat (V4 N)) : list (list N) :=
  [lanes (qx q); lanes (qy q); lanes (qz q); lanes (qw q)].
(** sampling_job.rs 123-139 [serde_interp] for [ratio]; derived for the struct (lines 20-25). *)
Definition ser_interp {V} (rows : V -> list (list N)) (i : Sampling.interp N V) : sd :=
  SStruct [ (key "ratio", SSeq (Some 2) [ser_arr SFlt (lanes (Sampling.ir0 i)); ser_arr SFlt (lanes (Sampling.ir1 i))]);
            (key "value", STup [ser_soa_vec3 (rows (Sampling.iv0 i)); ser_soa_vec3 (rows (Sampling.iv1 i))]) ].

Definition ser_n (w : nat) (n : nat) : sd := SInt w (Z.of_nat n).

(** sampling_job.rs 799-822: [size] is not read back, any value stands for it. *)
Definition ser_context (size : N) (c : ctx) : sd :=
  let soa := Sampling.cx_max_soa c in
  SMap None
    [ (key "size", ser_u 8 size); (key "max_tracks", ser_n 8 (4 * soa));
      (key "max_soa_tracks", ser_n 8 soa); (key "max_outdated", ser_n 8 (Sampling.div_ceil soa 8));
      (key "animation_id", ser_u 8 (Sampling.cx_id c)); (key "ratio", SFlt (Sampling.cx_ratio c));
      (key "translations", ser_vec (ser_interp rows3) (Sampling.ch_values (Sampling.cx_t c)));
      (key "rotations", ser_vec (ser_interp rowsq) (Sampling.ch_values (Sampling.cx_r c)));
      (key "scales", ser_vec (ser_interp rows3) (Sampling.ch_values (Sampling.cx_s c)));
      (key "translation_entries", ser_vec (ser_n 4) (Sampling.ch_entries (Sampling.cx_t c)));
      (key "translation_outdated", ser_vec (ser_u 1) (Sampling.ch_outdated (Sampling.cx_t c)));
      (key "translation_next", ser_n 8 (Sampling.ch_next (Sampling.cx_t c)));
      (key "rotation_entries", ser_vec (ser_n 4) (Sampling.ch_entries (Sampling.cx_r c)));
      (key "rotation_outdated", ser_vec (ser_u 1) (Sampling.ch_outdated (Sampling.cx_r c)));
      (key "rotation_next", ser_n 8 (Sampling.ch_next (Sampling.cx_r c)));
      (key "scale_entries", ser_vec (ser_n 4) (Sampling.ch_entries (Sampling.cx_s c)));
      (key "scale_outdated", ser_vec (ser_u 1) (Sampling.ch_outdated (Sampling.cx_s c)));
      (key "scale_next", ser_n 8 (Sampling.ch_next (Sampling.cx_s c))) ].

(** ** JSON (serde_json) *)

Inductive json :=
| JNull | JInt (z : Z) | JFlt (bits : N) | JStr (s : list N)
| JArr (l : list json) | JObj (l : list (list N * json)).

(** A binary32 bit pattern that is neither infinite nor NaN. *)
Definition finite_bits (b : N) : bool := (b <? 2 ^ 32) && negb ((b / 2 ^ 23) mod 256 =? 255).

(** serde_json's Serializer: announced lengths are ignored, tuples and sequences are arrays,
    structs and maps objects, non-finite floats [null].  Printing and parsing of text are
    trusted to keep integers, strings and finite f32 values. *)
Fixpoint to_json (d : sd) : json :=
  match d with
  | SInt _ z => JInt z
  | SFlt b => if finite_bits b then JFlt b else JNull
  | SStr s => JStr s
  | SSeq _ l => JArr (map to_json l)
  | STup l => JArr (map to_json l)
  | SStruct l => JObj (map (fun p => (fst p, to_json (snd p))) l)
  | SMap _ l => JObj (map (fun p => (fst p, to_json (snd p))) l)
  end.

Definition obind {A B} (x : option A) (f : A -> option B) : option B :=
  match x with Some a => f a | None => None end.
Notation "'do' x <- e ;; f" := (obind e (fun x => f))
  (at level 200, x pattern, e at level 100, f at level 200, right associativity).

Fixpoint omap {A B} (f : A -> option B) (l : list A) : option (list B) :=
  match l with [] => Some [] | x :: t => do y <- f x ;; do ys <- omap f t ;; Some (y :: ys) end.

(** Deserialisers of the primitive types, [None] being an error. *)
Definition de_u (w : nat) (j : json) : option N :=
  match j with
  | JInt z => if ((0 <=? z) && (z <? 2 ^ (8 * Z.of_nat w)))%Z then Some (Z.to_N z) else None
  | _ => None end.
Definition de_n (w : nat) (j : json) : option nat := do x <- de_u w j ;; Some (N.to_nat x).
Definition de_i16 (j : json) : option Z :=
  match j with JInt z => if ((-32768 <=? z) && (z <? 32768))%Z then Some z else None | _ => None end.
Definition de_f (j : json) : option N := match j with JFlt b => Some b | _ => None end.
Definition de_str (j : json) : option (list N) := match j with JStr s => Some s | _ => None end.
(** [Vec<T>] *)
Definition de_vec {A} (de : json -> option A) (j : json) : option (list A) :=
  match j with JArr l => omap de l | _ => None end.
(** [[T; n]]: exactly [n] elements *)
Definition de_arr {A} (n : nat) (de : json -> option A) (j : json) : option (list A) :=
  match j with JArr l => if Nat.eqb (length l) n then omap de l else None | _ => None end.

(** animation.rs 269-292, skeleton.rs 64-69, track.rs 118-127.  Derived struct deserialisation: fields by name, in any order, unknown names ignored, a
    missing or repeated field is an error. *)
Definition field {A} (name : list N) (de : json -> option A) (j : json) : option A :=
  match j with
  | JObj l => match filter (fun p => bytes_eqb (fst p) name) l with
              | [p] => de (snd p) | _ => None end
  | _ => None
  end.

Definition de_key : json -> option (list N) := de_arr 3 (de_u 2).

Definition de_anim_raw (j : json) : option anim_raw :=
  do f1 <- field (key "duration") de_f j ;;
  do f2 <- field (key "num_tracks") (de_u 4) j ;;
  do f3 <- field (key "name") de_str j ;;
  do f4 <- field (key "timepoints") (de_vec de_f) j ;;
  do t1 <- field (key "translations") (de_vec de_key) j ;;
  do t2 <- field (key "t_ratios") (de_vec (de_u 2)) j ;;
  do t3 <- field (key "t_previouses") (de_vec (de_u 2)) j ;;
  do t4 <- field (key "t_iframe_interval") de_f j ;;
  do t5 <- field (key "t_iframe_entries") (de_vec (de_u 1)) j ;;
  do t6 <- field (key "t_iframe_desc") (de_vec (de_u 4)) j ;;
  do r1 <- field (key "rotations") (de_vec de_key) j ;;
  do r2 <- field (key "r_ratios") (de_vec (de_u 2)) j ;;
  do r3 <- field (key "r_previouses") (de_vec (de_u 2)) j ;;
  do r4 <- field (key "r_iframe_interval") de_f j ;;
  do r5 <- field (key "r_iframe_entries") (de_vec (de_u 1)) j ;;
  do r6 <- field (key "r_iframe_desc") (de_vec (de_u 4)) j ;;
  do s1 <- field (key "scales") (de_vec de_key) j ;;
  do s2 <- field (key "s_ratios") (de_vec (de_u 2)) j ;;
  do s3 <- field (key "s_previouses") (de_vec (de_u 2)) j ;;
  do s4 <- field (key "s_iframe_interval") de_f j ;;
  do s5 <- field (key "s_iframe_entries") (de_vec (de_u 1)) j ;;
  do s6 <- field (key "s_iframe_desc") (de_vec (de_u 4)) j ;;
  Some (AnimRaw f1 f2 f3 f4 t1 t2 t3 t4 t5 t6 r1 r2 r3 r4 r5 r6 s1 s2 s3 s4 s5 s6).

(** animation.rs 1083-1088: [None] is a serde error; [from_raw] may panic. *)
Definition de_animation (j : json) : option (res animation) :=
  do r <- de_anim_raw j ;; Some (anim_from_raw r).

(** math.rs 236-241, 476-481: arrays of arrays *)
Definition de_soa_vec3 : json -> option (list (list N)) := de_arr 3 (de_arr 4 de_f).
Definition de_soa_quat : json -> option (list (list N)) := de_arr 4 (de_arr 4 de_f).

Definition de_transform (j : json) : option (list N) :=
  do t <- field (key "translation") de_soa_vec3 j ;;
  do r <- field (key "rotation") de_soa_quat j ;;
  do s <- field (key "scale") de_soa_vec3 j ;;
  Some (List.concat (t ++ r ++ s)).

(** bimap's map visitor: [insert] each pair in document order. *)
Definition de_bimap (j : json) : option bimap :=
  match j with
  | JObj l => do ps <- omap (fun p => do v <- de_i16 (snd p) ;; Some (fst p, v)) l ;;
              Some (fold_left (fun m p => bimap_insert m (fst p) (snd p)) ps [])
  | _ => None
  end.

Definition de_skel_raw (j : json) : option skel_raw :=
  do a <- field (key "joint_rest_poses") (de_vec de_transform) j ;;
  do b <- field (key "joint_parents") (de_vec de_i16) j ;;
  do c <- field (key "joint_names") de_bimap j ;;
  Some (SkelRaw a b c).
(** skeleton.rs 405-410 *)
Definition de_skeleton (j : json) : option (res skeleton) :=
  do r <- de_skel_raw j ;; Some (skel_from_raw r).

Definition track_width (k : track_kind) : nat :=
  match k with TFloat => 1 | TFloat2 => 2 | TFloat3 => 3 | TFloat4 => 4 | TQuat => 4 end.
Definition de_track_value (k : track_kind) (j : json) : option (list N) :=
  match k with
  | TFloat => do x <- de_f j ;; Some [x]
  | _ => de_arr (track_width k) de_f j end.
Definition de_track (k : track_kind) (j : json) : option track :=
  do a <- field (key "key_count") (de_u 4) j ;;
  do b <- field (key "ratios") (de_vec de_f) j ;;
  do c <- field (key "values") (de_vec (de_track_value k)) j ;;
  do d <- field (key "steps") (de_vec (de_u 1)) j ;;
  do e <- field (key "name") de_str j ;;
  Some {| tr_key_count := a; tr_ratios := b; tr_values := c; tr_steps := d; tr_name := e |}.

Definition row (l : list N) : V4 N := mk4 (nth 0 l 0) (nth 1 l 0) (nth 2 l 0) (nth 3 l 0).
Definition de_v3 (j : json) : option (vec3 (V4 N)) :=
  do l <- de_soa_vec3 j ;; Some (V3 (row (nth 0 l [])) (row (nth 1 l [])) (row (nth 2 l []))).
Definition de_q (j : json) : option (quat (V4 N)) :=
  do l <- de_soa_quat j ;;
  Some (Q4 (row (nth 0 l [])) (row (nth 1 l [])) (row (nth 2 l [])) (row (nth 3 l []))).
(** sampling_job.rs 136-139 and derived *)
Definition de_interp {V} (d : V) (de : json -> option V) (j : json) : option (Sampling.interp N V) :=
  do r <- field (key "ratio") (de_arr 2 (de_arr 4 de_f)) j ;;
  do v <- field (key "value") (de_arr 2 de) j ;;
  Some (Sampling.mk_interp (row (nth 0 r [])) (row (nth 1 r [])) (nth 0 v d) (nth 1 v d)).

(** sampling_job.rs 839-899.  Outcome of the context visitor: a serde error, a panic ([copy_from_slice]) or a context. *)
Definition vres A := option (res A).
Definition vbind {A B} (x : vres A) (f : A -> vres B) : vres B :=
  match x with Some (Ok a) => f a | Some Panic => Some Panic | Some (Err e) => Some (Err e) | None => None end.
Definition lift {A} (x : option A) : vres A := match x with Some a => Some (Ok a) | None => None end.

Definition map_t (f : Sampling.chan N (vec3 (V4 N)) -> Sampling.chan N (vec3 (V4 N))) (c : ctx) : ctx :=
  Sampling.mk_ctx (Sampling.cx_max_soa c) (Sampling.cx_id c) (Sampling.cx_ratio c)
    (f (Sampling.cx_t c)) (Sampling.cx_r c) (Sampling.cx_s c).
Definition map_r (f : Sampling.chan N (quat (V4 N)) -> Sampling.chan N (quat (V4 N))) (c : ctx) : ctx :=
  Sampling.mk_ctx (Sampling.cx_max_soa c) (Sampling.cx_id c) (Sampling.cx_ratio c)
    (Sampling.cx_t c) (f (Sampling.cx_r c)) (Sampling.cx_s c).
Definition map_s (f : Sampling.chan N (vec3 (V4 N)) -> Sampling.chan N (vec3 (V4 N))) (c : ctx) : ctx :=
  Sampling.mk_ctx (Sampling.cx_max_soa c) (Sampling.cx_id c) (Sampling.cx_ratio c)
    (Sampling.cx_t c) (Sampling.cx_r c) (f (Sampling.cx_s c)).
Definition with_values {V} (l : list (Sampling.interp N V)) (c : Sampling.chan N V) :=
  Sampling.mk_chan (Sampling.ch_entries c) (Sampling.ch_outdated c) (Sampling.ch_next c) l.
Definition with_entries {V} (l : list nat) (c : Sampling.chan N V) :=
  Sampling.mk_chan l (Sampling.ch_outdated c) (Sampling.ch_next c) (Sampling.ch_values c).
Definition with_outdated {V} (l : list N) (c : Sampling.chan N V) :=
  Sampling.mk_chan (Sampling.ch_entries c) l (Sampling.ch_next c) (Sampling.ch_values c).
Definition with_next {V} (n : nat) (c : Sampling.chan N V) :=
  Sampling.mk_chan (Sampling.ch_entries c) (Sampling.ch_outdated c) n (Sampling.ch_values c).

Definition zero3 : vec3 (V4 N) := let z := mk4 0 0 0 0 in V3 z z z.
Definition zeroq : quat (V4 N) := let z := mk4 0 0 0 0 in Q4 z z z z.

(** sampling_job.rs 859-892: [ctx.X_mut().copy_from_slice(&map.next_value::<Vec<T>>()?)] *)
Definition copied {A} (n : nat) (x : option (list A)) : vres (list A) :=
  match x with Some l => Some (copy_from_slice (N.of_nat n) l) | None => None end.

(** sampling_job.rs 854-899: one entry of the second loop. *)
Definition visit_entry (c : ctx) (k : list N) (v : json) : vres ctx :=
  let soa := Sampling.cx_max_soa c in
  let out := Sampling.div_ceil soa 8 in
  if is_key k "animation_id" then
    vbind (lift (de_u 8 v)) (fun i => Some (Ok (Sampling.mk_ctx soa i (Sampling.cx_ratio c)
      (Sampling.cx_t c) (Sampling.cx_r c) (Sampling.cx_s c))))
  else if is_key k "ratio" then
    vbind (lift (de_f v)) (fun x => Some (Ok (Sampling.mk_ctx soa (Sampling.cx_id c) x
      (Sampling.cx_t c) (Sampling.cx_r c) (Sampling.cx_s c))))
  else if is_key k "translations" then
    vbind (copied soa (de_vec (de_interp zero3 de_v3) v)) (fun l => Some (Ok (map_t (with_values l) c)))
  else if is_key k "translation_entries" then
    vbind (copied (4 * soa) (de_vec (de_n 4) v)) (fun l => Some (Ok (map_t (with_entries l) c)))
  else if is_key k "translation_outdated" then
    vbind (copied out (de_vec (de_u 1) v)) (fun l => Some (Ok (map_t (with_outdated l) c)))
  else if is_key k "translation_next" then
    vbind (lift (de_n 8 v)) (fun x => Some (Ok (map_t (with_next x) c)))
  else if is_key k "rotations" then
    vbind (copied soa (de_vec (de_interp zeroq de_q) v)) (fun l => Some (Ok (map_r (with_values l) c)))
  else if is_key k "rotation_entries" then
    vbind (copied (4 * soa) (de_vec (de_n 4) v)) (fun l => Some (Ok (map_r (with_entries l) c)))
  else if is_key k "rotation_outdated" then
    vbind (copied out (de_vec (de_u 1) v)) (fun l => Some (Ok (map_r (with_outdated l) c)))
  else if is_key k "rotation_next" then
    vbind (lift (de_n 8 v)) (fun x => Some (Ok (map_r (with_next x) c)))
  else if is_key k "scales" then
    vbind (copied soa (de_vec (de_interp zero3 de_v3) v)) (fun l => Some (Ok (map_s (with_values l) c)))
  else if is_key k "scale_entries" then
    vbind (copied (4 * soa) (de_vec (de_n 4) v)) (fun l => Some (Ok (map_s (with_entries l) c)))
  else if is_key k "scale_outdated" then
    vbind (copied out (de_vec (de_u 1) v)) (fun l => Some (Ok (map_s (with_outdated l) c)))
  else if is_key k "scale_next" then
    vbind (lift (de_n 8 v)) (fun x => Some (Ok (map_s (with_next x) c)))
  else Some (Ok c).

Fixpoint visit_rest (c : ctx) (l : list (list N * json)) : vres ctx :=
  match l with
  | [] => Some (Ok c)
  | (k, v) :: t => vbind (visit_entry c k v) (fun c' => visit_rest c' t)
  end.

(** sampling_job.rs 839-852: skip everything up to [max_tracks], allocate, then fill.  [fresh n]
    is the context [SamplingContext::new(n)] returns, whose arrays hold arbitrary bytes. *)
Fixpoint visit_map (fresh : nat -> ctx) (l : list (list N * json)) : vres ctx :=
  match l with
  | [] => None
  | (k, v) :: t =>
      if bytes_eqb k (key "max_tracks")
      then vbind (lift (de_n 8 v)) (fun n => visit_rest (fresh n) t)
      else visit_map fresh t
  end.
Definition de_context (fresh : nat -> ctx) (j : json) : vres ctx :=
  match j with JObj l => visit_map fresh l | _ => None end.

(** ** MessagePack (rmp-serde): arrays and maps are preceded by the announced length, structs are
    arrays of their values. *)
Inductive tok := TInt (z : Z) | TFlt (b : N) | TStr (s : list N) | TArr (n : N) | TMap (n : N).

Fixpoint to_msgpack (d : sd) : list tok :=
  match d with
  | SInt _ z => [TInt z]
  | SFlt b => [TFlt b]
  | SStr s => [TStr s]
  | SSeq h l => TArr (match h with Some n => n | None => llen l end) :: flat_map to_msgpack l
  | STup l => TArr (llen l) :: flat_map to_msgpack l
  | SStruct l => TArr (llen l) :: flat_map (fun p => to_msgpack (snd p)) l
  | SMap h l => TMap (match h with Some n => n | None => llen l end)
                :: flat_map (fun p => TStr (fst p) :: to_msgpack (snd p)) l
  end.

(** Decoders return the value and the remaining tokens.  An array of [n] elements: the header must
    announce [n]; elements are then read one by one. *)
Definition mdec A := list tok -> option (A * list tok).
Definition m_f : mdec N := fun ts => match ts with TFlt b :: r => Some (b, r) | _ => None end.
Fixpoint m_times {A} (n : nat) (d : mdec A) : mdec (list A) := fun ts =>
  match n with
  | O => Some ([], ts)
  | S n' => do (x, r) <- d ts ;; do (xs, r') <- m_times n' d r ;; Some (x :: xs, r')
  end.
Definition m_arr {A} (n : nat) (d : mdec A) : mdec (list A) := fun ts =>
  match ts with
  | TArr m :: r => if m =? N.of_nat n then m_times n d r else None
  | _ => None
  end.
Definition m_soa_vec3 : mdec (list (list N)) := m_arr 3 (m_arr 4 m_f).
Definition m_soa_quat : mdec (list (list N)) := m_arr 4 (m_arr 4 m_f).

(** ** bincode: fixed-width little endian; sequences are preceded by their u64 length (which must
    be announced), arrays, tuples and structs have no header. *)
Fixpoint bin_bytes (w : nat) (x : N) : list N :=
  match w with O => [] | S w' => (x mod 256) :: bin_bytes w' (x / 256) end.

Fixpoint to_bincode (d : sd) : option (list N) :=
  match d with
  | SInt w z => Some (bin_bytes w (Z.to_N (z mod 2 ^ (8 * Z.of_nat w))))
  | SFlt b => Some (bin_bytes 4 b)
  | SStr s => Some (bin_bytes 8 (llen s) ++ s)
  | SSeq None _ => None
  | SSeq (Some h) l =>
      do bs <- (fix go (l : list sd) := match l with
                | [] => Some []
                | x :: t => do b <- to_bincode x ;; do bs <- go t ;; Some (b ++ bs) end) l ;;
      Some (bin_bytes 8 h ++ bs)
  | STup l =>
      (fix go (l : list sd) := match l with
                | [] => Some []
                | x :: t => do b <- to_bincode x ;; do bs <- go t ;; Some (b ++ bs) end) l
  | SStruct l =>
      (fix go (l : list (list N * sd)) := match l with
                | [] => Some []
                | (_, x) :: t => do b <- to_bincode x ;; do bs <- go t ;; Some (b ++ bs) end) l
  | SMap None _ => None
  | SMap (Some h) l =>
      do bs <- (fix go (l : list (list N * sd)) := match l with
                | [] => Some []
                | (k, x) :: t => do b <- to_bincode x ;; do bs <- go t ;;
                                 Some (bin_bytes 8 (llen k) ++ k ++ b ++ bs) end) l ;;
      Some (bin_bytes 8 h ++ bs)
  end.

Definition of_le (l : list N) : N := fold_right (fun b acc => b + 256 * acc) 0 l.
Definition bdec A := list N -> option (A * list N).
Definition b_f : bdec N := fun bs =>
  match bs with a :: b :: c :: d :: r => Some (of_le [a; b; c; d], r) | _ => None end.
Fixpoint b_times {A} (n : nat) (d : bdec A) : bdec (list A) := fun bs =>
  match n with
  | O => Some ([], bs)
  | S n' => do (x, r) <- d bs ;; do (xs, r') <- b_times n' d r ;; Some (x :: xs, r')
  end.
(** math.rs 236-241: [[[f32; 4]; 3]] *)
Definition b_soa_vec3 : bdec (list (list N)) := b_times 3 (b_times 4 b_f).

(** * rkyv *)

(** animation.rs 1022-1024 (and 1037-1039, 1052-1054): [for (idx, t) in keys.iter().enumerate()
    { animation.keys_mut()[idx] = t }] into a buffer [old]. *)
Fixpoint store_all {A} (idx : nat) (src : list A) (dst : list A) : res (list A) :=
  match src with
  | [] => Ok dst
  | x :: t => let* dst' := set dst idx x in store_all (S idx) t dst'
  end.

(** animation.rs 1022-1033 (and the other channels); [old] is the uninitialised key buffer, of
    [as_u32 (llen keys)] elements. *)
Definition chan_from_rkyv (old : N -> list (list N)) (keys : list (list N)) (ratios previouses : list N)
    (interval : N) (entries desc : list N) : res channel :=
  let count := as_u32 (llen keys) in
  let* ks := store_all 0 keys (old count) in
  let* rs := copy_from_slice count ratios in
  let* ps := copy_from_slice count previouses in
  let* es := copy_from_slice (as_u32 (llen entries)) entries in
  let* ds := copy_from_slice (as_u32 (llen desc)) desc in
  Ok {| ch_ratios := rs; ch_previouses := ps; ch_entries := es; ch_desc := ds;
        ch_interval := interval; ch_keys := ks |}.

(** animation.rs 922-995 [resolve]/[serialize]: the archived form has the fields of the raw one;
    animation.rs 997-1068 [deserialize]. *)
Definition anim_from_rkyv (old : N -> list (list N)) (r : anim_raw) : res animation :=
  let* tp := copy_from_slice (as_u32 (llen (ra_timepoints r))) (ra_timepoints r) in
  let* t := chan_from_rkyv old (ra_translations r) (ra_t_ratios r) (ra_t_previouses r)
              (ra_t_interval r) (ra_t_entries r) (ra_t_desc r) in
  let* ro := chan_from_rkyv old (ra_rotations r) (ra_r_ratios r) (ra_r_previouses r)
              (ra_r_interval r) (ra_r_entries r) (ra_r_desc r) in
  let* s := chan_from_rkyv old (ra_scales r) (ra_s_ratios r) (ra_s_previouses r)
              (ra_s_interval r) (ra_s_entries r) (ra_s_desc r) in
  Ok {| an_duration := ra_duration r; an_num_tracks := ra_num_tracks r; an_name := ra_name r;
        an_timepoints := tp; an_t := t; an_r := ro; an_s := s |}.
Definition anim_to_rkyv (a : animation) : anim_raw := anim_to_raw a.

(** skeleton.rs 313-318 [ArchivedSkeleton], 333-361 *)
Record skel_rkyv := SkelRkyv { rk_joints : N; rk_raw : skel_raw }.
Definition skel_to_rkyv (s : skeleton) : skel_rkyv := SkelRkyv (sk_num_joints s) (skel_to_raw s).
(** skeleton.rs 363-392 *)
Definition skel_from_rkyv (r : skel_rkyv) : res skeleton :=
  let* poses := copy_from_slice (div_ceil (rk_joints r) 4) (rs_poses (rk_raw r)) in
  let names := fold_left (fun m p => bimap_insert m (fst p) (snd p)) (rs_names (rk_raw r)) [] in
  let* parents := copy_from_slice (rk_joints r) (rs_parents (rk_raw r)) in
  Ok {| sk_num_joints := rk_joints r; sk_rest_poses := poses; sk_names := names;
        sk_parents := parents |}.

(** sampling_job.rs 642-661 [ArchivedSamplingContext]: track count and cursors are u32
    (rkyv archives a usize as a 32-bit integer, truncating). *)
Record ctx_rkyv := CtxRkyv {
  xr_tracks : N; xr_id : N; xr_ratio : N;
  xr_t : Sampling.chan N (vec3 (V4 N)); xr_t_next : N;
  xr_r : Sampling.chan N (quat (V4 N)); xr_r_next : N;
  xr_s : Sampling.chan N (vec3 (V4 N)); xr_s_next : N }.
(** sampling_job.rs 689-747 *)
Definition ctx_to_rkyv (c : ctx) : ctx_rkyv :=
  CtxRkyv (as_u32 (N.of_nat (4 * Sampling.cx_max_soa c))) (Sampling.cx_id c) (Sampling.cx_ratio c)
    (Sampling.cx_t c) (as_u32 (N.of_nat (Sampling.ch_next (Sampling.cx_t c))))
    (Sampling.cx_r c) (as_u32 (N.of_nat (Sampling.ch_next (Sampling.cx_r c))))
    (Sampling.cx_s c) (as_u32 (N.of_nat (Sampling.ch_next (Sampling.cx_s c)))).
Definition chan_from_ctx_rkyv {V} (soa : nat) (c : Sampling.chan N V) (next : N) : res (Sampling.chan N V) :=
  let* vs := copy_from_slice (N.of_nat soa) (Sampling.ch_values c) in
  let* es := copy_from_slice (N.of_nat (4 * soa)) (Sampling.ch_entries c) in
  let* os := copy_from_slice (N.of_nat (Sampling.div_ceil soa 8)) (Sampling.ch_outdated c) in
  Ok (Sampling.mk_chan es os (N.to_nat next) vs).
(** sampling_job.rs 749-778; the order in which the slices are checked is simplified to one
    channel after the other (all mismatches panic). *)
Definition ctx_from_rkyv (x : ctx_rkyv) : res ctx :=
  let soa := Sampling.div_ceil (N.to_nat (xr_tracks x)) 4 in
  let* t := chan_from_ctx_rkyv soa (xr_t x) (xr_t_next x) in
  let* r := chan_from_ctx_rkyv soa (xr_r x) (xr_r_next x) in
  let* s := chan_from_ctx_rkyv soa (xr_s x) (xr_s_next x) in
  Ok (Sampling.mk_ctx soa (xr_id x) (xr_ratio x) t r s).
