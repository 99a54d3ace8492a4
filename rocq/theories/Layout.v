(** Single-allocation layouts of the runtime objects (animation.rs, skeleton.rs,
    sampling_job.rs): sizes, pointer walks, array accessors, and a byte memory.

    Machine words are integers in [0, W) where [W] is 2^64 or 2^32 (wasm); [checks] tells
    whether overflow checks are compiled in (debug) or wrap (release).  Simplification:
    [ptr::add] beyond the address space, undefined in Rust, is modelled as wrapping.  Sizes and
    alignments of the element types are the [repr(C)] ones: f32 4/4, u16 2/2, u8 1/1, u32 4/4,
    i16 2/2, Float3Key and QuaternionKey 6/2 (animation.rs 17-19, 50-52), SoaTransform 160/16
    (math.rs 489-496), InterpSoaFloat3 128/16, InterpSoaQuaternion 160/16
    (sampling_job.rs 18-24, 71-77). *)
From Verif Require Import Base.
Local Open Scope Z_scope.
Local Open Scope res_scope.

(** sampling_job.rs 426-636, animation.rs 655-852: a typed array inside a block, address of element 0, number of elements, element size and
    alignment.  This is what [slice::from_raw_parts(ptr, count)] denotes. *)
Record arr := Arr { a_ptr : Z; a_count : Z; a_size : Z; a_align : Z }.

(** * usize arithmetic
    Rust's, as animation.rs 498-640, skeleton.rs 180-215 and sampling_job.rs 289-353 use it. *)

Definition norm (W : Z) (checks : bool) (x : Z) : res Z :=
  if (0 <=? x) && (x <? W) then Ok x else if checks then Panic else Ok (x mod W).
Definition uadd (W : Z) (checks : bool) (x y : Z) : res Z := norm W checks (x + y).
Definition umul (W : Z) (checks : bool) (x y : Z) : res Z := norm W checks (x * y).

(** animation.rs 226, 562, sampling_job.rs 267, 309, skeleton.rs 45, 192, through [Layout::from_size_align_unchecked]: std's [usize::is_power_of_two] *)
Definition is_pow2 (x : Z) : bool := (0 <? x) && (Z.land x (x - 1) =? 0).

(** base.rs 148-151 [align_usize] *)
Definition align_usize (W : Z) (checks : bool) (size align : Z) : res Z :=
  let* _ := assert_ (is_pow2 align) in
  let* s := uadd W checks size (align - 1) in
  Ok (Z.land s (Z.lnot (align - 1))).

(** base.rs 153-157 [align_ptr]; the second [is_power_of_two] assertion is in [align_usize]. *)
Definition align_ptr (W : Z) (checks : bool) (ptr align : Z) : res Z :=
  let* _ := assert_ (is_pow2 align) in
  align_usize W checks ptr align.

(** sampling_job.rs 310-350, animation.rs 560-640: [ptr.add(n)] on byte pointers *)
Definition padd (W ptr n : Z) : Z := (ptr + n) mod W.

(** * Animation *)

(** Counts of one channel: animation.rs 264-277 (AnimationMeta). *)
Record chan_counts := CC { c_keys : Z; c_entries : Z; c_desc : Z }.
Record anim_counts := AC { n_timepoints : Z; n_t : chan_counts; n_r : chan_counts; n_s : chan_counts }.

(** animation.rs 192-228 [Animation]: pointers of one channel, and of the whole object. *)
Record chan_ptrs := CP { p_keys : Z; p_ratios : Z; p_previouses : Z; p_entries : Z; p_desc : Z }.
Record anim_mem := AM {
  am_size : Z; am_counts : anim_counts; am_timepoints : Z;
  am_t : chan_ptrs; am_r : chan_ptrs; am_s : chan_ptrs }.

Definition F3K_SIZE : Z := 6.
Definition QK_SIZE : Z := 6.

(** animation.rs 532-552: contribution of one channel to the size. *)
Definition chan_size (W : Z) (checks : bool) (key_size size : Z) (c : chan_counts) : res Z :=
  let* a := umul W checks (c_keys c) key_size in
  let* b := umul W checks (c_keys c) 2 in
  let* s1 := uadd W checks a b in
  let* s2 := uadd W checks s1 b in
  let* e := umul W checks (c_entries c) 1 in
  let* s3 := uadd W checks s2 e in
  let* s := uadd W checks size s3 in
  let* s := align_usize W checks s 4 in
  let* d := umul W checks (c_desc c) 4 in
  uadd W checks s d.

(** animation.rs 528-552 *)
Definition anim_size (W : Z) (checks : bool) (m : anim_counts) : res Z :=
  let* s := umul W checks (n_timepoints m) 4 in
  let* s := chan_size W checks F3K_SIZE s (n_t m) in
  let* s := chan_size W checks QK_SIZE s (n_r m) in
  chan_size W checks F3K_SIZE s (n_s m).

(** animation.rs 561-571 (and 573-583, 585-595): the pointer walk over one channel. *)
Definition chan_walk (W : Z) (checks : bool) (key_size ptr : Z) (c : chan_counts)
  : res (chan_ptrs * Z) :=
  let keys := ptr in
  let* n := umul W checks (c_keys c) key_size in
  let ptr := padd W ptr n in
  let ratios := ptr in
  let* n := umul W checks (c_keys c) 2 in
  let ptr := padd W ptr n in
  let previouses := ptr in
  let* n := umul W checks (c_keys c) 2 in
  let ptr := padd W ptr n in
  let entries := ptr in
  let ptr := padd W ptr (c_entries c) in
  let* ptr := align_ptr W checks ptr 4 in
  let desc := ptr in
  let* n := umul W checks (c_desc c) 4 in
  let ptr := padd W ptr n in
  Ok (CP keys ratios previouses entries desc, ptr).

(** animation.rs 490-600 [Animation::new].  [alloc size align] is the address returned by
    [alloc::alloc]; the result is not tested against null. *)
Definition animation_new (W : Z) (checks : bool) (alloc : Z -> Z -> Z) (m : anim_counts)
  : res anim_mem :=
  let* size := anim_size W checks m in
  let base := alloc size 4 in
  let* n := umul W checks (n_timepoints m) 4 in
  let ptr := padd W base n in
  let* (t, ptr) := chan_walk W checks F3K_SIZE ptr (n_t m) in
  let* (r, ptr) := chan_walk W checks QK_SIZE ptr (n_r m) in
  let* (s, ptr) := chan_walk W checks F3K_SIZE ptr (n_s m) in
  let* _ := assert_ (ptr =? padd W base size) in
  Ok (AM size m base t r s).

(** animation.rs 640-860: the slices built by the accessors of one channel (shared and mutable
    versions, and the [*_ctrl] views, use the same pointer and count). *)
Definition chan_arrays (key_size : Z) (c : chan_counts) (p : chan_ptrs) : list arr :=
  [ Arr (p_keys p) (c_keys c) key_size 2;
    Arr (p_ratios p) (c_keys c) 2 2;
    Arr (p_previouses p) (c_keys c) 2 2;
    Arr (p_entries p) (c_entries c) 1 1;
    Arr (p_desc p) (c_desc c) 4 4 ].

Definition anim_arrays (a : anim_mem) : list arr :=
  Arr (am_timepoints a) (n_timepoints (am_counts a)) 4 4
  :: chan_arrays F3K_SIZE (n_t (am_counts a)) (am_t a)
  ++ chan_arrays QK_SIZE (n_r (am_counts a)) (am_r a)
  ++ chan_arrays F3K_SIZE (n_s (am_counts a)) (am_s a).

(** animation.rs 222-236 [Drop]: address, size and alignment given back to the allocator
    ([None] when the pointer is null). *)
Definition anim_dealloc (a : anim_mem) : option (Z * Z * Z) :=
  if am_timepoints a =? 0 then None else Some (am_timepoints a, am_size a, 4).

(** * Skeleton *)

(** skeleton.rs 29-36 [Skeleton] without the names *)
Record skel_mem := SM {
  sm_size : Z; sm_joints : Z; sm_soa : Z; sm_poses : Z; sm_parents : Z }.

(** animation.rs 643, sampling_job.rs 291-293: [u32::div_ceil], [usize::div_ceil] for a non-zero divisor *)
Definition udiv_ceil (x y : Z) : Z := if 0 <? x mod y then x / y + 1 else x / y.

(** skeleton.rs 173-203 [Skeleton::new] *)
Definition skeleton_new (W : Z) (checks : bool) (alloc : Z -> Z -> Z) (joints : Z)
  : res skel_mem :=
  let soa := udiv_ceil joints 4 in
  let* a := umul W checks 160 soa in
  let* b := umul W checks 2 joints in
  let* size := uadd W checks a b in
  let base := alloc size 16 in
  let* n := umul W checks 160 soa in
  let ptr := padd W base n in
  let parents := ptr in
  let* n := umul W checks 2 joints in
  let ptr := padd W ptr n in
  let* _ := assert_ (ptr =? padd W base size) in
  Ok (SM size joints soa base parents).

(** skeleton.rs 226-233, 255-262 *)
Definition skel_arrays (s : skel_mem) : list arr :=
  [ Arr (sm_poses s) (sm_soa s) 160 16; Arr (sm_parents s) (sm_joints s) 2 2 ].

(** skeleton.rs 41-50 [Drop] *)
Definition skel_dealloc (s : skel_mem) : option (Z * Z * Z) :=
  if sm_poses s =? 0 then None else Some (sm_poses s, sm_size s, 16).

(** * SamplingContext *)

(** sampling_job.rs 141-165 [SamplingContextInner]: pointers of one channel *)
Record cchan_ptrs := CCP { q_values : Z; q_entries : Z; q_outdated : Z }.
Record ctx_mem := CM {
  cm_ptr : Z; cm_size : Z; cm_tracks : Z; cm_soa : Z; cm_outdated : Z;
  cm_t : cchan_ptrs; cm_r : cchan_ptrs; cm_s : cchan_ptrs }.

(** sampling_job.rs 17-25, 70-78, 142-164: [size_of::<SamplingContextInner>()], 8 usize/u64 + ratio (padded) + 9 pointers; 144 bytes
    when usize has 8 bytes, 80 when it has 4 (u64 aligned to 8). *)
Definition inner_size (W : Z) : Z := if W =? 2 ^ 64 then 144 else 80.

Definition IF3_SIZE : Z := 128.
Definition IQ_SIZE : Z := 160.

(** sampling_job.rs 294-302: size of one channel *)
Definition cchan_size (W : Z) (checks : bool) (val_size soa tracks outdated : Z) : res Z :=
  let* a := umul W checks val_size soa in
  let* b := umul W checks 4 tracks in
  let* s := uadd W checks a b in
  let* c := umul W checks 1 outdated in
  uadd W checks s c.

(** sampling_job.rs 324-330 (and 332-338, 340-346) *)
Definition cchan_walk (W : Z) (checks : bool) (val_size ptr soa tracks outdated : Z)
  : res (cchan_ptrs * Z) :=
  let values := ptr in
  let* n := umul W checks val_size soa in
  let ptr := padd W ptr n in
  let entries := ptr in
  let* n := umul W checks 4 tracks in
  let ptr := padd W ptr n in
  let out := ptr in
  let ptr := padd W ptr outdated in
  let* ptr := align_ptr W checks ptr 16 in
  Ok (CCP values entries out, ptr).

(** sampling_job.rs 289-351 [SamplingContext::new] *)
Definition context_new (W : Z) (checks : bool) (alloc : Z -> Z -> Z) (max_tracks : Z)
  : res ctx_mem :=
  let soa := udiv_ceil max_tracks 4 in
  let* tracks := umul W checks soa 4 in
  let outdated := udiv_ceil soa 8 in
  let* ts := cchan_size W checks IF3_SIZE soa tracks outdated in
  let* rs := cchan_size W checks IQ_SIZE soa tracks outdated in
  let* ss := cchan_size W checks IF3_SIZE soa tracks outdated in
  let* s0 := align_usize W checks (inner_size W) 16 in
  let* ts := align_usize W checks ts 16 in
  let* size := uadd W checks s0 ts in
  let* rs := align_usize W checks rs 16 in
  let* size := uadd W checks size rs in
  let* ss := align_usize W checks ss 16 in
  let* size := uadd W checks size ss in
  let base := alloc size 16 in
  let ptr := padd W base (inner_size W) in
  let* ptr := align_ptr W checks ptr 16 in
  let* (t, ptr) := cchan_walk W checks IF3_SIZE ptr soa tracks outdated in
  let* (r, ptr) := cchan_walk W checks IQ_SIZE ptr soa tracks outdated in
  let* (s, ptr) := cchan_walk W checks IF3_SIZE ptr soa tracks outdated in
  let* _ := assert_ (ptr =? padd W base size) in
  Ok (CM base size tracks soa outdated t r s).

(** sampling_job.rs 421-600: slices of the accessors; the header is listed as a one-element
    array. *)
Definition cchan_arrays (val_size soa tracks outdated : Z) (p : cchan_ptrs) : list arr :=
  [ Arr (q_values p) soa val_size 16;
    Arr (q_entries p) tracks 4 4;
    Arr (q_outdated p) outdated 1 1 ].

Definition ctx_arrays (W : Z) (c : ctx_mem) : list arr :=
  Arr (cm_ptr c) 1 (inner_size W) 8
  :: cchan_arrays IF3_SIZE (cm_soa c) (cm_tracks c) (cm_outdated c) (cm_t c)
  ++ cchan_arrays IQ_SIZE (cm_soa c) (cm_tracks c) (cm_outdated c) (cm_r c)
  ++ cchan_arrays IF3_SIZE (cm_soa c) (cm_tracks c) (cm_outdated c) (cm_s c).

(** sampling_job.rs 263-273 [Drop] *)
Definition ctx_dealloc (c : ctx_mem) : option (Z * Z * Z) :=
  if cm_ptr c =? 0 then None else Some (cm_ptr c, cm_size c, 16).

(** * Byte memory seen through the slices
    sampling_job.rs 426-636: the slices made of the pointers of the context. *)

Definition mem := Z -> Z.

(** Consecutive addresses [p .. p+n-1]; sampling_job.rs 426-636. *)
Definition addrs (p : Z) (n : nat) : list Z := map (fun i => p + Z.of_nat i) (seq 0 n).

(** sampling_job.rs 426-636: [slice[i]] as an rvalue, the bytes of element [i]; out-of-range indices panic. *)
Definition load (m : mem) (a : arr) (i : Z) : res (list Z) :=
  if (0 <=? i) && (i <? a_count a)
  then Ok (map m (addrs (a_ptr a + i * a_size a) (Z.to_nat (a_size a))))
  else Panic.

(** sampling_job.rs 426-636: [slice[i] = v], [v] given by its bytes. *)
Definition store (m : mem) (a : arr) (i : Z) (v : list Z) : res mem :=
  if (0 <=? i) && (i <? a_count a)
  then Ok (fun p =>
             let o := p - (a_ptr a + i * a_size a) in
             if (0 <=? o) && (o <? a_size a) then nth (Z.to_nat o) v 0 else m p)
  else Panic.
