(** Loaded objects as the jobs see them.  Archive.v keeps what the readers store as raw words; the jobs'
    models keep the same arrays as numbers. *)
From Verif Require Import Base Num NumF32 Math Keys Archive.
From Verif Require Skeleton Sampling Tracks.
Local Open Scope N_scope.

(** animation.rs 21, 54: [Float3Key([u16; 3])], [QuaternionKey([u16; 3])] *)
Definition key_of (l : list N) : key := V3 (nth 0 l 0) (nth 1 l 0) (nth 2 l 0).
(** animation.rs 190-199 (resp. 201-210, 212-221): the control arrays of one channel (u16 and u8 arrays as
    naturals; the f32 of [interval]). *)
Definition ctrl_of (c : channel) : Sampling.ctrl f32 :=
  Sampling.mk_ctrl (map N.to_nat (ch_ratios c)) (map N.to_nat (ch_previouses c)) (ch_entries c) (ch_desc c)
                   (f32_of_bits (ch_interval c)).
(** animation.rs 182-226, 412-427 [Animation], at address [id].  The duration and the name play no part in
    sampling. *)
Definition animation_of (id : N) (a : animation) : Sampling.animation f32 key key :=
  Sampling.mk_anim id (N.to_nat (an_num_tracks a)) (map f32_of_bits (an_timepoints a))
    (ctrl_of (an_t a)) (map key_of (ch_keys (an_t a)))
    (ctrl_of (an_r a)) (map key_of (ch_keys (an_r a)))
    (ctrl_of (an_s a)) (map key_of (ch_keys (an_s a))).

(** math.rs 491-508: [transmute] of the 40 words of a SoaTransform. *)
Definition row_of (l : list N) (i : nat) : V4 f32 :=
  mk4 (f32_of_bits (nth (4 * i) l 0)) (f32_of_bits (nth (4 * i + 1) l 0))
      (f32_of_bits (nth (4 * i + 2) l 0)) (f32_of_bits (nth (4 * i + 3) l 0)).
Definition transform_of (l : list N) : transform (V4 f32) :=
  TR (V3 (row_of l 0) (row_of l 1) (row_of l 2))
     (Q4 (row_of l 3) (row_of l 4) (row_of l 5) (row_of l 6))
     (V3 (row_of l 7) (row_of l 8) (row_of l 9)).
(** skeleton.rs 29-36 [Skeleton] *)
Definition skeleton_of (s : skeleton) : Skeleton.skeleton f32 :=
  Skeleton.mk_skel (map transform_of (sk_rest_poses s)) (sk_parents s).

(** track.rs 117-126 [Track], 27-107: the values of the five kinds.  The name plays no part in sampling. *)
Definition track_of {V} (value : list N -> V) (t : track) : Tracks.ftrack f32 V :=
  Tracks.mk_track (N.to_nat (tr_key_count t)) (map f32_of_bits (tr_ratios t)) (map value (tr_values t)) (tr_steps t).
Definition float_of (l : list N) : f32 := f32_of_bits (nth 0 l 0).
Definition vec_of (l : list N) : list f32 := map f32_of_bits l.
Definition quat_of (l : list N) : quat f32 :=
  Q4 (f32_of_bits (nth 0 l 0)) (f32_of_bits (nth 1 l 0)) (f32_of_bits (nth 2 l 0)) (f32_of_bits (nth 3 l 0)).
