(** What "an equal object comes back" means, and which objects exist at run time. *)
From Coq Require Import Permutation.
From Verif Require Import Base Num Math Archive ArchiveSpec Serial.
From Verif Require Sampling.
Local Open Scope N_scope.

(** ** Animations *)

(** Arrays of the lengths an allocated animation has: one ratio and one link per key, counts that
    fit the u32 count fields. *)
Definition chan_shape (c : channel) : Prop :=
  length (ch_ratios c) = length (ch_keys c) /\
  length (ch_previouses c) = length (ch_keys c) /\
  fits 4 (len (ch_keys c)) /\ fits 4 (len (ch_entries c)) /\ fits 4 (len (ch_desc c)).
Definition anim_shape (a : animation) : Prop :=
  fits 4 (len (an_timepoints a)) /\ chan_shape (an_t a) /\ chan_shape (an_r a) /\ chan_shape (an_s a).

(** Values of the declared Rust types. *)
Definition is_key3 (k : list N) : Prop := length k = 3%nat /\ Forall (fits 2) k.
Definition chan_typed (c : channel) : Prop :=
  Forall is_key3 (ch_keys c) /\ Forall (fits 2) (ch_ratios c) /\ Forall (fits 2) (ch_previouses c) /\
  Forall (fits 1) (ch_entries c) /\ Forall (fits 4) (ch_desc c) /\ fits 4 (ch_interval c).
Definition anim_typed (a : animation) : Prop :=
  fits 4 (an_duration a) /\ fits 4 (an_num_tracks a) /\ Forall (fits 4) (an_timepoints a) /\
  chan_typed (an_t a) /\ chan_typed (an_r a) /\ chan_typed (an_s a).

(** A finite f32: sign, exponent below 255, mantissa. *)
Definition finite (b : N) : Prop :=
  exists sign expo mant, sign < 2 /\ expo < 255 /\ mant < 2 ^ 23 /\
    b = sign * 2 ^ 31 + expo * 2 ^ 23 + mant.
Definition anim_finite (a : animation) : Prop :=
  finite (an_duration a) /\ Forall finite (an_timepoints a) /\
  finite (ch_interval (an_t a)) /\ finite (ch_interval (an_r a)) /\ finite (ch_interval (an_s a)).

(** ** Skeletons *)

Definition skel_shape (s : skeleton) : Prop :=
  sk_num_joints s = len (sk_parents s) /\ fits 4 (sk_num_joints s) /\
  4 * len (sk_rest_poses s) < sk_num_joints s + 4 /\ sk_num_joints s <= 4 * len (sk_rest_poses s) /\
  NoDup (map fst (sk_names s)) /\ NoDup (map snd (sk_names s)).
Definition skel_typed (s : skeleton) : Prop :=
  Forall (fun p => length p = 40%nat /\ Forall (fits 4) p) (sk_rest_poses s) /\
  Forall (sfits 2) (sk_parents s) /\ Forall (sfits 2) (map snd (sk_names s)).
Definition skel_finite (s : skeleton) : Prop := Forall (Forall finite) (sk_rest_poses s).

(** The name table is a hash map: equal means the same pairs, in any order. *)
Definition skel_equal (a b : skeleton) : Prop :=
  sk_num_joints a = sk_num_joints b /\ sk_rest_poses a = sk_rest_poses b /\
  sk_parents a = sk_parents b /\
  (forall n, joint_by_name a n = joint_by_name b n) /\
  (forall i, name_by_joint a i = name_by_joint b i) /\
  Permutation (sk_names a) (sk_names b).

(** ** Tracks *)

Definition track_typed (k : track_kind) (t : track) : Prop :=
  fits 4 (tr_key_count t) /\
  Forall (fun v => length v = track_dim k) (tr_values t) /\ Forall (fits 1) (tr_steps t).
Definition track_finite (t : track) : Prop :=
  Forall finite (tr_ratios t) /\ Forall (Forall finite) (tr_values t).

(** ** Sampling contexts *)

Definition lanes_of (v : V4 N) : list N := [l0 v; l1 v; l2 v; l3 v].
Definition floats3 (v : vec3 (V4 N)) : list N := lanes_of (vx v) ++ lanes_of (vy v) ++ lanes_of (vz v).
Definition floatsq (q : quat (V4 N)) : list N :=
  lanes_of (qx q) ++ lanes_of (qy q) ++ lanes_of (qz q) ++ lanes_of (qw q).
Definition interp_floats {V} (fl : V -> list N) (i : Sampling.interp N V) : list N :=
  lanes_of (Sampling.ir0 i) ++ lanes_of (Sampling.ir1 i) ++ fl (Sampling.iv0 i) ++ fl (Sampling.iv1 i).
Definition nfits (w : nat) (n : nat) : Prop := fits w (N.of_nat n).

(** Four entries and one value pair per group of four tracks, one bit per group. *)
Definition chan_lengths {V} (soa : nat) (c : Sampling.chan N V) : Prop :=
  length (Sampling.ch_entries c) = (4 * soa)%nat /\
  length (Sampling.ch_outdated c) = ((soa + 7) / 8)%nat /\
  length (Sampling.ch_values c) = soa.
Definition ctx_shape (c : ctx) : Prop :=
  chan_lengths (Sampling.cx_max_soa c) (Sampling.cx_t c) /\
  chan_lengths (Sampling.cx_max_soa c) (Sampling.cx_r c) /\
  chan_lengths (Sampling.cx_max_soa c) (Sampling.cx_s c).
Definition chan_vals {V} (c : Sampling.chan N V) : Prop :=
  Forall (nfits 4) (Sampling.ch_entries c) /\ Forall (fits 1) (Sampling.ch_outdated c) /\
  nfits 8 (Sampling.ch_next c).
Definition ctx_typed (c : ctx) : Prop :=
  nfits 8 (4 * Sampling.cx_max_soa c) /\ fits 8 (Sampling.cx_id c) /\
  chan_vals (Sampling.cx_t c) /\ chan_vals (Sampling.cx_r c) /\ chan_vals (Sampling.cx_s c).
Definition ctx_finite (c : ctx) : Prop :=
  finite (Sampling.cx_ratio c) /\
  Forall (fun i => Forall finite (interp_floats floats3 i)) (Sampling.ch_values (Sampling.cx_t c)) /\
  Forall (fun i => Forall finite (interp_floats floatsq i)) (Sampling.ch_values (Sampling.cx_r c)) /\
  Forall (fun i => Forall finite (interp_floats floats3 i)) (Sampling.ch_values (Sampling.cx_s c)).
(** Track count and cursors below 2^32. *)
Definition ctx_small (c : ctx) : Prop :=
  nfits 4 (4 * Sampling.cx_max_soa c) /\ nfits 4 (Sampling.ch_next (Sampling.cx_t c)) /\
  nfits 4 (Sampling.ch_next (Sampling.cx_r c)) /\ nfits 4 (Sampling.ch_next (Sampling.cx_s c)).

(** What [SamplingContext::new(n)] returns: [(n+3)/4] groups, arrays of the right lengths with
    arbitrary contents. *)
Definition allocator (fresh : nat -> ctx) : Prop :=
  forall n, Sampling.cx_max_soa (fresh n) = ((n + 3) / 4)%nat /\ ctx_shape (fresh n).
(** Same for the key buffer of an animation. *)
Definition key_buffer (old : N -> list (list N)) : Prop := forall n, len (old n) = n.

(** A document listing the same members in another order. *)
Definition reordered (j j' : json) : Prop :=
  exists l l', j = JObj l /\ j' = JObj l' /\ Permutation l l'.
