(** C54: an object and its serialised form. C65: what any document can produce. *)
From Coq Require Import Permutation String.
From Verif Require Import Base Num Math Archive ArchiveSpec ArchiveProofs ArchiveExamples ArchiveCanon.
From Verif Require Import Serial SerialSpec SerialProofs.
From Verif Require Sampling.
Local Open Scope N_scope.
Notation length := List.length.

(** ** C54, animations *)

(** Raw form, rkyv archive (whatever the new key buffer holds) and JSON text give back the same
    animation. *)
Theorem C54_animation : forall a, anim_shape a ->
  anim_from_raw (anim_to_raw a) = Ok a /\
  (forall old, key_buffer old -> anim_from_rkyv old (anim_to_rkyv a) = Ok a) /\
  (anim_typed a -> anim_finite a -> de_animation (to_json (ser_animation a)) = Some (Ok a)).
Proof.
  intros a S. split; [exact (anim_raw_ok a S)|]. split.
  - intros old K. exact (anim_rkyv_ok old a K S).
  - exact (anim_json_ok a S).
Qed.
Print Assumptions C54_animation.

(** In particular whatever animation was loaded from a file; JSON exactly when its floats are
    finite. *)
Theorem C54_animation_loaded : forall machine kind file a rest, bytes file ->
  load animation_from_archive machine kind file = Ok (a, rest) ->
  anim_from_raw (anim_to_raw a) = Ok a /\
  (forall old, key_buffer old -> anim_from_rkyv old (anim_to_rkyv a) = Ok a) /\
  (de_animation (to_json (ser_animation a)) = Some (Ok a) <-> anim_finite a).
Proof.
  intros machine kind file a rest Hb E. apply C10_only_encodings in E as [Ha _]; [|exact Hb].
  apply animation_ok_shape in Ha as [S T]. destruct (C54_animation a S) as (H1 & H2 & H3).
  split; [exact H1|]. split; [exact H2|]. split; [apply anim_json_finite|auto].
Qed.
Print Assumptions C54_animation_loaded.

(** The conversions lose nothing the other way round. *)
Theorem C54_animation_raw_faithful : forall r a, anim_from_raw r = Ok a -> anim_to_raw a = r.
Proof. intros r a H. apply anim_raw_inv in H as [_ H]. exact H. Qed.
Print Assumptions C54_animation_raw_faithful.

Lemma finite_dec l : forallb finite_bits l = true -> Forall finite l.
Proof.
  intros H. apply Forall_forall. intros x Hx. rewrite forallb_forall in H. apply finite_inv, H, Hx.
Qed.

Example C54_animation_case : anim_shape ex_animation /\ anim_typed ex_animation /\ anim_finite ex_animation
  /\ length (ch_keys (an_t ex_animation)) = 9%nat.
Proof.
  destruct (animation_ok_shape _ ex_animation_ok) as [S T]. split; [exact S|]. split; [exact T|].
  split; [|reflexivity].
  split; [apply finite_inv; reflexivity|]. split; [apply finite_dec; reflexivity|].
  split; [|split]; apply finite_inv; reflexivity.
Qed.

(** A NaN duration (which a file may hold, see C10) is written as null and refused back. *)
Theorem C54_json_nan_refuted : exists machine kind file a rest, bytes file /\
  load animation_from_archive machine kind file = Ok (a, rest) /\
  de_animation (to_json (ser_animation a)) = None.
Proof.
  set (a := {| an_duration := 2143289344; an_num_tracks := 3; an_name := ascii "walk";
     an_timepoints := [0; 1056964608; 1065353216]; an_t := ex_channel; an_r := ex_channel;
     an_s := ex_empty_channel |}).
  exists Little, 0, (1 :: w_animation Little a ++ []), a, [].
  split; [apply fits_dec; vm_compute; reflexivity|]. split.
  - apply load_animation; [discriminate|]. unfold a.
    repeat split; try reflexivity; try (apply fits_dec; reflexivity); try (apply keys_dec; reflexivity).
    apply ascii_text. reflexivity.
  - vm_compute. reflexivity.
Qed.
Print Assumptions C54_json_nan_refuted.

(** ** C54, skeletons *)

(** [order] is the order in which the hash map of names happens to be visited. *)
Theorem C54_skeleton : forall s, skel_shape s ->
  skel_from_raw (skel_to_raw s) = Ok s /\
  (forall order, Permutation order (sk_names s) ->
     let raw := SkelRaw (sk_rest_poses s) (sk_parents s) order in
     (exists s', skel_from_rkyv (SkelRkyv (sk_num_joints s) raw) = Ok s' /\ skel_equal s' s) /\
     (skel_typed s -> skel_finite s ->
        exists s', de_skeleton (to_json (ser_skel_raw raw)) = Some (Ok s') /\ skel_equal s' s)).
Proof.
  intros s S. split; [exact (skel_raw_ok s S)|]. intros order P raw. split.
  - exact (skel_rkyv_ok s order S P).
  - intros T F. exact (skel_json_ok s order S T F P).
Qed.
Print Assumptions C54_skeleton.

Theorem C54_skeleton_loaded : forall machine kind file s rest, bytes file ->
  load skeleton_from_archive machine kind file = Ok (s, rest) ->
  skel_shape s /\ skel_typed s.
Proof.
  intros machine kind file s rest Hb E.
  apply load_env in E as (b & o & bs & -> & _ & E). inversion Hb as [|? ? _ Hbs]; subst.
  pose proof (skeleton_names_ok _ _ _ _ E) as N.
  apply skeleton_inv in E as (_ & c & count & _ & _ & H1 & H2 & H3 & H4 & H5 & H6 & _ & H7 & H8 & H9); auto.
  split.
  - unfold skel_shape. rewrite H3, H4, H1 in *. split; [reflexivity|]. split; [exact H2|].
    assert (L : 4 * len (sc_poses c) < len (sc_parents c) + 4 /\ len (sc_parents c) <= 4 * len (sc_poses c)).
    { unfold len. rewrite H8.
      pose proof (Nat.div_mod (length (sc_parents c) + 3) 4 ltac:(lia)) as D.
      pose proof (Nat.mod_upper_bound (length (sc_parents c) + 3) 4 ltac:(lia)). lia. }
    destruct L. repeat (split; [assumption|]). exact N.
  - unfold skel_typed. rewrite H3, H4, H5. repeat (split; [assumption|]).
    apply bimap_range; [exact as_i16_range|constructor].
Qed.
Print Assumptions C54_skeleton_loaded.

Definition ex_skel : skeleton :=
  {| sk_num_joints := 5; sk_rest_poses := [repeat 1065353216 40; repeat 3 40];
     sk_names := [(ascii "root", 0%Z); (ascii "left", 1%Z); (ascii "right", 2%Z); ([195; 169], 3%Z); ([], 4%Z)];
     sk_parents := [(-1)%Z; 0%Z; 0%Z; 2%Z; 3%Z] |}.
Example C54_skeleton_case : skel_shape ex_skel /\ skel_typed ex_skel /\ skel_finite ex_skel /\
  Permutation (rev (sk_names ex_skel)) (sk_names ex_skel) /\
  joint_by_name ex_skel (ascii "right") = Some 2%Z.
Proof.
  split; [|split; [|split; [|split; [apply Permutation_sym, Permutation_rev|reflexivity]]]].
  - repeat split; try reflexivity; cbn; try lia;
      repeat constructor; cbn; intros H; repeat destruct H as [H|H]; try discriminate H; auto.
  - split; [|split; apply sfits_dec; reflexivity].
    repeat constructor; apply Forall_forall; intros x Hx; apply repeat_spec in Hx; subst; reflexivity.
  - apply Forall_cons; [apply finite_dec; reflexivity|].
    apply Forall_cons; [apply finite_dec; reflexivity|apply Forall_nil].
Qed.

(** ** C54, tracks *)

Theorem C54_track : forall k t, track_typed k t -> track_finite t ->
  de_track k (to_json (ser_track k t)) = Some t.
Proof. exact track_json_ok. Qed.
Print Assumptions C54_track.

Example C54_track_case :
  let t := {| tr_key_count := 2; tr_ratios := [0; 1065353216];
              tr_values := [[0; 1; 2]; [3; 4; 5]]; tr_steps := [2]; tr_name := ascii "t" |} in
  track_typed TFloat3 t /\ track_finite t.
Proof.
  split; [split; [reflexivity|split; [repeat constructor|apply fits_dec; reflexivity]]|].
  split; [apply finite_dec; reflexivity|].
  apply Forall_cons; [apply finite_dec; reflexivity|].
  apply Forall_cons; [apply finite_dec; reflexivity|apply Forall_nil].
Qed.

(** ** C54, sampling contexts *)

(** The context comes back whatever the freshly allocated one held. *)
Theorem C54_context : forall c, ctx_shape c ->
  (ctx_small c -> ctx_from_rkyv (ctx_to_rkyv c) = Ok c) /\
  (forall fresh size, allocator fresh -> ctx_typed c -> ctx_finite c ->
     de_context fresh (to_json (ser_context size c)) = Some (Ok c)).
Proof.
  intros c S. split; [exact (ctx_rkyv_ok c S)|].
  intros fresh size A T F. exact (ctx_json_ok fresh size c A S T F).
Qed.
Print Assumptions C54_context.

Definition v4 (a b c d : N) : V4 N := mk4 a b c d.
Definition ex_lane : V4 N := v4 0 1065353216 1056964608 3.
Definition ex_interp3 := Sampling.mk_interp ex_lane ex_lane (V3 ex_lane ex_lane ex_lane) (V3 ex_lane ex_lane ex_lane).
Definition ex_interpq :=
  Sampling.mk_interp ex_lane ex_lane (Q4 ex_lane ex_lane ex_lane ex_lane) (Q4 ex_lane ex_lane ex_lane ex_lane).
Definition ex_ctx : ctx :=
  Sampling.mk_ctx 2 77 1056964608
    (Sampling.mk_chan [0;1;2;3;4;5;6;7]%nat [3] 9%nat [ex_interp3; ex_interp3])
    (Sampling.mk_chan [0;1;2;3;4;5;6;7]%nat [2] 10%nat [ex_interpq; ex_interpq])
    (Sampling.mk_chan [7;6;5;4;3;2;1;0]%nat [1] 11%nat [ex_interp3; ex_interp3]).
Definition ex_fresh (n : nat) : ctx :=
  let soa := ((n + 3) / 4)%nat in
  let out := ((soa + 7) / 8)%nat in
  Sampling.mk_ctx soa 0 0
    (Sampling.mk_chan (repeat 42%nat (4 * soa)) (repeat 170 out) 0%nat (repeat ex_interp3 soa))
    (Sampling.mk_chan (repeat 42%nat (4 * soa)) (repeat 170 out) 0%nat (repeat ex_interpq soa))
    (Sampling.mk_chan (repeat 42%nat (4 * soa)) (repeat 170 out) 0%nat (repeat ex_interp3 soa)).
Lemma ex_fresh_ok : allocator ex_fresh.
Proof.
  intros n. split; [reflexivity|]. unfold ctx_shape, chan_lengths, ex_fresh.
  cbn [Sampling.cx_max_soa Sampling.cx_t Sampling.cx_r Sampling.cx_s Sampling.ch_entries Sampling.ch_outdated Sampling.ch_values].
  rewrite !repeat_length. auto 10.
Qed.

Example C54_context_case : ctx_shape ex_ctx /\ ctx_small ex_ctx /\ ctx_typed ex_ctx /\ ctx_finite ex_ctx /\
  allocator ex_fresh /\ ex_fresh 8 <> ex_ctx.
Proof.
  split; [repeat split|]. split; [repeat split|]. split; [|split; [|split; [exact ex_fresh_ok|discriminate]]].
  - repeat split; try (apply Forall_forall; intros x Hx; cbn in Hx;
      repeat destruct Hx as [Hx|Hx]; try contradiction; subst; reflexivity).
  - split; [apply finite_inv; reflexivity|].
    repeat split; repeat (apply Forall_cons || apply Forall_nil); apply finite_inv; reflexivity.
Qed.

(** A context of 2^32 tracks or more does not survive an rkyv archive: the count is cut to 32 bits. *)
Theorem C54_context_huge_refuted : exists c, ctx_shape c /\ ctx_from_rkyv (ctx_to_rkyv c) = Panic.
Proof.
  destruct (ex_intro (fun K => N.of_nat K = 2 ^ 30) (N.to_nat (2 ^ 30)) (N2Nat.id _)) as [K EK].
  set (O := ((K + 7) / 8)%nat).
  exists (Sampling.mk_ctx K 0 0
    (Sampling.mk_chan (repeat 0%nat (4 * K)) (repeat 0 O) 0%nat (repeat ex_interp3 K))
    (Sampling.mk_chan (repeat 0%nat (4 * K)) (repeat 0 O) 0%nat (repeat ex_interpq K))
    (Sampling.mk_chan (repeat 0%nat (4 * K)) (repeat 0 O) 0%nat (repeat ex_interp3 K))).
  split.
  - unfold ctx_shape, chan_lengths.
    cbn [Sampling.cx_max_soa Sampling.cx_t Sampling.cx_r Sampling.cx_s Sampling.ch_entries Sampling.ch_outdated Sampling.ch_values].
    rewrite !repeat_length. auto 10.
  - unfold ctx_from_rkyv, ctx_to_rkyv.
    cbn [Sampling.cx_max_soa Sampling.cx_t xr_tracks xr_t].
    assert (Z0 : as_u32 (N.of_nat (4 * K)) = 0).
    { unfold as_u32. rewrite Nat2N.inj_mul, EK. reflexivity. }
    rewrite Z0. change (Sampling.div_ceil (N.to_nat 0) 4) with 0%nat.
    unfold chan_from_ctx_rkyv at 1. cbn [Sampling.ch_values]. unfold copy_from_slice at 1.
    rewrite llen_len. unfold len. rewrite repeat_length, EK. reflexivity.
Qed.
Print Assumptions C54_context_huge_refuted.

(** Members written before [max_tracks] are dropped on reading: the same document with its members
    sorted by name gives another context (its animation id is lost). *)
Definition sorted_doc (size : N) (c : ctx) : json :=
  match to_json (ser_context size c) with
  | JObj [a; b; c'; d; id; e; t; r; s; te; to; tn; re; ro; rn; se; so; sn] =>
      JObj [id; d; c'; b; e; re; rn; ro; r; se; sn; so; s; a; te; tn; to; t]
  | j => j
  end.
Theorem C54_context_order_refuted : exists c size doc c',
  reordered (to_json (ser_context size c)) doc /\
  ctx_shape c /\ ctx_typed c /\ ctx_finite c /\
  de_context ex_fresh doc = Some (Ok c') /\ Sampling.cx_id c = 77 /\ Sampling.cx_id c' = 0.
Proof.
  exists ex_ctx, 1234, (sorted_doc 1234 ex_ctx).
  destruct C54_context_case as (S & _ & T & F & _).
  exists (Sampling.mk_ctx 2 0 1056964608 (Sampling.cx_t ex_ctx) (Sampling.cx_r ex_ctx) (Sampling.cx_s ex_ctx)).
  split; [|split; [exact S|split; [exact T|split; [exact F|split; [vm_compute; reflexivity|split; reflexivity]]]]].
  unfold reordered, sorted_doc, ser_context. cbn [to_json]. cbv zeta. cbn [map].
  do 2 eexists. split; [reflexivity|]. split; [reflexivity|].
  match goal with |- Permutation [?a; ?b; ?c; ?d; ?id; ?e; ?t; ?r; ?s; ?te; ?to; ?tn; ?re; ?ro; ?rn; ?se; ?so; ?sn] _ =>
    generalize a b c d id e t r s te to tn re ro rn se so sn end.
  intros.
  repeat match goal with |- Permutation _ (?x :: ?r) =>
    match goal with |- Permutation ?l _ =>
      let rec split_at acc l := match l with
        | x :: ?t => let a := eval cbn [rev app] in (rev acc) in
                     apply Permutation_sym; apply (Permutation_cons_app a t x); apply Permutation_sym; cbn [app]
        | ?y :: ?t => split_at (y :: acc) t end in
      split_at (@nil (list N * json)) l end end.
  constructor.
Qed.
Print Assumptions C54_context_order_refuted.

(** ** Other formats *)

(** MessagePack: quaternions announce three elements, write four and are read as an array of four;
    no rest pose can be read back, and no rotation of a context. *)
Theorem C54_msgpack_refuted : forall rows rest,
  m_soa_quat (to_msgpack (ser_soa_quat rows) ++ rest) = None.
Proof. reflexivity. Qed.
Print Assumptions C54_msgpack_refuted.

(** bincode: vectors are written with a length prefix and read without: the prefix is taken for
    data and eight bytes are left over. *)
Theorem C54_bincode_refuted : forall x y z, length x = 4%nat -> length y = 4%nat -> length z = 4%nat ->
  Forall (fits 4) (x ++ y ++ z) ->
  exists bs rows, to_bincode (ser_soa_vec3 [x; y; z]) = Some bs /\
    b_soa_vec3 bs = Some (rows, skipn 48 bs) /\ length (skipn 48 bs) = 8%nat /\
    firstn 2 (hd [] rows) = [3; 0].
Proof.
  intros x y z Hx Hy Hz F.
  destruct x as [|x0 [|x1 [|x2 [|x3 [|]]]]]; try discriminate Hx.
  destruct y as [|y0 [|y1 [|y2 [|y3 [|]]]]]; try discriminate Hy.
  destruct z as [|z0 [|z1 [|z2 [|z3 [|]]]]]; try discriminate Hz.
  do 2 eexists. split; [reflexivity|]. split; [reflexivity|]. split; reflexivity.
Qed.
Print Assumptions C54_bincode_refuted.

(** A context cannot even be written: bincode needs the length of a map. *)
Theorem C54_bincode_context_refuted : forall size c, to_bincode (ser_context size c) = None.
Proof. reflexivity. Qed.
Print Assumptions C54_bincode_context_refuted.

(** ** C65: any document *)

(** What is accepted is consistent: array lengths agree with the counts. *)
Theorem C65_consistent :
  (forall j a, de_animation j = Some (Ok a) -> anim_shape a) /\
  (forall j s, de_skeleton j = Some (Ok s) ->
     sk_num_joints s = len (sk_parents s) /\
     4 * len (sk_rest_poses s) < sk_num_joints s + 4 /\ sk_num_joints s <= 4 * len (sk_rest_poses s)) /\
  (forall fresh j c, allocator fresh -> de_context fresh j = Some (Ok c) -> ctx_shape c).
Proof.
  split; [|split].
  - intros j a H. unfold de_animation in H. apply obind_inv in H as (r & _ & H). injection H as H.
    apply anim_raw_inv in H as [H _]. exact H.
  - intros j s H. unfold de_skeleton in H. apply obind_inv in H as (r & _ & H). injection H as H.
    apply skel_raw_inv in H as (_ & H1 & _ & H2 & H3). auto.
  - exact de_context_shape.
Qed.
Print Assumptions C65_consistent.

(** A document whose arrays disagree is answered by a panic, not an error. *)
Theorem C65_mismatch_refuted :
  (exists j, de_animation j = Some Panic) /\ (exists j, de_skeleton j = Some Panic) /\
  (exists j, de_context ex_fresh j = Some Panic).
Proof.
  split; [|split].
  - exists (to_json (ser_animation {| an_duration := 1065353216; an_num_tracks := 3; an_name := ascii "walk";
      an_timepoints := [0; 1065353216];
      an_t := {| ch_ratios := [0]; ch_previouses := [0; 0]; ch_entries := []; ch_desc := [];
                 ch_interval := 0; ch_keys := [[1; 2; 3]; [4; 5; 6]] |};
      an_r := ex_empty_channel; an_s := ex_empty_channel |})).
    vm_compute. reflexivity.
  - exists (to_json (ser_skeleton {| sk_num_joints := 1; sk_rest_poses := []; sk_names := [(ascii "root", 0%Z)];
      sk_parents := [(-1)%Z] |})).
    vm_compute. reflexivity.
  - exists (JObj [(key "max_tracks", JInt 4); (key "translation_entries", JArr [JInt 1])]).
    vm_compute. reflexivity.
Qed.
Print Assumptions C65_mismatch_refuted.

(** A document that only gives the size yields whatever memory the allocator returned. *)
Theorem C65_uninitialised_refuted : forall n, nfits 8 n ->
  exists j, forall fresh, de_context fresh j = Some (Ok (fresh n)).
Proof.
  intros n Hn. exists (JObj [(key "max_tracks", to_json (ser_n 8 n))]). intros fresh.
  unfold de_context. cbn [visit_map].
  replace (bytes_eqb (key "max_tracks") (key "max_tracks")) with true by (vm_compute; reflexivity).
  cbv iota. rewrite de_n_ok by exact Hn. reflexivity.
Qed.
Print Assumptions C65_uninitialised_refuted.

(** A track whose arrays do not match its key count is accepted. *)
Theorem C65_track_refuted : exists j t, de_track TFloat j = Some t /\
  tr_key_count t = 5 /\ tr_ratios t = [] /\ tr_values t = [].
Proof.
  exists (JObj [(key "key_count", JInt 5); (key "ratios", JArr []); (key "values", JArr []);
                (key "steps", JArr []); (key "name", JStr [])]).
  eexists. split; [vm_compute; reflexivity|]. repeat split.
Qed.
Print Assumptions C65_track_refuted.
