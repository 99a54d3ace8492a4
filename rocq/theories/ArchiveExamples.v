(** Assembled lemmas behind ArchiveProps.v, and the concrete objects of its examples. *)
From Verif Require Import Base Archive ArchiveSpec Utf8Proofs ArchiveProofs.
From Coq Require Import String.
Local Open Scope N_scope.
Notation length := List.length.

Lemma load_of_parses {A} (r : reader A) n o k b bs a rest :
  endian_byte o b -> parses r (env_for n o k) bs a -> load r n k (b :: bs ++ rest) = Ok (a, rest).
Proof. intros Hb P. exact (proj1 (load_parses r n o k b bs a Hb P) rest). Qed.

Lemma load_uint n o k b w v rest :
  endian_byte o b -> fits w v -> load (read_uint w) n k (b :: enc o w v ++ rest) = Ok (v, rest).
Proof. intros Hb Hv. apply (load_of_parses _ n o); [exact Hb|]. apply read_uint_parses, Hv. Qed.

Lemma load_sint n o k b w v rest :
  (0 < w)%nat -> endian_byte o b -> sfits w v ->
  load (read_sint w) n k (b :: enc o w (unsigned w v) ++ rest) = Ok (v, rest).
Proof. intros Hw Hb Hv. apply (load_of_parses _ n o); [exact Hb|]. apply read_sint_parses; assumption. Qed.

Lemma load_primitives n o kind b rest :
  endian_byte o b ->
  (forall v, fits 1 v -> load read_u8 n kind (b :: enc o 1 v ++ rest) = Ok (v, rest)) /\
  (forall v, fits 2 v -> load read_u16 n kind (b :: enc o 2 v ++ rest) = Ok (v, rest)) /\
  (forall v, fits 4 v -> load read_u32 n kind (b :: enc o 4 v ++ rest) = Ok (v, rest)) /\
  (forall v, fits 8 v -> load read_u64 n kind (b :: enc o 8 v ++ rest) = Ok (v, rest)) /\
  (forall v, fits 4 v -> load read_f32 n kind (b :: enc o 4 v ++ rest) = Ok (v, rest)) /\
  (forall v, fits 8 v -> load read_f64 n kind (b :: enc o 8 v ++ rest) = Ok (v, rest)) /\
  (forall v, sfits 1 v -> load read_i8 n kind (b :: enc o 1 (unsigned 1 v) ++ rest) = Ok (v, rest)) /\
  (forall v, sfits 2 v -> load read_i16 n kind (b :: enc o 2 (unsigned 2 v) ++ rest) = Ok (v, rest)) /\
  (forall v, sfits 4 v -> load read_i32 n kind (b :: enc o 4 (unsigned 4 v) ++ rest) = Ok (v, rest)) /\
  (forall v, sfits 8 v -> load read_i64 n kind (b :: enc o 8 (unsigned 8 v) ++ rest) = Ok (v, rest)).
Proof.
  intros Hb. repeat split; intros v Hv.
  all: first [apply load_uint; assumption | apply load_sint; [lia|assumption|assumption]].
Qed.

Lemma load_composites n o kind b rest :
  endian_byte o b ->
  (forall x y, fits 4 x -> fits 4 y ->
    load read_vec2 n kind (b :: enc o 4 x ++ enc o 4 y ++ rest) = Ok ([x; y], rest)) /\
  (forall x y z, fits 4 x -> fits 4 y -> fits 4 z ->
    load read_vec3 n kind (b :: enc o 4 x ++ enc o 4 y ++ enc o 4 z ++ rest) = Ok ([x; y; z], rest)) /\
  (forall x y z w, fits 4 x -> fits 4 y -> fits 4 z -> fits 4 w ->
    load read_vec4 n kind (b :: enc o 4 x ++ enc o 4 y ++ enc o 4 z ++ enc o 4 w ++ rest)
      = Ok ([x; y; z; w], rest) /\
    load read_quat n kind (b :: enc o 4 x ++ enc o 4 y ++ enc o 4 z ++ enc o 4 w ++ rest)
      = Ok ([x; y; z; w], rest)) /\
  (forall w l, Forall (fits w) l ->
    load (read_n (length l) (read_uint w)) n kind (b :: flat_map (enc o w) l ++ rest) = Ok (l, rest)) /\
  (forall s, text s -> ~ In 0 s ->
    load read_string n kind (b :: s ++ 0 :: rest) = Ok (s, rest)).
Proof.
  intros Hb.
  assert (Hn : forall w l, Forall (fits w) l ->
    load (read_n (length l) (read_uint w)) n kind (b :: flat_map (enc o w) l ++ rest) = Ok (l, rest)).
  { intros w l Hl. apply (load_of_parses _ n o); [exact Hb|]. apply read_n_parses.
    intros a Ha. apply read_uint_parses. rewrite Forall_forall in Hl; auto. }
  assert (H4 : forall l, Forall (fits 4) l ->
    load (read_n (length l) read_f32) n kind (b :: flat_map (enc o 4) l ++ rest) = Ok (l, rest))
    by (intros; apply Hn; assumption).
  repeat split.
  - intros x y Hx Hy. specialize (H4 [x; y]). cbn [flat_map length] in H4.
    rewrite app_nil_r, <- app_assoc in H4. apply H4; auto.
  - intros x y z Hx Hy Hz. specialize (H4 [x; y; z]). cbn [flat_map length] in H4.
    rewrite app_nil_r, <- !app_assoc in H4. apply H4; auto.
  - specialize (H4 [x; y; z; w]). cbn [flat_map length] in H4.
    rewrite app_nil_r, <- !app_assoc in H4. apply H4; auto.
  - specialize (H4 [x; y; z; w]). cbn [flat_map length] in H4.
    rewrite app_nil_r, <- !app_assoc in H4. apply H4; auto.
  - exact Hn.
  - intros s Ht H0. change (0 :: rest) with ([0] ++ rest). rewrite app_assoc.
    apply (load_of_parses _ n o); [exact Hb|]. apply read_string_parses; assumption.
Qed.

Lemma load_animation n o k b a rest :
  endian_byte o b -> animation_ok a ->
  load animation_from_archive n k (b :: w_animation o a ++ rest) = Ok (a, rest).
Proof. intros Hb Ha. apply (load_of_parses _ n o); [exact Hb|]. apply animation_parses, Ha. Qed.

Lemma load_track n o kind b k t rest :
  endian_byte o b -> track_ok k t ->
  load (track_from_archive k) n kind (b :: w_track o k t ++ rest) = Ok (t, rest).
Proof. intros Hb Ha. apply (load_of_parses _ n o); [exact Hb|]. apply track_parses, Ha. Qed.

Lemma skeleton_parses' n o k c : skeleton_ok c ->
  fits 4 (len (flat_map (fun n => n ++ [0]) (sc_names c))) ->
  parses skeleton_from_archive (env_for n o k) (w_skeleton o c)
    {| sk_num_joints := len (sc_parents c); sk_rest_poses := sc_poses c;
       sk_names := insert_names (sc_names c) 0 []; sk_parents := sc_parents c |}.
Proof.
  intros (H1 & H2 & H3 & H4 & H5 & H6 & H7) H8.
  apply skeleton_parses; auto. unfold fits. change (2 ^ (8 * N.of_nat 4)) with (2 ^ 32).
  change (2 ^ 15) with 32768 in H2. change (2 ^ 32) with 4294967296. lia.
Qed.

Lemma names_last_owner n o k b c rest :
  endian_byte o b -> skeleton_ok c ->
  fits 4 (len (flat_map (fun n => n ++ [0]) (sc_names c))) ->
  exists s, load skeleton_from_archive n k (b :: w_skeleton o c ++ rest) = Ok (s, rest) /\
    forall n i, joint_by_name s n = Some i <->
      exists j, i = Z.of_nat j /\ nth_error (sc_names c) j = Some n /\
        forall j', (j < j')%nat -> nth_error (sc_names c) j' <> Some n.
Proof.
  intros Hb Hc Hf. eexists. split.
  { apply (load_of_parses _ n o); [exact Hb|]. apply skeleton_parses'; assumption. }
  intros nm i. unfold joint_by_name; cbn [sk_names].
  rewrite get_by_left_In by (apply insert_names_ok, bimap_ok_nil).
  destruct Hc as (_ & Hc & Hn & _).
  rewrite insert_names_In by (unfold len in *; change (2 ^ 15) with 32768 in *; lia).
  split.
  - intros [(j & E & Ei & Hl)|([] & _)]. exists j. split; [lia|]. split; [exact E|exact Hl].
  - intros (j & Ei & E & Hl). left. exists j. split; [exact E|]. split; [lia|exact Hl].
Qed.

Lemma load_skeleton n o k b c rest :
  endian_byte o b -> skeleton_ok c -> NoDup (sc_names c) ->
  fits 4 (len (flat_map (fun n => n ++ [0]) (sc_names c))) ->
  exists s, load skeleton_from_archive n k (b :: w_skeleton o c ++ rest) = Ok (s, rest) /\
    sk_num_joints s = len (sc_parents c) /\
    sk_parents s = sc_parents c /\
    sk_rest_poses s = sc_poses c /\
    (forall i, name_by_joint s (Z.of_nat i) = nth_error (sc_names c) i) /\
    (forall i, (i < 0)%Z -> name_by_joint s i = None) /\
    (forall i n, nth_error (sc_names c) i = Some n -> joint_by_name s n = Some (Z.of_nat i)) /\
    (forall n, ~ In n (sc_names c) -> joint_by_name s n = None).
Proof.
  intros Hb Hc Hd Hf.
  pose proof (skeleton_parses' n o k c Hc Hf) as P.
  pose proof (load_of_parses _ n o k b _ _ rest Hb P) as L.
  eexists. split; [exact L|]. cbn [sk_num_joints sk_parents sk_rest_poses].
  do 3 (split; [reflexivity|]).
  unfold name_by_joint, joint_by_name; cbn [sk_names].
  set (m := insert_names (sc_names c) 0 []).
  assert (Hm : bimap_ok m) by (apply insert_names_ok, bimap_ok_nil).
  assert (HIn : forall x i, In (x, i) m <-> exists j, nth_error (sc_names c) j = Some x /\ i = Z.of_nat j).
  { intros x i. unfold m. destruct Hc as (_ & Hc & Hn & _).
    rewrite insert_names_In by (unfold len in *; change (2 ^ 15) with 32768 in *; lia). split.
    - intros [(j & E & Ei & _)|([] & _)]. exists j. split; [exact E|lia].
    - intros (j & E & Ei). left. exists j. split; [exact E|]. split; [lia|].
      intros j' Hlt E'. assert (j = j'); [|lia].
      rewrite NoDup_nth_error in Hd. apply Hd; [|congruence]. apply nth_error_Some. congruence. }
  repeat split.
  - intros i. destruct (nth_error (sc_names c) i) as [x|] eqn:E.
    + apply get_by_right_In; [exact Hm|]. apply HIn. exists i. auto.
    + destruct (get_by_right m (Z.of_nat i)) as [x|] eqn:E'; [|reflexivity].
      apply get_by_right_In in E'; [|exact Hm]. apply HIn in E' as (j & Ej & Eij).
      apply Nat2Z.inj in Eij. congruence.
  - intros i Hi. destruct (get_by_right m i) as [x|] eqn:E'; [|reflexivity].
    apply get_by_right_In in E'; [|exact Hm]. apply HIn in E' as (j & Ej & Eij). lia.
  - intros i x E. apply get_by_left_In; [exact Hm|]. apply HIn. exists i; auto.
  - intros x Hx. destruct (get_by_left m x) as [i|] eqn:E'; [|reflexivity].
    apply get_by_left_In in E'; [|exact Hm]. apply HIn in E' as (j & Ej & _).
    apply nth_error_In in Ej. contradiction.
Qed.

Lemma truncated_valid n o kind b p :
  endian_byte o b ->
  (forall a, animation_ok a -> proper_prefix p (b :: w_animation o a) ->
     load animation_from_archive n kind p = Err (IO kind)) /\
  (forall c, skeleton_ok c -> fits 4 (len (flat_map (fun n => n ++ [0]) (sc_names c))) ->
     proper_prefix p (b :: w_skeleton o c) ->
     load skeleton_from_archive n kind p = Err (IO kind)) /\
  (forall k t, track_ok k t -> proper_prefix p (b :: w_track o k t) ->
     load (track_from_archive k) n kind p = Err (IO kind)).
Proof.
  intros Hb. repeat split; intros.
  - eapply load_parses; [exact Hb| |eassumption]. apply animation_parses; assumption.
  - eapply load_parses; [exact Hb| |eassumption]. apply skeleton_parses'; assumption.
  - eapply load_parses; [exact Hb| |eassumption]. apply track_parses; assumption.
Qed.

Lemma truncated_any n kind file :
  (forall a rest, load animation_from_archive n kind file = Ok (a, rest) ->
     exists used, file = used ++ rest /\
       (forall rest', load animation_from_archive n kind (used ++ rest') = Ok (a, rest')) /\
       forall p, proper_prefix p used -> load animation_from_archive n kind p = Err (IO kind)) /\
  (forall s rest, load skeleton_from_archive n kind file = Ok (s, rest) ->
     exists used, file = used ++ rest /\
       (forall rest', load skeleton_from_archive n kind (used ++ rest') = Ok (s, rest')) /\
       forall p, proper_prefix p used -> load skeleton_from_archive n kind p = Err (IO kind)) /\
  (forall k t rest, load (track_from_archive k) n kind file = Ok (t, rest) ->
     exists used, file = used ++ rest /\
       (forall rest', load (track_from_archive k) n kind (used ++ rest') = Ok (t, rest')) /\
       forall p, proper_prefix p used -> load (track_from_archive k) n kind p = Err (IO kind)).
Proof.
  repeat split; intros.
  - eapply load_prefix; [apply exact_animation|eassumption].
  - eapply load_prefix; [apply exact_skeleton|eassumption].
  - eapply load_prefix; [apply exact_track|eassumption].
Qed.

Lemma track_tag_name k : track_tag k = track_name k.
Proof. destruct k; reflexivity. Qed.

Lemma header_required n kind file :
  Forall (fun x => x < 256) file ->
  (forall a rest, load animation_from_archive n kind file = Ok (a, rest) ->
     exists b o rest', endian_byte o b /\ file = b :: ascii "ozz-animation" ++ [0] ++ enc o 4 7 ++ rest') /\
  (forall s rest, load skeleton_from_archive n kind file = Ok (s, rest) ->
     exists b o rest', endian_byte o b /\ file = b :: ascii "ozz-skeleton" ++ [0] ++ enc o 4 2 ++ rest') /\
  (forall k t rest, load (track_from_archive k) n kind file = Ok (t, rest) ->
     exists b o rest', endian_byte o b /\ file = b :: track_name k ++ [0] ++ enc o 4 1 ++ rest').
Proof.
  intros Hf.
  assert (Hassoc : forall {A B} tag v (k : unit -> reader A) (k2 : A -> reader B) a rest,
    load (rbind (rbind (check_header tag v) k) k2) n kind file = Ok (a, rest) ->
    exists b o rest', endian_byte o b /\ file = b :: tag ++ [0] ++ enc o 4 v ++ rest').
  { intros A B tag v k k2 a rest E.
    assert (E' : exists a' rest', load (rbind (check_header tag v) k) n kind file = Ok (a', rest')).
    { unfold load, archive_new in *. destruct file; [discriminate|].
      apply rbind_inv in E as (x & r' & E & _). eauto. }
    destruct E' as (a' & rest' & E'). destruct (load_header _ _ _ _ _ _ _ _ Hf E') as (b & o & r & Hb & ->).
    exists b, o, r. split; [exact Hb|]. unfold header. rewrite <- !app_assoc. reflexivity. }
  repeat split.
  - intros a rest E. eapply Hassoc. exact E.
  - intros s rest E. eapply Hassoc. exact E.
  - intros k t rest E. destruct (load_header _ _ _ _ _ _ _ _ Hf E) as (b & o & r & Hb & ->).
    exists b, o, r. split; [exact Hb|]. unfold header. rewrite <- !app_assoc, track_tag_name. reflexivity.
Qed.

Lemma load_bind_err {A B} (r : reader A) (k : A -> reader B) n kind file e :
  load r n kind file = Err e -> load (rbind r k) n kind file = Err e.
Proof.
  unfold load, archive_new. destruct file as [|b bs]; intros E; [congruence|]. unfold rbind.
  destruct (r _ bs) as [[]| |]; congruence.
Qed.

Lemma wrong_tag n kind b s rest :
  text s -> ~ In 0 s ->
  (s <> ascii "ozz-animation" ->
     load animation_from_archive n kind (b :: s ++ [0] ++ rest) = Err InvalidTag) /\
  (s <> ascii "ozz-skeleton" ->
     load skeleton_from_archive n kind (b :: s ++ [0] ++ rest) = Err InvalidTag) /\
  (forall k, s <> track_name k ->
     load (track_from_archive k) n kind (b :: s ++ [0] ++ rest) = Err InvalidTag).
Proof.
  intros Ht H0. repeat split; intros.
  - apply load_bind_err. apply load_wrong_tag; assumption.
  - apply load_bind_err. apply load_wrong_tag; assumption.
  - apply load_wrong_tag; try assumption. rewrite track_tag_name; assumption.
Qed.

Lemma wrong_version n kind b o v rest :
  endian_byte o b -> fits 4 v ->
  (v <> 7 -> load animation_from_archive n kind
     (b :: ascii "ozz-animation" ++ [0] ++ enc o 4 v ++ rest) = Err InvalidVersion) /\
  (v <> 2 -> load skeleton_from_archive n kind
     (b :: ascii "ozz-skeleton" ++ [0] ++ enc o 4 v ++ rest) = Err InvalidVersion) /\
  (forall k, v <> 1 -> load (track_from_archive k) n kind
     (b :: track_name k ++ [0] ++ enc o 4 v ++ rest) = Err InvalidVersion).
Proof.
  intros Hb Hv.
  assert (Hh : forall tag, b :: tag ++ [0] ++ enc o 4 v ++ rest = b :: header o tag v ++ rest).
  { intros tag. unfold header. rewrite <- !app_assoc. reflexivity. }
  repeat split; intros; rewrite Hh.
  - apply load_bind_err. apply load_wrong_version; try assumption;
      [apply ascii_text; reflexivity|apply no_zero; reflexivity].
  - apply load_bind_err. apply load_wrong_version; try assumption;
      [apply ascii_text; reflexivity|apply no_zero; reflexivity].
  - rewrite <- track_tag_name. destruct (track_tag_ok k). apply load_wrong_version; assumption.
Qed.

Lemma empty_skeleton_refuted : exists file,
  load (skeleton_read_meta true) Little 7 file
    = Ok ({| sm_num_joints := 0; sm_names := []; sm_parents := [] |}, []) /\
  load skeleton_from_archive Little 7 file = Err (IO 7).
Proof. exists (1 :: header Little (ascii "ozz-skeleton") 2 ++ [0; 0; 0; 0]). vm_compute. auto. Qed.

Lemma meta_then_poses n o kind b file m rest poses rest' :
  endian_byte o b ->
  load (skeleton_read_meta true) n kind (b :: file ++ rest) = Ok (m, rest) ->
  0 < sm_num_joints m ->
  length poses = N.to_nat ((sm_num_joints m + 3) / 4) ->
  Forall (fun p => length p = 40%nat /\ Forall (fits 4) p) poses ->
  load skeleton_from_archive n kind (b :: file ++ flat_map (flat_map (enc o 4)) poses ++ rest')
  = Ok ({| sk_num_joints := sm_num_joints m; sk_rest_poses := poses; sk_names := sm_names m;
           sk_parents := sm_parents m |}, rest').
Proof.
  intros Hb E Hpos Hl Hp.
  assert (Ho : endian_from_tag b = o).
  { unfold endian_from_tag. destruct o; simpl in Hb; destruct (N.eqb_spec b 0); congruence. }
  unfold load, archive_new in *. rewrite Ho in *. fold (env_for n o kind) in *.
  set (e := env_for n o kind) in *.
  destruct (exact_skeleton_meta true _ _ _ _ E) as (c & Ec & [P _]).
  apply app_inv_tail in Ec. subst c. specialize (P (flat_map (flat_map (enc o 4)) poses ++ rest')).
  clear E. rename P into E. unfold skeleton_from_archive, skeleton_read_meta in *.
  apply rbind_inv in E as ([] & b1 & E1 & E). apply rbind_inv in E as (nj & b2 & E2 & E).
  destruct (N.eqb_spec nj 0) as [->|Hnj]; cbn [orb negb] in E.
  { injection E as <- _. simpl in Hpos. lia. }
  apply rbind_inv in E as (x & b3 & E3 & E). apply rbind_inv in E as (names & b4 & E4 & E).
  apply rbind_inv in E as (ps & b5 & E5 & E). injection E as <- ->. cbn [sm_num_joints sm_names sm_parents] in *.
  assert (E6 : rbind (check_header skeleton_tag skeleton_version)
     (fun _ => rbind read_u32 (fun num_joints => if (num_joints =? 0) || negb false
      then ret {| sm_num_joints := num_joints; sm_names := []; sm_parents := [] |}
      else rbind read_u32 (fun _ => rbind (read_names (N.to_nat num_joints) 0 []) (fun names0 =>
           rbind (read_n (N.to_nat num_joints) read_i16) (fun parents =>
           ret {| sm_num_joints := num_joints; sm_names := names0; sm_parents := parents |}))))) e
      (file ++ flat_map (flat_map (enc o 4)) poses ++ rest')
     = Ok ({| sm_num_joints := nj; sm_names := []; sm_parents := [] |}, b2)).
  { unfold rbind at 1. rewrite E1. unfold rbind at 1. rewrite E2. rewrite orb_true_r. reflexivity. }
  unfold rbind at 1. rewrite E6. cbn [sm_num_joints]. cbv zeta.
  unfold rbind at 1. rewrite E3. unfold rbind at 1. rewrite E4. unfold rbind at 1. rewrite E5.
  assert (HP : parses (read_n (N.to_nat (div_ceil nj 4)) read_soa_transform) e
      (flat_map (flat_map (enc o 4)) poses) poses).
  { apply read_n_parses'.
    - unfold div_ceil. replace (nj + 4 - 1) with (nj + 3) by lia. symmetry; exact Hl.
    - intros p Hin. rewrite Forall_forall in Hp. destruct (Hp _ Hin) as [Hl' Hf].
      unfold read_soa_transform. apply read_n_parses'; [auto|]. intros y Hy. apply read_uint_parses.
      rewrite Forall_forall in Hf; auto. }
  unfold rbind. rewrite (proj1 HP). reflexivity.
Qed.

Lemma names_bijection n kind file s rest :
  load skeleton_from_archive n kind file = Ok (s, rest) ->
  forall nm i, joint_by_name s nm = Some i <-> name_by_joint s i = Some nm.
Proof.
  unfold load, archive_new. destruct file as [|b bs]; [discriminate|].
  intros E nm i. eapply joint_name_iff; exact E.
Qed.

Lemma loading_never_panics n kind file :
  load animation_from_archive n kind file <> Panic /\
  load animation_read_meta n kind file <> Panic /\
  load skeleton_from_archive n kind file <> Panic /\
  (forall with_joints, load (skeleton_read_meta with_joints) n kind file <> Panic) /\
  (forall k, len file < 4 * (2 ^ 32 - 7) -> load (track_from_archive k) n kind file <> Panic).
Proof.
  repeat split; intros.
  - apply calm_load, calm_animation.
  - apply calm_load, calm_animation_meta.
  - apply calm_load, calm_skeleton.
  - apply calm_load, calm_skeleton_meta.
  - intros E. apply track_panic in E. lia.
Qed.

Lemma strings_are_text n kind b s rest :
  ~ In 0 s ->
  (text s <-> load read_string n kind (b :: s ++ 0 :: rest) = Ok (s, rest)) /\
  (~ text s -> exists n', load read_string n kind (b :: s ++ 0 :: rest) = Err (Utf8 n')).
Proof.
  intros H0.
  assert (E : load read_string n kind (b :: s ++ 0 :: rest)
    = match utf8_error 0 s with None => Ok (s, rest) | Some k => Err (Utf8 (k mod 2 ^ 32)) end).
  { unfold load, archive_new, read_string, rbind. rewrite read_cstr_ok by exact H0. simpl rev. cbn [app].
    unfold from_utf8. destruct (utf8_error 0 s); reflexivity. }
  rewrite E. pose proof (utf8_error_text s) as T.
  destruct (utf8_error 0 s) as [k|].
  - split; [split; [intros H; apply T in H; discriminate|discriminate]|]. intros _. eauto.
  - split; [split; [reflexivity|intros _; apply T; reflexivity]|]. intros H. exfalso; apply H, T; reflexivity.
Qed.

(** * Concrete objects *)

Definition ex_channel : channel :=
  {| ch_ratios := [0; 0; 0; 0; 2; 2; 2; 2; 1]; ch_previouses := [0; 0; 0; 0; 4; 4; 4; 4; 5];
     ch_entries := [0; 4; 5; 6; 7]; ch_desc := [0; 8]; ch_interval := 1065353216;
     ch_keys := [[1; 2; 3]; [4; 5; 6]; [7; 8; 9]; [65535; 0; 1]; [1; 1; 1]; [0; 0; 0];
                 [2; 3; 4]; [5; 6; 7]; [8; 9; 10]] |}.
Definition ex_empty_channel : channel :=
  {| ch_ratios := []; ch_previouses := []; ch_entries := []; ch_desc := []; ch_interval := 0;
     ch_keys := [] |}.
Definition ex_animation : animation :=
  {| an_duration := 1065353216; an_num_tracks := 3; an_name := ascii "walk";
     an_timepoints := [0; 1056964608; 1065353216]; an_t := ex_channel; an_r := ex_channel;
     an_s := ex_empty_channel |}.
Definition ex_animation_u16 : animation :=
  {| an_duration := 1065353216; an_num_tracks := 3; an_name := ascii "run";
     an_timepoints := repeat 1065353216 300;
     an_t := {| ch_ratios := [299]; ch_previouses := [0]; ch_entries := []; ch_desc := [];
                ch_interval := 0; ch_keys := [[1; 2; 3]] |};
     an_r := ex_channel; an_s := ex_empty_channel |}.

Lemma fits_dec w l : forallb (fun v => v <? 2 ^ (8 * N.of_nat w)) l = true -> Forall (fits w) l.
Proof.
  intros H. apply Forall_forall. intros x Hx. rewrite forallb_forall in H. apply H in Hx.
  unfold fits. lia.
Qed.

Lemma keys_dec l : forallb (fun k => (length k =? 3)%nat && forallb (fun v => v <? 65536) k) l = true ->
  Forall (fun k => length k = 3%nat /\ Forall (fits 2) k) l.
Proof.
  intros H. apply Forall_forall. intros x Hx. rewrite forallb_forall in H. apply H in Hx.
  apply andb_prop in Hx as [H1 H2]. split; [lia|]. apply fits_dec. exact H2.
Qed.

Lemma ex_channel_ok : channel_ok true ex_channel /\ channel_ok false ex_channel.
Proof.
  split; (repeat split; try reflexivity; try (apply fits_dec; reflexivity); apply keys_dec; reflexivity).
Qed.

Lemma ex_empty_channel_ok u8 : channel_ok u8 ex_empty_channel.
Proof. destruct u8; repeat split; try reflexivity; constructor. Qed.

Lemma ex_animation_ok : animation_ok ex_animation.
Proof.
  repeat split; try reflexivity; try (apply fits_dec; reflexivity); try (apply keys_dec; reflexivity).
  apply ascii_text. reflexivity.
Qed.

Lemma ex_animation_u16_ok : animation_ok ex_animation_u16.
Proof.
  repeat split; try reflexivity; try (apply fits_dec; reflexivity); try (apply keys_dec; reflexivity).
  apply ascii_text. reflexivity.
Qed.

Definition ex_skeleton : skel_content :=
  {| sc_names := [ascii "root"; ascii "left"; ascii "right"; [195; 169]; ascii ""];
     sc_parents := [(-1)%Z; 0%Z; 0%Z; 2%Z; 3%Z];
     sc_poses := [repeat 1065353216 40; repeat 3 40] |}.
Definition ex_skeleton_dup : skel_content :=
  {| sc_names := [ascii "a"; ascii "b"; ascii "a"]; sc_parents := [(-1)%Z; 0%Z; 1%Z];
     sc_poses := [repeat 5 40] |}.

Lemma ex_text : text [195; 169] /\ ~ text [195; 40].
Proof.
  split; [apply utf8_error_text; reflexivity|].
  intros H. apply utf8_error_text in H. discriminate.
Qed.

Lemma names_dec l : forallb (fun s => match utf8_error 0 s with None => true | _ => false end &&
    forallb (fun b => negb (b =? 0)) s) l = true ->
  Forall (fun s => text s /\ ~ In 0 s) l.
Proof.
  intros H. apply Forall_forall. intros s Hs. rewrite forallb_forall in H. apply H in Hs.
  apply andb_prop in Hs as [H1 H2]. split; [|apply no_zero; exact H2].
  apply utf8_error_text. destruct (utf8_error 0 s); [discriminate|reflexivity].
Qed.

Lemma sfits_dec l : forallb (fun v => (-32768 <=? v)%Z && (v <? 32768)%Z) l = true -> Forall (sfits 2) l.
Proof.
  intros H. apply Forall_forall. intros x Hx. rewrite forallb_forall in H. apply H in Hx.
  unfold sfits. change (2 ^ (8 * Z.of_nat 2 - 1))%Z with 32768%Z. lia.
Qed.

Lemma poses_dec l : forallb (fun k => (length k =? 40)%nat && forallb (fun v => v <? 2 ^ (8 * N.of_nat 4)) k) l = true ->
  Forall (fun k => length k = 40%nat /\ Forall (fits 4) k) l.
Proof.
  intros H. apply Forall_forall. intros x Hx. rewrite forallb_forall in H. apply H in Hx.
  apply andb_prop in Hx as [H1 H2]. split; [lia|]. apply fits_dec. exact H2.
Qed.

Lemma ex_skeleton_ok : skeleton_ok ex_skeleton.
Proof.
  unfold skeleton_ok. split; [simpl; lia|]. split; [reflexivity|]. split; [reflexivity|].
  split; [apply names_dec; reflexivity|]. split; [apply sfits_dec; reflexivity|].
  split; [reflexivity|apply poses_dec; reflexivity].
Qed.

Lemma ex_skeleton_dup_ok : skeleton_ok ex_skeleton_dup.
Proof.
  unfold skeleton_ok. split; [simpl; lia|]. split; [reflexivity|]. split; [reflexivity|].
  split; [apply names_dec; reflexivity|]. split; [apply sfits_dec; reflexivity|].
  split; [reflexivity|apply poses_dec; reflexivity].
Qed.

Lemma ex_skeleton_nodup : NoDup (sc_names ex_skeleton).
Proof. repeat constructor; simpl; intuition discriminate. Qed.

Definition ex_track : track :=
  {| tr_key_count := 9; tr_ratios := [0; 1; 2; 3; 4; 5; 6; 7; 8];
     tr_values := repeat [1; 2; 3] 9; tr_steps := [255; 1]; tr_name := ascii "t" |}.

Lemma ex_track_ok : track_ok TFloat3 ex_track.
Proof.
  unfold track_ok. repeat split; try reflexivity; try (apply fits_dec; reflexivity).
  - apply Forall_forall. intros v Hv. cbn [tr_values ex_track] in Hv. apply repeat_spec in Hv. subst v.
    split; [reflexivity|apply fits_dec; reflexivity].
  - apply ascii_text; reflexivity.
Qed.

Lemma ex_truncated :
  proper_prefix (firstn 40 (1 :: w_animation Little ex_animation)) (1 :: w_animation Little ex_animation)
  /\ load animation_from_archive Little 7 (firstn 40 (1 :: w_animation Little ex_animation)) = Err (IO 7).
Proof.
  split; [|vm_compute; reflexivity].
  exists (nth 40 (1 :: w_animation Little ex_animation) 0), (skipn 41 (1 :: w_animation Little ex_animation)).
  vm_compute. reflexivity.
Qed.

Lemma ex_tags :
  load animation_from_archive Little 7 (1 :: w_skeleton Little ex_skeleton) = Err InvalidTag /\
  load animation_from_archive Little 7 (1 :: ascii "ozz-animation" ++ [0; 6; 0; 0; 0]) = Err InvalidVersion /\
  text (ascii "ozz-skeleton") /\ ascii "ozz-skeleton" <> ascii "ozz-animation".
Proof.
  split; [vm_compute; reflexivity|]. split; [vm_compute; reflexivity|].
  split; [apply ascii_text; reflexivity|discriminate].
Qed.
