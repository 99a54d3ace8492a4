(** C53: one allocation soundly carved into arrays. *)
From Verif Require Import Base Layout LayoutSpec LayoutProofs.
Local Open Scope Z_scope.
Local Open Scope res_scope.

(** ** Animation: all combinations of 32-bit counts, debug and release, 64-bit targets. *)
Theorem C53_animation : forall ck alloc m,
  u32_counts m -> some_data m -> allocator (2 ^ 64) alloc ->
  exists a, animation_new (2 ^ 64) ck alloc m = Ok a /\
    am_counts a = m /\
    am_timepoints a = alloc (am_size a) 4 /\
    carved (am_timepoints a) (am_size a) (anim_arrays a) /\
    a_end (last (anim_arrays a) (Arr 0 0 0 0)) = am_timepoints a + am_size a /\
    anim_dealloc a = Some (alloc (am_size a) 4, am_size a, 4).
Proof.
  intros ck alloc m Hm Hd Ha. destruct (anim_bytes_bound m Hm) as [Hn Hb].
  assert (Hpos : 0 < anim_bytes m).
  { destruct Hn as (N0 & Nt & Nr & Ns).
    pose proof (chan_end_ge (4 * n_timepoints m) _ Nt) as (T1 & _ & _).
    pose proof (chan_end_ge (chan_end (4 * n_timepoints m) (n_t m)) _ Nr) as (R1 & _ & _).
    pose proof (chan_end_ge (chan_end (chan_end (4 * n_timepoints m) (n_t m)) (n_r m)) _ Ns) as (S1 & _ & _).
    assert (D : forall s c, nn_chan c -> 0 <= s -> 0 < c_keys c \/ 0 < c_entries c \/ 0 < c_desc c ->
       0 < chan_end s c).
    { intros s c (K1 & K2 & K3) Hs Hc. unfold chan_end.
      destruct (up4 (s + 10 * c_keys c + c_entries c)) as [B _]. lia. }
    destruct Nt as (A1 & A2 & A3), Nr as (B1 & B2 & B3), Ns as (C1 & C2 & C3).
    unfold anim_bytes in *. destruct Hd as [Hd|Hd]; [lia|].
    inversion Hd as [x l Hx|x l Hx]; subst.
    { pose proof (D (4 * n_timepoints m) (n_t m) ltac:(repeat split; lia) ltac:(lia) Hx). lia. }
    inversion Hx as [y l2 Hy|y l2 Hy]; subst.
    { pose proof (D (chan_end (4 * n_timepoints m) (n_t m)) (n_r m) ltac:(repeat split; lia) ltac:(lia) Hy). lia. }
    inversion Hy as [z l3 Hz|z l3 Hz]; subst; [|inversion Hz].
    apply D; [repeat split; lia|lia|exact Hz]. }
  destruct (animation_new_ok (2 ^ 64) ck alloc m Hn) as (a & E & Es & Ep & Ec & Hc & El).
  { apply Ha; [lia|auto]. }
  exists a. rewrite <- Es in *. rewrite <- Ep in *.
  split; [exact E|]. split; [exact Ec|]. split; [reflexivity|]. split; [exact Hc|].
  split; [exact El|]. unfold anim_dealloc.
  destruct (Ha (am_size a) 4 ltac:(lia) ltac:(auto)) as [Hnz _]. rewrite <- Ep in Hnz.
  destruct (Z.eqb_spec (am_timepoints a) 0); [lia|reflexivity].
Qed.
Print Assumptions C53_animation.

(** ** Skeleton *)
Theorem C53_skeleton : forall ck alloc n,
  u32 n -> 0 < n -> allocator (2 ^ 64) alloc ->
  exists s, skeleton_new (2 ^ 64) ck alloc n = Ok s /\
    sm_joints s = n /\ n <= 4 * sm_soa s < n + 4 /\
    sm_poses s = alloc (sm_size s) 16 /\
    carved (sm_poses s) (sm_size s) (skel_arrays s) /\
    a_end (last (skel_arrays s) (Arr 0 0 0 0)) = sm_poses s + sm_size s /\
    skel_dealloc s = Some (alloc (sm_size s) 16, sm_size s, 16).
Proof.
  intros ck alloc n Hn Hp Ha. unfold u32 in Hn.
  destruct (udiv_ceil_spec n 4 ltac:(lia) ltac:(lia)) as [U1 U2].
  assert (Hb : 0 < skel_bytes n < 2 ^ 40) by (unfold skel_bytes; lia).
  pose proof (Ha (skel_bytes n) 16 Hb ltac:(auto)) as Hg.
  destruct (skeleton_new_ok (2 ^ 64) ck alloc n ltac:(lia) Hg) as (s & E & Es & Ep & Ej & Eo & Hc & El).
  destruct Hg as [Hnz _].
  exists s. rewrite <- Es in *. rewrite <- Ep in *.
  repeat (split; [assumption|]). unfold skel_dealloc.
  split; [reflexivity|]. split; [exact Hc|]. split; [exact El|].
  destruct (Z.eqb_spec (sm_poses s) 0); [lia|reflexivity].
Qed.
Print Assumptions C53_skeleton.

(** ** SamplingContext (the caller's track count is below 2^32, as every animation's is) *)
Theorem C53_context : forall ck alloc n,
  u32 n -> allocator (2 ^ 64) alloc ->
  exists c, context_new (2 ^ 64) ck alloc n = Ok c /\
    n <= cm_tracks c < n + 4 /\ cm_tracks c = 4 * cm_soa c /\
    cm_soa c <= 8 * cm_outdated c < cm_soa c + 8 /\
    cm_ptr c = alloc (cm_size c) 16 /\
    carved (cm_ptr c) (cm_size c) (ctx_arrays (2 ^ 64) c) /\
    a_end (last (ctx_arrays (2 ^ 64) c) (Arr 0 0 0 0)) <= cm_ptr c + cm_size c
       < a_end (last (ctx_arrays (2 ^ 64) c) (Arr 0 0 0 0)) + 16 /\
    ctx_dealloc c = Some (alloc (cm_size c) 16, cm_size c, 16).
Proof.
  intros ck alloc n Hn Ha. unfold u32 in Hn.
  assert (Hb : 0 < ctx_bytes (2 ^ 64) n < 2 ^ 40).
  { unfold ctx_bytes. change (up 16 (inner_size (2 ^ 64))) with 144. unfold cchan_bytes.
    destruct (udiv_ceil_spec n 4 ltac:(lia) ltac:(lia)) as [U1 U2].
    destruct (udiv_ceil_spec (udiv_ceil n 4) 8 U2 ltac:(lia)) as [V1 V2].
    cbv zeta. set (x := 128 * _ + _ + _). set (y := 160 * _ + _ + _).
    destruct (up16 x) as [X _]. destruct (up16 y) as [Y _]. subst x y. lia. }
  pose proof (Ha (ctx_bytes (2 ^ 64) n) 16 Hb ltac:(auto)) as Hg.
  destruct (context_new_ok (2 ^ 64) ck alloc n ltac:(lia) ltac:(lia) Hg)
    as (c & E & Es & Ep & E1 & E2 & E3 & Hc & El).
  destruct Hg as [Hnz _].
  exists c. rewrite <- Es in *. rewrite <- Ep in *.
  repeat (split; [assumption|]). unfold ctx_dealloc.
  split; [reflexivity|]. split; [exact Hc|]. split; [exact El|].
  destruct (Z.eqb_spec (cm_ptr c) 0); [lia|reflexivity].
Qed.
Print Assumptions C53_context.

(** ** Slices of a carved block behave as independent vectors: any sequence of element writes
    through the slices has on every array the effect it would have on separate vectors, and
    panics exactly when it would on them. *)

Lemma contents_nth : forall m a i, nth_error (contents m a) i =
  if (i <? Z.to_nat (a_count a))%nat
  then Some (map m (addrs (a_ptr a + Z.of_nat i * a_size a) (Z.to_nat (a_size a)))) else None.
Proof.
  intros m a i. unfold contents.
  destruct (Nat.ltb_spec i (Z.to_nat (a_count a))).
  - rewrite nth_error_map, nth_error_nth' with (d := O) by (rewrite seq_length; lia).
    cbn [option_map]. rewrite seq_nth by lia. reflexivity.
  - apply nth_error_None. rewrite map_length, seq_length. lia.
Qed.

Lemma contents_length : forall m a, length (contents m a) = Z.to_nat (a_count a).
Proof. intros. unfold contents. rewrite map_length, seq_length. reflexivity. Qed.

Lemma contents_load : forall m a i, (i < Z.to_nat (a_count a))%nat ->
  forall v, load m a (Z.of_nat i) = Ok v <-> nth_error (contents m a) i = Some v.
Proof.
  intros m a i Hi v. rewrite contents_nth. unfold load.
  destruct (Nat.ltb_spec i (Z.to_nat (a_count a))); [|lia].
  destruct (Z.leb_spec 0 (Z.of_nat i)); [|lia].
  destruct (Z.ltb_spec (Z.of_nat i) (a_count a)); [|lia]. cbn [andb].
  split; intros E; congruence.
Qed.

Lemma list_ext {A} (l l' : list A) : (forall i, nth_error l i = nth_error l' i) -> l = l'.
Proof.
  revert l'. induction l as [|x l IH]; intros [|y l'] H; auto.
  - discriminate (H O).
  - discriminate (H O).
  - f_equal; [injection (H O); auto|]. apply IH. intros i. exact (H (S i)).
Qed.

Lemma load_eq_nth : forall m m' a j, (j < Z.to_nat (a_count a))%nat ->
  load m' a (Z.of_nat j) = load m a (Z.of_nat j) ->
  nth_error (contents m' a) j = nth_error (contents m a) j.
Proof.
  intros m m' a j Hj E. rewrite !contents_nth in *. unfold load in E.
  destruct (Nat.ltb_spec j (Z.to_nat (a_count a))); [|lia].
  destruct (Z.leb_spec 0 (Z.of_nat j)); [|lia].
  destruct (Z.ltb_spec (Z.of_nat j) (a_count a)); [|lia]. cbn [andb] in E. congruence.
Qed.

Theorem C53_independent : forall base size l, carved base size l ->
  forall ws m, well_sized l ws ->
  match run_writes l m ws with
  | Ok m' => run_vectors (map (contents m) l) ws = Ok (map (contents m') l)
  | Err _ => False
  | Panic => run_vectors (map (contents m) l) ws = Panic
  end.
Proof.
  intros base size l Hc ws. induction ws as [|[[k i] v] ws IH]; intros m Hw; [reflexivity|].
  inversion Hw as [|? ? Hv Hw']; subst. cbn [run_writes run_vectors].
  unfold get. rewrite nth_error_map.
  destruct (nth_error l k) as [a|] eqn:Ek; cbn [bind option_map]; [|reflexivity].
  specialize (Hv a eq_refl).
  destruct Hc as [Hall Hord]. assert (Hc : carved base size l) by (split; auto).
  rewrite Forall_forall in Hall.
  pose proof (Hall a (nth_error_In _ _ Ek)) as (K1 & K2 & _ & _).
  unfold set. rewrite contents_length.
  destruct (store m a (Z.of_nat i) v) as [m1| |] eqn:Est.
  - cbn [bind]. assert (Hi : (i < Z.to_nat (a_count a))%nat).
    { unfold store in Est. destruct (Z.leb_spec 0 (Z.of_nat i)); [|discriminate].
      destruct (Z.ltb_spec (Z.of_nat i) (a_count a)); [lia|discriminate]. }
    destruct (Nat.ltb_spec i (Z.to_nat (a_count a))); [|lia]. cbn [bind].
    replace (upd (map (contents m) l) k (upd (contents m a) i v)) with (map (contents m1) l).
    { apply IH. exact Hw'. }
    apply list_ext. intros j. rewrite nth_error_upd, !nth_error_map.
    destruct (Nat.eqb_spec k j) as [->|Hkj].
    + rewrite Ek. cbn [option_map andb].
      assert (Hj : (j < length (map (contents m) l))%nat).
      { rewrite map_length. apply nth_error_Some. congruence. }
      destruct (Nat.ltb_spec j (length (map (contents m) l))); [|lia]. f_equal.
      apply list_ext. intros q. rewrite nth_error_upd, contents_length.
      destruct (Nat.ltb_spec q (Z.to_nat (a_count a))) as [Hq|Hq].
      * destruct (Nat.eqb_spec i q) as [->|Hiq]; cbn [andb].
        -- apply contents_load; auto. eapply store_same; eauto.
        -- apply load_eq_nth; auto. eapply store_other; eauto. right. split; auto. lia.
      * rewrite andb_false_r. rewrite !(proj2 (nth_error_None _ _)); auto;
          rewrite contents_length; auto.
    + cbn [andb]. destruct (nth_error l j) as [b|] eqn:Ej; cbn [option_map]; [|reflexivity].
      f_equal. apply list_ext. intros q.
      destruct (Nat.ltb_spec q (Z.to_nat (a_count b))) as [Hq|Hq].
      * apply load_eq_nth; auto.
        pose proof (Hall b (nth_error_In _ _ Ej)) as (L1 & L2 & _ & _).
        eapply store_other; eauto. left. eapply carved_disjoint; eauto.
      * rewrite !(proj2 (nth_error_None _ _)); auto; rewrite contents_length; auto.
  - unfold store in Est. destruct ((0 <=? Z.of_nat i) && (Z.of_nat i <? a_count a)); discriminate.
  - cbn [bind]. unfold store in Est.
    destruct (Nat.ltb_spec i (Z.to_nat (a_count a))); [|reflexivity].
    destruct (Z.leb_spec 0 (Z.of_nat i)); [|lia].
    destruct (Z.ltb_spec (Z.of_nat i) (a_count a)); [discriminate|lia].
Qed.
Print Assumptions C53_independent.

(** ** Where it fails *)

(** An animation with no data at all (or a skeleton without joints) asks the allocator for zero
    bytes, which [GlobalAlloc::alloc] forbids (undefined behaviour). *)
Theorem C53_empty_refuted :
  anim_size (2 ^ 64) true (AC 0 (CC 0 0 0) (CC 0 0 0) (CC 0 0 0)) = Ok 0 /\
  (forall ck alloc, exists s, skeleton_new (2 ^ 64) ck alloc 0 = Ok s /\ sm_size s = 0 /\
                              sm_poses s = alloc 0 16).
Proof.
  split; [reflexivity|]. intros ck alloc. eexists. split.
  - unfold skeleton_new. cbn. unfold padd. rewrite !Z.add_0_r, Z.mod_mod by lia.
    rewrite Z.eqb_refl. reflexivity.
  - split; reflexivity.
Qed.
Print Assumptions C53_empty_refuted.

(** A failed allocation (null) is not detected: the animation is built around address 0. *)
Theorem C53_out_of_memory_refuted : exists m a,
  u32_counts m /\ animation_new (2 ^ 64) true (fun _ _ => 0) m = Ok a /\
  0 < am_size a /\ am_timepoints a = 0.
Proof.
  exists (AC 2 (CC 2 1 1) (CC 2 1 1) (CC 2 1 1)). eexists.
  split; [unfold u32_counts, u32_chan, u32; cbn; lia|].
  split; [vm_compute; reflexivity|]. split; reflexivity.
Qed.
Print Assumptions C53_out_of_memory_refuted.

(** With a 32-bit [usize] and overflow checks off (a release build for wasm32, which the crate
    supports) the size computation wraps.  The final assertion wraps the same way and passes, but
    the arrays reach far outside the allocated block: the counts below come from 32-bit fields of
    the archive header. *)
Theorem C53_wasm32_refuted : exists m a base,
  u32_counts m /\ animation_new (2 ^ 32) false (fun _ _ => base) m = Ok a /\
  good_alloc (2 ^ 32) (fun _ _ => base) (am_size a) 4 /\ am_size a = 8 /\
  exists x, In x (anim_arrays a) /\ base + am_size a + 2 ^ 30 < a_end x.
Proof.
  exists (AC 1 (CC 429496730 0 0) (CC 0 0 0) (CC 0 0 0)). eexists. exists 4096.
  split; [unfold u32_counts, u32_chan, u32; cbn; lia|].
  split; [vm_compute; reflexivity|].
  split; [repeat split; cbn; lia|]. split; [reflexivity|].
  eexists. split; [right; left; reflexivity|]. vm_compute. reflexivity.
Qed.
Print Assumptions C53_wasm32_refuted.

(** Same for the sampling context: a track count (a 32-bit field of the archive, passed on by
    [SamplingContext::from_animation]) of 1072979776 allocates about 12 MB on wasm32 although the
    translations alone are said to be 2^28 elements of 128 bytes. *)
Theorem C53_wasm32_context_refuted : exists n c base,
  u32 n /\ context_new (2 ^ 32) false (fun _ _ => base) n = Ok c /\
  good_alloc (2 ^ 32) (fun _ _ => base) (cm_size c) 16 /\ cm_size c < 2 ^ 24 /\
  exists x, In x (ctx_arrays (2 ^ 32) c) /\ base + cm_size c + 2 ^ 30 < a_end x.
Proof.
  exists 1072979776. eexists. exists 4096.
  split; [unfold u32; lia|].
  split; [vm_compute; reflexivity|].
  split; [repeat split; vm_compute; congruence|]. split; [vm_compute; reflexivity|].
  eexists. split; [right; left; reflexivity|]. vm_compute. reflexivity.
Qed.
Print Assumptions C53_wasm32_context_refuted.

(** ** Examples *)

Definition ex_alloc (size align : Z) : Z := 4096.

Example ex_allocator : allocator (2 ^ 64) ex_alloc.
Proof.
  intros size align Hs [-> | ->]; unfold good_alloc, ex_alloc; (split; [lia|split; [reflexivity|]]);
    change (2 ^ 40) with 1099511627776 in Hs; change (2 ^ 64) with 18446744073709551616; lia.
Qed.

Definition ex_counts : anim_counts := AC 3 (CC 5 3 2) (CC 7 2 1) (CC 1 0 0).

Example C53_example_animation : u32_counts ex_counts /\ some_data ex_counts /\
  exists a, animation_new (2 ^ 64) true ex_alloc ex_counts = Ok a /\ am_size a = 164 /\
    map a_ptr (anim_arrays a) =
      [4096; 4108; 4138; 4148; 4158; 4164; 4172; 4214; 4228; 4242; 4244; 4248; 4254; 4256; 4258; 4260].
Proof.
  split; [unfold u32_counts, u32_chan, u32, ex_counts; cbn; lia|].
  split; [left; reflexivity|]. eexists. split; [vm_compute; reflexivity|].
  split; vm_compute; reflexivity.
Qed.

Example C53_example_others :
  (exists s, skeleton_new (2 ^ 64) true ex_alloc 67 = Ok s /\ sm_soa s = 17 /\ sm_size s = 2854) /\
  (exists c, context_new (2 ^ 64) true ex_alloc 67 = Ok c /\ cm_tracks c = 68 /\ cm_outdated c = 3 /\
     cm_size c = 8080).
Proof.
  split; (eexists; split; [vm_compute; reflexivity|]); repeat split; vm_compute; reflexivity.
Qed.

Example C53_example_independent : exists m',
  run_writes [Arr 4096 2 2 2; Arr 4100 3 1 1] (fun _ => 0) [(0%nat, 1%nat, [7; 8]); (1%nat, 2%nat, [9])] = Ok m' /\
  contents m' (Arr 4096 2 2 2) = [[0; 0]; [7; 8]] /\ contents m' (Arr 4100 3 1 1) = [[0]; [0]; [9]] /\
  carved 4096 8 [Arr 4096 2 2 2; Arr 4100 3 1 1] /\
  well_sized [Arr 4096 2 2 2; Arr 4100 3 1 1] [(0%nat, 1%nat, [7; 8]); (1%nat, 2%nat, [9])].
Proof.
  eexists. split; [reflexivity|]. split; [vm_compute; reflexivity|]. split; [vm_compute; reflexivity|].
  split.
  - split; repeat constructor; unfold inside, aligned, disjoint, a_end; cbn; lia.
  - repeat constructor; intros a E; injection E as <-; reflexivity.
Qed.
