(** The layouts compute the intended addresses, and array accesses do not interfere. *)
From Verif Require Import Base Layout LayoutSpec.
Local Open Scope Z_scope.
Local Open Scope res_scope.

Definition up (a x : Z) : Z := (x + (a - 1)) / a * a.

Lemma up_spec : forall k x, 0 <= k -> let a := 2 ^ k in
  x <= up a x < x + a /\ up a x mod a = 0.
Proof.
  intros k x Hk a. assert (Ha : 0 < a) by (apply Z.pow_pos_nonneg; lia).
  unfold up. pose proof (Z.div_mod (x + (a - 1)) a ltac:(lia)) as E.
  pose proof (Z.mod_pos_bound (x + (a - 1)) a Ha). split; [lia|].
  apply Z.mod_mul; lia.
Qed.

Lemma up4 : forall x, x <= up 4 x < x + 4 /\ up 4 x mod 4 = 0.
Proof. intros x. exact (up_spec 2 x ltac:(lia)). Qed.
Lemma up16 : forall x, x <= up 16 x < x + 16 /\ up 16 x mod 16 = 0.
Proof. intros x. exact (up_spec 4 x ltac:(lia)). Qed.

Lemma up_shift : forall a b x, 0 < a -> b mod a = 0 -> up a (b + x) = b + up a x.
Proof.
  intros a b x Ha Hb. unfold up.
  apply Z.mod_divide in Hb; [|lia]. destruct Hb as [q ->].
  replace (q * a + x + (a - 1)) with (x + (a - 1) + q * a) by lia.
  rewrite Z.div_add by lia. lia.
Qed.

Lemma norm_ok : forall W ck x, 0 <= x < W -> norm W ck x = Ok x.
Proof.
  intros W ck x H. unfold norm.
  destruct (Z.leb_spec 0 x); [|lia]. destruct (Z.ltb_spec x W); [reflexivity|lia].
Qed.
Lemma uadd_ok : forall W ck x y, 0 <= x + y < W -> uadd W ck x y = Ok (x + y).
Proof. intros. apply norm_ok; auto. Qed.
Lemma umul_ok : forall W ck x y, 0 <= x * y < W -> umul W ck x y = Ok (x * y).
Proof. intros. apply norm_ok; auto. Qed.
Lemma padd_ok : forall W x y, 0 <= x + y < W -> padd W x y = x + y.
Proof. intros. apply Z.mod_small; auto. Qed.

Lemma land_align : forall k s, 0 <= k ->
  Z.land s (Z.lnot (2 ^ k - 1)) = s / 2 ^ k * 2 ^ k.
Proof.
  intros k s Hk. replace (2 ^ k - 1) with (Z.ones k) by (rewrite Z.ones_equiv; lia).
  rewrite <- Z.ldiff_land, Z.ldiff_ones_r by lia.
  rewrite Z.shiftl_mul_pow2, Z.shiftr_div_pow2 by lia. reflexivity.
Qed.

Lemma align4_ok : forall W ck x, 0 <= x -> x + 3 < W -> align_usize W ck x 4 = Ok (up 4 x).
Proof.
  intros W ck x H0 H. unfold align_usize. change (is_pow2 4) with true. cbn [assert_ bind].
  rewrite uadd_ok by lia. cbn [bind]. f_equal. exact (land_align 2 _ ltac:(lia)).
Qed.
Lemma align16_ok : forall W ck x, 0 <= x -> x + 15 < W -> align_usize W ck x 16 = Ok (up 16 x).
Proof.
  intros W ck x H0 H. unfold align_usize. change (is_pow2 16) with true. cbn [assert_ bind].
  rewrite uadd_ok by lia. cbn [bind]. f_equal. exact (land_align 4 _ ltac:(lia)).
Qed.
Lemma alignp4_ok : forall W ck x, 0 <= x -> x + 3 < W -> align_ptr W ck x 4 = Ok (up 4 x).
Proof. intros. unfold align_ptr. change (is_pow2 4) with true. cbn [assert_ bind]. apply align4_ok; auto. Qed.
Lemma alignp16_ok : forall W ck x, 0 <= x -> x + 15 < W -> align_ptr W ck x 16 = Ok (up 16 x).
Proof. intros. unfold align_ptr. change (is_pow2 16) with true. cbn [assert_ bind]. apply align16_ok; auto. Qed.

Definition nn_chan (c : chan_counts) : Prop := 0 <= c_keys c /\ 0 <= c_entries c /\ 0 <= c_desc c.

(** Offset of the end of a channel that starts at offset [s]. *)
Definition chan_end (s : Z) (c : chan_counts) : Z :=
  up 4 (s + 10 * c_keys c + c_entries c) + 4 * c_desc c.

Lemma chan_end_ge : forall s c, nn_chan c ->
  s + 10 * c_keys c + c_entries c <= chan_end s c /\
  up 4 (s + 10 * c_keys c + c_entries c) <= chan_end s c /\ chan_end s c mod 4 = 0.
Proof.
  intros s c (Hk & He & Hd). unfold chan_end.
  destruct (up4 (s + 10 * c_keys c + c_entries c)) as [B M].
  repeat split; [lia|lia|].
  replace (4 * c_desc c) with (c_desc c * 4) by lia. rewrite Z.mod_add by lia. exact M.
Qed.

Lemma chan_size_ok : forall W ck s c, nn_chan c -> 0 <= s -> chan_end s c + 4 <= W ->
  chan_size W ck 6 s c = Ok (chan_end s c).
Proof.
  intros W ck s c Hc Hs HW. destruct (chan_end_ge s c Hc) as (E1 & E2 & _).
  destruct Hc as (Hk & He & Hd). unfold chan_size.
  destruct (up4 (s + 10 * c_keys c + c_entries c)) as [B M].
  unfold chan_end in *.
  rewrite umul_ok by lia. cbn [bind].
  rewrite umul_ok by lia. cbn [bind].
  rewrite uadd_ok by lia. cbn [bind].
  rewrite uadd_ok by lia. cbn [bind].
  rewrite umul_ok by lia. cbn [bind].
  rewrite uadd_ok by lia. cbn [bind].
  rewrite uadd_ok by lia. cbn [bind].
  replace (s + (c_keys c * 6 + c_keys c * 2 + c_keys c * 2 + c_entries c * 1))
    with (s + 10 * c_keys c + c_entries c) by lia.
  rewrite align4_ok by lia. cbn [bind].
  rewrite umul_ok by lia. cbn [bind].
  rewrite uadd_ok by lia. f_equal. lia.
Qed.

Definition chan_at (p : Z) (c : chan_counts) : chan_ptrs :=
  CP p (p + 6 * c_keys c) (p + 8 * c_keys c) (p + 10 * c_keys c)
     (up 4 (p + 10 * c_keys c + c_entries c)).

Lemma chan_walk_ok : forall W ck b s c, nn_chan c -> 0 < b -> b mod 4 = 0 -> 0 <= s ->
  b + chan_end s c + 4 <= W ->
  chan_walk W ck 6 (b + s) c = Ok (chan_at (b + s) c, b + chan_end s c).
Proof.
  intros W ck b s c Hc Hb Hm Hs HW. destruct (chan_end_ge s c Hc) as (E1 & E2 & _).
  destruct Hc as (Hk & He & Hd). unfold chan_walk, chan_at.
  destruct (up4 (s + 10 * c_keys c + c_entries c)) as [B M].
  replace (b + s + 10 * c_keys c + c_entries c) with (b + (s + 10 * c_keys c + c_entries c)) by lia.
  rewrite up_shift by lia. unfold chan_end in *.
  rewrite umul_ok by lia. cbn [bind].
  rewrite umul_ok by lia. cbn [bind].
  rewrite (padd_ok W (b + s)) by lia.
  rewrite (padd_ok W (b + s + c_keys c * 6)) by lia.
  rewrite (padd_ok W (b + s + c_keys c * 6 + c_keys c * 2)) by lia.
  rewrite (padd_ok W (b + s + c_keys c * 6 + c_keys c * 2 + c_keys c * 2)) by lia.
  rewrite alignp4_ok by lia. cbn [bind].
  replace (b + s + c_keys c * 6 + c_keys c * 2 + c_keys c * 2 + c_entries c)
    with (b + (s + 10 * c_keys c + c_entries c)) by lia.
  rewrite up_shift by lia.
  rewrite umul_ok by lia. cbn [bind].
  rewrite padd_ok by lia.
  f_equal. f_equal; [f_equal; lia|lia].
Qed.

(** Every array of the channel, listed in address order. *)
Lemma chan_arrays_ordered : forall p c, nn_chan c -> p mod 4 = 0 ->
  let l := chan_arrays 6 c (chan_at p c) in
  let e := up 4 (p + 10 * c_keys c + c_entries c) + 4 * c_desc c in
  Forall (fun a => 0 <= a_count a /\ 0 < a_size a /\ p <= a_ptr a /\ a_end a <= e /\ aligned a) l /\
  ForallOrdPairs (fun a b => a_end a <= a_ptr b) l.
Proof.
  intros p c (Hk & He & Hd) Hm l e. subst l e. unfold chan_arrays, chan_at, a_end, aligned.
  destruct (up4 (p + 10 * c_keys c + c_entries c)) as [B M].
  assert (Hm2 : forall x, (p + 2 * x) mod 2 = 0).
  { intros x. replace (2 * x) with (x * 2) by lia. rewrite Z.mod_add by lia.
    apply Z.mod_divide in Hm; [|lia]. destruct Hm as [q ->].
    replace (q * 4) with (q * 2 * 2) by lia. apply Z.mod_mul; lia. }
  split.
  - repeat constructor; cbn [a_ptr a_count a_size a_align p_keys p_ratios p_previouses p_entries p_desc]; try lia.
  - repeat constructor; cbn [a_ptr a_count a_size a_align p_keys p_ratios p_previouses p_entries p_desc]; lia.
Qed.

(** Size of the block, as a plain formula. *)
Definition anim_bytes (m : anim_counts) : Z :=
  chan_end (chan_end (chan_end (4 * n_timepoints m) (n_t m)) (n_r m)) (n_s m).

Definition nn_counts (m : anim_counts) : Prop :=
  0 <= n_timepoints m /\ nn_chan (n_t m) /\ nn_chan (n_r m) /\ nn_chan (n_s m).

Lemma FOP_app {A} (R : A -> A -> Prop) : forall l1 l2,
  ForallOrdPairs R l1 -> ForallOrdPairs R l2 -> (forall a b, In a l1 -> In b l2 -> R a b) ->
  ForallOrdPairs R (l1 ++ l2).
Proof.
  intros l1 l2 H1 H2 H. induction H1 as [|a l Ha Hl IH]; [exact H2|].
  simpl. constructor.
  - apply Forall_app. split; [exact Ha|]. apply Forall_forall. intros b Hb. apply H; [left; auto|auto].
  - apply IH. intros x y Hx Hy. apply H; [right; auto|auto].
Qed.

Lemma FOP_impl {A} (R S : A -> A -> Prop) l :
  (forall a b, R a b -> S a b) -> ForallOrdPairs R l -> ForallOrdPairs S l.
Proof.
  intros H. induction 1 as [|a l Ha Hl IH]; constructor; auto.
  eapply Forall_impl; [|exact Ha]. auto.
Qed.

Theorem animation_new_ok : forall W ck alloc m, nn_counts m ->
  good_alloc W alloc (anim_bytes m) 4 ->
  exists a, animation_new W ck alloc m = Ok a /\
    am_size a = anim_bytes m /\ am_timepoints a = alloc (anim_bytes m) 4 /\ am_counts a = m /\
    carved (alloc (anim_bytes m) 4) (anim_bytes m) (anim_arrays a) /\
    a_end (last (anim_arrays a) (Arr 0 0 0 0)) = alloc (anim_bytes m) 4 + anim_bytes m.
Proof.
  intros W ck alloc m (Htp & Ht & Hr & Hs) (Hb & Hm & HW).
  set (b := alloc (anim_bytes m) 4) in *.
  set (s0 := 4 * n_timepoints m) in *.
  pose proof (chan_end_ge s0 (n_t m) Ht) as (T1 & T2 & T3).
  set (s1 := chan_end s0 (n_t m)) in *.
  pose proof (chan_end_ge s1 (n_r m) Hr) as (R1 & R2 & R3).
  set (s2 := chan_end s1 (n_r m)) in *.
  pose proof (chan_end_ge s2 (n_s m) Hs) as (S1 & S2 & S3).
  assert (E : anim_bytes m = chan_end s2 (n_s m)) by reflexivity.
  set (s3 := chan_end s2 (n_s m)) in *.
  destruct Ht as (Ht1 & Ht2 & Ht3), Hr as (Hr1 & Hr2 & Hr3), Hs as (Hs1 & Hs2 & Hs3).
  assert (L : 0 <= s0 /\ s0 <= s1 /\ s1 <= s2 /\ s2 <= s3) by (subst s0; lia).
  assert (Hsize : anim_size W ck m = Ok s3).
  { unfold anim_size. rewrite umul_ok by lia. cbn [bind].
    replace (n_timepoints m * 4) with s0 by (subst s0; lia).
    unfold F3K_SIZE, QK_SIZE.
    rewrite chan_size_ok by (try (repeat split; lia); fold s1; lia). cbn [bind]. fold s1.
    rewrite chan_size_ok by (try (repeat split; lia); fold s2; lia). cbn [bind]. fold s2.
    apply chan_size_ok; [repeat split; lia|lia|fold s3; lia]. }
  assert (Hrun : animation_new W ck alloc m =
    Ok (AM s3 m b (chan_at (b + s0) (n_t m)) (chan_at (b + s1) (n_r m)) (chan_at (b + s2) (n_s m)))).
  { unfold animation_new. rewrite Hsize. cbn [bind]. rewrite <- E. fold b.
    rewrite umul_ok by lia. cbn [bind].
    replace (n_timepoints m * 4) with s0 by (subst s0; lia).
    rewrite padd_ok by lia. unfold F3K_SIZE, QK_SIZE.
    rewrite chan_walk_ok by (try (repeat split; lia); fold s1; lia). cbn [bind]. fold s1.
    rewrite chan_walk_ok by (try (repeat split; lia); fold s2; lia). cbn [bind]. fold s2.
    rewrite chan_walk_ok by (try (repeat split; lia); fold s3; lia). cbn [bind]. fold s3.
    rewrite padd_ok by lia. rewrite E. rewrite Z.eqb_refl. reflexivity. }
  eexists. split; [exact Hrun|]. rewrite E.
  split; [reflexivity|]. split; [reflexivity|]. split; [reflexivity|].
  assert (M4 : forall s, s mod 4 = 0 -> (b + s) mod 4 = 0).
  { intros s Hs'. rewrite Z.add_mod, Hm, Hs' by lia. reflexivity. }
  assert (M0 : s0 mod 4 = 0) by (subst s0; rewrite Z.mul_comm; apply Z.mod_mul; lia).
  assert (C : forall s c, nn_chan c -> s mod 4 = 0 ->
     let l := chan_arrays 6 c (chan_at (b + s) c) in
     Forall (fun a => 0 <= a_count a /\ 0 < a_size a /\ b + s <= a_ptr a /\ a_end a <= b + chan_end s c /\ aligned a) l /\
     ForallOrdPairs (fun a b => a_end a <= a_ptr b) l).
  { intros s c Hc Hsm. pose proof (chan_arrays_ordered (b + s) c Hc (M4 s Hsm)) as H.
    cbv zeta in H. replace (b + s + 10 * c_keys c + c_entries c) with (b + (s + 10 * c_keys c + c_entries c)) in H by lia.
    rewrite up_shift in H by lia.
    replace (b + up 4 (s + 10 * c_keys c + c_entries c) + 4 * c_desc c) with (b + chan_end s c) in H
      by (unfold chan_end; lia). exact H. }
  destruct (C s0 (n_t m)) as [CT OT]; [repeat split; lia|exact M0|].
  destruct (C s1 (n_r m)) as [CR OR]; [repeat split; lia|exact T3|].
  destruct (C s2 (n_s m)) as [CS OS]; [repeat split; lia|exact R3|].
  fold s1 in CT. fold s2 in CR. fold s3 in CS.
  unfold anim_arrays. cbn [am_size am_counts am_timepoints am_t am_r am_s]. unfold F3K_SIZE, QK_SIZE.
  set (lt := chan_arrays 6 (n_t m) _) in *. set (lr := chan_arrays 6 (n_r m) _) in *.
  set (ls := chan_arrays 6 (n_s m) _) in *.
  split.
  - split.
    + constructor.
      * cbn [a_ptr a_count a_size a_align]. unfold inside, aligned, a_end; cbn [a_ptr a_count a_size a_align].
        repeat split; try lia; auto.
      * apply Forall_app; split; [|apply Forall_app; split];
          (eapply Forall_impl; [|eassumption]); cbv beta; intros a (P1 & P2 & P3 & P4 & P5);
          unfold inside; clear Hm T3 R3 S3 M0 M4 C CT OT CR OR CS OS Hrun Hsize;
          (split; [exact P1|split; [exact P2|split; [split; lia|exact P5]]]).
    + apply FOP_impl with (R := fun a b => a_end a <= a_ptr b); [intros; left; auto|].
      rewrite Forall_forall in CT, CR, CS. constructor.
      * unfold a_end at 1; cbn [a_ptr a_count a_size a_align].
        apply Forall_forall. intros x Hx. rewrite !in_app_iff in Hx.
        destruct Hx as [Hx|[Hx|Hx]]; [apply CT in Hx|apply CR in Hx|apply CS in Hx]; subst s0; lia.
      * apply FOP_app; [exact OT|apply FOP_app; [exact OR|exact OS|]|].
        -- intros x y Hx Hy. apply CR in Hx. apply CS in Hy. lia.
        -- intros x y Hx Hy. rewrite in_app_iff in Hy. apply CT in Hx.
           destruct Hy as [Hy|Hy]; [apply CR in Hy|apply CS in Hy]; lia.
  - subst lt lr ls. unfold chan_arrays. cbn [app last]. unfold a_end; cbn [a_ptr a_count a_size].
    cbn [p_desc chan_at].
    replace (b + s2 + 10 * c_keys (n_s m) + c_entries (n_s m))
      with (b + (s2 + 10 * c_keys (n_s m) + c_entries (n_s m))) by lia.
    rewrite up_shift by lia. subst s3. unfold chan_end. lia.
Qed.

(** With 32-bit counts the block is far smaller than a 64-bit address space. *)
Lemma anim_bytes_bound : forall m, u32_counts m -> nn_counts m /\ 0 <= anim_bytes m < 2 ^ 38.
Proof.
  intros m (Htp & (Ht1 & Ht2 & Ht3) & (Hr1 & Hr2 & Hr3) & (Hs1 & Hs2 & Hs3)).
  unfold u32 in *. split; [repeat split; lia|].
  unfold anim_bytes.
  assert (H : forall s c, 0 <= s -> u32 (c_keys c) -> u32 (c_entries c) -> u32 (c_desc c) ->
    0 <= chan_end s c <= s + 15 * 2 ^ 32 + 4).
  { intros s c Hs K1 K2 K3. unfold u32 in *. unfold chan_end.
    destruct (up4 (s + 10 * c_keys c + c_entries c)) as [B _]. lia. }
  destruct (H (4 * n_timepoints m) (n_t m)) as [A1 A2]; unfold u32; try lia.
  destruct (H (chan_end (4 * n_timepoints m) (n_t m)) (n_r m)) as [B1 B2]; unfold u32; try lia.
  destruct (H (chan_end (chan_end (4 * n_timepoints m) (n_t m)) (n_r m)) (n_s m)) as [C1 C2];
    unfold u32; try lia.
Qed.

(** * Skeleton *)

Lemma udiv_ceil_spec : forall x y, 0 <= x -> 0 < y ->
  x <= udiv_ceil x y * y < x + y /\ 0 <= udiv_ceil x y.
Proof.
  intros x y Hx Hy. unfold udiv_ceil.
  pose proof (Z.div_mod x y ltac:(lia)) as E. pose proof (Z.mod_pos_bound x y Hy).
  assert (0 <= x / y) by (apply Z.div_pos; lia).
  destruct (Z.ltb_spec 0 (x mod y)); split; nia.
Qed.

Definition skel_bytes (n : Z) : Z := 160 * udiv_ceil n 4 + 2 * n.

Theorem skeleton_new_ok : forall W ck alloc n, 0 <= n -> good_alloc W alloc (skel_bytes n) 16 ->
  exists s, skeleton_new W ck alloc n = Ok s /\
    sm_size s = skel_bytes n /\ sm_poses s = alloc (skel_bytes n) 16 /\ sm_joints s = n /\
    n <= 4 * sm_soa s < n + 4 /\
    carved (alloc (skel_bytes n) 16) (skel_bytes n) (skel_arrays s) /\
    a_end (last (skel_arrays s) (Arr 0 0 0 0)) = alloc (skel_bytes n) 16 + skel_bytes n.
Proof.
  intros W ck alloc n Hn (Hb & Hm & HW).
  destruct (udiv_ceil_spec n 4 Hn ltac:(lia)) as [U1 U2].
  set (b := alloc (skel_bytes n) 16) in *. unfold skel_bytes in HW.
  assert (Hrun : skeleton_new W ck alloc n =
     Ok (SM (skel_bytes n) n (udiv_ceil n 4) b (b + 160 * udiv_ceil n 4))).
  { unfold skeleton_new. rewrite umul_ok by lia. cbn [bind]. rewrite umul_ok by lia. cbn [bind].
    rewrite uadd_ok by lia. cbn [bind]. change (160 * udiv_ceil n 4 + 2 * n) with (skel_bytes n).
    fold b. unfold skel_bytes. rewrite (padd_ok W b (160 * udiv_ceil n 4)) by lia.
    rewrite !padd_ok by lia.
    replace (b + 160 * udiv_ceil n 4 + 2 * n) with (b + (160 * udiv_ceil n 4 + 2 * n)) by lia.
    rewrite Z.eqb_refl. reflexivity. }
  eexists. split; [exact Hrun|]. cbn [sm_size sm_poses sm_joints sm_soa].
  split; [reflexivity|]. split; [reflexivity|]. split; [reflexivity|]. split; [lia|].
  unfold skel_arrays, carved, inside, aligned, disjoint, a_end, skel_bytes.
  cbn [sm_size sm_poses sm_joints sm_soa sm_parents last].
  assert (Hm2 : (b + 160 * udiv_ceil n 4) mod 2 = 0).
  { apply Z.mod_divide in Hm; [|lia]. destruct Hm as [q E]. rewrite E.
    replace (q * 16 + 160 * udiv_ceil n 4) with ((q * 8 + 80 * udiv_ceil n 4) * 2) by lia.
    apply Z.mod_mul; lia. }
  split; [split|].
  - repeat constructor; cbn [a_ptr a_count a_size a_align]; try lia; auto.
  - repeat constructor; cbn [a_ptr a_count a_size a_align]; lia.
  - cbn [a_ptr a_count a_size a_align]. lia.
Qed.

(** * SamplingContext *)

Definition cchan_bytes (v n : Z) : Z :=
  let soa := udiv_ceil n 4 in v * soa + 16 * soa + udiv_ceil soa 8.

Definition ctx_bytes (W n : Z) : Z :=
  up 16 (inner_size W) + up 16 (cchan_bytes 128 n) + up 16 (cchan_bytes 160 n) + up 16 (cchan_bytes 128 n).

Lemma cchan_walk_ok : forall W ck v p soa o, 0 < v -> 0 <= soa -> 0 <= o -> 0 < p -> p mod 16 = 0 ->
  p + (v * soa + 16 * soa + o) + 15 < W ->
  cchan_walk W ck v p soa (soa * 4) o =
    Ok (CCP p (p + v * soa) (p + v * soa + 16 * soa), p + up 16 (v * soa + 16 * soa + o)).
Proof.
  intros W ck v p soa o Hv Hs Ho Hp Hm HW. unfold cchan_walk.
  assert (0 <= v * soa) by nia.
  rewrite umul_ok by lia. cbn [bind]. rewrite umul_ok by lia. cbn [bind].
  rewrite (padd_ok W p (v * soa)) by lia.
  rewrite (padd_ok W (p + v * soa)) by lia.
  rewrite (padd_ok W (p + v * soa + 4 * (soa * 4))) by lia.
  rewrite alignp16_ok by lia. cbn [bind].
  replace (p + v * soa + 4 * (soa * 4) + o) with (p + (v * soa + 16 * soa + o)) by lia.
  rewrite up_shift by lia. f_equal. f_equal. f_equal; lia.
Qed.

Lemma cchan_size_ok : forall W ck v soa o, 0 < v -> 0 <= soa -> 0 <= o ->
  v * soa + 16 * soa + o < W ->
  cchan_size W ck v soa (soa * 4) o = Ok (v * soa + 16 * soa + o).
Proof.
  intros W ck v soa o Hv Hs Ho HW. unfold cchan_size. assert (0 <= v * soa) by nia.
  rewrite umul_ok by lia. cbn [bind]. rewrite umul_ok by lia. cbn [bind].
  rewrite uadd_ok by lia. cbn [bind]. rewrite umul_ok by lia. cbn [bind].
  rewrite uadd_ok by lia. f_equal. lia.
Qed.

Lemma cchan_arrays_ordered : forall v p soa o, (v = 128 \/ v = 160) -> 0 <= soa -> 0 <= o -> p mod 16 = 0 ->
  let l := cchan_arrays v soa (soa * 4) o (CCP p (p + v * soa) (p + v * soa + 16 * soa)) in
  Forall (fun a => 0 <= a_count a /\ 0 < a_size a /\ p <= a_ptr a /\
                   a_end a <= p + (v * soa + 16 * soa + o) /\ aligned a) l /\
  ForallOrdPairs (fun a b => a_end a <= a_ptr b) l.
Proof.
  intros v p soa o Hv Hs Ho Hm l. subst l. unfold cchan_arrays, a_end, aligned.
  cbn [q_values q_entries q_outdated].
  assert (0 <= v * soa) by (destruct Hv; subst; lia).
  assert (Hm4 : (p + v * soa) mod 4 = 0).
  { apply Z.mod_divide in Hm; [|lia]. destruct Hm as [q E]. rewrite E.
    destruct Hv as [-> | ->];
      [replace (q * 16 + 128 * soa) with ((q * 4 + 32 * soa) * 4) by lia
      |replace (q * 16 + 160 * soa) with ((q * 4 + 40 * soa) * 4) by lia]; apply Z.mod_mul; lia. }
  split.
  - repeat constructor; cbn [a_ptr a_count a_size a_align]; try lia; auto;
      destruct Hv; subst; try lia; reflexivity.
  - repeat constructor; cbn [a_ptr a_count a_size a_align]; lia.
Qed.

Theorem context_new_ok : forall W ck alloc n, 0 <= n -> 2 ^ 32 <= W ->
  good_alloc W alloc (ctx_bytes W n) 16 ->
  exists c, context_new W ck alloc n = Ok c /\
    cm_size c = ctx_bytes W n /\ cm_ptr c = alloc (ctx_bytes W n) 16 /\
    n <= cm_tracks c < n + 4 /\ cm_tracks c = 4 * cm_soa c /\
    cm_soa c <= 8 * cm_outdated c < cm_soa c + 8 /\
    carved (alloc (ctx_bytes W n) 16) (ctx_bytes W n) (ctx_arrays W c) /\
    a_end (last (ctx_arrays W c) (Arr 0 0 0 0)) <= alloc (ctx_bytes W n) 16 + ctx_bytes W n
       < a_end (last (ctx_arrays W c) (Arr 0 0 0 0)) + 16.
Proof.
  intros W ck alloc n Hn HW32 (Hb & Hm & HW).
  destruct (udiv_ceil_spec n 4 Hn ltac:(lia)) as [U1 U2].
  set (soa := udiv_ceil n 4) in *.
  destruct (udiv_ceil_spec soa 8 U2 ltac:(lia)) as [O1 O2].
  set (o := udiv_ceil soa 8) in *.
  set (b := alloc (ctx_bytes W n) 16) in *.
  assert (I0 : 0 < inner_size W <= 144) by (unfold inner_size; destruct (W =? 2 ^ 64); lia).
  assert (I1 : inner_size W mod 16 = 0) by (unfold inner_size; destruct (W =? 2 ^ 64); reflexivity).
  assert (I2 : up 16 (inner_size W) = inner_size W).
  { unfold inner_size; destruct (W =? 2 ^ 64); reflexivity. }
  set (i := inner_size W) in *.
  set (xf := 128 * soa + 16 * soa + o) in *. set (xq := 160 * soa + 16 * soa + o) in *.
  assert (EB : ctx_bytes W n = i + up 16 xf + up 16 xq + up 16 xf).
  { unfold ctx_bytes. fold i. rewrite I2. reflexivity. }
  destruct (up16 xf) as [F1 F2]. destruct (up16 xq) as [Q1 Q2].
  set (s := ctx_bytes W n) in *.
  set (p1 := b + i). set (p2 := p1 + up 16 xf). set (p3 := p2 + up 16 xq).
  assert (MA : forall x y, x mod 16 = 0 -> y mod 16 = 0 -> (x + y) mod 16 = 0).
  { intros x y Hx Hy. rewrite Z.add_mod, Hx, Hy by lia. reflexivity. }
  assert (M1 : p1 mod 16 = 0) by (apply MA; auto).
  assert (M2 : p2 mod 16 = 0) by (apply MA; auto).
  assert (M3 : p3 mod 16 = 0) by (apply MA; auto).
  assert (Hrun : context_new W ck alloc n = Ok (CM b s (soa * 4) soa o
     (CCP p1 (p1 + 128 * soa) (p1 + 128 * soa + 16 * soa))
     (CCP p2 (p2 + 160 * soa) (p2 + 160 * soa + 16 * soa))
     (CCP p3 (p3 + 128 * soa) (p3 + 128 * soa + 16 * soa)))).
  { unfold context_new. fold soa. rewrite umul_ok by lia. cbn [bind]. fold o.
    unfold IF3_SIZE, IQ_SIZE.
    rewrite (cchan_size_ok W ck 128), (cchan_size_ok W ck 160) by (fold xf xq; lia). cbn [bind].
    fold xf xq i.
    rewrite !align16_ok by lia. cbn [bind]. rewrite I2.
    rewrite uadd_ok by lia. cbn [bind]. rewrite uadd_ok by lia. cbn [bind].
    rewrite uadd_ok by lia. cbn [bind].
    rewrite <- EB. fold b. rewrite (padd_ok W b i) by lia.
    rewrite alignp16_ok by lia. cbn [bind]. rewrite up_shift by lia. rewrite I2. fold p1.
    rewrite cchan_walk_ok by (fold xf xq; subst p1 p2 p3; lia). cbn [bind]. fold xf p2.
    rewrite cchan_walk_ok by (fold xf xq; subst p1 p2 p3; lia). cbn [bind]. fold xq p3.
    rewrite cchan_walk_ok by (fold xf xq; subst p1 p2 p3; lia). cbn [bind]. fold xf.
    rewrite padd_ok by lia.
    replace (p3 + up 16 xf) with (b + s) by (subst p1 p2 p3; lia).
    rewrite Z.eqb_refl. reflexivity. }
  eexists. split; [exact Hrun|]. cbn [cm_size cm_ptr cm_tracks cm_soa cm_outdated].
  split; [reflexivity|]. split; [reflexivity|]. split; [lia|]. split; [lia|]. split; [lia|].
  destruct (cchan_arrays_ordered 128 p1 soa o) as [CT OT]; auto.
  destruct (cchan_arrays_ordered 160 p2 soa o) as [CR OR]; auto.
  destruct (cchan_arrays_ordered 128 p3 soa o) as [CS OS]; auto.
  fold xf in CT, CS. fold xq in CR.
  unfold ctx_arrays, IF3_SIZE, IQ_SIZE. cbn [cm_ptr cm_size cm_tracks cm_soa cm_outdated cm_t cm_r cm_s]. fold i.
  set (lt := cchan_arrays 128 soa (soa * 4) o (CCP p1 _ _)) in *.
  set (lr := cchan_arrays 160 soa (soa * 4) o _) in *.
  set (ls := cchan_arrays 128 soa (soa * 4) o (CCP p3 _ _)) in *.
  split; [split|].
  - constructor.
    + unfold inside, aligned, a_end; cbn [a_ptr a_count a_size a_align].
      repeat split; lia.
    + apply Forall_app; split; [|apply Forall_app; split];
        (eapply Forall_impl; [|eassumption]); cbv beta; intros a (P1 & P2 & P3 & P4 & P5);
        unfold inside; clear M1 M2 M3 F2 Q2 Hm I1 OT OR OS CT CR CS Hrun MA; subst p1 p2 p3;
        (split; [exact P1|split; [exact P2|split; [split; lia|exact P5]]]).
  - apply FOP_impl with (R := fun a b => a_end a <= a_ptr b); [intros; left; auto|].
    rewrite Forall_forall in CT, CR, CS. constructor.
    + unfold a_end at 1; cbn [a_ptr a_count a_size a_align].
      apply Forall_forall. intros x Hx. rewrite !in_app_iff in Hx.
      destruct Hx as [Hx|[Hx|Hx]]; [apply CT in Hx|apply CR in Hx|apply CS in Hx]; subst p1 p2 p3; lia.
    + apply FOP_app; [exact OT|apply FOP_app; [exact OR|exact OS|]|].
      * intros x y Hx Hy. apply CR in Hx. apply CS in Hy. subst p1 p2 p3. lia.
      * intros x y Hx Hy. rewrite in_app_iff in Hy. apply CT in Hx.
        destruct Hy as [Hy|Hy]; [apply CR in Hy|apply CS in Hy]; subst p1 p2 p3; lia.
  - subst lt lr ls. unfold cchan_arrays. cbn [app last]. unfold a_end; cbn [a_ptr a_count a_size q_outdated].
    subst p1 p2 p3. lia.
Qed.

(** * Memory *)

Lemma addrs_in : forall p n x, In x (addrs p n) <-> p <= x < p + Z.of_nat n.
Proof.
  intros p n x. unfold addrs. rewrite in_map_iff. split.
  - intros (i & <- & Hi). apply in_seq in Hi. lia.
  - intros H. exists (Z.to_nat (x - p)). split; [lia|]. apply in_seq. lia.
Qed.

Lemma elem_range : forall a i, 0 <= i < a_count a -> 0 < a_size a ->
  a_ptr a <= a_ptr a + i * a_size a /\ a_ptr a + i * a_size a + a_size a <= a_end a.
Proof. intros a i Hi Hs. unfold a_end. nia. Qed.

(** A store leaves the elements of every disjoint array, and the other elements of its own
    array, as they were. *)
Lemma store_other : forall m m' a i v b j,
  store m a i v = Ok m' -> 0 < a_size a -> 0 < a_size b ->
  (disjoint a b \/ (a = b /\ i <> j)) -> load m' b j = load m b j.
Proof.
  intros m m' a i v b j Hst Ha Hb Hd. unfold store in Hst. unfold load.
  destruct (Z.leb_spec 0 i); [|discriminate]. destruct (Z.ltb_spec i (a_count a)); [|discriminate].
  cbn [andb] in Hst. injection Hst as <-.
  destruct (Z.leb_spec 0 j); [|reflexivity]. destruct (Z.ltb_spec j (a_count b)); [|reflexivity].
  cbn [andb]. f_equal. apply map_ext_in. intros p Hp. apply addrs_in in Hp.
  rewrite Z2Nat.id in Hp by lia.
  destruct (elem_range a i) as [A1 A2]; [lia|lia|].
  destruct (elem_range b j) as [B1 B2]; [lia|lia|].
  destruct (Z.leb_spec 0 (p - (a_ptr a + i * a_size a))); [|reflexivity].
  destruct (Z.ltb_spec (p - (a_ptr a + i * a_size a)) (a_size a)); [|reflexivity].
  exfalso. destruct Hd as [[D|D]|[-> D]]; [lia|lia|].
  assert (i < j \/ j < i) as [C|C] by lia; nia.
Qed.

Lemma map_addrs : forall (f : Z -> Z) (v : list Z) p,
  (forall k, (k < length v)%nat -> f (p + Z.of_nat k) = nth k v 0) -> map f (addrs p (length v)) = v.
Proof.
  intros f v. unfold addrs. induction v as [|x v IH]; intros p H; [reflexivity|].
  cbn [length seq map]. f_equal.
  - exact (H O ltac:(cbn [length]; lia)).
  - rewrite <- seq_shift, !map_map. rewrite <- (IH (p + 1)) at 2.
    + rewrite map_map. apply map_ext. intros k. f_equal. lia.
    + intros k Hk. replace (p + 1 + Z.of_nat k) with (p + Z.of_nat (S k)) by lia.
      apply (H (S k)). cbn [length]. lia.
Qed.

Lemma store_same : forall m m' a i v,
  store m a i v = Ok m' -> Z.of_nat (length v) = a_size a -> load m' a i = Ok v.
Proof.
  intros m m' a i v Hst Hlen. unfold store in Hst. unfold load.
  destruct (Z.leb_spec 0 i); [|discriminate]. destruct (Z.ltb_spec i (a_count a)); [|discriminate].
  cbn [andb] in *. injection Hst as <-. f_equal.
  generalize (a_ptr a + i * a_size a). intros p. rewrite <- Hlen, Nat2Z.id.
  apply map_addrs. intros k Hk.
  replace (p + Z.of_nat k - p) with (Z.of_nat k) by lia.
  destruct (Z.leb_spec 0 (Z.of_nat k)); [|lia].
  destruct (Z.ltb_spec (Z.of_nat k) (Z.of_nat (length v))); [|lia].
  cbn [andb]. rewrite Nat2Z.id. reflexivity.
Qed.

Lemma carved_disjoint : forall base size l i j a b, carved base size l ->
  nth_error l i = Some a -> nth_error l j = Some b -> i <> j -> disjoint a b.
Proof.
  intros base size l i j a b [_ Hp]. revert i j.
  induction Hp as [|x l Hx Hl IH]; intros [|i] [|j] Hi Hj Hij; try discriminate; cbn [nth_error] in *.
  - congruence.
  - injection Hi as ->. rewrite Forall_forall in Hx. apply Hx. eapply nth_error_In; eauto.
  - injection Hj as ->. rewrite Forall_forall in Hx. apply nth_error_In in Hi. apply Hx in Hi.
    unfold disjoint in *. tauto.
  - apply (IH i j); auto.
Qed.
