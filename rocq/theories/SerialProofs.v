(** Proofs about Serial.v. *)
From Coq Require Import Permutation String.
From Verif Require Import Base Num Math Archive ArchiveSpec ArchiveProofs Serial SerialSpec.
From Verif Require Sampling.
Local Open Scope N_scope.
Notation length := List.length.

(** * Raw conversions *)

Lemma llen_len {A} (l : list A) : llen l = len l.
Proof. reflexivity. Qed.

Lemma as_u32_small x : fits 4 x -> as_u32 x = x.
Proof. intros H. apply N.mod_small. exact H. Qed.

Lemma as_u32_fits x : fits 4 (as_u32 x).
Proof. unfold fits, as_u32. apply N.mod_lt. discriminate. Qed.

Lemma copy_ok {A} n (l : list A) : len l = n -> copy_from_slice n l = Ok l.
Proof. intros <-. unfold copy_from_slice. rewrite llen_len, N.eqb_refl. reflexivity. Qed.

Lemma copy_inv {A} n (l l' : list A) : copy_from_slice n l = Ok l' -> l' = l /\ len l = n.
Proof.
  unfold copy_from_slice. rewrite llen_len. destruct (N.eqb_spec (len l) n) as [E|]; [|discriminate].
  intros H. injection H as <-. auto.
Qed.

Lemma copy_no_err {A} n (l : list A) e : copy_from_slice n l <> Err e.
Proof. unfold copy_from_slice. destruct (_ =? _); discriminate. Qed.

Lemma len_eq {A B} (l : list A) (l' : list B) : length l = length l' -> len l = len l'.
Proof. unfold len. congruence. Qed.
Lemma len_eq' {A B} (l : list A) (l' : list B) : len l = len l' -> length l = length l'.
Proof. unfold len. lia. Qed.

Lemma chan_raw_ok c : chan_shape c ->
  chan_from_raw (ch_keys c) (ch_ratios c) (ch_previouses c) (ch_interval c) (ch_entries c) (ch_desc c) = Ok c.
Proof.
  intros (H1 & H2 & H3 & H4 & H5). unfold chan_from_raw. rewrite !llen_len.
  rewrite !as_u32_small by assumption. rewrite !copy_ok by (auto using len_eq). cbn [bind].
  destruct c; reflexivity.
Qed.

Lemma anim_raw_ok a : anim_shape a -> anim_from_raw (anim_to_raw a) = Ok a.
Proof.
  intros (H0 & H1 & H2 & H3). unfold anim_from_raw, anim_to_raw. cbn.
  rewrite llen_len, as_u32_small, copy_ok by auto. cbn [bind].
  rewrite !chan_raw_ok by assumption. cbn [bind]. destruct a; reflexivity.
Qed.

Lemma bind_inv {A B} (x : res A) (f : A -> res B) b : bind x f = Ok b -> exists a, x = Ok a /\ f a = Ok b.
Proof. destruct x; cbn; try discriminate. eauto. Qed.

Lemma chan_raw_inv k r p i e d c : chan_from_raw k r p i e d = Ok c ->
  chan_shape c /\ ch_keys c = k /\ ch_ratios c = r /\ ch_previouses c = p /\ ch_interval c = i /\
  ch_entries c = e /\ ch_desc c = d.
Proof.
  unfold chan_from_raw. rewrite !llen_len. intros H.
  apply bind_inv in H as (k' & E1 & H). apply bind_inv in H as (r' & E2 & H).
  apply bind_inv in H as (p' & E3 & H). apply bind_inv in H as (e' & E4 & H).
  apply bind_inv in H as (d' & E5 & H). injection H as <-. cbn.
  apply copy_inv in E1 as [-> E1]. apply copy_inv in E2 as [-> E2].
  apply copy_inv in E3 as [-> E3]. apply copy_inv in E4 as [-> E4]. apply copy_inv in E5 as [-> E5].
  split; [|auto 10]. unfold chan_shape. cbn.
  rewrite <- E1 in E2, E3. apply len_eq' in E2, E3. rewrite E1, E4, E5.
  auto using as_u32_fits.
Qed.

Lemma anim_raw_inv r a : anim_from_raw r = Ok a -> anim_shape a /\ anim_to_raw a = r.
Proof.
  unfold anim_from_raw. intros H.
  apply bind_inv in H as (tp & E0 & H). apply bind_inv in H as (t & E1 & H).
  apply bind_inv in H as (ro & E2 & H). apply bind_inv in H as (s & E3 & H). injection H as <-.
  apply copy_inv in E0 as [-> E0].
  apply chan_raw_inv in E1 as (A1 & B1 & C1 & D1 & F1 & G1 & I1).
  apply chan_raw_inv in E2 as (A2 & B2 & C2 & D2 & F2 & G2 & I2).
  apply chan_raw_inv in E3 as (A3 & B3 & C3 & D3 & F3 & G3 & I3).
  split.
  - split; [|auto]. cbn. rewrite E0. apply as_u32_fits.
  - unfold anim_to_raw. cbn. rewrite B1, C1, D1, F1, G1, I1, B2, C2, D2, F2, G2, I2, B3, C3, D3, F3, G3, I3.
    destruct r; reflexivity.
Qed.

Lemma chan_raw_no_err k r p i e d x : chan_from_raw k r p i e d <> Err x.
Proof.
  unfold chan_from_raw.
  repeat (match goal with |- context [copy_from_slice ?n ?l] =>
            let E := fresh in destruct (copy_from_slice n l) eqn:E;
            [|exfalso; exact (copy_no_err _ _ _ E)|] end; cbn; try discriminate).
Qed.

Lemma anim_raw_panic r : anim_from_raw r = Panic \/ exists a, anim_from_raw r = Ok a.
Proof.
  unfold anim_from_raw.
  destruct (copy_from_slice _ _) eqn:E; [|exfalso; exact (copy_no_err _ _ _ E)|auto]. cbn.
  repeat (match goal with |- context [chan_from_raw ?a ?b ?c ?d ?e ?f] =>
            let E := fresh in destruct (chan_from_raw a b c d e f) eqn:E;
            [|exfalso; exact (chan_raw_no_err _ _ _ _ _ _ _ E)|] end; cbn; eauto).
Qed.

(** ** Skeletons *)

Lemma div_ceil4 n m : 4 * m < n + 4 -> n <= 4 * m -> div_ceil n 4 = m.
Proof.
  intros H1 H2. unfold div_ceil. symmetry. apply (N.div_unique _ 4 m (n + 4 - 1 - 4 * m)); lia.
Qed.
Lemma div_ceil4_bounds n : 4 * div_ceil n 4 < n + 4 /\ n <= 4 * div_ceil n 4.
Proof.
  unfold div_ceil. pose proof (N.div_mod (n + 4 - 1) 4 ltac:(lia)) as E.
  pose proof (N.mod_lt (n + 4 - 1) 4 ltac:(lia)). lia.
Qed.

Lemma skel_raw_ok s : skel_shape s -> skel_from_raw (skel_to_raw s) = Ok s.
Proof.
  intros (H1 & H2 & H3 & H4 & _). unfold skel_from_raw, skel_to_raw. cbn.
  rewrite llen_len, as_u32_small by (rewrite <- H1; exact H2).
  rewrite copy_ok; [|rewrite <- H1; symmetry; apply div_ceil4; assumption].
  cbn. rewrite copy_ok by reflexivity. cbn. rewrite <- H1. destruct s; reflexivity.
Qed.

Lemma skel_raw_inv r s : skel_from_raw r = Ok s ->
  skel_to_raw s = r /\ sk_num_joints s = len (sk_parents s) /\ fits 4 (sk_num_joints s) /\
  4 * len (sk_rest_poses s) < sk_num_joints s + 4 /\ sk_num_joints s <= 4 * len (sk_rest_poses s).
Proof.
  unfold skel_from_raw. rewrite llen_len. intros H.
  apply bind_inv in H as (p & E1 & H). apply bind_inv in H as (q & E2 & H). injection H as <-. cbn.
  apply copy_inv in E1 as [-> E1]. apply copy_inv in E2 as [-> E2].
  split; [destruct r; reflexivity|]. split; [symmetry; exact E2|].
  split; [apply as_u32_fits|]. rewrite E1. apply div_ceil4_bounds.
Qed.

(** * rkyv *)

Lemma firstn_upd {A} n (x : A) : forall dst, (n < length dst)%nat ->
  firstn (n + 1) (upd dst n x) = (firstn n dst ++ [x])%list.
Proof.
  induction n as [|n IH]; intros [|y dst] H; cbn [length] in H; try lia.
  - reflexivity.
  - cbn. f_equal. apply IH. lia.
Qed.

Lemma store_all_ok {A} (src : list A) : forall done dst,
  length dst = length (done ++ src)%list -> firstn (length done) dst = done ->
  store_all (length done) src dst = Ok (done ++ src)%list.
Proof.
  induction src as [|x t IH]; intros done dst L F; cbn.
  - rewrite app_nil_r in *. f_equal. rewrite <- F. symmetry. rewrite firstn_all2 by lia. reflexivity.
  - rewrite app_length in L. cbn in L. unfold set.
    destruct (Nat.ltb_spec (length done) (length dst)); [|lia]. cbn.
    replace (S (length done)) with (length (done ++ [x])%list) by (rewrite app_length; cbn; lia).
    rewrite IH; [rewrite <- app_assoc; reflexivity| |].
    + rewrite upd_length, !app_length. cbn. lia.
    + rewrite app_length. cbn [length]. rewrite firstn_upd by exact H. rewrite F. reflexivity.
Qed.

Lemma store_all_fresh {A} (src dst : list A) : length dst = length src -> store_all 0 src dst = Ok src.
Proof. intros H. apply (store_all_ok src [] dst); auto. Qed.

Lemma chan_rkyv_ok old c : key_buffer old -> chan_shape c ->
  chan_from_rkyv old (ch_keys c) (ch_ratios c) (ch_previouses c) (ch_interval c) (ch_entries c) (ch_desc c) = Ok c.
Proof.
  intros K (H1 & H2 & H3 & H4 & H5). unfold chan_from_rkyv. rewrite !llen_len.
  rewrite !as_u32_small by assumption.
  rewrite store_all_fresh by (apply len_eq', K). cbn.
  rewrite !copy_ok by (auto using len_eq). cbn [bind]. destruct c; reflexivity.
Qed.

Lemma anim_rkyv_ok old a : key_buffer old -> anim_shape a ->
  anim_from_rkyv old (anim_to_rkyv a) = Ok a.
Proof.
  intros K (H0 & H1 & H2 & H3). unfold anim_from_rkyv, anim_to_rkyv, anim_to_raw. cbn.
  rewrite llen_len, as_u32_small, copy_ok by auto. cbn [bind].
  rewrite !chan_rkyv_ok by assumption. cbn [bind]. destruct a; reflexivity.
Qed.

(** ** Name tables *)

Definition inserts (l : list (list N * Z)) (m : bimap) : bimap :=
  fold_left (fun m p => bimap_insert m (fst p) (snd p)) l m.

Lemma filter_all {A} (f : A -> bool) l : (forall x, In x l -> f x = true) -> filter f l = l.
Proof.
  induction l as [|x l IH]; intros H; cbn; auto. rewrite H by (left; auto). f_equal. apply IH.
  intros y Hy. apply H. right; auto.
Qed.

Lemma inserts_rev l : forall m, bimap_ok (l ++ m)%list -> inserts l m = (rev l ++ m)%list.
Proof.
  induction l as [|[k v] l IH]; intros m H; cbn; auto.
  assert (P : Permutation ((k, v) :: l ++ m) (l ++ (k, v) :: m)) by apply Permutation_middle.
  assert (B : bimap_insert m k v = (k, v) :: m).
  { unfold bimap_insert. f_equal. apply filter_all. intros [k' v'] Hin. cbn.
    destruct H as [H1 H2]. cbn in H1, H2. inversion H1 as [|? ? N1 _]; subst.
    inversion H2 as [|? ? N2 _]; subst. rewrite andb_true_iff, !negb_true_iff. split.
    - apply bytes_eqb_neq. intros ->. apply N1. rewrite map_app. apply in_app_iff. right.
      apply (in_map fst) in Hin. exact Hin.
    - apply Z.eqb_neq. intros ->. apply N2. rewrite map_app. apply in_app_iff. right.
      apply (in_map snd) in Hin. exact Hin. }
  rewrite B. unfold inserts in IH. rewrite IH.
  - rewrite <- app_assoc. reflexivity.
  - destruct H as [H1 H2]. split.
    + apply (Permutation_NoDup (Permutation_map fst P)). exact H1.
    + apply (Permutation_NoDup (Permutation_map snd P)). exact H2.
Qed.

Lemma bimap_ok_perm m m' : Permutation m m' -> bimap_ok m -> bimap_ok m'.
Proof.
  intros P [H1 H2]. split; [apply (Permutation_NoDup (Permutation_map fst P)); exact H1
                           |apply (Permutation_NoDup (Permutation_map snd P)); exact H2].
Qed.

Lemma same_left m m' : Permutation m m' -> bimap_ok m -> forall k, get_by_left m k = get_by_left m' k.
Proof.
  intros P H k. pose proof (bimap_ok_perm _ _ P H) as H'.
  destruct (get_by_left m k) eqn:E.
  - apply get_by_left_In in E; auto. symmetry. apply get_by_left_In; auto.
    eapply Permutation_in; eauto.
  - destruct (get_by_left m' k) eqn:E'; auto. apply get_by_left_In in E'; auto.
    apply (Permutation_in _ (Permutation_sym P)) in E'. apply get_by_left_In in E'; auto. congruence.
Qed.
Lemma same_right m m' : Permutation m m' -> bimap_ok m -> forall k, get_by_right m k = get_by_right m' k.
Proof.
  intros P H k. pose proof (bimap_ok_perm _ _ P H) as H'.
  destruct (get_by_right m k) eqn:E.
  - apply get_by_right_In in E; auto. symmetry. apply get_by_right_In; auto.
    eapply Permutation_in; eauto.
  - destruct (get_by_right m' k) eqn:E'; auto. apply get_by_right_In in E'; auto.
    apply (Permutation_in _ (Permutation_sym P)) in E'. apply get_by_right_In in E'; auto. congruence.
Qed.

Lemma with_names_equal s m : bimap_ok (sk_names s) -> Permutation m (sk_names s) ->
  skel_equal {| sk_num_joints := sk_num_joints s; sk_rest_poses := sk_rest_poses s;
                sk_names := m; sk_parents := sk_parents s |} s.
Proof.
  intros H P. unfold skel_equal, joint_by_name, name_by_joint. cbn.
  repeat split; auto.
  - intros n. symmetry. apply same_left; auto. apply Permutation_sym, P.
  - intros n. symmetry. apply same_right; auto. apply Permutation_sym, P.
Qed.

Lemma skel_rkyv_ok s order : skel_shape s -> Permutation order (sk_names s) ->
  exists s', skel_from_rkyv (SkelRkyv (sk_num_joints s) (SkelRaw (sk_rest_poses s) (sk_parents s) order)) = Ok s' /\
             skel_equal s' s.
Proof.
  intros (H1 & H2 & H3 & H4 & H5) P. unfold skel_from_rkyv. cbn.
  rewrite copy_ok by (symmetry; apply div_ceil4; assumption). cbn.
  rewrite copy_ok by (symmetry; exact H1). cbn.
  eexists. split; [reflexivity|]. apply with_names_equal; [exact H5|].
  fold (inserts order []). rewrite inserts_rev.
  - rewrite app_nil_r. eapply Permutation_trans; [apply Permutation_sym, Permutation_rev|exact P].
  - rewrite app_nil_r. eapply bimap_ok_perm; [apply Permutation_sym; exact P|exact H5].
Qed.

(** ** Contexts *)

Lemma nlen {A} (l : list A) n : length l = n -> len l = N.of_nat n.
Proof. intros <-. reflexivity. Qed.

Lemma out_eq soa : Sampling.div_ceil soa 8 = ((soa + 7) / 8)%nat.
Proof. reflexivity. Qed.
Lemma soa_eq n : Sampling.div_ceil n 4 = ((n + 3) / 4)%nat.
Proof. reflexivity. Qed.
Lemma soa_back soa : ((4 * soa + 3) / 4)%nat = soa.
Proof. symmetry. apply (Nat.div_unique _ 4 soa 3); lia. Qed.

Lemma chan_ctx_rkyv_ok {V} soa (c : Sampling.chan N V) next : chan_lengths soa c ->
  chan_from_ctx_rkyv soa c next =
  Ok (Sampling.mk_chan (Sampling.ch_entries c) (Sampling.ch_outdated c) (N.to_nat next) (Sampling.ch_values c)).
Proof.
  intros (H1 & H2 & H3). unfold chan_from_ctx_rkyv. rewrite out_eq.
  rewrite copy_ok by (apply nlen; exact H3). cbn [bind].
  rewrite copy_ok by (apply nlen; exact H1). cbn [bind].
  rewrite copy_ok by (apply nlen; exact H2). reflexivity.
Qed.

Lemma ctx_rkyv_ok c : ctx_shape c -> ctx_small c -> ctx_from_rkyv (ctx_to_rkyv c) = Ok c.
Proof.
  intros (S1 & S2 & S3) (N0 & N1 & N2 & N3). unfold ctx_from_rkyv, ctx_to_rkyv.
  cbn [xr_tracks xr_id xr_ratio xr_t xr_t_next xr_r xr_r_next xr_s xr_s_next].
  rewrite !as_u32_small by assumption. rewrite !Nat2N.id, soa_eq, soa_back.
  rewrite !chan_ctx_rkyv_ok by assumption. cbn [bind]. rewrite !Nat2N.id.
  destruct c as [? ? ? [] [] []]; reflexivity.
Qed.

(** * JSON *)

Lemma finite_ok b : finite b -> finite_bits b = true.
Proof.
  intros (s & e & m & Hs & He & Hm & ->). unfold finite_bits.
  change (2 ^ 31) with (256 * 2 ^ 23). change (2 ^ 32) with (2 * (256 * 2 ^ 23)).
  set (K := 2 ^ 23) in *. assert (0 < K) by reflexivity.
  assert (E : (s * (256 * K) + e * K + m) / K = s * 256 + e).
  { symmetry. apply (N.div_unique _ K (s * 256 + e) m); lia. }
  rewrite E. replace (s * 256 + e) with (e + s * 256) by lia. rewrite N.mod_add, N.mod_small by lia.
  apply andb_true_iff. split.
  - apply N.ltb_lt. nia.
  - apply negb_true_iff, N.eqb_neq. lia.
Qed.

Lemma finite_inv b : finite_bits b = true -> finite b.
Proof.
  unfold finite_bits. rewrite andb_true_iff, N.ltb_lt, negb_true_iff, N.eqb_neq. intros [H1 H2].
  change (2 ^ 32) with (2 * (256 * 2 ^ 23)) in H1.
  exists (b / 2 ^ 31), ((b / 2 ^ 23) mod 256), (b mod 2 ^ 23).
  change (2 ^ 31) with (256 * 2 ^ 23). set (K := 2 ^ 23) in *. assert (K0 : 0 < K) by reflexivity.
  pose proof (N.div_mod b K ltac:(lia)) as E. pose proof (N.mod_lt b K ltac:(lia)) as L.
  rewrite (N.mul_comm 256 K), <- N.div_div by lia.
  pose proof (N.div_mod (b / K) 256 ltac:(lia)) as E'. pose proof (N.mod_lt (b / K) 256 ltac:(lia)) as L'.
  repeat split; lia.
Qed.

Lemma de_f_ok b : finite b -> de_f (to_json (SFlt b)) = Some b.
Proof. intros H. cbn. rewrite finite_ok by exact H. reflexivity. Qed.

Lemma de_u_ok w n : fits w n -> de_u w (to_json (ser_u w n)) = Some n.
Proof.
  intros H. unfold ser_u. cbn [to_json]. unfold de_u. unfold fits in H.
  assert (E : (0 <=? Z.of_N n)%Z && (Z.of_N n <? 2 ^ (8 * Z.of_nat w))%Z = true).
  { apply andb_true_iff. split; [apply Z.leb_le; lia|]. apply Z.ltb_lt.
    rewrite N2Z.inj_lt, N2Z.inj_pow in H. rewrite N2Z.inj_mul, nat_N_Z in H. exact H. }
  rewrite E. f_equal. apply N2Z.id.
Qed.

Lemma de_n_ok w n : nfits w n -> de_n w (to_json (ser_n w n)) = Some n.
Proof.
  intros H. unfold de_n, ser_n. pose proof (de_u_ok w (N.of_nat n) H) as E. unfold ser_u in E.
  rewrite nat_N_Z in E. rewrite E. cbn. f_equal. apply Nat2N.id.
Qed.

Lemma de_i16_ok z : sfits 2 z -> de_i16 (to_json (SInt 2 z)) = Some z.
Proof.
  intros H. unfold sfits in H. cbn in H. cbn [to_json]. unfold de_i16.
  assert (E : (-32768 <=? z)%Z && (z <? 32768)%Z = true)
    by (apply andb_true_iff; split; [apply Z.leb_le|apply Z.ltb_lt]; lia).
  rewrite E. reflexivity.
Qed.

Lemma omap_ok {A B} (f : B -> option A) (g : A -> B) l :
  (forall x, In x l -> f (g x) = Some x) -> omap f (map g l) = Some l.
Proof.
  induction l as [|x l IH]; intros H; cbn; auto.
  rewrite H by (left; auto). cbn. rewrite IH by (intros; apply H; right; auto). reflexivity.
Qed.

Lemma de_vec_ok {A} (de : json -> option A) (ser : A -> sd) (P : A -> Prop) l :
  (forall x, P x -> de (to_json (ser x)) = Some x) -> Forall P l ->
  de_vec de (to_json (ser_vec ser l)) = Some l.
Proof.
  intros H F. cbn. rewrite map_map. apply (omap_ok de (fun x => to_json (ser x))).
  rewrite Forall_forall in F. auto.
Qed.

Lemma de_arr_ok {A} n (de : json -> option A) (ser : A -> sd) (P : A -> Prop) l :
  (forall x, P x -> de (to_json (ser x)) = Some x) -> Forall P l -> length l = n ->
  de_arr n de (to_json (ser_arr ser l)) = Some l.
Proof.
  intros H F L. cbn. rewrite !map_length, L, Nat.eqb_refl, map_map.
  apply (omap_ok de (fun x => to_json (ser x))). rewrite Forall_forall in F. auto.
Qed.

Lemma de_key_ok k : is_key3 k -> de_key (to_json (ser_key k)) = Some k.
Proof. intros [L F]. apply (de_arr_ok 3 _ _ (fits 2)); auto using de_u_ok. Qed.

(** Struct fields: skip the others, take the one. *)
Lemma field_skip {A} name (de : json -> option A) k v l :
  bytes_eqb k name = false -> field name de (JObj ((k, v) :: l)) = field name de (JObj l).
Proof. intros H. cbn. rewrite H. reflexivity. Qed.
Lemma field_take {A} name (de : json -> option A) k v l :
  bytes_eqb k name = true -> existsb (fun p => bytes_eqb (fst p) name) l = false ->
  field name de (JObj ((k, v) :: l)) = de v.
Proof.
  intros H E. cbn. rewrite H. replace (filter _ l) with (@nil (list N * json)); auto.
  symmetry. induction l as [|p l IH]; cbn in *; auto. apply orb_false_iff in E as [E1 E2].
  rewrite E1. auto.
Qed.

Ltac closed := vm_compute; reflexivity.
Ltac fields := repeat first
  [ rewrite field_skip by closed
  | rewrite field_take by (first [closed | cbn [existsb fst]; closed]) ].

Lemma obind_some {A B} (x : option A) (f : A -> option B) a : x = Some a -> obind x f = f a.
Proof. intros ->. reflexivity. Qed.

Lemma json_struct l : to_json (SStruct l) = JObj (map (fun p => (fst p, to_json (snd p))) l).
Proof. reflexivity. Qed.

Lemma obind_step {A B} (x : option A) (f : A -> option B) a r : x = Some a -> f a = r -> obind x f = r.
Proof. intros -> <-. reflexivity. Qed.
Ltac pick H := eapply obind_step; [fields; exact H|cbv beta].

Lemma anim_json_ok a : anim_shape a -> anim_typed a -> anim_finite a ->
  de_animation (to_json (ser_animation a)) = Some (Ok a).
Proof.
  intros S (T1 & T2 & T3 & (Ta1 & Ta2 & Ta3 & Ta4 & Ta5 & _) & (Tb1 & Tb2 & Tb3 & Tb4 & Tb5 & _)
            & (Tc1 & Tc2 & Tc3 & Tc4 & Tc5 & _)) (F1 & F2 & F3 & F4 & F5).
  assert (D : de_anim_raw (to_json (ser_animation a)) = Some (anim_to_raw a)).
  { unfold ser_animation, ser_anim_raw. rewrite json_struct. cbn [map fst snd].
    unfold anim_to_raw.
    cbn [ra_duration ra_num_tracks ra_name ra_timepoints
         ra_translations ra_t_ratios ra_t_previouses ra_t_interval ra_t_entries ra_t_desc
         ra_rotations ra_r_ratios ra_r_previouses ra_r_interval ra_r_entries ra_r_desc
         ra_scales ra_s_ratios ra_s_previouses ra_s_interval ra_s_entries ra_s_desc].
    unfold de_anim_raw.
    pick (de_f_ok _ F1). pick (de_u_ok 4 _ T2).
    pick (eq_refl (Some (an_name a))).
    pick (de_vec_ok de_f SFlt finite _ de_f_ok F2).
    pick (de_vec_ok de_key ser_key _ _ de_key_ok Ta1).
    pick (de_vec_ok _ _ _ _ (de_u_ok 2) Ta2). pick (de_vec_ok _ _ _ _ (de_u_ok 2) Ta3).
    pick (de_f_ok _ F3).
    pick (de_vec_ok _ _ _ _ (de_u_ok 1) Ta4). pick (de_vec_ok _ _ _ _ (de_u_ok 4) Ta5).
    pick (de_vec_ok de_key ser_key _ _ de_key_ok Tb1).
    pick (de_vec_ok _ _ _ _ (de_u_ok 2) Tb2). pick (de_vec_ok _ _ _ _ (de_u_ok 2) Tb3).
    pick (de_f_ok _ F4).
    pick (de_vec_ok _ _ _ _ (de_u_ok 1) Tb4). pick (de_vec_ok _ _ _ _ (de_u_ok 4) Tb5).
    pick (de_vec_ok de_key ser_key _ _ de_key_ok Tc1).
    pick (de_vec_ok _ _ _ _ (de_u_ok 2) Tc2). pick (de_vec_ok _ _ _ _ (de_u_ok 2) Tc3).
    pick (de_f_ok _ F5).
    pick (de_vec_ok _ _ _ _ (de_u_ok 1) Tc4). pick (de_vec_ok _ _ _ _ (de_u_ok 4) Tc5).
    reflexivity. }
  unfold de_animation. rewrite D. cbn [obind]. rewrite anim_raw_ok by exact S. reflexivity.
Qed.

(** ** Skeletons *)

Lemma concat_chunk {A} k n : forall l : list A, length l = (n * k)%nat -> List.concat (chunk k n l) = l.
Proof.
  induction n as [|n IH]; intros l L; cbn.
  - destruct l; [reflexivity|discriminate].
  - cbn in L. rewrite IH by (rewrite skipn_length; lia). apply firstn_skipn.
Qed.
Lemma chunk_length {A} k n : forall l : list A, length (chunk k n l) = n.
Proof. induction n as [|n IH]; intros l; cbn; auto. Qed.
Lemma chunk_rows {A} (P : A -> Prop) k n : forall l : list A, length l = (n * k)%nat -> Forall P l ->
  Forall (fun r => length r = k /\ Forall P r) (chunk k n l).
Proof.
  induction n as [|n IH]; intros l L F; cbn; constructor.
  - cbn in L. split; [rewrite firstn_length; lia|]. rewrite <- (firstn_skipn k l) in F.
    apply Forall_app in F as [F _]. exact F.
  - cbn in L. apply IH; [rewrite skipn_length; lia|]. rewrite <- (firstn_skipn k l) in F.
    apply Forall_app in F as [_ F]. exact F.
Qed.

Lemma Forall_firstn {A} (P : A -> Prop) n l : Forall P l -> Forall P (firstn n l).
Proof. intros F. rewrite <- (firstn_skipn n l) in F. apply Forall_app in F as [F _]. exact F. Qed.
Lemma Forall_skipn {A} (P : A -> Prop) n l : Forall P l -> Forall P (skipn n l).
Proof. intros F. rewrite <- (firstn_skipn n l) in F. apply Forall_app in F as [_ F]. exact F. Qed.

Definition is_row (r : list N) : Prop := length r = 4%nat /\ Forall finite r.

Lemma de_row_ok r : is_row r -> de_arr 4 de_f (to_json (ser_arr SFlt r)) = Some r.
Proof. intros [L F]. apply (de_arr_ok 4 _ _ finite); auto using de_f_ok. Qed.

Lemma de_soa_ok n rows h : Forall is_row rows -> length rows = n ->
  de_arr n (de_arr 4 de_f) (to_json (SSeq h (map (ser_arr SFlt) rows))) = Some rows.
Proof.
  intros F L. change (to_json (SSeq h (map (ser_arr SFlt) rows)))
    with (to_json (ser_arr (ser_arr SFlt) rows)).
  apply (de_arr_ok n _ _ is_row); auto using de_row_ok.
Qed.

Lemma de_transform_ok l : length l = 40%nat /\ Forall finite l ->
  de_transform (to_json (ser_transform l)) = Some l.
Proof.
  intros [L F]. unfold ser_transform.
  pose proof (chunk_rows finite 4 10 l L F) as R. pose proof (concat_chunk 4 10 l L) as C.
  pose proof (chunk_length 4 10 l) as K. set (rows := chunk 4 10 l) in *.
  rewrite json_struct. cbn [map fst snd]. unfold de_transform, ser_soa_vec3, ser_soa_quat.
  pick (de_soa_ok 3 (firstn 3 rows) (Some 3) (Forall_firstn _ _ _ R) ltac:(rewrite firstn_length, K; reflexivity)).
  pick (de_soa_ok 4 (firstn 4 (skipn 3 rows)) (Some 3) (Forall_firstn _ _ _ (Forall_skipn _ _ _ R))
          ltac:(rewrite firstn_length, skipn_length, K; reflexivity)).
  pick (de_soa_ok 3 (skipn 7 rows) (Some 3) (Forall_skipn _ _ _ R) ltac:(rewrite skipn_length, K; reflexivity)).
  f_equal. transitivity (List.concat rows); [|exact C]. reflexivity.
Qed.

Lemma Forall_and' {A} (P Q : A -> Prop) l : Forall P l -> Forall Q l -> Forall (fun x => P x /\ Q x) l.
Proof. intros H1 H2. induction H1; constructor; inversion H2; auto. Qed.

Lemma skel_json_ok s order : skel_shape s -> skel_typed s -> skel_finite s ->
  Permutation order (sk_names s) ->
  exists s', de_skeleton (to_json (ser_skel_raw (SkelRaw (sk_rest_poses s) (sk_parents s) order)))
             = Some (Ok s') /\ skel_equal s' s.
Proof.
  intros (H1 & H2 & H3 & H4 & H5) (T1 & T2 & T3) F P.
  assert (Hb : bimap_ok order) by (eapply bimap_ok_perm; [apply Permutation_sym; exact P|exact H5]).
  assert (T3' : Forall (sfits 2) (map snd order)).
  { rewrite Forall_forall in *. intros x Hx. apply T3. eapply Permutation_in; [|exact Hx].
    apply Permutation_map. exact P. }
  assert (T1' : Forall (fun p => length p = 40%nat /\ Forall finite p) (sk_rest_poses s)).
  { apply Forall_and'; [|exact F]. eapply Forall_impl; [|exact T1]. intros p []; auto. }
  assert (B : de_bimap (to_json (SMap (Some (llen order)) (map (fun p => (fst p, SInt 2 (snd p))) order)))
              = Some (inserts order [])).
  { cbn [to_json]. unfold de_bimap. rewrite map_map. cbn [fst snd].
    rewrite (omap_ok _ (fun p => (fst p, to_json (SInt 2 (snd p))))).
    - reflexivity.
    - intros [k v] Hin. cbn [fst snd]. rewrite de_i16_ok; [reflexivity|].
      rewrite Forall_forall in T3'. apply T3'. apply (in_map snd) in Hin. exact Hin. }
  assert (D : de_skel_raw (to_json (ser_skel_raw (SkelRaw (sk_rest_poses s) (sk_parents s) order)))
              = Some (SkelRaw (sk_rest_poses s) (sk_parents s) (rev order))).
  { unfold ser_skel_raw. cbn [rs_poses rs_parents rs_names]. rewrite json_struct. cbn [map fst snd].
    unfold de_skel_raw.
    pick (de_vec_ok de_transform ser_transform _ _ de_transform_ok T1').
    pick (de_vec_ok de_i16 (SInt 2) _ _ de_i16_ok T2).
    pick B. rewrite inserts_rev by (rewrite app_nil_r; exact Hb). rewrite app_nil_r. reflexivity. }
  exists {| sk_num_joints := sk_num_joints s; sk_rest_poses := sk_rest_poses s;
            sk_names := rev order; sk_parents := sk_parents s |}. split.
  - unfold de_skeleton. rewrite D. cbn [obind]. f_equal.
    set (s0 := {| sk_num_joints := _ |}). change (SkelRaw _ _ _) with (skel_to_raw s0).
    apply skel_raw_ok. unfold skel_shape, s0. cbn. repeat (split; [assumption|]).
    eapply bimap_ok_perm; [apply Permutation_rev|exact Hb].
  - apply with_names_equal; [exact H5|]. eapply Permutation_trans; [apply Permutation_sym, Permutation_rev|exact P].
Qed.

(** ** Tracks *)

Lemma de_track_value_ok k v : length v = track_dim k /\ Forall finite v ->
  de_track_value k (to_json (ser_track_value k v)) = Some v.
Proof.
  intros [L F]. destruct k; cbn [track_dim] in L;
    try (unfold de_track_value, ser_track_value, track_width;
         apply (de_arr_ok _ _ _ finite); [exact de_f_ok|exact F|exact L]).
  destruct v as [|x [|]]; try discriminate L. inversion F; subst. unfold de_track_value, ser_track_value.
  cbn [nth]. rewrite de_f_ok by assumption. reflexivity.
Qed.

Lemma track_json_ok k t : track_typed k t -> track_finite t ->
  de_track k (to_json (ser_track k t)) = Some t.
Proof.
  intros (T1 & T2 & T3) (F1 & F2). unfold ser_track. rewrite json_struct. cbn [map fst snd].
  unfold de_track.
  pick (de_u_ok 4 _ T1). pick (de_vec_ok de_f SFlt finite _ de_f_ok F1).
  pick (de_vec_ok (de_track_value k) (ser_track_value k) _ _ (de_track_value_ok k) (Forall_and' _ _ _ T2 F2)).
  pick (de_vec_ok _ _ _ _ (de_u_ok 1) T3). pick (eq_refl (Some (tr_name t))).
  destruct t; reflexivity.
Qed.

(** ** Contexts *)

Ltac rows := repeat (apply Forall_cons; [split; [reflexivity|assumption]|]); apply Forall_nil.

Lemma de_v3_ok v : Forall finite (floats3 v) -> de_v3 (to_json (ser_soa_vec3 (rows3 v))) = Some v.
Proof.
  intros F. unfold floats3 in F. rewrite !Forall_app in F. destruct F as (F1 & F2 & F3).
  unfold de_v3, de_soa_vec3, ser_soa_vec3.
  rewrite de_soa_ok; [|rows|reflexivity].
  destruct v as [[] [] []]; reflexivity.
Qed.
Lemma de_q_ok v : Forall finite (floatsq v) -> de_q (to_json (ser_soa_quat (rowsq v))) = Some v.
Proof.
  intros F. unfold floatsq in F. rewrite !Forall_app in F. destruct F as (F1 & F2 & F3 & F4).
  unfold de_q, de_soa_quat, ser_soa_quat.
  rewrite de_soa_ok; [|rows|reflexivity].
  destruct v as [[] [] [] []]; reflexivity.
Qed.

Lemma de_interp_ok {V} (d : V) de (rows : V -> list (list N)) fl i :
  (forall v, Forall finite (fl v) -> de (to_json (ser_soa_vec3 (rows v))) = Some v) ->
  Forall finite (interp_floats fl i) ->
  de_interp d de (to_json (ser_interp rows i)) = Some i.
Proof.
  intros H F. unfold interp_floats in F. rewrite !Forall_app in F. destruct F as (F1 & F2 & F3 & F4).
  unfold ser_interp. rewrite json_struct. cbn [map fst snd]. unfold de_interp.
  assert (R : de_arr 2 (de_arr 4 de_f) (to_json (SSeq (Some 2) [ser_arr SFlt (lanes (Sampling.ir0 i)); ser_arr SFlt (lanes (Sampling.ir1 i))]))
              = Some [lanes (Sampling.ir0 i); lanes (Sampling.ir1 i)]).
  { apply (de_soa_ok 2 [lanes (Sampling.ir0 i); lanes (Sampling.ir1 i)] (Some 2)); [|reflexivity].
    rows. }
  pick R.
  assert (W : de_arr 2 de (to_json (STup [ser_soa_vec3 (rows (Sampling.iv0 i)); ser_soa_vec3 (rows (Sampling.iv1 i))]))
              = Some [Sampling.iv0 i; Sampling.iv1 i]).
  { apply (de_arr_ok 2 de (fun v => ser_soa_vec3 (rows v)) (fun v => Forall finite (fl v)) [Sampling.iv0 i; Sampling.iv1 i]); auto. }
  pick W. destruct i as [[] [] ? ?]; reflexivity.
Qed.

Lemma vbind_ok {A B} (x : vres A) (f : A -> vres B) a : x = Some (Ok a) -> vbind x f = f a.
Proof. intros ->. reflexivity. Qed.

Lemma copied_ok {A} n (x : option (list A)) l : x = Some l -> length l = n -> copied n x = Some (Ok l).
Proof. intros -> L. unfold copied. rewrite copy_ok by (apply nlen; exact L). reflexivity. Qed.
Lemma lift_ok {A} (x : option A) a : x = Some a -> lift x = Some (Ok a).
Proof. intros ->. reflexivity. Qed.

Lemma vbind_step {A B} (x : vres A) (f : A -> vres B) a r : x = Some (Ok a) -> f a = r -> vbind x f = r.
Proof. intros -> <-. reflexivity. Qed.

(** One member of the document. *)
Ltac member H :=
  cbn [visit_rest]; eapply vbind_step;
  [ unfold visit_entry, is_key;
    repeat match goal with |- context [bytes_eqb ?a ?b] =>
      let v := eval vm_compute in (bytes_eqb a b) in
      replace (bytes_eqb a b) with v by (vm_compute; reflexivity); cbv iota end;
    first [ eapply vbind_step; [exact H | reflexivity] | exact H ]
  | cbv beta ].

Lemma ctx_json_ok fresh size c : allocator fresh -> ctx_shape c -> ctx_typed c -> ctx_finite c ->
  de_context fresh (to_json (ser_context size c)) = Some (Ok c).
Proof.
  intros Al ((A1 & A2 & A3) & (B1 & B2 & B3) & (C1 & C2 & C3)) (T0 & T1 & (U1 & U2 & U3) & (V1 & V2 & V3) & (W1 & W2 & W3))
         (F0 & F1 & F2 & F3).
  destruct (Al (4 * Sampling.cx_max_soa c)%nat) as [M _]. rewrite soa_back in M.
  unfold ser_context. cbn [to_json]. cbv zeta. cbn [map fst snd]. unfold de_context.
  cbn [visit_map].
  replace (bytes_eqb (key "size") (key "max_tracks")) with false by (vm_compute; reflexivity).
  replace (bytes_eqb (key "max_tracks") (key "max_tracks")) with true by (vm_compute; reflexivity).
  cbv iota. eapply vbind_step; [exact (lift_ok _ _ (de_n_ok 8 _ T0))|]. cbv beta.
  set (f := fresh (4 * Sampling.cx_max_soa c)%nat) in *. clearbody f. clear fresh Al.
  destruct f as [soa id0 r0 t0 ro0 s0]. cbn [Sampling.cx_max_soa] in M. subst soa.
  member (eq_refl (@Some (res ctx) (Ok (Sampling.mk_ctx (Sampling.cx_max_soa c) id0 r0 t0 ro0 s0)))).
  member (eq_refl (@Some (res ctx) (Ok (Sampling.mk_ctx (Sampling.cx_max_soa c) id0 r0 t0 ro0 s0)))).
  member (lift_ok _ _ (de_u_ok 8 _ T1)).
  member (lift_ok _ _ (de_f_ok _ F0)).
  member (copied_ok _ _ _ (de_vec_ok _ _ _ _ (fun i => de_interp_ok zero3 de_v3 rows3 floats3 i de_v3_ok) F1) A3).
  member (copied_ok _ _ _ (de_vec_ok _ _ _ _ (fun i => de_interp_ok zeroq de_q rowsq floatsq i de_q_ok) F2) B3).
  member (copied_ok _ _ _ (de_vec_ok _ _ _ _ (fun i => de_interp_ok zero3 de_v3 rows3 floats3 i de_v3_ok) F3) C3).
  member (copied_ok _ _ _ (de_vec_ok _ _ _ _ (de_n_ok 4) U1) A1).
  member (copied_ok _ _ _ (de_vec_ok _ _ _ _ (de_u_ok 1) U2) A2).
  member (lift_ok _ _ (de_n_ok 8 _ U3)).
  member (copied_ok _ _ _ (de_vec_ok _ _ _ _ (de_n_ok 4) V1) B1).
  member (copied_ok _ _ _ (de_vec_ok _ _ _ _ (de_u_ok 1) V2) B2).
  member (lift_ok _ _ (de_n_ok 8 _ V3)).
  member (copied_ok _ _ _ (de_vec_ok _ _ _ _ (de_n_ok 4) W1) C1).
  member (copied_ok _ _ _ (de_vec_ok _ _ _ _ (de_u_ok 1) W2) C2).
  member (lift_ok _ _ (de_n_ok 8 _ W3)).
  cbn [visit_rest]. destruct c as [? ? ? [] [] []]; reflexivity.
Qed.

(** ** Only finite floats survive JSON *)

Lemma obind_inv {A B} (x : option A) (f : A -> option B) b : obind x f = Some b -> exists a, x = Some a /\ f a = Some b.
Proof. destruct x; cbn; try discriminate. eauto. Qed.

Lemma de_f_finite b x : de_f (to_json (SFlt b)) = Some x -> finite b.
Proof. cbn. destruct (finite_bits b) eqn:E; [intros _; apply finite_inv; exact E|discriminate]. Qed.
Lemma de_vec_finite l x : de_vec de_f (to_json (ser_vec SFlt l)) = Some x -> Forall finite l.
Proof.
  cbn [to_json ser_vec]. unfold ser_vec. cbn [to_json]. rewrite map_map. unfold de_vec.
  revert x. induction l as [|b l IH]; intros x H; constructor; cbn [map omap] in H.
  - apply obind_inv in H as (y & E & _). eapply de_f_finite; exact E.
  - apply obind_inv in H as (y & _ & H). apply obind_inv in H as (ys & E & _). eapply IH; exact E.
Qed.

Ltac next_field H E := let x := fresh "x" in apply obind_inv in H as (x & E & H).

Lemma anim_json_finite a x : de_animation (to_json (ser_animation a)) = Some x -> anim_finite a.
Proof.
  intros H. unfold de_animation in H. apply obind_inv in H as (r & H & _).
  unfold ser_animation, ser_anim_raw, anim_to_raw in H. rewrite json_struct in H. cbn [map fst snd] in H.
  cbn [ra_duration ra_num_tracks ra_name ra_timepoints
       ra_translations ra_t_ratios ra_t_previouses ra_t_interval ra_t_entries ra_t_desc
       ra_rotations ra_r_ratios ra_r_previouses ra_r_interval ra_r_entries ra_r_desc
       ra_scales ra_s_ratios ra_s_previouses ra_s_interval ra_s_entries ra_s_desc] in H.
  unfold de_anim_raw in H.
  set (j := JObj _) in H. 
  next_field H G1. next_field H G2. next_field H G3. next_field H G4.
  next_field H A1. next_field H A2. next_field H A3. next_field H A4. next_field H A5. next_field H A6.
  next_field H B1. next_field H B2. next_field H B3. next_field H B4. next_field H B5. next_field H B6.
  next_field H C1. next_field H C2. next_field H C3. next_field H C4.
  clear H G2 G3 A1 A2 A3 A5 A6 B1 B2 B3 B5 B6 C1 C2 C3.
  assert (J1 : field (key "duration") de_f j = de_f (to_json (SFlt (an_duration a)))) by (unfold j; fields; reflexivity).
  assert (J2 : field (key "timepoints") (de_vec de_f) j = de_vec de_f (to_json (ser_vec SFlt (an_timepoints a)))) by (unfold j; fields; reflexivity).
  assert (J3 : field (key "t_iframe_interval") de_f j = de_f (to_json (SFlt (ch_interval (an_t a))))) by (unfold j; fields; reflexivity).
  assert (J4 : field (key "r_iframe_interval") de_f j = de_f (to_json (SFlt (ch_interval (an_r a))))) by (unfold j; fields; reflexivity).
  assert (J5 : field (key "s_iframe_interval") de_f j = de_f (to_json (SFlt (ch_interval (an_s a))))) by (unfold j; fields; reflexivity).
  rewrite J1 in G1. rewrite J2 in G4. rewrite J3 in A4. rewrite J4 in B4. rewrite J5 in C4.
  split; [eapply de_f_finite; exact G1|]. split; [eapply de_vec_finite; exact G4|].
  split; [eapply de_f_finite; exact A4|]. split; [eapply de_f_finite; exact B4|eapply de_f_finite; exact C4].
Qed.

(** * Loaded objects *)

Lemma animation_ok_shape a : animation_ok a -> anim_shape a /\ anim_typed a.
Proof.
  intros (H1 & H2 & _ & _ & H3 & H4 & Ct & Cr & Cs).
  assert (U : forall u8 c, channel_ok u8 c -> chan_shape c /\ chan_typed c).
  { intros u8 c (A & B & C & D & E & F & G & I & J & K & L). unfold chan_shape, chan_typed, is_key3.
    repeat split; auto. destruct u8; auto. eapply Forall_impl; [|exact C].
    intros x Hx. unfold fits in *. change (2 ^ (8 * N.of_nat 1)) with 256 in Hx.
    change (2 ^ (8 * N.of_nat 2)) with 65536. lia. }
  apply U in Ct as [? ?]. apply U in Cr as [? ?]. apply U in Cs as [? ?].
  split; repeat (split; [assumption|]); assumption.
Qed.

Lemma bimap_range m (P : Z -> Prop) : (forall i, P (as_i16 i)) ->
  forall names idx, Forall P (map snd m) -> Forall P (map snd (insert_names names idx m)).
Proof.
  intros HP names. revert m. induction names as [|s t IH]; intros m idx F; cbn [insert_names]; auto.
  apply IH. unfold bimap_insert. cbn. constructor; [apply HP|].
  rewrite Forall_forall in *. intros x Hx. apply F. apply in_map_iff in Hx as (p & <- & Hp).
  apply filter_In in Hp as [Hp _]. apply in_map. exact Hp.
Qed.

Lemma as_i16_range i : sfits 2 (as_i16 i).
Proof.
  unfold sfits, as_i16, to_signed. cbn. pose proof (N.mod_lt i 65536 ltac:(discriminate)).
  destruct (N.ltb_spec (i mod 65536) 32768); lia.
Qed.

(** * Contexts that come back from a document *)

Lemma vbind_inv {A B} (x : vres A) (f : A -> vres B) b : vbind x f = Some (Ok b) ->
  exists a, x = Some (Ok a) /\ f a = Some (Ok b).
Proof. destruct x as [[]|]; cbn; try discriminate. eauto. Qed.

Lemma copied_inv {A} n (x : option (list A)) l : copied n x = Some (Ok l) -> length l = n.
Proof.
  unfold copied. destruct x as [l'|]; [|discriminate]. intros H. injection H as H.
  apply copy_inv in H as [-> H]. unfold len in H. lia.
Qed.

Lemma visit_entry_shape c k v c' : ctx_shape c -> visit_entry c k v = Some (Ok c') ->
  ctx_shape c' /\ Sampling.cx_max_soa c' = Sampling.cx_max_soa c.
Proof.
  intros S H. unfold visit_entry in H.
  repeat match type of H with (if ?b then _ else _) = _ => destruct b end;
    try (apply vbind_inv in H as (x & E & H); injection H as <-);
    try (apply copied_inv in E);
    try (injection H as <-);
    destruct S as ((A1 & A2 & A3) & (B1 & B2 & B3) & (C1 & C2 & C3));
    unfold ctx_shape, chan_lengths; cbn; rewrite ?out_eq in *; auto 20.
Qed.

Lemma visit_rest_shape l : forall c c', ctx_shape c -> visit_rest c l = Some (Ok c') ->
  ctx_shape c' /\ Sampling.cx_max_soa c' = Sampling.cx_max_soa c.
Proof.
  induction l as [|[k v] l IH]; intros c c' S H; cbn [visit_rest] in H.
  - injection H as <-. auto.
  - apply vbind_inv in H as (c1 & E & H). apply visit_entry_shape in E as [S1 M1]; auto.
    apply IH in H as [S2 M2]; auto. split; congruence.
Qed.

Lemma de_context_shape fresh j c : allocator fresh -> de_context fresh j = Some (Ok c) -> ctx_shape c.
Proof.
  intros Al H. destruct j as [| | | | |l]; try discriminate. cbn in H.
  induction l as [|[k v] l IH]; cbn [visit_map] in H; [discriminate|].
  destruct (bytes_eqb k (key "max_tracks")); [|auto].
  apply vbind_inv in H as (n & _ & H). destruct (Al n) as [_ S].
  apply visit_rest_shape in H as [S' _]; auto.
Qed.

Lemma visit_skip fresh l1 l2 :
  Forall (fun p => fst p <> key "max_tracks") l1 -> visit_map fresh (l1 ++ l2)%list = visit_map fresh l2.
Proof.
  induction l1 as [|[k v] l1 IH]; intros F; cbn [app visit_map]; auto. inversion F as [|? ? H F']; subst.
  cbn [fst] in H. apply bytes_eqb_neq in H. rewrite H. auto.
Qed.
