(** Proofs about the archive readers: round trips, truncation, headers. *)
From Verif Require Import Base Archive ArchiveSpec Utf8Proofs.
Local Open Scope N_scope.
Local Open Scope reader_scope.

(** * Bytes *)

Lemma le_bytes_length w v : length (le_bytes w v) = w.
Proof. revert v; induction w; simpl; auto. Qed.

Lemma pow256_S w : 2 ^ (8 * N.of_nat (S w)) = 256 * 2 ^ (8 * N.of_nat w).
Proof.
  replace (8 * N.of_nat (S w)) with (8 + 8 * N.of_nat w) by lia.
  rewrite N.pow_add_r. reflexivity.
Qed.

Lemma le_val_le_bytes w v : fits w v -> le_val (le_bytes w v) = v.
Proof.
  unfold fits. revert v; induction w as [|w IH]; intros v H.
  - simpl in *. change (2 ^ 0) with 1 in H. lia.
  - cbn [le_bytes le_val]. rewrite pow256_S in H. rewrite IH.
    + rewrite (N.div_mod v 256) at 3 by lia. lia.
    + apply N.div_lt_upper_bound; lia.
Qed.

Lemma le_bytes_byte w v : Forall (fun b => b < 256) (le_bytes w v).
Proof. revert v; induction w; simpl; constructor; auto. apply N.mod_lt; lia. Qed.

Lemma le_bytes_le_val bs : Forall (fun b => b < 256) bs -> le_bytes (length bs) (le_val bs) = bs.
Proof.
  induction 1 as [|b bs Hb Hbs IH]; [reflexivity|].
  cbn [length le_val le_bytes]. f_equal.
  - rewrite N.mul_comm, N.mod_add by lia. apply N.mod_small; lia.
  - rewrite N.mul_comm, N.div_add by lia. rewrite N.div_small by lia. exact IH.
Qed.

Lemma digits_le_bytes w : forall v, map (digit v) (seq 0 w) = le_bytes w v.
Proof.
  induction w as [|w IH]; intros v; [reflexivity|]. cbn [seq map le_bytes]. f_equal.
  - unfold digit. change (N.of_nat 0) with 0. rewrite N.pow_0_r, N.div_1_r. reflexivity.
  - rewrite <- IH, <- seq_shift, map_map. apply map_ext. intros i. unfold digit.
    rewrite Nnat.Nat2N.inj_succ, N.pow_succ_r', N.div_div; [reflexivity|lia|].
    apply N.pow_nonzero; lia.
Qed.

Lemma enc_le o w v : enc o w v = match o with Little => le_bytes w v | Big => rev (le_bytes w v) end.
Proof. destruct o; unfold enc; rewrite ?map_rev, digits_le_bytes; reflexivity. Qed.

Lemma enc_length o w v : length (enc o w v) = w.
Proof. rewrite enc_le. destruct o; rewrite ?rev_length; apply le_bytes_length. Qed.

(** * Parsing: a reader takes exactly [bs], yields [a], and reports the stream's error on every
    proper prefix of [bs]. *)

Definition parses {A} (r : reader A) (e : env) (bs : list N) (a : A) : Prop :=
  (forall rest, r e (bs ++ rest) = Ok (a, rest)) /\
  (forall p, proper_prefix p bs -> r e p = Err (IO (io_kind e))).

Lemma proper_prefix_app p a b :
  proper_prefix p (a ++ b) ->
  proper_prefix p a \/ exists q, p = a ++ q /\ proper_prefix q b.
Proof.
  intros (x & s & E). revert p E; induction a as [|y a IH]; intros p E.
  - right. exists p. split; [reflexivity|]. exists x, s; exact E.
  - destruct p as [|z p].
    + left. exists y, a. reflexivity.
    + cbn [app] in E. injection E as Ez Ep. subst z.
      destruct (IH _ Ep) as [(x' & s' & E')|(q & E' & Hq)].
      * left. exists x', s'. rewrite E'. reflexivity.
      * right. exists q. subst p. auto.
Qed.

Lemma proper_prefix_nil p : ~ proper_prefix p [].
Proof. intros (x & s & E). destruct p; discriminate. Qed.

Lemma parses_ret {A} e (a : A) : parses (ret a) e [] a.
Proof.
  split; [reflexivity|]. intros p H; exfalso; eapply proper_prefix_nil; eauto.
Qed.

Lemma parses_bind {A B} (r : reader A) (k : A -> reader B) e bs1 bs2 a b :
  parses r e bs1 a -> parses (k a) e bs2 b -> parses (rbind r k) e (bs1 ++ bs2) b.
Proof.
  intros [H1 H1'] [H2 H2']. split.
  - intros rest. unfold rbind. rewrite <- app_assoc, H1. apply H2.
  - intros p Hp. unfold rbind. apply proper_prefix_app in Hp as [Hp|(q & -> & Hq)].
    + rewrite (H1' _ Hp). reflexivity.
    + rewrite H1. apply H2'; assumption.
Qed.

(** A final pure step. *)
Lemma parses_map {A B} (r : reader A) (f : A -> B) e bs a :
  parses r e bs a -> parses (rbind r (fun x => ret (f x))) e bs (f a).
Proof.
  intros H. rewrite <- (app_nil_r bs). eapply parses_bind; [exact H|apply parses_ret].
Qed.

Lemma read_exact_parses e bs : parses (read_exact (length bs)) e bs bs.
Proof.
  split.
  - intros rest. unfold read_exact. rewrite app_length.
    destruct (Nat.leb_spec (length bs) (length bs + length rest)); [|lia].
    rewrite firstn_app, firstn_all, Nat.sub_diag, skipn_app, skipn_all, Nat.sub_diag.
    simpl. rewrite app_nil_r. reflexivity.
  - intros p (x & s & E). unfold read_exact.
    assert (length bs = length p + S (length s))%nat by (rewrite E, app_length; simpl; lia).
    destruct (Nat.leb_spec (length bs) (length p)); [lia|reflexivity].
Qed.

(** The environment [Archive::new] sets up for a file of byte order [o]. *)
Definition env_for (nat_endian o : endian) (kind : N) : env :=
  {| native := nat_endian; eswap := negb (endian_eqb o nat_endian); io_kind := kind |}.

Lemma read_uint_value nat_endian o kind w v : fits w v ->
  (let e := env_for nat_endian o kind in
   let val := from_ne_bytes (native e) (enc o w v) in
   if eswap e then swap_bytes w val else val) = v.
Proof.
  intros Hv. rewrite enc_le. unfold env_for, swap_bytes. destruct nat_endian, o; cbn;
    rewrite ?rev_involutive; try (apply le_val_le_bytes; assumption).
  - set (bs := rev (le_bytes w v)).
    replace w with (length bs) by (unfold bs; rewrite rev_length; apply le_bytes_length).
    rewrite le_bytes_le_val by (apply Forall_rev, le_bytes_byte).
    unfold bs; rewrite rev_involutive. apply le_val_le_bytes; assumption.
  - set (bs := rev (le_bytes w v)).
    replace w with (length bs) by (unfold bs; rewrite rev_length; apply le_bytes_length).
    rewrite le_bytes_le_val by (apply Forall_rev, le_bytes_byte).
    unfold bs; rewrite rev_involutive. apply le_val_le_bytes; assumption.
Qed.

Lemma read_uint_parses n o k w v : fits w v ->
  parses (read_uint w) (env_for n o k) (enc o w v) v.
Proof.
  intros Hv. unfold read_uint. rewrite <- (app_nil_r (enc o w v)).
  pose proof (read_exact_parses (env_for n o k) (enc o w v)) as H. rewrite enc_length in H.
  eapply parses_bind; [exact H|].
  split.
  - intros rest. cbn [app]. unfold ret. do 2 f_equal. exact (read_uint_value n o k w v Hv).
  - intros p Hp; exfalso; eapply proper_prefix_nil; eauto.
Qed.

Lemma unsigned_fits w v : fits w (unsigned w v).
Proof.
  unfold fits, unsigned.
  assert (0 < 2 ^ (8 * Z.of_nat w))%Z by (apply Z.pow_pos_nonneg; lia).
  pose proof (Z.mod_pos_bound v (2 ^ (8 * Z.of_nat w)) H).
  lia.
Qed.

Lemma to_signed_unsigned w v : (0 < w)%nat -> sfits w v -> to_signed w (unsigned w v) = v.
Proof.
  intros Hw. unfold sfits, to_signed, unsigned. intros H.
  set (B := (8 * Z.of_nat w)%Z) in *.
  assert (HB : (2 ^ B = 2 * 2 ^ (B - 1))%Z).
  { rewrite <- Z.pow_succ_r by lia. f_equal; lia. }
  assert (Hp : (0 < 2 ^ (B - 1))%Z) by (apply Z.pow_pos_nonneg; lia).
  assert (EN : (Z.of_N (2 ^ (8 * N.of_nat w - 1)) = 2 ^ (B - 1))%Z).
  { rewrite N2Z.inj_pow. f_equal. lia. }
  assert (Hm : (0 <= v mod 2 ^ B < 2 ^ B)%Z) by (apply Z.mod_pos_bound; lia).
  destruct (N.ltb_spec (Z.to_N (v mod 2 ^ B)) (2 ^ (8 * N.of_nat w - 1))).
  - rewrite Z2N.id by lia.
    assert (v mod 2 ^ B < 2 ^ (B - 1))%Z by lia.
    destruct (Z_lt_le_dec v 0).
    + assert (v mod 2 ^ B = v + 2 ^ B)%Z; [|lia].
      rewrite <- (Z.mod_add v 1), Z.mul_1_l by lia. apply Z.mod_small; lia.
    + apply Z.mod_small; lia.
  - rewrite Z2N.id by lia.
    assert (2 ^ (B - 1) <= v mod 2 ^ B)%Z by lia.
    destruct (Z_lt_le_dec v 0).
    + assert (v mod 2 ^ B = v + 2 ^ B)%Z; [|lia].
      rewrite <- (Z.mod_add v 1), Z.mul_1_l by lia. apply Z.mod_small; lia.
    + assert (v mod 2 ^ B = v)%Z by (apply Z.mod_small; lia). lia.
Qed.

Lemma read_sint_parses n o k w v : (0 < w)%nat -> sfits w v ->
  parses (read_sint w) (env_for n o k) (enc o w (unsigned w v)) v.
Proof.
  intros Hw Hv. rewrite <- (to_signed_unsigned w v Hw Hv) at 2. unfold read_sint.
  apply parses_map with (f := to_signed w). apply read_uint_parses, unsigned_fits.
Qed.

Lemma read_n_parses {A} (r : reader A) (f : A -> list N) e l :
  (forall a, In a l -> parses r e (f a) a) ->
  parses (read_n (length l) r) e (flat_map f l) l.
Proof.
  induction l as [|a l IH]; intros H; cbn [length read_n flat_map].
  - apply parses_ret.
  - eapply parses_bind; [apply H; left; reflexivity|].
    apply parses_map with (f := cons a). apply IH. intros b Hb; apply H; right; exact Hb.
Qed.

Lemma read_n_parses' {A} (r : reader A) (f : A -> list N) e l n :
  n = length l ->
  (forall a, In a l -> parses r e (f a) a) ->
  parses (read_n n r) e (flat_map f l) l.
Proof. intros ->; apply read_n_parses. Qed.

Lemma flat_map_single (l : list N) : flat_map (fun x => [x]) l = l.
Proof. induction l; simpl; f_equal; auto. Qed.

Lemma enc1 o v : fits 1 v -> enc o 1 v = [v].
Proof. intros H. rewrite enc_le. unfold fits in H. simpl in H. destruct o; cbn; rewrite N.mod_small; auto. Qed.

Lemma read_u8_n_parses n o k l c : Forall (fits 1) l -> c = length l ->
  parses (read_n c read_u8) (env_for n o k) l l.
Proof.
  intros H ->. rewrite <- (flat_map_single l) at 2. apply read_n_parses.
  intros a Ha. rewrite <- (enc1 o) by (rewrite Forall_forall in H; auto).
  apply read_uint_parses. rewrite Forall_forall in H; auto.
Qed.

(** archive.rs 228: reading one byte delivers it unchanged. *)
Lemma read_u8_cons e b t : b < 256 -> read_u8 e (b :: t) = Ok (b, t).
Proof.
  intros H. unfold read_u8, read_uint, rbind, read_exact, ret. simpl.
  unfold from_ne_bytes, swap_bytes. destruct (native e), (eswap e); cbn;
    rewrite ?N.add_0_r, ?N.mod_small by lia; reflexivity.
Qed.

(** * Strings *)

Lemma read_cstr_ok acc e s rest : ~ In 0 s ->
  read_cstr_from acc e (s ++ 0 :: rest) = Ok (rev acc ++ s, rest).
Proof.
  revert acc; induction s as [|b s IH]; intros acc H; cbn [app read_cstr_from].
  - rewrite N.eqb_refl, app_nil_r. reflexivity.
  - destruct (N.eqb_spec b 0) as [->|]; [exfalso; apply H; left; reflexivity|].
    rewrite IH by (intros Hs; apply H; right; exact Hs).
    cbn [rev]. rewrite <- app_assoc. reflexivity.
Qed.

Lemma read_cstr_short acc e s : ~ In 0 s ->
  read_cstr_from acc e s = Err (IO (io_kind e)).
Proof.
  revert acc; induction s as [|b s IH]; intros acc H; cbn [read_cstr_from]; auto.
  destruct (N.eqb_spec b 0) as [->|]; [exfalso; apply H; left; reflexivity|].
  apply IH. intros Hs; apply H; right; exact Hs.
Qed.

Lemma from_utf8_text bs : text bs -> from_utf8 bs = ret bs.
Proof. intros H. unfold from_utf8. rewrite (proj2 (utf8_error_text bs) H). reflexivity. Qed.

Lemma read_string_parses e s : text s -> ~ In 0 s -> parses read_string e (s ++ [0]) s.
Proof.
  intros Ht Hs. unfold read_string, rbind. split.
  - intros rest. rewrite <- app_assoc. cbn [app]. rewrite (read_cstr_ok [] e s rest Hs). simpl rev.
    cbn [app]. rewrite from_utf8_text by exact Ht. reflexivity.
  - intros p Hp. assert (Hp0 : ~ In 0 p).
    { destruct Hp as (x & t & E). intros Hin.
      destruct t as [|y t'] using rev_ind.
      - apply (f_equal (@removelast N)) in E. rewrite removelast_last in E.
        change (p ++ [x]) with (p ++ [x]) in E. rewrite removelast_last in E. subst; auto.
      - clear IHt'. assert (E' : s ++ [0] = (p ++ x :: t') ++ [y]) by (rewrite E, <- app_assoc; reflexivity).
        apply app_inj_tail in E' as [-> _]. apply Hs. apply in_or_app; left; exact Hin. }
    rewrite (read_cstr_short [] e p Hp0). reflexivity.
Qed.

Lemma read_name_parses n o k s : text s -> Forall (fits 1) s ->
  parses (read_name (len s)) (env_for n o k) s s.
Proof.
  intros Ht Hb. unfold read_name, len. destruct (N.eqb_spec (N.of_nat (length s)) 0) as [E|E].
  - assert (s = []) as -> by (destruct s; simpl in E; [reflexivity|lia]). apply parses_ret.
  - rewrite <- (app_nil_r s) at 2. eapply parses_bind.
    + apply read_u8_n_parses; [exact Hb|lia].
    + rewrite from_utf8_text by exact Ht. apply parses_ret.
Qed.

Lemma utf8_char_byte c : scalar c -> Forall (fits 1) (utf8_char c).
Proof.
  unfold scalar, fits, utf8_char. simpl (2 ^ (8 * N.of_nat 1)). intros H.
  assert (forall x, x mod 64 < 64) by (intros; apply N.mod_lt; lia).
  destruct (N.ltb_spec c 128); [repeat constructor; lia|].
  destruct (N.ltb_spec c 2048).
  { pose proof (N.div_lt_upper_bound c 64 32). repeat constructor; specialize (H0 c); lia. }
  destruct (N.ltb_spec c 65536).
  { pose proof (N.div_lt_upper_bound c 4096 16).
    pose proof (H0 c); pose proof (H0 (c / 64)). repeat constructor; lia. }
  pose proof (N.div_lt_upper_bound c 262144 5).
  pose proof (H0 c); pose proof (H0 (c / 64)); pose proof (H0 (c / 4096)).
  repeat constructor; lia.
Qed.

Lemma text_bytes bs : text bs -> Forall (fits 1) bs.
Proof.
  intros (s & Hs & ->). unfold utf8. induction Hs as [|c s Hc Hs IH]; simpl; [constructor|].
  apply Forall_app; split; [apply utf8_char_byte; exact Hc|exact IH].
Qed.

(** * Headers *)

Lemma bytes_eqb_eq a b : bytes_eqb a b = true <-> a = b.
Proof.
  revert b; induction a as [|x a IH]; intros [|y b]; simpl; split; intros H; try discriminate; auto.
  - apply andb_prop in H as [H1 H2]. apply N.eqb_eq in H1. apply IH in H2. congruence.
  - injection H as -> ->. rewrite N.eqb_refl. simpl. apply IH. reflexivity.
Qed.

Lemma bytes_eqb_refl a : bytes_eqb a a = true.
Proof. apply bytes_eqb_eq; reflexivity. Qed.

Lemma bytes_eqb_neq a b : bytes_eqb a b = false <-> a <> b.
Proof.
  split.
  - intros H ->. rewrite bytes_eqb_refl in H. discriminate.
  - intros H. destruct (bytes_eqb a b) eqn:E; [|reflexivity].
    apply bytes_eqb_eq in E. contradiction.
Qed.

Lemma check_header_parses n o k tag version :
  text tag -> ~ In 0 tag -> fits 4 version ->
  parses (check_header tag version) (env_for n o k) (header o tag version) tt.
Proof.
  intros Ht H0 Hv. unfold check_header, header. rewrite app_assoc.
  eapply parses_bind; [apply read_string_parses; assumption|].
  rewrite bytes_eqb_refl; cbn [negb].
  rewrite <- (app_nil_r (enc o 4 version)).
  eapply parses_bind; [apply read_uint_parses; exact Hv|].
  rewrite N.eqb_refl; cbn [negb]. apply parses_ret.
Qed.

Lemma ascii_text l : forallb (fun b => b <? 128) l = true -> text l.
Proof.
  intros H. exists l. split.
  - apply Forall_forall. intros b Hb. rewrite forallb_forall in H. apply H in Hb.
    left. lia.
  - induction l as [|b l IH]; [reflexivity|]. simpl in H. apply andb_prop in H as [H1 H2].
    unfold utf8; cbn [flat_map]. unfold utf8_char at 1. rewrite H1. simpl. f_equal. apply IH; exact H2.
Qed.

Lemma no_zero l : forallb (fun b => negb (b =? 0)) l = true -> ~ In 0 l.
Proof. intros H Hin. rewrite forallb_forall in H. apply H in Hin. discriminate. Qed.

(** * Animation *)

Lemma nat_len {A} (l : list A) : N.to_nat (len l) = length l.
Proof. unfold len; lia. Qed.

Lemma read_key_parses n o k key : length key = 3%nat -> Forall (fits 2) key ->
  parses read_key (env_for n o k) (flat_map (enc o 2) key) key.
Proof.
  intros Hl Hk. apply read_n_parses'; [auto|].
  intros a Ha. apply read_uint_parses. rewrite Forall_forall in Hk; auto.
Qed.

Ltac in_forall := let a := fresh in let H := fresh in
  intros a H; repeat match goal with F : Forall _ _ |- _ => rewrite Forall_forall in F end; auto.

Lemma read_channel_parses n o k u8 c : channel_ok u8 c ->
  parses (read_channel u8 (len (ch_keys c)) (len (ch_entries c)) (len (ch_desc c)))
         (env_for n o k) (w_channel o u8 c) c.
Proof.
  intros (L1 & L2 & H1 & H2 & H3 & H4 & H5 & H6 & _).
  unfold read_channel, w_channel. rewrite !nat_len.
  eapply parses_bind.
  { apply read_n_parses'; [auto|]. intros a Ha.
    destruct u8; apply read_uint_parses; rewrite Forall_forall in H1; auto. }
  eapply parses_bind.
  { apply read_n_parses'; [auto|]. intros a Ha. apply read_uint_parses. rewrite Forall_forall in H2; auto. }
  eapply parses_bind; [apply read_u8_n_parses; auto|].
  eapply parses_bind.
  { apply read_n_parses'; [auto|]. intros a Ha. apply read_uint_parses. rewrite Forall_forall in H4; auto. }
  eapply parses_bind; [apply read_uint_parses; exact H5|].
  destruct c as [ra pr en de inr ks]; cbn in *.
  apply parses_map with (f := fun ks => {| ch_ratios := ra; ch_previouses := pr;
     ch_entries := en; ch_desc := de; ch_interval := inr; ch_keys := ks |}).
  unfold w_keys. apply read_n_parses'; [auto|]. intros a Ha. rewrite Forall_forall in H6.
  destruct (H6 _ Ha). apply read_key_parses; assumption.
Qed.

Lemma animation_parses n o k a : animation_ok a ->
  parses animation_from_archive (env_for n o k) (w_animation o a) a.
Proof.
  intros (H1 & H2 & H3 & H4 & H5 & H6 & Ht & Hr & Hs).
  pose proof Ht as Ht'. pose proof Hr as Hr'. pose proof Hs as Hs'.
  destruct Ht' as (_ & _ & _ & _ & _ & _ & _ & _ & T1 & T2 & T3).
  destruct Hr' as (_ & _ & _ & _ & _ & _ & _ & _ & R1 & R2 & R3).
  destruct Hs' as (_ & _ & _ & _ & _ & _ & _ & _ & S1 & S2 & S3).
  unfold animation_from_archive, w_animation.
  match goal with |- parses _ _ ?w _ =>
    let x := constr:(w) in idtac end.
  rewrite (app_assoc (header _ _ _)).
  repeat rewrite (app_assoc (_ ++ _)).
  rewrite <- (app_assoc _ (flat_map (enc o 4) (an_timepoints a))) || idtac.
  repeat rewrite <- app_assoc.
  (* split off the meta data *)
  match goal with |- context [?pre ++ enc o 4 (an_duration a) ++ ?post] => idtac end.
  set (tl := flat_map (enc o 4) (an_timepoints a) ++
     w_channel o (len (an_timepoints a) <=? 255) (an_t a) ++
     w_channel o (len (an_timepoints a) <=? 255) (an_r a) ++
     w_channel o (len (an_timepoints a) <=? 255) (an_s a)).
  set (meta := {| m_duration := an_duration a; m_num_tracks := an_num_tracks a; m_name := an_name a;
         m_timepoints := len (an_timepoints a); m_translations := len (ch_keys (an_t a));
         m_rotations := len (ch_keys (an_r a)); m_scales := len (ch_keys (an_s a));
         m_t_entries := len (ch_entries (an_t a)); m_t_desc := len (ch_desc (an_t a));
         m_r_entries := len (ch_entries (an_r a)); m_r_desc := len (ch_desc (an_r a));
         m_s_entries := len (ch_entries (an_s a)); m_s_desc := len (ch_desc (an_s a)) |}).
  assert (Hmeta : parses animation_read_meta (env_for n o k)
    (header o animation_tag 7
      ++ enc o 4 (an_duration a) ++ enc o 4 (an_num_tracks a)
      ++ enc o 4 (len (an_name a)) ++ enc o 4 (len (an_timepoints a))
      ++ enc o 4 (len (ch_keys (an_t a))) ++ enc o 4 (len (ch_keys (an_r a)))
      ++ enc o 4 (len (ch_keys (an_s a)))
      ++ enc o 4 (len (ch_entries (an_t a))) ++ enc o 4 (len (ch_desc (an_t a)))
      ++ enc o 4 (len (ch_entries (an_r a))) ++ enc o 4 (len (ch_desc (an_r a)))
      ++ enc o 4 (len (ch_entries (an_s a))) ++ enc o 4 (len (ch_desc (an_s a)))
      ++ an_name a) meta).
  { unfold animation_read_meta.
    eapply parses_bind; [apply check_header_parses|].
    { apply ascii_text. reflexivity. } { apply no_zero. reflexivity. } { reflexivity. }
    do 13 (eapply parses_bind; [apply read_uint_parses; assumption|]).
    apply parses_map with (f := fun nm => {| m_duration := an_duration a; m_num_tracks := an_num_tracks a; m_name := nm;
         m_timepoints := len (an_timepoints a); m_translations := len (ch_keys (an_t a));
         m_rotations := len (ch_keys (an_r a)); m_scales := len (ch_keys (an_s a));
         m_t_entries := len (ch_entries (an_t a)); m_t_desc := len (ch_desc (an_t a));
         m_r_entries := len (ch_entries (an_r a)); m_r_desc := len (ch_desc (an_r a));
         m_s_entries := len (ch_entries (an_s a)); m_s_desc := len (ch_desc (an_s a)) |}).
    apply read_name_parses; [assumption|apply text_bytes; assumption]. }
  match goal with |- parses _ _ ?w _ =>
    match type of Hmeta with parses _ _ ?m _ => replace w with (m ++ tl) end end.
  2:{ repeat rewrite <- app_assoc. reflexivity. }
  eapply parses_bind; [exact Hmeta|]. unfold meta, tl; cbn [m_duration m_num_tracks m_name m_timepoints
    m_translations m_rotations m_scales m_t_entries m_t_desc m_r_entries m_r_desc m_s_entries m_s_desc].
  rewrite nat_len.
  eapply parses_bind.
  { apply read_n_parses'; [auto|]. intros x Hx. apply read_uint_parses. rewrite Forall_forall in H5; auto. }
  cbv zeta.
  eapply parses_bind; [apply read_channel_parses; exact Ht|].
  eapply parses_bind; [apply read_channel_parses; exact Hr|].
  destruct a as [du nt nm tp t r s]; cbn in *.
  apply parses_map with (f := fun s => {| an_duration := du; an_num_tracks := nt; an_name := nm;
     an_timepoints := tp; an_t := t; an_r := r; an_s := s |}).
  apply read_channel_parses; exact Hs.
Qed.

(** * Files *)

Lemma load_parses {A} (r : reader A) n o k tagb bs a :
  endian_byte o tagb -> parses r (env_for n o k) bs a ->
  (forall rest, load r n k (tagb :: bs ++ rest) = Ok (a, rest)) /\
  (forall p, proper_prefix p (tagb :: bs) -> load r n k p = Err (IO k)).
Proof.
  intros Hb [H1 H2]. unfold load, archive_new.
  assert (Ho : endian_from_tag tagb = o).
  { unfold endian_from_tag. destruct o; simpl in Hb; destruct (N.eqb_spec tagb 0); congruence. }
  split.
  - intros rest. rewrite Ho. apply H1.
  - intros [|b p] Hp; [reflexivity|].
    destruct Hp as (x & s & E). cbn [app] in E. injection E as -> E.
    rewrite Ho. apply (H2 p). exists x, s; exact E.
Qed.

(** * Skeleton *)

(** The bidirectional map: no repetition on either side. *)
Definition bimap_ok (m : bimap) : Prop :=
  NoDup (map fst m) /\ NoDup (map snd m).

Lemma get_by_left_In m k v : bimap_ok m -> (get_by_left m k = Some v <-> In (k, v) m).
Proof.
  intros [H _]. induction m as [|[k' v'] m IH]; simpl.
  - split; [discriminate|tauto].
  - inversion H as [|? ? Hn Hd]; subst. destruct (bytes_eqb k' k) eqn:E.
    + apply bytes_eqb_eq in E; subst k'. split.
      * intros E; injection E as ->; auto.
      * intros [E|Hin]; [congruence|]. exfalso; apply Hn. apply (in_map fst) in Hin; exact Hin.
    + apply bytes_eqb_neq in E. rewrite IH by exact Hd. split; [auto|].
      intros [E'|Hin]; [congruence|exact Hin].
Qed.

Lemma get_by_right_In m k v : bimap_ok m -> (get_by_right m v = Some k <-> In (k, v) m).
Proof.
  intros [_ H]. induction m as [|[k' v'] m IH]; simpl.
  - split; [discriminate|tauto].
  - inversion H as [|? ? Hn Hd]; subst. destruct (Z.eqb_spec v' v) as [->|E].
    + split.
      * intros E; injection E as ->; auto.
      * intros [E|Hin]; [congruence|]. exfalso; apply Hn. apply (in_map snd) in Hin; exact Hin.
    + rewrite IH by exact Hd. split; [auto|].
      intros [E'|Hin]; [congruence|exact Hin].
Qed.

Lemma bimap_insert_In m k v k' v' :
  In (k', v') (bimap_insert m k v) <->
  (k' = k /\ v' = v) \/ (In (k', v') m /\ k' <> k /\ v' <> v).
Proof.
  unfold bimap_insert. simpl. rewrite filter_In. cbn [fst snd].
  split.
  - intros [E|[Hin E]]; [left; split; congruence|right].
    apply andb_prop in E as [E1 E2]. split; [exact Hin|]. split.
    + apply bytes_eqb_neq. destruct (bytes_eqb k' k); [discriminate|reflexivity].
    + lia.
  - intros [[-> ->]|(Hin & H1 & H2)]; [left; reflexivity|right].
    split; [exact Hin|]. rewrite (proj2 (bytes_eqb_neq k' k) H1). simpl. lia.
Qed.

Lemma NoDup_map_filter {A B} (f : A -> B) (g : A -> bool) l :
  NoDup (map f l) -> NoDup (map f (filter g l)).
Proof.
  induction l as [|a l IH]; simpl; intros H; [constructor|].
  inversion H; subst. destruct (g a); simpl; auto. constructor; auto.
  intros Hin. apply in_map_iff in Hin as (x & E & Hx). apply filter_In in Hx as [Hx _].
  apply H2. rewrite <- E. apply in_map; exact Hx.
Qed.

Lemma bimap_insert_ok m k v : bimap_ok m -> bimap_ok (bimap_insert m k v).
Proof.
  intros [H1 H2]. unfold bimap_insert. split; simpl; constructor.
  - intros Hin. apply in_map_iff in Hin as ([k' v'] & E & Hx). apply filter_In in Hx as [_ E'].
    cbn in *. subst k'. rewrite bytes_eqb_refl in E'. discriminate.
  - apply NoDup_map_filter; exact H1.
  - intros Hin. apply in_map_iff in Hin as ([k' v'] & E & Hx). apply filter_In in Hx as [_ E'].
    cbn in *. subst v'. rewrite Z.eqb_refl in E'. rewrite andb_false_r in E'. discriminate.
  - apply NoDup_map_filter; exact H2.
Qed.

(** What [read_names] leaves in the map: fold of insertions. *)
Fixpoint insert_names (names : list (list N)) (idx : N) (m : bimap) : bimap :=
  match names with
  | [] => m
  | s :: t => insert_names t (idx + 1) (bimap_insert m s (as_i16 idx))
  end.

Lemma read_names_parses e names idx m :
  Forall (fun n => text n /\ ~ In 0 n) names ->
  parses (read_names (length names) idx m) e (flat_map (fun n => n ++ [0]) names)
         (insert_names names idx m).
Proof.
  intros H. revert idx m. induction H as [|s names [Ht H0] H IH]; intros idx m.
  - apply parses_ret.
  - cbn [length read_names flat_map insert_names]. eapply parses_bind.
    + apply read_string_parses; assumption.
    + apply IH.
Qed.

Lemma insert_names_ok names idx m : bimap_ok m -> bimap_ok (insert_names names idx m).
Proof.
  revert idx m; induction names as [|s names IH]; intros idx m H; simpl; auto.
  apply IH, bimap_insert_ok, H.
Qed.

Lemma as_i16_small v : v < 2 ^ 15 -> as_i16 v = Z.of_N v.
Proof.
  intros H. change (2 ^ 15) with 32768 in H. unfold as_i16, to_signed. rewrite N.mod_small by lia.
  change (2 ^ (8 * N.of_nat 2 - 1)) with 32768. destruct (N.ltb_spec v 32768); lia.
Qed.

(** Contents after inserting names idx, idx+1, ... : a pair survives iff it is not overwritten. *)
Lemma insert_names_In names : forall idx m k v,
  idx + len names <= 2 ^ 15 ->
  (In (k, v) (insert_names names idx m) <->
   (exists i, nth_error names i = Some k /\ v = Z.of_N (idx + N.of_nat i) /\
              forall j, (i < j)%nat -> nth_error names j <> Some k)
   \/ (In (k, v) m /\ ~ In k names /\
       forall i, (i < length names)%nat -> v <> Z.of_N (idx + N.of_nat i))).
Proof.
  induction names as [|s names IH]; intros idx m k v Hlen.
  - cbn [insert_names]. split.
    + intros H. right. split; [exact H|]. split; [intros []|]. intros i Hi; simpl in Hi; lia.
    + intros [(i & E & _)|(H & _)]; [destruct i; discriminate|exact H].
  - cbn [insert_names]. unfold len in *. cbn [length] in Hlen.
    rewrite IH by lia. rewrite bimap_insert_In.
    rewrite as_i16_small by lia.
    split.
    + intros [(i & E & Ev & Hj)|([[-> ->]|(Hin & Hk & Hv)] & Hn & Hi)].
      * left. exists (S i). split; [exact E|]. split; [lia|].
        intros [|j] Hlt; [lia|]. apply (Hj j); lia.
      * left. exists O. split; [reflexivity|]. split; [lia|].
        intros [|j] Hlt E; [lia|]. exact (Hn (nth_error_In names j E)).
      * right. split; [exact Hin|]. split.
        -- intros [->|Hin']; [apply Hk; reflexivity|contradiction].
        -- intros [|i] Hlt; [replace (idx + N.of_nat 0) with idx by lia; exact Hv|].
           specialize (Hi i). simpl in Hlt. intros ->. apply Hi; lia.
    + intros [(i & E & Ev & Hj)|(Hin & Hn & Hi)].
      * destruct i as [|i].
        -- right. injection E as ->. split; [left; split; [reflexivity|lia]|]. split.
           ++ intros Hin. apply In_nth_error in Hin as [j Ej]. apply (Hj (S j)); [lia|exact Ej].
           ++ intros i Hlt. lia.
        -- left. exists i. split; [exact E|]. split; [lia|].
           intros j Hlt E'. apply (Hj (S j)); [lia|exact E'].
      * right. split.
        -- right. split; [exact Hin|]. split; [intros ->; apply Hn; left; reflexivity|].
           specialize (Hi O). simpl in Hi. intros ->. apply Hi; lia.
        -- split; [intros H; apply Hn; right; exact H|].
           intros i Hlt ->. apply (Hi (S i)); [simpl; lia|lia].
Qed.

Lemma div_ceil_nat (m : nat) : N.to_nat (div_ceil (N.of_nat m) 4) = ((m + 3) / 4)%nat.
Proof.
  unfold div_ceil.
  replace (N.of_nat m + 4 - 1) with (N.of_nat (m + 3)) by lia.
  rewrite <- (Nnat.Nat2N.id ((m + 3) / 4)%nat). f_equal.
  rewrite Nnat.Nat2N.inj_div. reflexivity.
Qed.

Lemma skeleton_parses n o k c :
  (0 < length (sc_parents c))%nat -> fits 4 (len (sc_parents c)) ->
  fits 4 (len (flat_map (fun n => n ++ [0]) (sc_names c))) ->
  length (sc_names c) = length (sc_parents c) ->
  Forall (fun n => text n /\ ~ In 0 n) (sc_names c) ->
  Forall (sfits 2) (sc_parents c) ->
  length (sc_poses c) = ((length (sc_parents c) + 3) / 4)%nat ->
  Forall (fun p => length p = 40%nat /\ Forall (fits 4) p) (sc_poses c) ->
  parses skeleton_from_archive (env_for n o k) (w_skeleton o c)
    {| sk_num_joints := len (sc_parents c); sk_rest_poses := sc_poses c;
       sk_names := insert_names (sc_names c) 0 []; sk_parents := sc_parents c |}.
Proof.
  intros Hpos Hcnt Hcc Hnm Hnames Hpar Hlen Hposes.
  unfold skeleton_from_archive, w_skeleton. rewrite (app_assoc (header _ _ _)).
  eapply parses_bind.
  { unfold skeleton_read_meta. eapply parses_bind.
    - apply check_header_parses; [apply ascii_text; reflexivity|apply no_zero; reflexivity|reflexivity].
    - rewrite <- (app_nil_r (enc o 4 _)). eapply parses_bind; [apply read_uint_parses; exact Hcnt|].
      rewrite orb_true_r. apply parses_ret. }
  cbn [sm_num_joints]. cbv zeta.
  eapply parses_bind; [apply read_uint_parses; exact Hcc|].
  rewrite nat_len. rewrite <- Hnm at 1.
  eapply parses_bind; [apply read_names_parses; exact Hnames|].
  eapply parses_bind.
  { apply (read_n_parses' read_i16 (fun p => enc o 2 (unsigned 2 p))); [reflexivity|].
    intros p Hp. apply read_sint_parses; [lia|]. rewrite Forall_forall in Hpar; auto. }
  unfold len. rewrite div_ceil_nat, <- Hlen.
  apply (parses_map (read_n (length (sc_poses c)) read_soa_transform)
     (fun poses => {| sk_num_joints := N.of_nat (length (sc_parents c)); sk_rest_poses := poses;
       sk_names := insert_names (sc_names c) 0 []; sk_parents := sc_parents c |})).
  apply read_n_parses. intros p Hp. rewrite Forall_forall in Hposes. destruct (Hposes _ Hp) as [Hl Hf].
  unfold read_soa_transform. apply read_n_parses'; [auto|]. intros x Hx. apply read_uint_parses.
  rewrite Forall_forall in Hf; auto.
Qed.

(** * Track *)

Lemma track_value_parses n o k kind v : length v = track_dim kind -> Forall (fits 4) v ->
  parses (read_track_value kind) (env_for n o k) (flat_map (enc o 4) v) v.
Proof.
  intros Hl Hf.
  assert (forall m, m = length v -> parses (read_n m read_f32) (env_for n o k) (flat_map (enc o 4) v) v).
  { intros m Hm. apply read_n_parses'; [exact Hm|]. intros a Ha. apply read_uint_parses.
    rewrite Forall_forall in Hf; auto. }
  destruct kind; apply H; auto.
Qed.

Lemma track_tag_ok kind : text (track_tag kind) /\ ~ In 0 (track_tag kind).
Proof.
  split; destruct kind; solve [apply ascii_text; reflexivity | apply no_zero; reflexivity].
Qed.

Lemma track_parses n o k kind t : track_ok kind t ->
  parses (track_from_archive kind) (env_for n o k) (w_track o kind t) t.
Proof.
  intros (Hk & Hlt & Hr & Hrf & Hv & Hs & Hsf & Ht & Htl).
  unfold track_from_archive, w_track.
  destruct (track_tag_ok kind).
  replace (track_name kind) with (track_tag kind) by (destruct kind; reflexivity).
  eapply parses_bind; [apply check_header_parses; [assumption|assumption|reflexivity]|].
  eapply parses_bind; [apply read_uint_parses; unfold fits; change (2 ^ (8 * N.of_nat 4)) with (2 ^ 32); lia|].
  eapply parses_bind; [apply read_uint_parses; exact Htl|].
  rewrite nat_len.
  eapply parses_bind.
  { apply read_n_parses'; [auto|]. intros a Ha. apply read_uint_parses. rewrite Forall_forall in Hrf; auto. }
  eapply parses_bind.
  { apply read_n_parses'; [auto|]. intros a Ha. rewrite Forall_forall in Hv.
    destruct (Hv _ Ha). apply track_value_parses; assumption. }
  destruct (N.leb_spec (2 ^ 32) (len (tr_values t) + 7)); [lia|].
  eapply parses_bind; [apply read_u8_n_parses; [exact Hsf|rewrite <- Hs; apply nat_len]|].
  destruct t as [kc ra va st nm]; cbn in *. subst kc.
  apply parses_map with (f := fun nm => {| tr_key_count := len va; tr_ratios := ra; tr_values := va;
     tr_steps := st; tr_name := nm |}).
  apply read_name_parses; [assumption|apply text_bytes; assumption].
Qed.

(** * Any stream that loads: every proper prefix of what was consumed fails with the stream's
    error, the rest is untouched. *)

Definition exact_reader {A} (r : reader A) : Prop :=
  forall e bs a rest, r e bs = Ok (a, rest) ->
  exists c, bs = c ++ rest /\ parses r e c a.

Lemma exact_ret {A} (a : A) : exact_reader (ret a).
Proof.
  intros e bs x rest E. injection E as -> ->. exists []. split; [reflexivity|apply parses_ret].
Qed.

Lemma exact_fail {A} err : exact_reader (@fail A err).
Proof. intros e bs x rest E. discriminate. Qed.

Lemma exact_panic {A} : exact_reader (@panic A).
Proof. intros e bs x rest E. discriminate. Qed.

Lemma exact_bind {A B} (r : reader A) (k : A -> reader B) :
  exact_reader r -> (forall a, exact_reader (k a)) -> exact_reader (rbind r k).
Proof.
  intros Hr Hk e bs b rest E. unfold rbind in E.
  destruct (r e bs) as [[a bs']| |] eqn:E1; try discriminate.
  destruct (Hr _ _ _ _ E1) as (c1 & -> & P1).
  destruct (Hk a _ _ _ _ E) as (c2 & -> & P2).
  exists (c1 ++ c2). split; [rewrite app_assoc; reflexivity|].
  eapply parses_bind; eauto.
Qed.

Lemma exact_read_exact n : exact_reader (read_exact n).
Proof.
  intros e bs a rest E. unfold read_exact in E.
  destruct (Nat.leb_spec n (length bs)); [|discriminate]. injection E as <- <-.
  exists (firstn n bs). split; [symmetry; apply firstn_skipn|].
  pose proof (read_exact_parses e (firstn n bs)) as P.
  rewrite firstn_length_le in P by assumption. exact P.
Qed.

Lemma exact_read_uint w : exact_reader (read_uint w).
Proof.
  apply exact_bind; [apply exact_read_exact|]. intros raw e bs a rest E.
  injection E as <- <-. exists []. split; [reflexivity|]. split; [reflexivity|].
  intros p H; exfalso; eapply proper_prefix_nil; eauto.
Qed.

Lemma exact_read_sint w : exact_reader (read_sint w).
Proof. apply exact_bind; [apply exact_read_uint|intros; apply exact_ret]. Qed.

Lemma exact_read_n {A} n (r : reader A) : exact_reader r -> exact_reader (read_n n r).
Proof.
  intros H. induction n as [|n IH]; [apply exact_ret|].
  apply exact_bind; [exact H|]. intros a. apply exact_bind; [exact IH|]. intros l; apply exact_ret.
Qed.

Lemma exact_from_utf8 bs : exact_reader (from_utf8 bs).
Proof. unfold from_utf8. destruct (utf8_error 0 bs); [apply exact_fail|apply exact_ret]. Qed.

Lemma read_cstr_inv acc e bs s rest :
  read_cstr_from acc e bs = Ok (s, rest) ->
  exists c, ~ In 0 c /\ s = rev acc ++ c /\ bs = c ++ 0 :: rest.
Proof.
  revert acc; induction bs as [|b bs IH]; intros acc E; cbn [read_cstr_from] in E; [discriminate|].
  destruct (N.eqb_spec b 0) as [->|Hb].
  - injection E as <- <-. exists []. rewrite app_nil_r. split; [intros []|split; reflexivity].
  - apply IH in E as (c & Hc & -> & ->). exists (b :: c). split.
    + intros [->|H]; [apply Hb; reflexivity|contradiction].
    + split; [simpl; rewrite <- app_assoc; reflexivity|reflexivity].
Qed.

Lemma exact_read_string : exact_reader read_string.
Proof.
  intros e bs a rest E. unfold read_string, rbind in E.
  destruct (read_cstr_from [] e bs) as [[s bs']| |] eqn:E1; try discriminate.
  apply read_cstr_inv in E1 as (c & Hc & E' & ->). simpl in E'. subst s.
  unfold from_utf8 in E. destruct (utf8_error 0 c) eqn:E2; [discriminate|].
  injection E as <- <-. exists (c ++ [0]). split; [rewrite <- app_assoc; reflexivity|].
  apply read_string_parses; [|exact Hc]. apply utf8_error_text; exact E2.
Qed.

Lemma exact_if {A} (b : bool) (r1 r2 : reader A) :
  exact_reader r1 -> exact_reader r2 -> exact_reader (if b then r1 else r2).
Proof. destruct b; auto. Qed.

Lemma exact_check_header tag v : exact_reader (check_header tag v).
Proof.
  apply exact_bind; [apply exact_read_string|]. intros t.
  apply exact_if; [apply exact_fail|]. apply exact_bind; [apply exact_read_uint|]. intros x.
  apply exact_if; [apply exact_fail|apply exact_ret].
Qed.

Lemma exact_read_name l : exact_reader (read_name l).
Proof.
  unfold read_name. apply exact_if; [apply exact_ret|].
  apply exact_bind; [apply exact_read_n, exact_read_uint|]. intros; apply exact_from_utf8.
Qed.

Lemma exact_animation_meta : exact_reader animation_read_meta.
Proof.
  unfold animation_read_meta. apply exact_bind; [apply exact_check_header|intros _].
  do 13 (apply exact_bind; [apply exact_read_uint|intros ?]).
  apply exact_bind; [apply exact_read_name|]. intros; apply exact_ret.
Qed.

Lemma exact_channel b k e d : exact_reader (read_channel b k e d).
Proof.
  unfold read_channel. apply exact_bind; [destruct b; apply exact_read_n, exact_read_uint|intros ?].
  do 3 (apply exact_bind; [apply exact_read_n, exact_read_uint|intros ?]).
  apply exact_bind; [apply exact_read_uint|intros ?].
  apply exact_bind; [apply exact_read_n, exact_read_n, exact_read_uint|intros ?]. apply exact_ret.
Qed.

Lemma exact_animation : exact_reader animation_from_archive.
Proof.
  unfold animation_from_archive. apply exact_bind; [apply exact_animation_meta|intros ?].
  apply exact_bind; [apply exact_read_n, exact_read_uint|intros ?]. cbv zeta.
  do 3 (apply exact_bind; [apply exact_channel|intros ?]). apply exact_ret.
Qed.

Lemma exact_read_names n idx m : exact_reader (read_names n idx m).
Proof.
  revert idx m; induction n as [|n IH]; intros idx m; [apply exact_ret|].
  apply exact_bind; [apply exact_read_string|]. intros s. apply IH.
Qed.

Lemma exact_skeleton_meta b : exact_reader (skeleton_read_meta b).
Proof.
  unfold skeleton_read_meta. apply exact_bind; [apply exact_check_header|intros _].
  apply exact_bind; [apply exact_read_uint|intros n].
  apply exact_if; [apply exact_ret|].
  apply exact_bind; [apply exact_read_uint|intros _].
  apply exact_bind; [apply exact_read_names|intros ?].
  apply exact_bind; [apply exact_read_n, exact_read_sint|intros ?]. apply exact_ret.
Qed.

Lemma exact_skeleton : exact_reader skeleton_from_archive.
Proof.
  unfold skeleton_from_archive. apply exact_bind; [apply exact_skeleton_meta|intros m]. cbv zeta.
  apply exact_bind; [apply exact_read_uint|intros _].
  apply exact_bind; [apply exact_read_names|intros ?].
  apply exact_bind; [apply exact_read_n, exact_read_sint|intros ?].
  apply exact_bind; [apply exact_read_n, exact_read_n, exact_read_uint|intros ?]. apply exact_ret.
Qed.

Lemma exact_track k : exact_reader (track_from_archive k).
Proof.
  unfold track_from_archive. apply exact_bind; [apply exact_check_header|intros _].
  do 2 (apply exact_bind; [apply exact_read_uint|intros ?]).
  apply exact_bind; [apply exact_read_n, exact_read_uint|intros ?].
  apply exact_bind; [apply exact_read_n; destruct k; apply exact_read_n, exact_read_uint|intros ?].
  apply exact_if; [apply exact_panic|].
  apply exact_bind; [apply exact_read_n, exact_read_uint|intros ?].
  apply exact_bind; [apply exact_read_name|intros ?]. apply exact_ret.
Qed.

Lemma load_prefix {A} (r : reader A) n k file a rest :
  exact_reader r -> load r n k file = Ok (a, rest) ->
  exists used, file = used ++ rest /\
    (forall rest', load r n k (used ++ rest') = Ok (a, rest')) /\
    (forall p, proper_prefix p used -> load r n k p = Err (IO k)).
Proof.
  intros Hr E. unfold load, archive_new in E. destruct file as [|tag bs]; [discriminate|].
  destruct (Hr _ _ _ _ E) as (c & -> & [P1 P2]).
  exists (tag :: c). split; [reflexivity|]. split.
  - intros rest'. unfold load, archive_new. cbn [app]. apply P1.
  - intros [|b p] (x & s & Ep); [reflexivity|]. cbn [app] in Ep. injection Ep as -> Ep.
    unfold load, archive_new. apply P2. exists x, s; exact Ep.
Qed.

(** * Headers of anything that loads *)

Lemma check_header_inv tag v e bs rest :
  check_header tag v e bs = Ok (tt, rest) ->
  exists raw, bs = tag ++ 0 :: raw ++ rest /\ ~ In 0 tag /\ length raw = 4%nat /\
    forall o n k, e = env_for n o k -> Forall (fun b => b < 256) raw -> raw = enc o 4 v.
Proof.
  unfold check_header. intros E.
  unfold rbind at 1 in E. destruct (read_string e bs) as [[t bs1]| |] eqn:E1; try discriminate.
  destruct (bytes_eqb t tag) eqn:Et; cbn [negb] in E; [|discriminate].
  apply bytes_eqb_eq in Et; subst t.
  unfold read_string, rbind in E1. destruct (read_cstr_from [] e bs) as [[s bs']| |] eqn:E2; try discriminate.
  apply read_cstr_inv in E2 as (c & Hc & E' & ->). simpl in E'. subst s.
  unfold from_utf8 in E1. destruct (utf8_error 0 c); [discriminate|]. injection E1 as -> ->.
  unfold rbind in E. destruct (read_u32 e bs1) as [[x bs2]| |] eqn:E3; try discriminate.
  destruct (N.eqb_spec x v) as [->|]; cbn [negb] in E; [|discriminate].
  injection E as ->.
  unfold read_u32, read_uint, rbind, read_exact in E3.
  destruct (Nat.leb_spec 4 (length bs1)) as [H4|H4]; [|discriminate].
  pose proof (firstn_skipn 4 bs1) as FS. pose proof (firstn_length_le bs1 H4) as Hl.
  remember (firstn 4 bs1) as raw eqn:Eraw. remember (skipn 4 bs1) as tl eqn:Etl. clear Eraw Etl.
  unfold ret in E3. injection E3 as E3 ->.
  exists raw. split; [rewrite <- FS; reflexivity|]. split; [exact Hc|]. split; [exact Hl|].
  intros o n k -> Hraw.
  assert (L1 : le_bytes 4 (le_val raw) = raw) by (rewrite <- Hl at 1; apply le_bytes_le_val; exact Hraw).
  assert (L2 : le_bytes 4 (le_val (rev raw)) = rev raw).
  { rewrite <- Hl at 1. rewrite <- rev_length at 1. apply le_bytes_le_val, Forall_rev, Hraw. }
  unfold env_for in E3; cbn [native eswap] in E3. rewrite enc_le. unfold from_ne_bytes, swap_bytes in *.
  destruct n, o; cbn [endian_eqb negb] in E3; subst v;
    rewrite ?L2, ?rev_involutive, ?L1, ?L2, ?rev_involutive; reflexivity.
Qed.

(** A reader starting with a header check. *)
Lemma rbind_inv {A B} (r : reader A) (k : A -> reader B) e bs b rest :
  rbind r k e bs = Ok (b, rest) -> exists a bs', r e bs = Ok (a, bs') /\ k a e bs' = Ok (b, rest).
Proof.
  unfold rbind. destruct (r e bs) as [[a bs']| |] eqn:E; intros H; try discriminate. eauto.
Qed.

Lemma load_header {A} tag v (k : unit -> reader A) n kind file a rest :
  Forall (fun b => b < 256) file ->
  load (rbind (check_header tag v) k) n kind file = Ok (a, rest) ->
  exists b o rest', endian_byte o b /\ file = b :: header o tag v ++ rest'.
Proof.
  intros Hb E. unfold load, archive_new in E. destruct file as [|b bs]; [discriminate|].
  apply rbind_inv in E as ([] & bs' & E & _).
  apply check_header_inv in E as (raw & -> & _ & _ & H).
  exists b, (endian_from_tag b), bs'. split.
  - unfold endian_from_tag, endian_byte. destruct (N.eqb_spec b 0); assumption.
  - unfold header. rewrite (H (endian_from_tag b) n kind eq_refl).
    + rewrite <- !app_assoc. reflexivity.
    + inversion Hb as [|? ? _ Hb']; subst. apply Forall_app in Hb' as [_ Hb'].
      inversion Hb' as [|? ? _ Hb'']; subst. apply Forall_app in Hb'' as [Hb'' _]. exact Hb''.
Qed.

Lemma load_wrong_tag {A} tag v (k : unit -> reader A) n kind b s rest :
  text s -> ~ In 0 s -> s <> tag ->
  load (rbind (check_header tag v) k) n kind (b :: s ++ 0 :: rest) = Err InvalidTag.
Proof.
  intros Ht H0 Hne. unfold load, archive_new. unfold rbind at 1. unfold check_header.
  unfold rbind at 1.
  pose proof (read_string_parses {| native := n;
     eswap := negb (endian_eqb (endian_from_tag b) n); io_kind := kind |} s Ht H0) as [P _].
  specialize (P rest). rewrite <- app_assoc in P. cbn [app] in P. rewrite P.
  rewrite (proj2 (bytes_eqb_neq s tag) Hne). reflexivity.
Qed.

Lemma load_wrong_version {A} tag v (k : unit -> reader A) n kind b o w rest :
  endian_byte o b -> text tag -> ~ In 0 tag -> fits 4 w -> w <> v ->
  load (rbind (check_header tag v) k) n kind (b :: header o tag w ++ rest) = Err InvalidVersion.
Proof.
  intros Hb Ht H0 Hw Hne. unfold load, archive_new.
  assert (Ho : endian_from_tag b = o).
  { unfold endian_from_tag. destruct o; simpl in Hb; destruct (N.eqb_spec b 0); congruence. }
  rewrite Ho. fold (env_for n o kind).
  unfold rbind at 1. unfold check_header. unfold rbind at 1.
  pose proof (read_string_parses (env_for n o kind) tag Ht H0) as [P _].
  specialize (P (enc o 4 w ++ rest)). rewrite <- app_assoc in P.
  unfold header. rewrite <- !app_assoc. rewrite P.
  rewrite bytes_eqb_refl; cbn [negb]. unfold rbind at 1.
  pose proof (read_uint_parses n o kind 4 w Hw) as [Q _]. unfold read_u32. rewrite Q.
  rewrite (proj2 (N.eqb_neq w v) Hne). reflexivity.
Qed.

(** * Names *)

Lemma read_names_ok n : forall idx m e bs m' rest,
  bimap_ok m -> read_names n idx m e bs = Ok (m', rest) -> bimap_ok m'.
Proof.
  induction n as [|n IH]; intros idx m e bs m' rest Hm E.
  - injection E as <- <-. exact Hm.
  - apply rbind_inv in E as (s & bs' & _ & E). eapply IH; [|exact E]. apply bimap_insert_ok, Hm.
Qed.

Lemma bimap_ok_nil : bimap_ok [].
Proof. split; constructor. Qed.

Lemma skeleton_names_ok e bs s rest :
  skeleton_from_archive e bs = Ok (s, rest) -> bimap_ok (sk_names s).
Proof.
  intros E. unfold skeleton_from_archive in E.
  apply rbind_inv in E as (m & b1 & _ & E). cbv zeta in E.
  apply rbind_inv in E as (x & b2 & _ & E).
  apply rbind_inv in E as (names & b3 & E1 & E).
  apply rbind_inv in E as (ps & b4 & _ & E).
  apply rbind_inv in E as (po & b5 & _ & E).
  injection E as <- <-. cbn [sk_names]. eapply read_names_ok; [apply bimap_ok_nil|exact E1].
Qed.

Lemma joint_name_iff e bs s rest n i :
  skeleton_from_archive e bs = Ok (s, rest) ->
  (joint_by_name s n = Some i <-> name_by_joint s i = Some n).
Proof.
  intros E. apply skeleton_names_ok in E. unfold joint_by_name, name_by_joint.
  rewrite get_by_left_In, get_by_right_In by exact E. reflexivity.
Qed.

(** * Meta data against the whole skeleton *)

Lemma skeleton_meta_agrees n kind file s rest :
  load skeleton_from_archive n kind file = Ok (s, rest) ->
  exists rest', load (skeleton_read_meta true) n kind file =
    Ok ({| sm_num_joints := sk_num_joints s; sm_names := sk_names s; sm_parents := sk_parents s |}, rest').
Proof.
  intros E. unfold load, archive_new in *. destruct file as [|b bs]; [discriminate|].
  set (e := {| native := n; eswap := _; io_kind := kind |}) in *.
  unfold skeleton_from_archive in E. apply rbind_inv in E as (m & b1 & E0 & E). cbv zeta in E.
  unfold skeleton_read_meta in *. apply rbind_inv in E0 as ([] & b0 & Eh & E0).
  apply rbind_inv in E0 as (nj & b0' & En & E0).
  rewrite orb_true_r in E0. injection E0 as <- <-. cbn [sm_num_joints] in E.
  unfold rbind at 1. rewrite Eh. unfold rbind at 1. rewrite En.
  apply rbind_inv in E as (x & b2 & Ex & E).
  apply rbind_inv in E as (names & b3 & E1 & E).
  apply rbind_inv in E as (ps & b4 & E2 & E).
  apply rbind_inv in E as (po & b5 & E3 & E).
  injection E as <- <-. cbn [sk_num_joints sk_names sk_parents].
  destruct (N.eqb_spec nj 0) as [->|Hn]; cbn [orb negb].
  - cbn in E1. injection E1 as <- <-. cbn in E2. injection E2 as <- <-. eexists. reflexivity.
  - unfold rbind at 1. rewrite Ex. unfold rbind at 1. rewrite E1. unfold rbind. rewrite E2.
    eexists; reflexivity.
Qed.

(** * No panic *)

Definition calm {A} (r : reader A) : Prop := forall e bs, r e bs <> Panic.

Lemma calm_ret {A} (a : A) : calm (ret a).
Proof. intros e bs; discriminate. Qed.
Lemma calm_fail {A} x : calm (@fail A x).
Proof. intros e bs; discriminate. Qed.
Lemma calm_bind {A B} (r : reader A) (k : A -> reader B) :
  calm r -> (forall a, calm (k a)) -> calm (rbind r k).
Proof.
  intros Hr Hk e bs. unfold rbind. specialize (Hr e bs).
  destruct (r e bs) as [[a bs']| |]; [apply Hk|discriminate|contradiction].
Qed.
Lemma calm_if {A} (b : bool) (r1 r2 : reader A) : calm r1 -> calm r2 -> calm (if b then r1 else r2).
Proof. destruct b; auto. Qed.
Lemma calm_read_uint w : calm (read_uint w).
Proof.
  apply calm_bind; [|intros a e bs; discriminate].
  intros e bs. unfold read_exact. destruct (_ <=? _)%nat; discriminate.
Qed.
Lemma calm_read_sint w : calm (read_sint w).
Proof. apply calm_bind; [apply calm_read_uint|intros; apply calm_ret]. Qed.
Lemma calm_read_n {A} n (r : reader A) : calm r -> calm (read_n n r).
Proof.
  intros H. induction n as [|n IH]; [apply calm_ret|].
  apply calm_bind; [exact H|]. intros a. apply calm_bind; [exact IH|]. intros; apply calm_ret.
Qed.
Lemma calm_from_utf8 bs : calm (from_utf8 bs).
Proof. unfold from_utf8. destruct (utf8_error 0 bs); [apply calm_fail|apply calm_ret]. Qed.
Lemma calm_read_string : calm read_string.
Proof.
  apply calm_bind; [|intros; apply calm_from_utf8].
  assert (forall acc, calm (read_cstr_from acc)) as H; [|apply H].
  intros acc e bs. revert acc. induction bs as [|b bs IH]; intros acc; cbn [read_cstr_from]; [discriminate|].
  destruct (b =? 0); [discriminate|apply IH].
Qed.
Lemma calm_check_header tag v : calm (check_header tag v).
Proof.
  apply calm_bind; [apply calm_read_string|]. intros t. apply calm_if; [apply calm_fail|].
  apply calm_bind; [apply calm_read_uint|]. intros x. apply calm_if; [apply calm_fail|apply calm_ret].
Qed.
Lemma calm_read_name l : calm (read_name l).
Proof.
  unfold read_name. apply calm_if; [apply calm_ret|].
  apply calm_bind; [apply calm_read_n, calm_read_uint|]. intros; apply calm_from_utf8.
Qed.
Lemma calm_channel b k e d : calm (read_channel b k e d).
Proof.
  unfold read_channel. apply calm_bind; [destruct b; apply calm_read_n, calm_read_uint|intros ?].
  do 3 (apply calm_bind; [apply calm_read_n, calm_read_uint|intros ?]).
  apply calm_bind; [apply calm_read_uint|intros ?].
  apply calm_bind; [apply calm_read_n, calm_read_n, calm_read_uint|intros ?]. apply calm_ret.
Qed.
Lemma calm_animation_meta : calm animation_read_meta.
Proof.
  unfold animation_read_meta. apply calm_bind; [apply calm_check_header|intros _].
  do 13 (apply calm_bind; [apply calm_read_uint|intros ?]).
  apply calm_bind; [apply calm_read_name|]. intros; apply calm_ret.
Qed.
Lemma calm_animation : calm animation_from_archive.
Proof.
  unfold animation_from_archive. apply calm_bind; [apply calm_animation_meta|intros ?].
  apply calm_bind; [apply calm_read_n, calm_read_uint|intros ?]. cbv zeta.
  do 3 (apply calm_bind; [apply calm_channel|intros ?]). apply calm_ret.
Qed.
Lemma calm_read_names n idx m : calm (read_names n idx m).
Proof.
  revert idx m; induction n as [|n IH]; intros idx m; [apply calm_ret|].
  apply calm_bind; [apply calm_read_string|]. intros s. apply IH.
Qed.
Lemma calm_skeleton_meta b : calm (skeleton_read_meta b).
Proof.
  unfold skeleton_read_meta. apply calm_bind; [apply calm_check_header|intros _].
  apply calm_bind; [apply calm_read_uint|intros n]. apply calm_if; [apply calm_ret|].
  apply calm_bind; [apply calm_read_uint|intros _].
  apply calm_bind; [apply calm_read_names|intros ?].
  apply calm_bind; [apply calm_read_n, calm_read_sint|intros ?]. apply calm_ret.
Qed.
Lemma calm_skeleton : calm skeleton_from_archive.
Proof.
  unfold skeleton_from_archive. apply calm_bind; [apply calm_skeleton_meta|intros m]. cbv zeta.
  apply calm_bind; [apply calm_read_uint|intros _].
  apply calm_bind; [apply calm_read_names|intros ?].
  apply calm_bind; [apply calm_read_n, calm_read_sint|intros ?].
  apply calm_bind; [apply calm_read_n, calm_read_n, calm_read_uint|intros ?]. apply calm_ret.
Qed.
Lemma calm_load {A} (r : reader A) n kind file : calm r -> load r n kind file <> Panic.
Proof.
  intros H. unfold load, archive_new. destruct file as [|b bs]; [discriminate|]. apply H.
Qed.

(** A track panics only after reading at least 2^32-7 ratios of four bytes each. *)
Lemma read_n_length {A} n (r : reader A) w e :
  (forall bs a rest, r e bs = Ok (a, rest) -> (w + length rest <= length bs)%nat) ->
  forall bs l rest, read_n n r e bs = Ok (l, rest) -> (n * w + length rest <= length bs)%nat.
Proof.
  intros H. induction n as [|n IH]; intros bs l rest E; cbn [read_n] in E.
  - injection E as <- <-. lia.
  - apply rbind_inv in E as (a & b1 & E1 & E). apply rbind_inv in E as (l' & b2 & E2 & E).
    injection E as <- <-. apply H in E1. apply IH in E2. lia.
Qed.

Lemma read_uint_length w e bs a rest : read_uint w e bs = Ok (a, rest) -> (w + length rest <= length bs)%nat.
Proof.
  unfold read_uint. intros E. apply rbind_inv in E as (raw & b1 & E1 & E). injection E as <- <-.
  unfold read_exact in E1. destruct (Nat.leb_spec w (length bs)); [|discriminate].
  injection E1 as <- <-. rewrite skipn_length. lia.
Qed.

Lemma rbind_panic {A B} (r : reader A) (k : A -> reader B) e bs :
  calm r -> rbind r k e bs = Panic -> exists a bs', r e bs = Ok (a, bs') /\ k a e bs' = Panic.
Proof.
  intros Hr H. unfold rbind in H. specialize (Hr e bs).
  destruct (r e bs) as [[a bs']| |]; [eauto|discriminate|contradiction].
Qed.

Lemma check_header_length tag v e bs u rest :
  check_header tag v e bs = Ok (u, rest) -> (length rest <= length bs)%nat.
Proof.
  intros E. destruct u. apply check_header_inv in E as (raw & -> & _).
  rewrite app_length. simpl. rewrite app_length. lia.
Qed.

Lemma track_panic k n kind file :
  load (track_from_archive k) n kind file = Panic -> 4 * (2 ^ 32 - 7) <= len file.
Proof.
  unfold load, archive_new. destruct file as [|b bs]; [discriminate|].
  set (e := {| native := n; eswap := _; io_kind := kind |}). intros E.
  unfold track_from_archive in E.
  apply rbind_panic in E as ([] & b1 & E1 & E); [|apply calm_check_header].
  apply rbind_panic in E as (kc & b2 & E2 & E); [|apply calm_read_uint].
  apply rbind_panic in E as (nl & b3 & E3 & E); [|apply calm_read_uint].
  apply rbind_panic in E as (ra & b4 & E4 & E); [|apply calm_read_n, calm_read_uint].
  apply rbind_panic in E as (va & b5 & E5 & E);
    [|apply calm_read_n; destruct k; apply calm_read_n, calm_read_uint].
  apply check_header_length in E1. apply read_uint_length in E2. apply read_uint_length in E3.
  apply (read_n_length _ _ 4) in E4; [|apply read_uint_length].
  destruct (N.leb_spec (2 ^ 32) (kc + 7)).
  - unfold len. cbn [length]. change (2 ^ 32) with 4294967296 in *. lia.
  - exfalso. revert E. apply calm_bind; [apply calm_read_n, calm_read_uint|intros ?].
    apply calm_bind; [apply calm_read_name|intros ?]. apply calm_ret.
Qed.
