(** The converse of the round trips: whatever file loads is the encoding of what was loaded. *)
From Verif Require Import Base Archive ArchiveSpec Utf8Proofs ArchiveProofs ArchiveExamples.
Local Open Scope N_scope.
Notation length := List.length.

(** On the environment [e], [r] only accepts encodings by [f] of values satisfying [P]. *)
Definition inverts {A} (e : env) (r : reader A) (P : A -> Prop) (f : A -> list N) : Prop :=
  forall bs a rest, bytes bs -> r e bs = Ok (a, rest) -> P a /\ bytes rest /\ bs = f a ++ rest.

Lemma bytes_app a b : bytes (a ++ b) -> bytes a /\ bytes b.
Proof. apply Forall_app. Qed.

Lemma bytes_256 l : bytes l -> Forall (fun b => b < 256) l.
Proof. intros H. exact H. Qed.

Lemma le_val_bound bs : bytes bs -> le_val bs < 2 ^ (8 * N.of_nat (length bs)).
Proof.
  induction bs as [|b bs IH]; intros H; [reflexivity|].
  inversion H as [|? ? Hb Hbs]; subst. specialize (IH Hbs). cbn [length le_val].
  rewrite pow256_S. unfold fits in Hb. change (2 ^ (8 * N.of_nat 1)) with 256 in Hb. lia.
Qed.

Lemma read_uint_inv n o k w : inverts (env_for n o k) (read_uint w) (fits w) (enc o w).
Proof.
  intros bs v rest Hb E. unfold read_uint, rbind, read_exact in E.
  destruct (Nat.leb_spec w (length bs)) as [Hw|]; [|discriminate].
  pose proof (firstn_skipn w bs) as FS. pose proof (firstn_length_le bs Hw) as Hl.
  remember (firstn w bs) as raw eqn:E1. remember (skipn w bs) as tl eqn:E2. clear E1 E2.
  unfold ret in E. injection E as E <-. rewrite <- FS in Hb. apply bytes_app in Hb as [Hr Ht].
  assert (L1 : le_bytes w (le_val raw) = raw) by (rewrite <- Hl at 1; apply le_bytes_le_val; exact Hr).
  assert (L2 : le_bytes w (le_val (rev raw)) = rev raw).
  { rewrite <- Hl at 1. rewrite <- rev_length at 1. apply le_bytes_le_val, Forall_rev, Hr. }
  assert (B1 : fits w (le_val raw)) by (unfold fits; rewrite <- Hl at 1; apply le_val_bound; exact Hr).
  assert (B2 : fits w (le_val (rev raw))).
  { unfold fits. rewrite <- Hl. rewrite <- rev_length. apply le_val_bound, Forall_rev, Hr. }
  unfold env_for in E; cbn [native eswap] in E. unfold from_ne_bytes, swap_bytes in E.
  rewrite <- FS. rewrite enc_le.
  destruct n, o; cbn [endian_eqb negb] in E; subst v; rewrite ?L2, ?rev_involutive, ?L1, ?L2, ?rev_involutive;
    repeat split; auto.
Qed.

Lemma read_sint_inv n o k w : (0 < w)%nat ->
  inverts (env_for n o k) (read_sint w) (sfits w) (fun v => enc o w (unsigned w v)).
Proof.
  intros W bs v rest Hb E. unfold read_sint in E. apply rbind_inv in E as (u & b1 & E1 & E).
  injection E as <- <-. apply read_uint_inv in E1 as (Hu & H1 & ->); auto.
  assert (P : (2 ^ (8 * Z.of_nat w) = 2 * 2 ^ (8 * Z.of_nat w - 1))%Z).
  { rewrite <- Z.pow_succ_r by lia. f_equal. lia. }
  assert (Pp : (0 < 2 ^ (8 * Z.of_nat w - 1))%Z) by (apply Z.pow_pos_nonneg; lia).
  assert (PN : Z.of_N (2 ^ (8 * N.of_nat w - 1)) = (2 ^ (8 * Z.of_nat w - 1))%Z).
  { rewrite N2Z.inj_pow. f_equal. lia. }
  assert (PF : (Z.of_N u < 2 ^ (8 * Z.of_nat w))%Z).
  { unfold fits in Hu. apply N2Z.inj_lt in Hu. rewrite N2Z.inj_pow in Hu.
    replace (Z.of_N (8 * N.of_nat w)) with (8 * Z.of_nat w)%Z in Hu by lia. exact Hu. }
  assert (U : unsigned w (to_signed w u) = u).
  { unfold unsigned, to_signed. destruct (N.ltb_spec u (2 ^ (8 * N.of_nat w - 1))) as [L|L].
    - rewrite Z.mod_small by lia. apply N2Z.id.
    - replace (Z.of_N u - 2 ^ (8 * Z.of_nat w))%Z with (Z.of_N u + (-1) * 2 ^ (8 * Z.of_nat w))%Z by lia.
      rewrite Z.mod_add by lia. rewrite Z.mod_small by lia. apply N2Z.id. }
  rewrite U. repeat split; auto; unfold to_signed;
    destruct (N.ltb_spec u (2 ^ (8 * N.of_nat w - 1))); lia.
Qed.

Lemma read_n_inv {A} e (r : reader A) P f n : inverts e r P f ->
  inverts e (read_n n r) (fun l => length l = n /\ Forall P l) (flat_map f).
Proof.
  intros H. induction n as [|n IH]; intros bs l rest Hb E; cbn [read_n] in E.
  - injection E as <- <-. repeat split; auto.
  - apply rbind_inv in E as (a & b1 & E1 & E). apply rbind_inv in E as (l' & b2 & E2 & E).
    injection E as <- <-. apply H in E1 as (Pa & H1 & ->); auto.
    apply IH in E2 as ((L & F) & H2 & ->); auto. cbn [flat_map length].
    repeat split; auto. apply app_assoc.
Qed.

Lemma from_utf8_inv bs e b a rest : from_utf8 bs e b = Ok (a, rest) -> a = bs /\ rest = b /\ text bs.
Proof.
  unfold from_utf8. destruct (utf8_error 0 bs) eqn:E; [discriminate|].
  intros H. injection H as <- <-. repeat split. apply utf8_error_text. exact E.
Qed.

Lemma read_string_inv e : inverts e read_string (fun s => text s /\ ~ In 0 s) (fun s => s ++ [0]).
Proof.
  intros bs a rest Hb E. unfold read_string in E. apply rbind_inv in E as (s & b1 & E1 & E).
  apply read_cstr_inv in E1 as (c & Hc & E' & ->). cbn in E'. subst s.
  apply from_utf8_inv in E as (-> & -> & T). apply bytes_app in Hb as [_ Hb].
  inversion Hb; subst. repeat split; auto. rewrite <- app_assoc. reflexivity.
Qed.

Lemma read_name_inv n o k l : inverts (env_for n o k) (read_name l) (fun s => text s /\ len s = l) (fun s => s).
Proof.
  intros bs a rest Hb E. unfold read_name in E. destruct (N.eqb_spec l 0) as [->|Hl].
  - injection E as <- <-. repeat split; auto. exists []. split; [constructor|reflexivity].
  - apply rbind_inv in E as (buf & b1 & E1 & E).
    apply (read_n_inv _ _ _ _ _ (read_uint_inv n o k 1)) in E1 as ((L & F) & H1 & ->); auto.
    apply from_utf8_inv in E as (-> & -> & T). repeat split; auto.
    + unfold len. lia.
    + f_equal. clear - F. induction F as [|x l Hx F IH]; cbn [flat_map]; auto.
      rewrite IH, enc1 by exact Hx. reflexivity.
Qed.

Lemma check_header_inv' n o k tag v bs u rest : bytes bs ->
  check_header tag v (env_for n o k) bs = Ok (u, rest) -> bytes rest /\ bs = header o tag v ++ rest.
Proof.
  intros Hb E. destruct u. apply check_header_inv in E as (raw & -> & _ & _ & H).
  apply bytes_app in Hb as [_ Hb]. inversion Hb as [|? ? _ Hb']; subst. apply bytes_app in Hb' as [Hr H'].
  split; [exact H'|]. unfold header. rewrite <- (H o n k eq_refl (bytes_256 _ Hr)).
  rewrite <- !app_assoc. reflexivity.
Qed.

Lemma flat_single (l : list N) o : Forall (fits 1) l -> flat_map (enc o 1) l = l.
Proof. induction 1 as [|x l Hx F IH]; cbn [flat_map]; auto. rewrite IH, enc1 by exact Hx. reflexivity. Qed.

(** Name of a file's parts after inverting one read. *)
Ltac next E L H a b :=
  apply rbind_inv in E as (a & b & ?E & E);
  match goal with E1 : _ _ _ = Ok (a, b) |- _ => apply L in E1; [destruct E1 as (?P & H & ->)|assumption]
                | E1 : _ = Ok (a, b) |- _ => apply L in E1; [destruct E1 as (?P & H & ->)|assumption] end.

Lemma read_channel_inv n o k u8 keys entries desc : fits 4 keys -> fits 4 entries -> fits 4 desc ->
  inverts (env_for n o k) (read_channel u8 keys entries desc)
    (fun c => channel_ok u8 c /\ len (ch_keys c) = keys /\ len (ch_entries c) = entries /\ len (ch_desc c) = desc)
    (w_channel o u8).
Proof.
  intros K1 K2 K3 bs c rest Hb E. unfold read_channel in E.
  apply rbind_inv in E as (ratios & b1 & E1 & E).
  assert (R : length ratios = N.to_nat keys /\ Forall (fits (if u8 then 1 else 2)) ratios /\ bytes b1 /\
              bs = flat_map (enc o (if u8 then 1%nat else 2%nat)) ratios ++ b1).
  { destruct u8; apply (read_n_inv _ _ _ _ _ (read_uint_inv n o k _)) in E1 as ((? & ?) & ? & ->); auto. }
  clear E1. destruct R as (R1 & R2 & H1 & ->).
  apply rbind_inv in E as (prevs & b2 & E2 & E).
  apply (read_n_inv _ _ _ _ _ (read_uint_inv n o k 2)) in E2 as ((P1 & P2) & H2 & ->); auto.
  apply rbind_inv in E as (ents & b3 & E3 & E).
  apply (read_n_inv _ _ _ _ _ (read_uint_inv n o k 1)) in E3 as ((Q1 & Q2) & H3 & ->); auto.
  apply rbind_inv in E as (ds & b4 & E4 & E).
  apply (read_n_inv _ _ _ _ _ (read_uint_inv n o k 4)) in E4 as ((D1 & D2) & H4 & ->); auto.
  apply rbind_inv in E as (iv & b5 & E5 & E). apply read_uint_inv in E5 as (I & H5 & ->); auto.
  apply rbind_inv in E as (ks & b6 & E6 & E).
  apply (read_n_inv _ _ _ _ _ (read_n_inv _ _ _ _ 3 (read_uint_inv n o k 2))) in E6 as ((S1 & S2) & H6 & ->); auto.
  injection E as <- <-. cbn.
  assert (Lk : len ks = keys) by (unfold len; lia). assert (Le : len ents = entries) by (unfold len; lia).
  assert (Ld : len ds = desc) by (unfold len; lia).
  unfold channel_ok. cbn. rewrite Lk, Le, Ld. repeat split; auto; try congruence.
  unfold w_channel. cbn. rewrite flat_single by exact Q2. rewrite <- !app_assoc. reflexivity.
Qed.

Lemma animation_inv n o k : inverts (env_for n o k) animation_from_archive animation_ok (w_animation o).
Proof.
  intros bs a rest Hb E. unfold animation_from_archive in E.
  apply rbind_inv in E as (meta & b0 & E0 & E). unfold animation_read_meta in E0.
  apply rbind_inv in E0 as (u & c0 & F0 & E0). apply check_header_inv' in F0 as (Hb0 & ->); auto.
  apply rbind_inv in E0 as (dur & c1 & F1 & E0). apply read_uint_inv in F1 as (X1 & Hb1 & ->); auto.
  apply rbind_inv in E0 as (ntr & c2 & F2 & E0). apply read_uint_inv in F2 as (X2 & Hb2 & ->); auto.
  apply rbind_inv in E0 as (nl & c3 & F3 & E0). apply read_uint_inv in F3 as (X3 & Hb3 & ->); auto.
  apply rbind_inv in E0 as (tpc & c4 & F4 & E0). apply read_uint_inv in F4 as (X4 & Hb4 & ->); auto.
  apply rbind_inv in E0 as (tc & c5 & F5 & E0). apply read_uint_inv in F5 as (X5 & Hb5 & ->); auto.
  apply rbind_inv in E0 as (rc & c6 & F6 & E0). apply read_uint_inv in F6 as (X6 & Hb6 & ->); auto.
  apply rbind_inv in E0 as (sc & c7 & F7 & E0). apply read_uint_inv in F7 as (X7 & Hb7 & ->); auto.
  apply rbind_inv in E0 as (te & c8 & F8 & E0). apply read_uint_inv in F8 as (X8 & Hb8 & ->); auto.
  apply rbind_inv in E0 as (td & c9 & F9 & E0). apply read_uint_inv in F9 as (X9 & Hb9 & ->); auto.
  apply rbind_inv in E0 as (re & d0 & G0 & E0). apply read_uint_inv in G0 as (Y0 & Hd0 & ->); auto.
  apply rbind_inv in E0 as (rd & d1 & G1 & E0). apply read_uint_inv in G1 as (Y1 & Hd1 & ->); auto.
  apply rbind_inv in E0 as (se & d2 & G2 & E0). apply read_uint_inv in G2 as (Y2 & Hd2 & ->); auto.
  apply rbind_inv in E0 as (sd & d3 & G3 & E0). apply read_uint_inv in G3 as (Y3 & Hd3 & ->); auto.
  apply rbind_inv in E0 as (nm & d4 & G4 & E0). apply read_name_inv in G4 as ((T & Ln) & Hd4 & ->); auto.
  injection E0 as <- <-.
  cbn [m_duration m_num_tracks m_name m_timepoints m_translations m_rotations m_scales
       m_t_entries m_t_desc m_r_entries m_r_desc m_s_entries m_s_desc] in E.
  apply rbind_inv in E as (tps & d5 & G5 & E).
  apply (read_n_inv _ _ _ _ _ (read_uint_inv n o k 4)) in G5 as ((Lt & Ft) & Hd5 & ->); auto.
  cbv zeta in E. assert (Lt' : len tps = tpc) by (unfold len; lia).
  apply rbind_inv in E as (t & d6 & G6 & E).
  apply read_channel_inv in G6 as ((Ct & Ct1 & Ct2 & Ct3) & Hd6 & ->); auto.
  apply rbind_inv in E as (r & d7 & G7 & E).
  apply read_channel_inv in G7 as ((Cr & Cr1 & Cr2 & Cr3) & Hd7 & ->); auto.
  apply rbind_inv in E as (s & d8 & G8 & E).
  apply read_channel_inv in G8 as ((Cs & Cs1 & Cs2 & Cs3) & Hd8 & ->); auto.
  injection E as <- <-. split; [|split; [exact Hd8|]].
  - unfold animation_ok. cbn. rewrite Lt', Ln. repeat (split; [assumption|]). assumption.
  - unfold w_animation. cbn [an_duration an_num_tracks an_name an_timepoints an_t an_r an_s].
    rewrite Lt', Ln, Ct1, Ct2, Ct3, Cr1, Cr2, Cr3, Cs1, Cs2, Cs3.
    rewrite <- !app_assoc. reflexivity.
Qed.

(** ** Tracks *)

Lemma track_value_inv n o k kind : inverts (env_for n o k) (read_track_value kind)
  (fun v => length v = track_dim kind /\ Forall (fits 4) v) (flat_map (enc o 4)).
Proof. destruct kind; apply (read_n_inv _ _ _ _ _ (read_uint_inv n o k 4)). Qed.

Lemma track_inv n o k kind : inverts (env_for n o k) (track_from_archive kind) (track_ok kind) (w_track o kind).
Proof.
  intros bs t rest Hb E. unfold track_from_archive in E.
  apply rbind_inv in E as (u & c0 & F0 & E). apply check_header_inv' in F0 as (Hb0 & ->); auto.
  apply rbind_inv in E as (kc & c1 & F1 & E). apply read_uint_inv in F1 as (X1 & Hb1 & ->); auto.
  apply rbind_inv in E as (nl & c2 & F2 & E). apply read_uint_inv in F2 as (X2 & Hb2 & ->); auto.
  apply rbind_inv in E as (rs & c3 & F3 & E).
  apply (read_n_inv _ _ _ _ _ (read_uint_inv n o k 4)) in F3 as ((L3 & G3) & Hb3 & ->); auto.
  apply rbind_inv in E as (vs & c4 & F4 & E).
  apply (read_n_inv _ _ _ _ _ (track_value_inv n o k kind)) in F4 as ((L4 & G4) & Hb4 & ->); auto.
  destruct (N.leb_spec (2 ^ 32) (kc + 7)) as [|Hk]; [discriminate|].
  apply rbind_inv in E as (st & c5 & F5 & E).
  apply (read_n_inv _ _ _ _ _ (read_uint_inv n o k 1)) in F5 as ((L5 & G5) & Hb5 & ->); auto.
  apply rbind_inv in E as (nm & c6 & F6 & E). apply read_name_inv in F6 as ((T & Ln) & Hb6 & ->); auto.
  injection E as <- <-.
  assert (Lv : len vs = kc) by (unfold len; lia).
  split; [|split; [exact Hb6|]].
  - unfold track_ok. cbn [tr_key_count tr_ratios tr_values tr_steps tr_name]. rewrite Lv, Ln.
    split; [reflexivity|]. split; [clear - Hk; change (2 ^ 32) with 4294967296 in *; lia|].
    split; [congruence|]. repeat (split; [assumption|]).
    split; [|repeat (split; [assumption|]); assumption].
    unfold len. rewrite L5. apply N2Nat.id.
  - unfold w_track. cbn [tr_key_count tr_ratios tr_values tr_steps tr_name]. rewrite Lv, Ln.
    rewrite flat_single by exact G5. destruct kind; rewrite <- !app_assoc; reflexivity.
Qed.

(** ** Skeletons *)

Lemma read_names_inv n o k : forall j idx m bs m' rest, bytes bs ->
  read_names j idx m (env_for n o k) bs = Ok (m', rest) ->
  bytes rest /\ exists names, length names = j /\ Forall (fun s => text s /\ ~ In 0 s) names /\
    m' = insert_names names idx m /\ bs = flat_map (fun s => s ++ [0]) names ++ rest.
Proof.
  induction j as [|j IH]; intros idx m bs m' rest Hb E; cbn [read_names] in E.
  - injection E as <- <-. split; [exact Hb|]. exists []. repeat split; auto.
  - apply rbind_inv in E as (s & b1 & E1 & E). apply read_string_inv in E1 as (Ps & H1 & ->); auto.
    apply IH in E as (H2 & names & L & F & -> & ->); auto. split; [exact H2|].
    exists (s :: names). cbn [flat_map length insert_names]. repeat split; auto. apply app_assoc.
Qed.

Lemma skeleton_inv n o k bs s rest : bytes bs ->
  skeleton_from_archive (env_for n o k) bs = Ok (s, rest) ->
  bytes rest /\ exists c count, fits 4 count /\ bs = w_skeleton_count o count c ++ rest /\
    sk_num_joints s = len (sc_parents c) /\ fits 4 (sk_num_joints s) /\
    sk_parents s = sc_parents c /\ sk_rest_poses s = sc_poses c /\
    sk_names s = insert_names (sc_names c) 0 [] /\
    length (sc_names c) = length (sc_parents c) /\
    Forall (fun n => text n /\ ~ In 0 n) (sc_names c) /\
    Forall (sfits 2) (sc_parents c) /\
    length (sc_poses c) = ((length (sc_parents c) + 3) / 4)%nat /\
    Forall (fun p => length p = 40%nat /\ Forall (fits 4) p) (sc_poses c).
Proof.
  intros Hb E. unfold skeleton_from_archive in E.
  apply rbind_inv in E as (meta & b0 & E0 & E). unfold skeleton_read_meta in E0.
  apply rbind_inv in E0 as (u & c0 & F0 & E0). apply check_header_inv' in F0 as (Hb0 & ->); auto.
  apply rbind_inv in E0 as (nj & c1 & F1 & E0). apply read_uint_inv in F1 as (X1 & Hb1 & ->); auto.
  rewrite orb_true_r in E0. injection E0 as <- <-. cbn [sm_num_joints] in E. cbv zeta in E.
  apply rbind_inv in E as (cc & c2 & F2 & E). apply read_uint_inv in F2 as (X2 & Hb2 & ->); auto.
  apply rbind_inv in E as (m & c3 & F3 & E).
  apply read_names_inv in F3 as (Hb3 & names & Ln & Fn & -> & ->); auto.
  apply rbind_inv in E as (ps & c4 & F4 & E).
  apply (read_n_inv _ _ _ _ _ (read_sint_inv n o k 2 ltac:(lia))) in F4 as ((Lp & Fp) & Hb4 & ->); auto.
  apply rbind_inv in E as (po & c5 & F5 & E).
  apply (read_n_inv _ _ _ _ _ (read_n_inv _ _ _ _ 40 (read_uint_inv n o k 4))) in F5 as ((Lo & Fo) & Hb5 & ->); auto.
  injection E as <- <-. split; [exact Hb5|].
  assert (Lj : len ps = nj) by (unfold len; lia).
  exists {| sc_names := names; sc_parents := ps; sc_poses := po |}, cc.
  cbn [sk_num_joints sk_parents sk_rest_poses sk_names sc_names sc_parents sc_poses]. rewrite Lj.
  split; [exact X2|]. split.
  { unfold w_skeleton_count. cbn [sc_names sc_parents sc_poses]. rewrite Lj.
    rewrite <- !app_assoc. reflexivity. }
  repeat (split; [first [reflexivity|assumption|congruence]|]).
  split; [|exact Fo]. rewrite Lo, <- div_ceil_nat. do 2 f_equal. unfold len in Lj. congruence.
Qed.

Lemma load_env {A} (r : reader A) machine kind file a rest :
  load r machine kind file = Ok (a, rest) ->
  exists b o bs, file = b :: bs /\ endian_byte o b /\ r (env_for machine o kind) bs = Ok (a, rest).
Proof.
  unfold load, archive_new. destruct file as [|b bs]; [discriminate|]. intros E.
  exists b, (endian_from_tag b), bs. split; [reflexivity|]. split; [|exact E].
  unfold endian_from_tag, endian_byte. destruct (N.eqb_spec b 0); assumption.
Qed.

(** C10, converse: every file of bytes that loads as an animation is, byte for byte, the encoding
    of a well-formed animation (the one returned), followed by the bytes left unread. *)
Theorem C10_only_encodings : forall machine kind file a rest, bytes file ->
  load animation_from_archive machine kind file = Ok (a, rest) ->
  animation_ok a /\ exists o b, endian_byte o b /\ file = b :: w_animation o a ++ rest.
Proof.
  intros machine kind file a rest Hb E. apply load_env in E as (b & o & bs & -> & He & E).
  inversion Hb; subst. apply animation_inv in E as (Ha & _ & ->); eauto 6.
Qed.
Print Assumptions C10_only_encodings.

(** C11, converse.  The character count is not checked. *)
Theorem C11_only_encodings : forall machine kind file s rest, bytes file ->
  load skeleton_from_archive machine kind file = Ok (s, rest) ->
  exists o b c count, endian_byte o b /\ fits 4 count /\
    file = b :: w_skeleton_count o count c ++ rest /\
    sk_num_joints s = len (sc_parents c) /\ fits 4 (sk_num_joints s) /\
    sk_parents s = sc_parents c /\ sk_rest_poses s = sc_poses c /\
    (forall n i, joint_by_name s n = Some i <-> name_by_joint s i = Some n) /\
    length (sc_names c) = length (sc_parents c) /\
    Forall (fun n => text n /\ ~ In 0 n) (sc_names c) /\
    Forall (sfits 2) (sc_parents c) /\
    length (sc_poses c) = ((length (sc_parents c) + 3) / 4)%nat /\
    Forall (fun p => length p = 40%nat /\ Forall (fits 4) p) (sc_poses c).
Proof.
  intros machine kind file s rest Hb E. apply load_env in E as (b & o & bs & -> & He & E).
  inversion Hb; subst. pose proof (fun n i => joint_name_iff _ _ _ _ n i E) as J.
  apply skeleton_inv in E as (_ & c & count & Hc & -> & P); auto.
  exists o, b, c, count. intuition.
Qed.
Print Assumptions C11_only_encodings.

(** C12, converse. *)
Theorem C12_only_encodings : forall machine kind k file t rest, bytes file ->
  load (track_from_archive k) machine kind file = Ok (t, rest) ->
  track_ok k t /\ exists o b, endian_byte o b /\ file = b :: w_track o k t ++ rest.
Proof.
  intros machine kind k file t rest Hb E. apply load_env in E as (b & o & bs & -> & He & E).
  inversion Hb; subst. apply track_inv in E as (Ha & _ & ->); eauto 6.
Qed.
Print Assumptions C12_only_encodings.

(** A file that loads. *)
Example C10_only_encodings_case : exists a rest,
  load animation_from_archive Little 0 (1 :: w_animation Little ex_animation ++ [7]) = Ok (a, rest) /\
  length (ch_keys (an_t a)) = 9%nat /\ rest = [7].
Proof.
  exists ex_animation, [7]. split; [|split; reflexivity].
  apply load_animation; [discriminate|exact ex_animation_ok].
Qed.
