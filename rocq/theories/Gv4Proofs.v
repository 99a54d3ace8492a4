(** Proofs about the GV4 decoder. *)
From Verif Require Import Base Gv4 Gv4Spec.
Local Open Scope N_scope.

Lemma skipn_skipn {A} i j (l : list A) : skipn i (skipn j l) = skipn (j + i) l.
Proof.
  revert l; induction j as [|j IH]; intros [|x l]; cbn [skipn Nat.add]; auto.
  apply skipn_nil.
Qed.

(** ** Bits *)
Lemma lor_shiftl_add a b n : a < 2 ^ n -> N.lor a (N.shiftl b n) = a + b * 2 ^ n.
Proof.
  intros H. rewrite <- N.shiftl_mul_pow2.
  rewrite <- N.lxor_lor, <- N.add_nocarry_lxor; [reflexivity| |];
  apply N.bits_inj; intros i; rewrite N.land_spec, N.bits_0;
  destruct (N.lt_ge_cases i n) as [Hi|Hi];
  try (rewrite N.shiftl_spec_low by assumption; apply andb_false_r);
  rewrite (proj2 (N.eqb_neq _ _)) || idtac;
  (replace (N.testbit a i) with false; [reflexivity|];
   symmetry; destruct (N.eq_dec a 0) as [->|Ha]; [apply N.bits_0|];
   apply N.bits_above_log2; apply N.log2_lt_pow2 in H; [lia|lia]).
Qed.

Lemma load_value o l b0 b1 b2 b3 :
  byte_at o l 0 = b0 -> byte_at o l 1 = b1 -> byte_at o l 2 = b2 -> byte_at o l 3 = b3 ->
  b0 < 256 -> b1 < 256 -> b2 < 256 -> b3 < 256 ->
  load o l = b0 + b1 * 256 + b2 * 65536 + b3 * 16777216.
Proof.
  intros E0 E1 E2 E3 H0 H1 H2 H3. unfold load. rewrite E0, E1, E2, E3.
  rewrite (lor_shiftl_add b0 b1 8) by (change (2 ^ 8) with 256; lia).
  change (2 ^ 8) with 256.
  rewrite (lor_shiftl_add _ b2 16) by (change (2 ^ 16) with 65536; lia).
  change (2 ^ 16) with 65536.
  rewrite (lor_shiftl_add _ b3 24) by (change (2 ^ 24) with 16777216; lia).
  change (2 ^ 24) with 16777216. reflexivity.
Qed.

(** ** The outside bytes cannot matter: only the masked bytes are kept. *)
Lemma masked_load o l k :
  (k <= 3)%nat ->
  (forall i, (i < 4)%nat -> byte_at o l i < 256) ->
  N.land (load o l) (MASK k) =
  byte_at o l 0 + (if (1 <=? k)%nat then byte_at o l 1 * 256 else 0)
   + (if (2 <=? k)%nat then byte_at o l 2 * 65536 else 0)
   + (if (3 <=? k)%nat then byte_at o l 3 * 16777216 else 0).
Proof.
  intros Hk Hb.
  pose proof (Hb 0%nat ltac:(lia)) as H0; pose proof (Hb 1%nat ltac:(lia)) as H1;
  pose proof (Hb 2%nat ltac:(lia)) as H2; pose proof (Hb 3%nat ltac:(lia)) as H3.
  rewrite (load_value o l _ _ _ _ eq_refl eq_refl eq_refl eq_refl H0 H1 H2 H3).
  generalize dependent (byte_at o l 0); generalize dependent (byte_at o l 1);
  generalize dependent (byte_at o l 2); generalize dependent (byte_at o l 3).
  intros d Hd c Hc b Hb' a Ha.
  destruct k as [|[|[|[|k]]]]; [| | | |lia]; cbn [MASK Nat.leb].
  - change 255 with (N.ones 8). rewrite N.land_ones. change (2 ^ 8) with 256.
    replace (a + b * 256 + c * 65536 + d * 16777216)
      with (a + (b + c * 256 + d * 65536) * 256) by lia.
    rewrite N.mod_add by lia. rewrite N.mod_small by lia. lia.
  - change 65535 with (N.ones 16). rewrite N.land_ones. change (2 ^ 16) with 65536.
    replace (a + b * 256 + c * 65536 + d * 16777216)
      with (a + b * 256 + (c + d * 256) * 65536) by lia.
    rewrite N.mod_add by lia. rewrite N.mod_small by lia. lia.
  - change 16777215 with (N.ones 24). rewrite N.land_ones. change (2 ^ 24) with 16777216.
    rewrite N.mod_add by lia. rewrite N.mod_small by lia. lia.
  - change 4294967295 with (N.ones 32). rewrite N.land_ones. change (2 ^ 32) with 4294967296.
    rewrite N.mod_small by lia. lia.
Qed.

Lemma byte_at_in o l i b : nth_error l i = Some b -> byte_at o l i = b.
Proof. unfold byte_at. intros ->. reflexivity. Qed.

Lemma byte_at_ok o l i :
  bytes l -> (forall j, o j < 256) -> byte_at o l i < 256.
Proof.
  intros Hl Ho. unfold byte_at. destruct (nth_error l i) eqn:E; [|apply Ho].
  apply nth_error_In in E. eapply Forall_forall in Hl; eauto.
Qed.

Lemma byte_at_indep o o' l i : (i < length l)%nat -> byte_at o l i = byte_at o' l i.
Proof.
  intros H. unfold byte_at. destruct (nth_error l i) eqn:E; [reflexivity|].
  apply nth_error_None in E. lia.
Qed.

Lemma masked_load_indep o o' l k :
  (k <= 3)%nat -> (k + 1 <= length l)%nat -> bytes l ->
  (forall j, o j < 256) -> (forall j, o' j < 256) ->
  N.land (load o l) (MASK k) = N.land (load o' l) (MASK k).
Proof.
  intros Hk Hl Hb Ho Ho'.
  rewrite !masked_load by (auto using byte_at_ok).
  rewrite (byte_at_indep o o' l 0) by lia.
  destruct k as [|[|[|[|k]]]]; [| | | |lia]; cbn [Nat.leb];
    rewrite ?(byte_at_indep o o' l 1), ?(byte_at_indep o o' l 2), ?(byte_at_indep o o' l 3) by lia;
    reflexivity.
Qed.

Lemma bytes_skipn k l : bytes l -> bytes (skipn k l).
Proof.
  unfold bytes. rewrite !Forall_forall. intros H x Hx. apply H.
  rewrite <- (firstn_skipn k l). apply in_or_app. auto.
Qed.

Lemma land3_le p : (N.to_nat (N.land p 3) <= 3)%nat.
Proof.
  change 3 with (N.ones 2) at 1. rewrite N.land_ones.
  pose proof (N.mod_upper_bound p (2 ^ 2)). change (2 ^ 2) with 4 in *. lia.
Qed.
Lemma shiftr6_le p : p < 256 -> (N.to_nat (N.shiftr p 6) <= 3)%nat.
Proof.
  intros H. rewrite N.shiftr_div_pow2. change (2 ^ 6) with 64.
  pose proof (N.div_lt_upper_bound p 64 4). lia.
Qed.

Lemma slice_from_Ok {A} (l : list A) k r :
  slice_from l k = Ok r <-> (k <= length l)%nat /\ r = skipn k l.
Proof.
  unfold slice_from. destruct (Nat.ltb_spec (length l) k); split; intros H'; try discriminate.
  - destruct H'; lia.
  - inversion H'; auto.
  - destruct H' as [_ ->]; reflexivity.
Qed.

Lemma slice_from_le {A} (l : list A) k : (k <= length l)%nat -> slice_from l k = Ok (skipn k l).
Proof. intros H. apply slice_from_Ok; auto. Qed.

Lemma slice_from_case {A} (l : list A) k :
  slice_from l k = Panic /\ (length l < k)%nat \/
  slice_from l k = Ok (skipn k l) /\ (k <= length l)%nat.
Proof. unfold slice_from. destruct (Nat.ltb_spec (length l) k); auto. Qed.

Lemma decode_gv4_indep o o' l n :
  bytes l -> (forall j, o j < 256) -> (forall j, o' j < 256) ->
  decode_gv4 o l n = decode_gv4 o' l n.
Proof.
  intros Hl Ho Ho'. unfold decode_gv4.
  destruct (assert_ (5 <=? length l)%nat) as [[]|e|]; cbn [bind]; [|reflexivity|reflexivity].
  destruct (assert_ (n =? 4)%nat) as [[]|e|]; cbn [bind]; [|reflexivity|reflexivity].
  destruct (get l 0) as [p|e|] eqn:Ep; cbn [bind]; [|reflexivity|reflexivity].
  assert (Hp : p < 256).
  { apply get_Ok, nth_error_In in Ep. eapply Forall_forall in Hl; eauto. }
  destruct (slice_from_case l 1) as [[-> _]|[-> L0]]; cbn [bind]; [reflexivity|].
  pose proof (bytes_skipn 1 l Hl) as B0. revert B0.
  generalize (skipn 1 l) as in0; intros in0 B0.
  pose proof (land3_le p) as K0. revert K0.
  generalize (N.to_nat (N.land p 3)) as k0; intros k0 K0.
  destruct (slice_from_case in0 (k0 + 1)) as [[-> _]|[-> L1]]; cbn [bind]; [reflexivity|].
  rewrite (masked_load_indep o o' in0 k0) by (auto; lia).
  pose proof (bytes_skipn (k0 + 1) in0 B0) as B1. revert B1.
  generalize (skipn (k0 + 1) in0) as in1; intros in1 B1.
  pose proof (land3_le (N.shiftr p 2)) as K1. revert K1.
  generalize (N.to_nat (N.land (N.shiftr p 2) 3)) as k1; intros k1 K1.
  destruct (slice_from_case in1 (k1 + 1)) as [[-> _]|[-> L2]]; cbn [bind]; [reflexivity|].
  rewrite (masked_load_indep o o' in1 k1) by (auto; lia).
  pose proof (bytes_skipn (k1 + 1) in1 B1) as B2. revert B2.
  generalize (skipn (k1 + 1) in1) as in2; intros in2 B2.
  pose proof (land3_le (N.shiftr p 4)) as K2. revert K2.
  generalize (N.to_nat (N.land (N.shiftr p 4) 3)) as k2; intros k2 K2.
  destruct (slice_from_case in2 (k2 + 1)) as [[-> _]|[-> L3]]; cbn [bind]; [reflexivity|].
  rewrite (masked_load_indep o o' in2 k2) by (auto; lia).
  pose proof (bytes_skipn (k2 + 1) in2 B2) as B3. revert B3.
  generalize (skipn (k2 + 1) in2) as in3; intros in3 B3.
  pose proof (shiftr6_le p Hp) as K3. revert K3.
  generalize (N.to_nat (N.shiftr p 6)) as k3; intros k3 K3.
  destruct (slice_from_case in3 (k3 + 1)) as [[-> _]|[-> L4]]; cbn [bind]; [reflexivity|].
  rewrite (masked_load_indep o o' in3 k3) by (auto; lia). reflexivity.
Qed.

Lemma decode_gv4_rest o l n vs rest k :
  decode_gv4 o l n = Ok (vs, rest, k) ->
  exists m, rest = skipn m l /\ (5 <= m <= length l)%nat /\ length vs = 4%nat /\ (k <= 3)%nat.
Proof.
  unfold decode_gv4.
  destruct (Nat.leb_spec 5 (length l)) as [H5|]; [|discriminate]. cbn [assert_ bind].
  destruct (n =? 4)%nat; [|discriminate]. cbn [assert_ bind].
  destruct (get l 0) as [p|e|] eqn:Ep; cbn [bind]; [|discriminate|discriminate].
  destruct (slice_from_case l 1) as [[-> _]|[-> L0]]; cbn [bind]; [discriminate|].
  generalize (N.to_nat (N.land p 3)) as k0; intros k0.
  destruct (slice_from_case (skipn 1 l) (k0 + 1)) as [[-> _]|[-> L1]]; cbn [bind]; [discriminate|].
  generalize (N.to_nat (N.land (N.shiftr p 2) 3)) as k1; intros k1.
  destruct (slice_from_case (skipn (k0 + 1) (skipn 1 l)) (k1 + 1)) as [[-> _]|[-> L2]]; cbn [bind]; [discriminate|].
  generalize (N.to_nat (N.land (N.shiftr p 4) 3)) as k2; intros k2.
  destruct (slice_from_case (skipn (k1 + 1) (skipn (k0 + 1) (skipn 1 l))) (k2 + 1))
    as [[-> _]|[-> L3]]; cbn [bind]; [discriminate|].
  generalize (N.to_nat (N.shiftr p 6)) as k3; intros k3.
  destruct (slice_from_case (skipn (k2 + 1) (skipn (k1 + 1) (skipn (k0 + 1) (skipn 1 l)))) (k3 + 1))
    as [[-> _]|[-> L4]]; cbn [bind]; [discriminate|].
  remember (skipn 1 l) as s1 eqn:Es1.
  remember (load_outside s1) as q0 eqn:Q0.
  remember (load_outside (skipn (k0 + 1) s1)) as q1 eqn:Q1.
  remember (load_outside (skipn (k1 + 1) (skipn (k0 + 1) s1))) as q2 eqn:Q2.
  remember (load_outside (skipn (k2 + 1) (skipn (k1 + 1) (skipn (k0 + 1) s1)))) as q3 eqn:Q3.
  intros E; inversion E; subst vs rest k.
  unfold load_outside in *. subst s1. rewrite !skipn_skipn in *. rewrite !skipn_length in *.
  exists (1 + (k0 + 1) + (k1 + 1) + (k2 + 1) + (k3 + 1))%nat.
  split; [f_equal; lia|]. repeat split; cbn [length]; lia.
Qed.

Lemma decode_groups_indep o o' g l :
  bytes l -> (forall j, o j < 256) -> (forall j, o' j < 256) ->
  decode_groups o l g = decode_groups o' l g.
Proof.
  intros Hl Ho Ho'. revert l Hl; induction g as [|g IH]; intros l Hl; [reflexivity|].
  cbn [decode_groups]. rewrite (decode_gv4_indep o o' l 4 Hl Ho Ho').
  destruct (decode_gv4 o' l 4) as [[[vs rest] k]|e|] eqn:E; cbn [bind]; [|reflexivity|reflexivity].
  apply decode_gv4_rest in E. destruct E as (m & -> & _).
  rewrite IH by (apply bytes_skipn; assumption). reflexivity.
Qed.

Lemma decode_gv4_stream_indep o o' n l :
  bytes l -> (forall j, o j < 256) -> (forall j, o' j < 256) ->
  decode_gv4_stream o l n = decode_gv4_stream o' l n.
Proof.
  intros. unfold decode_gv4_stream.
  destruct (assert_ _); cbn [bind]; [|reflexivity|reflexivity].
  destruct (assert_ _); cbn [bind]; [|reflexivity|reflexivity].
  apply decode_groups_indep; assumption.
Qed.

(** ** Decoding what was encoded *)
Lemma le_bytes_length w v : length (le_bytes w v) = w.
Proof. revert v; induction w as [|w IH]; intros v; simpl; auto. Qed.

Lemma le_bytes_bytes w v : bytes (le_bytes w v).
Proof.
  revert v; induction w as [|w IH]; intros v; simpl; [constructor|].
  constructor; [apply N.mod_upper_bound; lia|apply IH].
Qed.

Lemma bytes_app a b : bytes a -> bytes b -> bytes (a ++ b).
Proof. unfold bytes. intros. apply Forall_app. auto. Qed.

Lemma masked_load_le o w v t :
  (1 <= w <= 4)%nat -> v < 256 ^ N.of_nat w -> bytes t -> (forall j, o j < 256) ->
  N.land (load o (le_bytes w v ++ t)) (MASK (w - 1)) = v.
Proof.
  intros Hw Hv Ht Ho.
  rewrite masked_load; [|lia|intros; apply byte_at_ok; auto using bytes_app, le_bytes_bytes].
  pose proof (N.div_mod v 256 ltac:(lia)) as D0.
  pose proof (N.div_mod (v / 256) 256 ltac:(lia)) as D1.
  pose proof (N.div_mod (v / 256 / 256) 256 ltac:(lia)) as D2.
  pose proof (N.div_mod (v / 256 / 256 / 256) 256 ltac:(lia)) as D3.
  destruct w as [|[|[|[|[|w]]]]]; [lia| | | | |lia]; cbn [le_bytes app Nat.sub Nat.leb];
    cbn [byte_at nth_error]; unfold byte_at; cbn [nth_error].
  - change (256 ^ N.of_nat 1) with 256 in Hv. rewrite N.mod_small by lia. lia.
  - change (256 ^ N.of_nat 2) with 65536 in Hv.
    assert (v / 256 < 256) by (apply N.div_lt_upper_bound; lia).
    rewrite (N.mod_small (v / 256)) by lia. lia.
  - change (256 ^ N.of_nat 3) with 16777216 in Hv.
    assert (v / 256 < 65536) by (apply N.div_lt_upper_bound; lia).
    assert (v / 256 / 256 < 256) by (apply N.div_lt_upper_bound; lia).
    rewrite (N.mod_small (v / 256 / 256)) by lia. lia.
  - change (256 ^ N.of_nat 4) with 4294967296 in Hv.
    assert (v / 256 < 16777216) by (apply N.div_lt_upper_bound; lia).
    assert (v / 256 / 256 < 65536) by (apply N.div_lt_upper_bound; lia).
    assert (v / 256 / 256 / 256 < 256) by (apply N.div_lt_upper_bound; lia).
    rewrite (N.mod_small (v / 256 / 256 / 256)) by lia. lia.
Qed.

Lemma skipn_app_exact {A} k (a b : list A) : length a = k -> skipn k (a ++ b) = b.
Proof. intros <-. rewrite skipn_app, skipn_all, Nat.sub_diag. reflexivity. Qed.

Lemma prefix_digits a b c d :
  (a <= 3)%nat -> (b <= 3)%nat -> (c <= 3)%nat -> (d <= 3)%nat ->
  let p := N.of_nat a + 4 * N.of_nat b + 16 * N.of_nat c + 64 * N.of_nat d in
  N.to_nat (N.land p 3) = a /\ N.to_nat (N.land (N.shiftr p 2) 3) = b /\
  N.to_nat (N.land (N.shiftr p 4) 3) = c /\ N.to_nat (N.shiftr p 6) = d /\ p < 256.
Proof.
  intros Ha Hb Hc Hd p.
  assert (E : forallb (fun a => forallb (fun b => forallb (fun c => forallb (fun d =>
    let p := N.of_nat a + 4 * N.of_nat b + 16 * N.of_nat c + 64 * N.of_nat d in
    (N.to_nat (N.land p 3) =? a)%nat && (N.to_nat (N.land (N.shiftr p 2) 3) =? b)%nat &&
    (N.to_nat (N.land (N.shiftr p 4) 3) =? c)%nat && (N.to_nat (N.shiftr p 6) =? d)%nat &&
    (p <? 256)) (seq 0 4)) (seq 0 4)) (seq 0 4)) (seq 0 4) = true) by (vm_compute; reflexivity).
  rewrite forallb_forall in E. specialize (E a ltac:(apply in_seq; lia)).
  rewrite forallb_forall in E. specialize (E b ltac:(apply in_seq; lia)).
  rewrite forallb_forall in E. specialize (E c ltac:(apply in_seq; lia)).
  rewrite forallb_forall in E. specialize (E d ltac:(apply in_seq; lia)).
  cbv zeta in E. fold p in E. apply andb_prop in E. destruct E as [E E5].
  apply andb_prop in E. destruct E as [E E4]. apply andb_prop in E. destruct E as [E E3].
  apply andb_prop in E. destruct E as [E1 E2].
  apply Nat.eqb_eq in E1, E2, E3, E4. apply N.ltb_lt in E5. auto.
Qed.

Lemma decode_gv4_encoded o w0 v0 w1 v1 w2 v2 w3 v3 t :
  fits (w0, v0) -> fits (w1, v1) -> fits (w2, v2) -> fits (w3, v3) ->
  bytes t -> (forall j, o j < 256) ->
  exists k,
  decode_gv4 o
    ((N.of_nat (w0 - 1) + 4 * N.of_nat (w1 - 1) + 16 * N.of_nat (w2 - 1)
         + 64 * N.of_nat (w3 - 1))
      :: le_bytes w0 v0 ++ le_bytes w1 v1 ++ le_bytes w2 v2 ++ le_bytes w3 v3 ++ t) 4
  = Ok ([v0; v1; v2; v3], t, k) /\ ((3 <= length t)%nat -> k = 0%nat).
Proof.
  intros [F0 G0] [F1 G1] [F2 G2] [F3 G3] Ht Ho; cbn [fst snd] in *.
  destruct (prefix_digits (w0 - 1) (w1 - 1) (w2 - 1) (w3 - 1)
              ltac:(lia) ltac:(lia) ltac:(lia) ltac:(lia)) as (P0 & P1 & P2 & P3 & _).
  eexists. split.
  - unfold decode_gv4.
    rewrite (proj2 (Nat.leb_le _ _))
      by (cbn [length]; rewrite !app_length, !le_bytes_length; lia).
    cbn [assert_ bind Nat.eqb get nth_error].
    unfold slice_from at 1. cbn [length Nat.ltb Nat.leb skipn bind].
    rewrite P0, P1, P2, P3.
    replace (w0 - 1 + 1)%nat with w0 by lia. replace (w1 - 1 + 1)%nat with w1 by lia.
    replace (w2 - 1 + 1)%nat with w2 by lia. replace (w3 - 1 + 1)%nat with w3 by lia.
    rewrite masked_load_le by auto 10 using bytes_app, le_bytes_bytes.
    rewrite (slice_from_le _ w0)
      by (rewrite !app_length, le_bytes_length; lia).
    cbn [bind]. rewrite (skipn_app_exact w0) by apply le_bytes_length.
    rewrite masked_load_le by auto 10 using bytes_app, le_bytes_bytes.
    rewrite (slice_from_le _ w1)
      by (rewrite !app_length, le_bytes_length; lia).
    cbn [bind]. rewrite (skipn_app_exact w1) by apply le_bytes_length.
    rewrite masked_load_le by auto 10 using bytes_app, le_bytes_bytes.
    rewrite (slice_from_le _ w2)
      by (rewrite !app_length, le_bytes_length; lia).
    cbn [bind]. rewrite (skipn_app_exact w2) by apply le_bytes_length.
    rewrite masked_load_le by auto 10 using bytes_app, le_bytes_bytes.
    rewrite (slice_from_le _ w3)
      by (rewrite !app_length, le_bytes_length; lia).
    cbn [bind]. rewrite (skipn_app_exact w3) by apply le_bytes_length.
    reflexivity.
  - intros H3. unfold load_outside. rewrite !app_length, !le_bytes_length. lia.
Qed.

Lemma gv4_bytes l : Forall fits l -> bytes (gv4 l).
Proof.
  assert (H : forall n l, (length l <= n)%nat -> Forall fits l -> bytes (gv4 l)).
  { clear l. induction n as [|n IH]; intros l Hn Hl.
    - destruct l; [constructor|simpl in Hn; lia].
    - destruct l as [|[w0 v0] [|[w1 v1] [|[w2 v2] [|[w3 v3] t]]]]; try constructor.
      + inversion Hl as [|? ? [F0 _] Hl1]; subst. inversion Hl1 as [|? ? [F1 _] Hl2]; subst.
        inversion Hl2 as [|? ? [F2 _] Hl3]; subst. inversion Hl3 as [|? ? [F3 _] Hl4]; subst.
        cbn [fst] in *. lia.
      + repeat apply bytes_app; auto using le_bytes_bytes.
        apply IH; [simpl in Hn; lia|].
        repeat (match goal with H : Forall fits (_ :: _) |- _ => inversion H; clear H; subst end).
        assumption. }
  intros Hl. apply (H (length l)); auto.
Qed.

(** Decoding an encoded list, with any following bytes and any memory after the buffer. *)
Lemma decode_groups_encoded o g : forall l t,
  length l = (4 * g)%nat -> Forall fits l -> bytes t -> (forall j, o j < 256) ->
  exists k, decode_groups o (gv4 l ++ t) g = Ok (map snd l, t, k) /\
            ((3 <= length t)%nat -> k = 0%nat).
Proof.
  induction g as [|g IH]; intros l t Hlen Hl Ht Ho.
  - destruct l; [|simpl in Hlen; lia]. exists 0%nat; split; reflexivity.
  - destruct l as [|[w0 v0] [|[w1 v1] [|[w2 v2] [|[w3 v3] l]]]]; try (cbn [length] in Hlen; lia).
    repeat (match goal with H : Forall fits (_ :: _) |- _ => inversion H; clear H; subst end).
    destruct (IH l t) as (k' & E' & K'); [cbn [length] in Hlen; lia|assumption..|].
    destruct (decode_gv4_encoded o w0 v0 w1 v1 w2 v2 w3 v3 (gv4 l ++ t)) as (k & E & K);
      auto using bytes_app, gv4_bytes.
    exists (Nat.max k k'). cbn [gv4 decode_groups app].
    rewrite <- !app_assoc. rewrite E. cbn [bind]. rewrite E'. cbn [bind]. split; [reflexivity|].
    intros Hlt. rewrite K by (rewrite app_length; lia). rewrite K' by lia. reflexivity.
Qed.

Lemma gv4_length g : forall l,
  length l = (4 * g)%nat -> Forall fits l -> (5 * g <= length (gv4 l))%nat.
Proof.
  induction g as [|g IH]; intros l Hlen Hl; [lia|].
  destruct l as [|[w0 v0] [|[w1 v1] [|[w2 v2] [|[w3 v3] l]]]]; try (cbn [length] in Hlen; lia).
  repeat (match goal with H : Forall fits (_ :: _) |- _ => inversion H; clear H; subst end).
  assert (5 * g <= length (gv4 l))%nat by (apply IH; [cbn [length] in Hlen; lia|assumption]).
  repeat match goal with H : fits _ |- _ => destruct H; cbn [fst snd] in * end.
  cbn [gv4 length]. rewrite !app_length, !le_bytes_length. lia.
Qed.

Lemma decode_stream_encoded o l t :
  Nat.modulo (length l) 4 = 0%nat -> Forall fits l -> bytes t -> (forall j, o j < 256) ->
  exists k, decode_gv4_stream o (gv4 l ++ t) (length l) = Ok (map snd l, t, k) /\
            ((3 <= length t)%nat -> k = 0%nat).
Proof.
  intros Hm Hl Ht Ho.
  set (g := Nat.div (length l) 4).
  assert (Hg : length l = (4 * g)%nat)
    by (unfold g; pose proof (Nat.div_mod (length l) 4); lia).
  destruct (decode_groups_encoded o g l t Hg Hl Ht Ho) as (k & E & K).
  exists k. split; [|exact K].
  unfold decode_gv4_stream. rewrite Hm, Nat.eqb_refl. cbn [assert_ bind].
  fold g. rewrite (proj2 (Nat.leb_le _ _)).
  - cbn [assert_ bind]. exact E.
  - rewrite app_length. pose proof (gv4_length g l Hg Hl). lia.
Qed.

Lemma min_width_fits v : v < 4294967296 -> fits (min_width v, v).
Proof.
  intros H. unfold fits, min_width; cbn [fst snd].
  destruct (N.ltb_spec v 256); [change (256 ^ N.of_nat 1) with 256; lia|].
  destruct (N.ltb_spec v 65536); [change (256 ^ N.of_nat 2) with 65536; lia|].
  destruct (N.ltb_spec v 16777216); [change (256 ^ N.of_nat 3) with 16777216; lia|].
  change (256 ^ N.of_nat 4) with 4294967296; lia.
Qed.

Lemma decode_stream_min o l t :
  Nat.modulo (length l) 4 = 0%nat -> Forall (fun v => v < 4294967296) l -> bytes t ->
  (forall j, o j < 256) ->
  exists k, decode_gv4_stream o (gv4_min l ++ t) (length l) = Ok (l, t, k).
Proof.
  intros Hm Hl Ht Ho. unfold gv4_min.
  destruct (decode_stream_encoded o (map (fun v => (min_width v, v)) l) t) as (k & E & _).
  - rewrite map_length; assumption.
  - apply Forall_map. eapply Forall_impl; [|exact Hl]. intros; apply min_width_fits; assumption.
  - assumption.
  - assumption.
  - exists k. rewrite map_length, map_map in E. cbn [snd] in E. rewrite map_id in E. exact E.
Qed.

(** At most three bytes past the end are ever touched by a decode that succeeds. *)
Lemma decode_groups_oob o g : forall l vs rest k,
  decode_groups o l g = Ok (vs, rest, k) ->
  (k <= 3)%nat /\ length vs = (4 * g)%nat /\ (exists m, rest = skipn m l) /\
  ((3 <= length rest)%nat -> k = 0%nat).
Proof.
  induction g as [|g IH]; intros l vs rest k E.
  - inversion E; subst. repeat split; auto. exists 0%nat; reflexivity.
  - cbn [decode_groups] in E. apply bind_Ok in E. destruct E as ([[vs1 r1] k1] & E1 & E).
    apply bind_Ok in E. destruct E as ([[vs2 r2] k2] & E2 & E). inversion E; subst.
    pose proof (decode_gv4_rest _ _ _ _ _ _ E1) as (m & -> & Hm & Hv & Hk).
    apply IH in E2. destruct E2 as (Hk2 & Hv2 & (m2 & ->) & Z2).
    repeat split; [lia|rewrite app_length; lia|exists (m + m2)%nat; rewrite skipn_skipn; f_equal; lia|].
    intros H3. rewrite Z2 by assumption.
    assert (H3' : (3 <= length (skipn m l))%nat) by (rewrite !skipn_length in *; lia).
    clear - E1 H3'.
    revert E1 H3'. generalize (skipn m l) as rest. intros rest E1 H3.
    unfold decode_gv4 in E1.
    apply bind_Ok in E1. destruct E1 as (? & _ & E1).
    apply bind_Ok in E1. destruct E1 as (? & _ & E1).
    apply bind_Ok in E1. destruct E1 as (? & _ & E1).
    apply bind_Ok in E1. destruct E1 as (i0 & _ & E1).
    apply bind_Ok in E1. destruct E1 as (i1 & S1 & E1).
    apply bind_Ok in E1. destruct E1 as (i2 & S2 & E1).
    apply bind_Ok in E1. destruct E1 as (i3 & S3 & E1).
    apply bind_Ok in E1. destruct E1 as (i4 & S4 & E1).
    inversion E1; subst. apply slice_from_Ok in S1, S2, S3, S4.
    destruct S1 as [L1 ->], S2 as [L2 ->], S3 as [L3 ->], S4 as [L4 E].
    apply (f_equal (@length N)) in E. unfold load_outside. rewrite !skipn_length in *. lia.
Qed.

Lemma decode_stream_oob o len l vs rest k :
  decode_gv4_stream o l len = Ok (vs, rest, k) ->
  (k <= 3)%nat /\ length vs = len /\ (exists m, rest = skipn m l) /\
  ((3 <= length rest)%nat -> k = 0%nat).
Proof.
  unfold decode_gv4_stream. intros E.
  apply bind_Ok in E. destruct E as ([] & A1 & E).
  apply bind_Ok in E. destruct E as ([] & A2 & E).
  apply decode_groups_oob in E. destruct E as (H1 & H2 & H3 & H4).
  repeat split; auto. rewrite H2.
  unfold assert_ in A1. destruct (Nat.eqb_spec (Nat.modulo len 4) 0); [|discriminate].
  pose proof (Nat.div_mod len 4). lia.
Qed.
