(** The UTF-8 validator accepts exactly the encodings of Unicode scalar values. *)
From Verif Require Import Base Archive ArchiveSpec.
Local Open Scope N_scope.
Ltac Zify.zify_post_hook ::= Z.div_mod_to_equations.

Lemma utf8_error_char c pos t : scalar c ->
  exists pos', utf8_error pos (utf8_char c ++ t) = utf8_error pos' t.
Proof.
  intros Hc. unfold scalar in Hc. unfold utf8_char.
  destruct (N.ltb_spec c 128).
  { cbn [app utf8_error]. destruct (N.ltb_spec c 128); [eauto|lia]. }
  destruct (N.ltb_spec c 2048).
  { cbn [app utf8_error]. destruct (N.ltb_spec (192 + c / 64) 128); [lia|].
    replace (in_range 194 223 (192 + c / 64)) with true by (unfold in_range; lia).
    replace (is_cont (128 + c mod 64)) with true by (unfold is_cont, in_range; lia). eauto. }
  destruct (N.ltb_spec c 65536).
  { cbn [app utf8_error]. destruct (N.ltb_spec (224 + c / 4096) 128); [lia|].
    replace (in_range 194 223 (224 + c / 4096)) with false by (unfold in_range; lia).
    replace (in_range 224 239 (224 + c / 4096)) with true by (unfold in_range; lia).
    replace (is_cont (128 + c mod 64)) with true by (unfold is_cont, in_range; lia).
    rewrite andb_true_r.
    match goal with |- context [if ?b then utf8_error (pos + 3) t else _] =>
      replace b with true; [eauto|] end.
    destruct (N.eqb_spec (224 + c / 4096) 224); [unfold in_range; lia|].
    destruct (N.eqb_spec (224 + c / 4096) 237); unfold is_cont, in_range; lia. }
  cbn [app utf8_error]. destruct (N.ltb_spec (240 + c / 262144) 128); [lia|].
  replace (in_range 194 223 (240 + c / 262144)) with false by (unfold in_range; lia).
  replace (in_range 224 239 (240 + c / 262144)) with false by (unfold in_range; lia).
  replace (in_range 240 244 (240 + c / 262144)) with true by (unfold in_range; lia).
  replace (is_cont (128 + c mod 64)) with true by (unfold is_cont, in_range; lia).
  replace (is_cont (128 + (c / 64) mod 64)) with true by (unfold is_cont, in_range; lia).
  rewrite !andb_true_r.
  match goal with |- context [if ?b then utf8_error (pos + 4) t else _] =>
    replace b with true; [eauto|] end.
  destruct (N.eqb_spec (240 + c / 262144) 240); [unfold in_range; lia|].
  destruct (N.eqb_spec (240 + c / 262144) 244); unfold is_cont, in_range; lia.
Qed.

Lemma utf8_error_utf8 s : Forall scalar s -> forall pos, utf8_error pos (utf8 s) = None.
Proof.
  induction 1 as [|c s Hc Hs IH]; intros pos; [reflexivity|].
  unfold utf8; cbn [flat_map]. destruct (utf8_error_char c pos (utf8 s) Hc) as [pos' E].
  unfold utf8 in E. rewrite E. apply IH.
Qed.

Lemma text_app a b : text a -> text b -> text (a ++ b).
Proof.
  intros (s & Hs & ->) (s' & Hs' & ->). exists (s ++ s'). split.
  - apply Forall_app; auto.
  - unfold utf8. rewrite flat_map_app. reflexivity.
Qed.

Lemma text_char c : scalar c -> text (utf8_char c).
Proof.
  intros H. exists [c]. split; [auto|]. unfold utf8; simpl. rewrite app_nil_r; reflexivity.
Qed.

Lemma utf8_error_sound n : forall bs pos, (length bs <= n)%nat ->
  utf8_error pos bs = None -> text bs.
Proof.
  induction n as [|n IH]; intros bs pos Hn E.
  { destruct bs; [|simpl in Hn; lia]. exists []; auto. }
  destruct bs as [|b0 t0]; [exists []; auto|].
  cbn [utf8_error] in E. destruct (N.ltb_spec b0 128).
  { change (b0 :: t0) with ([b0] ++ t0). apply text_app.
    - replace [b0] with (utf8_char b0); [apply text_char; unfold scalar; lia|].
      unfold utf8_char. destruct (N.ltb_spec b0 128); [reflexivity|lia].
    - eapply IH; [|exact E]. simpl in Hn; lia. }
  destruct t0 as [|b1 t1]; [discriminate|].
  destruct (in_range 194 223 b0) eqn:R2.
  { destruct (is_cont b1) eqn:C1; [|discriminate].
    unfold is_cont, in_range in *.
    change (b0 :: b1 :: t1) with ([b0; b1] ++ t1). apply text_app.
    - set (c := (b0 - 192) * 64 + (b1 - 128)).
      replace [b0; b1] with (utf8_char c); [apply text_char; unfold scalar, c; lia|].
      unfold utf8_char. destruct (N.ltb_spec c 128); [unfold c in *; lia|].
      destruct (N.ltb_spec c 2048); [|unfold c in *; lia].
      f_equal; [unfold c; lia|f_equal; unfold c; lia].
    - eapply IH; [|exact E]. simpl in Hn; lia. }
  destruct t1 as [|b2 t2]; [discriminate|].
  destruct (in_range 224 239 b0) eqn:R3.
  { match type of E with context [if ?b then _ else _] => destruct b eqn:C; [|discriminate] end.
    apply andb_prop in C as [C1 C2].
    change (b0 :: b1 :: b2 :: t2) with ([b0; b1; b2] ++ t2). apply text_app.
    - set (c := (b0 - 224) * 4096 + (b1 - 128) * 64 + (b2 - 128)).
      assert (Hb1 : 128 <= b1 <= 191 /\ (b0 = 224 -> 160 <= b1) /\ (b0 = 237 -> b1 <= 159)).
      { destruct (N.eqb_spec b0 224); [unfold in_range in *; lia|].
        destruct (N.eqb_spec b0 237); unfold is_cont, in_range in *; lia. }
      unfold is_cont, in_range in *.
      replace [b0; b1; b2] with (utf8_char c); [apply text_char; unfold scalar, c; lia|].
      unfold utf8_char. destruct (N.ltb_spec c 128); [unfold c in *; lia|].
      destruct (N.ltb_spec c 2048); [unfold c in *; lia|].
      destruct (N.ltb_spec c 65536); [|unfold c in *; lia].
      f_equal; [unfold c; lia|f_equal; [unfold c; lia|f_equal; unfold c; lia]].
    - eapply IH; [|exact E]. simpl in Hn; lia. }
  destruct t2 as [|b3 t3]; [discriminate|].
  destruct (in_range 240 244 b0) eqn:R4; [|discriminate].
  match type of E with context [if ?b then _ else _] => destruct b eqn:C; [|discriminate] end.
  apply andb_prop in C as [C C3]. apply andb_prop in C as [C1 C2].
  change (b0 :: b1 :: b2 :: b3 :: t3) with ([b0; b1; b2; b3] ++ t3). apply text_app.
  - set (c := (b0 - 240) * 262144 + (b1 - 128) * 4096 + (b2 - 128) * 64 + (b3 - 128)).
    assert (Hb1 : 128 <= b1 <= 191 /\ (b0 = 240 -> 144 <= b1) /\ (b0 = 244 -> b1 <= 143)).
    { destruct (N.eqb_spec b0 240); [unfold in_range in *; lia|].
      destruct (N.eqb_spec b0 244); unfold is_cont, in_range in *; lia. }
    unfold is_cont, in_range in *.
    replace [b0; b1; b2; b3] with (utf8_char c); [apply text_char; unfold scalar, c; lia|].
    unfold utf8_char. destruct (N.ltb_spec c 128); [unfold c in *; lia|].
    destruct (N.ltb_spec c 2048); [unfold c in *; lia|].
    destruct (N.ltb_spec c 65536); [unfold c in *; lia|].
    f_equal; [unfold c; lia|f_equal; [unfold c; lia|f_equal; [unfold c; lia|f_equal; unfold c; lia]]].
  - eapply IH; [|exact E]. simpl in Hn; lia.
Qed.

Theorem utf8_error_text bs : utf8_error 0 bs = None <-> text bs.
Proof.
  split.
  - intros E. eapply utf8_error_sound; [apply Nat.le_refl|exact E].
  - intros (s & Hs & ->). apply utf8_error_utf8; assumption.
Qed.
