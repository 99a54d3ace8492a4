(** C96: user tracks from the file to the sampled value. *)
From Coq Require Import Reals Lra Sorted String.
From Flocq Require Import IEEE754.BinarySingleNaN.
From Verif Require Import Base Num NumF32 F32Facts Math MathSpec BlendingSpec QuatNorm Motion MotionGlam MotionF32Spec Tracks TracksSpec TrackValues TrackValuesSpec TrackValuesProps KnotSpec Loaded.
From Verif Require TrackCurveSpec TrackCurveProps F32Err AuthorFile Archive ArchiveSpec ArchiveProofs ArchiveProps ArchiveExamples.
Local Open Scope R_scope.

Lemma two_knots {A} (l : list A) : forall i x y, nth_error l i = Some x -> nth_error l (S i) = Some y -> exists p s, l = p ++ x :: y :: s.
Proof.
  induction l as [|a l IH]; intros [|i] x y Hx Hy; cbn in Hx, Hy; try discriminate.
  - injection Hx as ->. destruct l as [|b l]; [discriminate|]. injection Hy as ->. exists [], l. reflexivity.
  - destruct (IH i x y Hx Hy) as (p & s & ->). exists (a :: p), s. reflexivity.
Qed.
Lemma nth_map {A B} (f : A -> B) l i y : nth_error (map f l) i = Some y -> exists x, nth_error l i = Some x /\ y = f x.
Proof. rewrite nth_error_map. destruct (nth_error l i) as [x|]; cbn; [|discriminate]. intros H. injection H as <-. exists x. split; reflexivity. Qed.
Lemma sorted_nth {A} (Q : A -> A -> Prop) l : StronglySorted Q l -> forall i j x y, (i < j)%nat -> nth_error l i = Some x -> nth_error l j = Some y -> Q x y.
Proof.
  induction 1 as [|a l H IH F]; intros i j x y L Hx Hy; [destruct i; discriminate|].
  destruct j as [|j]; [lia|]. cbn in Hy. destruct i as [|i]; cbn in Hx.
  - injection Hx as <-. rewrite Forall_forall in F. apply F. eapply nth_error_In, Hy.
  - apply (IH i j); auto; lia.
Qed.

Section Glue.
  Context {V : Type} (kind : Archive.track_kind) (words : V -> list N) (value : list N -> V) (good : V -> Prop).
  Context (ks : list (knot V)) (t : Archive.track).
  Hypothesis VW : forall v, good v -> value (words v) = v.
  Hypothesis TO : ArchiveSpec.track_ok kind t.
  Hypothesis ST : stored words ks t.
  Hypothesis KO : knots_ok good ks.
  Notation T := (track_of value t).

  Lemma of_ratios : t_ratios T = map kt_time ks.
  Proof using ST. cbn [track_of t_ratios]. rewrite (proj1 ST), map_map. apply map_ext. intros k. apply of_to_bits. Qed.
  Lemma of_values : t_values T = map kt_value ks.
  Proof using ST KO VW.
    cbn [track_of t_values]. rewrite (proj1 (proj2 ST)), map_map. apply map_ext_in. intros k Hk. apply VW.
    destruct KO as (_ & _ & _ & F). rewrite Forall_forall in F. apply F, Hk.
  Qed.
  Lemma of_step i k : nth_error ks i = Some k -> is_step T i = kt_held k.
  Proof using ST. intros H. unfold is_step. cbn [track_of t_steps]. apply (proj2 (proj2 ST)), H. Qed.
  Lemma of_good : good_keys T.
  Proof using ST KO VW TO.
    destruct TO as (C & _ & L & _ & _ & LS & _). split; [|split; [|split]].
    - split; [|split].
      + rewrite of_ratios. cbn [track_of t_key_count]. rewrite C, (proj1 (proj2 ST)). unfold ArchiveSpec.len. rewrite !map_length. lia.
      + rewrite of_ratios, of_values, !map_length. reflexivity.
      + cbn [track_of t_ratios t_steps]. rewrite map_length, L. unfold ArchiveSpec.len in LS.
        pose proof (N.div_mod (N.of_nat (length (Archive.tr_values t)) + 7) 8 ltac:(lia)).
        pose proof (N.mod_lt (N.of_nat (length (Archive.tr_values t)) + 7) 8 ltac:(lia)). lia.
    - rewrite of_ratios. intros i j a b Hij Ha Hb. apply nth_map in Ha, Hb. destruct Ha as (x & Ex & ->), Hb as (y & Ey & ->).
      exact (sorted_nth _ _ (proj1 (proj2 (proj2 KO))) i j x y Hij Ex Ey).
    - rewrite of_ratios. intros a Ha. destruct KO as ((k & l & -> & Z) & _). injection Ha as <-. exact Z.
    - rewrite of_ratios. intros i a Ha. apply nth_map in Ha. destruct Ha as (x & Ex & ->). destruct KO as (_ & _ & _ & F).
      rewrite Forall_forall in F. apply F. eapply nth_error_In, Ex.
  Qed.
  Lemma of_keys : t_ratios T <> [].
  Proof using ST KO. rewrite of_ratios. destruct KO as ((k & l & -> & _) & _). discriminate. Qed.
  Lemma of_all i v : nth_error (t_values T) i = Some v -> good v.
  Proof using ST KO VW.
    rewrite of_values. intros H. apply nth_map in H. destruct H as (k & E & ->). destruct KO as (_ & _ & _ & F).
    rewrite Forall_forall in F. apply F. eapply nth_error_In, E.
  Qed.
  Lemma last_split (l : list (knot V)) k : nth_error l (length l - 1) = Some k -> exists p, l = p ++ [k].
  Proof using.
    intros H. destruct (exists_last (l := l)) as (p & x & ->); [intros ->; discriminate H|].
    rewrite app_length in H. cbn in H. rewrite Nat.add_sub, nth_error_app2, Nat.sub_diag in H by lia. injection H as ->. exists p. reflexivity.
  Qed.
  (** The two ends, and a segment. *)
  Lemma of_past (same : V -> V -> Prop) line r x v : same x v -> past_keys T (B2R r) v -> on_knots same line ks r x.
  Proof using ST KO VW.
    intros S [[L E]|[A E]].
    - left. rewrite of_values in E. destruct KO as ((k & l & -> & _) & _). injection E as <-. exists k, l. auto.
    - right. left. rewrite of_values, map_length in E. apply nth_map in E. destruct E as (k & E & ->).
      assert (TL : B2R (kt_time k) <= B2R r). { apply (A (length ks - 1)%nat). rewrite of_ratios, nth_error_map, E. reflexivity. }
      destruct (last_split _ _ E) as (p & ->). exists p, k. auto.
  Qed.
  Lemma of_segment (same : V -> V -> Prop) (line : V -> V -> R -> V -> Prop) (r : f32) x i a b v w : between_keys T (B2R r) i a b v w ->
    (is_step T i = true -> same x v) -> (is_step T i = false -> line v w ((B2R r - a) / (b - a)) x) -> on_knots same line ks r x.
  Proof using ST KO VW.
    intros (a' & b' & Ea & Eb & Ev & Ew & <- & <- & Hr) S1 S0. rewrite of_ratios in Ea, Eb. rewrite of_values in Ev, Ew.
    apply nth_map in Ea, Eb, Ev, Ew. destruct Ea as (k & Ek & ->), Eb as (k' & Ek' & ->), Ev as (k1 & E1 & ->), Ew as (k2 & E2 & ->).
    rewrite Ek in E1. injection E1 as <-. rewrite Ek' in E2. injection E2 as <-. rewrite (of_step i k Ek) in S1, S0.
    destruct (two_knots _ _ _ _ Ek Ek') as (p & s & E). right. right. exists p, k, k', s. split; [exact E|]. split; [exact Hr|].
    destruct (kt_held k); auto.
  Qed.
End Glue.

Lemma way_zero (r a b : R) : a < b -> (r - a) / (b - a) = 0 -> r = a.
Proof.
  intros L H. assert (r - a = (r - a) / (b - a) * (b - a)) by (field; lra). rewrite H in H0. lra.
Qed.

(** A file that stores the knots loads, and the loaded track sampled at any finite ratio gives a value on
    them.  Numbers. *)
Theorem C96_float :
  forall (machine o : Archive.endian) (io b : N) (content : Archive.track) (rest : list N) (ks : list (knot f32)),
    ArchiveSpec.endian_byte o b -> ArchiveSpec.track_ok Archive.TFloat content ->
    stored float_words ks content -> knots_ok good_float ks ->
    exists loaded,
      Archive.load (Archive.track_from_archive Archive.TFloat) machine io (b :: ArchiveSpec.w_track o Archive.TFloat content ++ rest) = Ok (loaded, rest) /\
      forall r, is_finite r = true ->
        exists x, sample_run lerp_f nzero (Some (track_of float_of loaded)) r = Ok x /\ is_finite x = true /\
          on_knots (fun x v => B2R x = B2R v) line_float ks r x.
Proof.
  intros machine o io b t rest ks E TO ST KO. exists t. split; [apply ArchiveProps.C12_track_round_trip; assumption|].
  intros r Fr. assert (VW : forall v : f32, good_float v -> float_of (float_words v) = v) by (intros v _; apply of_to_bits).
  pose proof (of_good Archive.TFloat float_words float_of good_float ks t VW TO ST KO) as (G1 & G2 & G3 & G4).
  assert (G : TrackCurveSpec.good_track (track_of float_of t)).
  { repeat (split; [assumption|]). intros i v H. exact (of_all float_words float_of good_float ks t VW ST KO i v H). }
  destruct (TrackCurveProps.C76_on_curve _ r G (of_keys float_words float_of good_float ks t ST KO) Fr) as (x & Ex & Fx & D).
  exists x. split; [exact Ex|]. split; [exact Fx|].
  destruct D as [(v' & Ev & P)|(i & a & b' & v & w & Sg & S1 & S0)].
  - apply (of_past float_words float_of good_float ks t VW ST KO _ _ r x v'); [symmetry; exact Ev|exact P].
  - destruct Sg as (a' & b'' & v' & w' & Ea & Eb & Ev & Ew & Ra & Rb & Rv & Rw & Hr).
    apply (of_segment float_words float_of good_float ks t VW ST KO _ _ r x i a b' v' w').
    + exists a', b''. repeat (split; [assumption|]). exact Hr.
    + intros H. rewrite Rv. apply S1, H.
    + intros H. destruct (S0 H) as (A & B & C). unfold line_float, near_line. rewrite Rv, Rw. cbv zeta. cbv zeta in A.
      assert (0 < / 2 ^ 149) by (apply Rinv_0_lt_compat, pow_lt; lra).
      split; [exact A|]. split; [lra|]. intros Z. apply C. apply (way_zero _ a b'); [lra|exact Z].
Qed.
Print Assumptions C96_float.

(** Vectors of two, three or four components. *)
Theorem C96_vector :
  forall m (n : nat) (kind : Archive.track_kind) (machine o : Archive.endian) (io b : N) (content : Archive.track) (rest : list N) (ks : list (knot (list f32))),
    vec_kind n = Some kind ->
    ArchiveSpec.endian_byte o b -> ArchiveSpec.track_ok kind content ->
    stored vec_words ks content -> knots_ok (usable_vec n) ks ->
    exists loaded,
      Archive.load (Archive.track_from_archive kind) machine io (b :: ArchiveSpec.w_track o kind content ++ rest) = Ok (loaded, rest) /\
      forall r, is_finite r = true ->
        exists x, sample_run (lerp_vec m) (vec_default n) (Some (track_of vec_of loaded)) r = Ok x /\ length x = n /\
          Forall (fun y => is_finite y = true) x /\ on_knots eq line_vec ks r x.
Proof.
  intros m n kind machine o io b t rest ks _ E TO ST KO. exists t. split; [apply ArchiveProps.C12_track_round_trip; assumption|].
  intros r Fr. assert (VW : forall v : list f32, usable_vec n v -> vec_of (vec_words v) = v).
  { intros v _. unfold vec_of, vec_words. rewrite map_map. rewrite <- (map_id v) at 2. apply map_ext, of_to_bits. }
  pose proof (of_good kind vec_words vec_of _ ks t VW TO ST KO) as G.
  pose proof (of_all vec_words vec_of _ ks t VW ST KO) as GV.
  destruct (C89_vector m n (vec_default n) _ r G (of_keys vec_words vec_of _ ks t ST KO) GV Fr) as (x & Ex & Lx & Fx & D).
  exists x. split; [exact Ex|]. split; [exact Lx|]. split.
  { apply Forall_forall. intros y Hy. apply In_nth_error in Hy. destruct Hy as (c & Hy). exact (Fx c y Hy). }
  destruct D as [P|(i & a & b' & v & w & B & S1 & S0)].
  - exact (of_past vec_words vec_of _ ks t VW ST KO _ _ r x x eq_refl P).
  - apply (of_segment vec_words vec_of _ ks t VW ST KO _ _ r x i a b' v w B); [exact S1|].
    intros H. pose proof B as (a' & b'' & _ & _ & Ev & _ & _ & _ & Hr). split; [rewrite Lx; symmetry; apply (GV i v Ev)|].
    intros c y p q Hy Hp Hq. destruct (S0 H c y p q Hy Hp Hq) as (A & B' & C). split; [exact A|]. split; [exact B'|].
    intros Z. apply C. apply (way_zero _ a b'); [lra|exact Z].
Qed.
Print Assumptions C96_vector.

(** Rotations. *)
Theorem C96_rotation :
  forall m ord z div (machine o : Archive.endian) (io b : N) (content : Archive.track) (rest : list N) (ks : list (knot (quat f32))),
    ArchiveSpec.endian_byte o b -> ArchiveSpec.track_ok Archive.TQuat content ->
    stored rot_words ks content -> knots_ok usable_rot ks ->
    exists loaded,
      Archive.load (Archive.track_from_archive Archive.TQuat) machine io (b :: ArchiveSpec.w_track o Archive.TQuat content ++ rest) = Ok (loaded, rest) /\
      forall r, is_finite r = true ->
        exists x, sample_run (lerp_quat m ord z div) q_identity (Some (track_of quat_of loaded)) r = Ok x /\ usable_rot x /\
          on_knots eq line_rot ks r x.
Proof.
  intros m ord z div machine o io b t rest ks E TO ST KO. exists t. split; [apply ArchiveProps.C12_track_round_trip; assumption|].
  intros r Fr. assert (VW : forall q : quat f32, usable_rot q -> quat_of (rot_words q) = q).
  { intros [x y z' w] _. unfold quat_of, rot_words. cbn. rewrite !of_to_bits. reflexivity. }
  pose proof (of_good Archive.TQuat rot_words quat_of _ ks t VW TO ST KO) as G.
  pose proof (of_all rot_words quat_of _ ks t VW ST KO) as GV.
  destruct (C89_rotation m ord z div q_identity _ r G (of_keys rot_words quat_of _ ks t ST KO) GV Fr) as (x & Ex & Ux & D).
  exists x. split; [exact Ex|]. split; [exact Ux|].
  destruct D as [P|(i & a & b' & v & w & B & S1 & S0)].
  - exact (of_past rot_words quat_of _ ks t VW ST KO _ _ r x x eq_refl P).
  - exact (of_segment rot_words quat_of _ ks t VW ST KO _ _ r x i a b' v w B S1 S0).
Qed.
Print Assumptions C96_rotation.

(** ** Every list of knots has a file *)
Definition pack_byte (f : nat -> bool) : N :=
  let d i := if f i then (2 ^ N.of_nat i)%N else 0%N in
  N.add (d 0%nat) (N.add (d 1%nat) (N.add (d 2%nat) (N.add (d 3%nat) (N.add (d 4%nat) (N.add (d 5%nat) (N.add (d 6%nat) (d 7%nat))))))).
Lemma pack_bits f : (pack_byte f < 256)%N /\ forall b, (b < 8)%nat -> N.testbit (pack_byte f) (N.of_nat b) = f b.
Proof.
  unfold pack_byte. destruct (f 0%nat) eqn:E0, (f 1%nat) eqn:E1, (f 2%nat) eqn:E2, (f 3%nat) eqn:E3, (f 4%nat) eqn:E4, (f 5%nat) eqn:E5, (f 6%nat) eqn:E6, (f 7%nat) eqn:E7;
    (split; [reflexivity|]); intros b Hb; do 8 (destruct b as [|b]; [vm_compute; congruence|]); lia.
Qed.
Definition knot_file {V} (words : V -> list N) (ks : list (knot V)) (name : list N) : Archive.track :=
  let held i := match nth_error ks i with Some k => kt_held k | None => false end in
  {| Archive.tr_key_count := ArchiveSpec.len ks; Archive.tr_ratios := map (fun k => f32_to_bits (kt_time k)) ks;
     Archive.tr_values := map (fun k => words (kt_value k)) ks;
     Archive.tr_steps := map (fun j => pack_byte (fun b => held (8 * j + b)%nat)) (seq 0 ((length ks + 7) / 8)); Archive.tr_name := name |}.
Theorem C96_every_track_has_a_file :
  forall {V} (kind : Archive.track_kind) (words : V -> list N) (good : V -> Prop) (ks : list (knot V)) (name : list N),
    (forall v, good v -> length (words v) = ArchiveSpec.track_dim kind /\ Forall (ArchiveSpec.fits 4) (words v)) ->
    knots_ok good ks -> ArchiveSpec.text name -> ArchiveSpec.fits 4 (ArchiveSpec.len name) ->
    exists content, ArchiveSpec.track_ok kind content /\ stored words ks content /\ Archive.tr_name content = name.
Proof.
  intros V kind words good ks name W (HK & HL & HS & HF) TX NL. exists (knot_file words ks name). split; [|split; [|reflexivity]].
  - unfold ArchiveSpec.track_ok, knot_file, ArchiveSpec.len. cbn [Archive.tr_key_count Archive.tr_ratios Archive.tr_values Archive.tr_steps Archive.tr_name].
    rewrite !map_length, seq_length. split; [reflexivity|]. split; [exact HL|]. split; [reflexivity|].
    split. { apply Forall_forall. intros x Hx. apply in_map_iff in Hx. destruct Hx as (k & <- & _). apply AuthorFile.to_bits_lt. }
    split. { apply Forall_forall. intros x Hx. apply in_map_iff in Hx. destruct Hx as (k & <- & Hk). apply W. rewrite Forall_forall in HF. apply HF, Hk. }
    split. { rewrite Nat2N.inj_div, Nat2N.inj_add. reflexivity. }
    split; [|split; assumption]. apply Forall_forall. intros x Hx. apply in_map_iff in Hx. destruct Hx as (j & <- & _). apply pack_bits.
  - split; [reflexivity|]. split; [reflexivity|]. intros i k E. cbn [knot_file Archive.tr_steps].
    assert (Hi : (i < length ks)%nat) by (apply nth_error_Some; congruence).
    pose proof (Nat.div_mod i 8 ltac:(lia)). pose proof (Nat.mod_upper_bound i 8 ltac:(lia)).
    assert (Hj : (i / 8 < (length ks + 7) / 8)%nat).
    { pose proof (Nat.div_mod (length ks + 7) 8 ltac:(lia)). pose proof (Nat.mod_upper_bound (length ks + 7) 8 ltac:(lia)). lia. }
    match goal with |- context [map ?g (seq 0 ?n)] => rewrite (nth_indep _ 0%N (g 0%nat)) by (rewrite map_length, seq_length; exact Hj); rewrite (map_nth g (seq 0 n) 0%nat) end.
    rewrite seq_nth by exact Hj. cbn [Nat.add]. rewrite (proj2 (pack_bits _)) by assumption.
    replace (8 * (i / 8) + i mod 8)%nat with i by lia. rewrite E. reflexivity.
Qed.
Print Assumptions C96_every_track_has_a_file.
(** In particular for the five kinds. *)
Lemma words_fit : (forall v, good_float v -> length (float_words v) = ArchiveSpec.track_dim Archive.TFloat /\ Forall (ArchiveSpec.fits 4) (float_words v)) /\
  (forall n kind, vec_kind n = Some kind -> forall v, usable_vec n v -> length (vec_words v) = ArchiveSpec.track_dim kind /\ Forall (ArchiveSpec.fits 4) (vec_words v)) /\
  (forall q, usable_rot q -> length (rot_words q) = ArchiveSpec.track_dim Archive.TQuat /\ Forall (ArchiveSpec.fits 4) (rot_words q)).
Proof.
  assert (B : forall l, Forall (ArchiveSpec.fits 4) (map f32_to_bits l)).
  { intros l. apply Forall_forall. intros x Hx. apply in_map_iff in Hx. destruct Hx as (k & <- & _). apply AuthorFile.to_bits_lt. }
  split; [|split].
  - intros v _. split; [reflexivity|]. exact (B [v]).
  - intros n kind K v (L & _). split; [|apply B]. unfold vec_words. rewrite map_length, L.
    do 5 (destruct n as [|n]; [first [discriminate K|injection K as <-; reflexivity]|]). discriminate K.
  - intros q _. split; [reflexivity|apply B].
Qed.

(** ** Examples *)
(** 1 at time 0, held; 3 at 1/4; 0 at 1. *)
Definition ek : list (knot f32) := [mk_knot nzero none_ true; mk_knot (f32_lit 1 (-2)) (f32_lit 3 0) false; mk_knot none_ nzero false].
Definition ek_file : Archive.track := knot_file float_words ek (ArchiveSpec.ascii "height"%string).
Definition eq_ks : list (knot (quat f32)) := [mk_knot nzero q_identity false; mk_knot nhalf (Q4 none_ nzero nzero nzero) true].
Example C96_hypotheses :
  knots_ok good_float ek /\ ArchiveSpec.track_ok Archive.TFloat ek_file /\ stored float_words ek ek_file /\
  knots_ok (usable_vec 3) (map (fun k => mk_knot (kt_time k) [kt_value k; kt_value k; nzero] (kt_held k)) ek) /\
  knots_ok usable_rot eq_ks.
Proof.
  assert (OK : forall (V : Type) (good : V -> Prop) f, (forall h, In h [none_; f32_lit 3 0; nzero] -> good (f h)) ->
    knots_ok good (map (fun k : knot f32 => mk_knot (kt_time k) (f (kt_value k)) (kt_held k)) ek)).
  { intros V good f H. split; [exists (mk_knot nzero (f none_) true); eexists; split; [reflexivity|vm_compute; reflexivity]|].
    split; [reflexivity|]. split.
    - repeat (apply SSorted_cons; [|repeat (apply Forall_cons; [vm_compute; reflexivity|]); apply Forall_nil]). apply SSorted_nil.
    - repeat (apply Forall_cons; [split; [vm_compute; reflexivity|apply H; cbn; auto]|]). apply Forall_nil. }
  assert (F : forall h, In h [none_; f32_lit 3 0; nzero] -> is_finite (h : f32) = true /\ Rabs (B2R h) <= 2 ^ 100).
  { intros h [<-|[<-|[<-|[]]]]; (split; [reflexivity|]).
    - rewrite (proj2 F32Err.fin_one), Rabs_pos_eq by lra. apply pow_R1_Rle. lra.
    - assert (E : B2R (f32_lit 3 0) = 3) by (destruct (f32_lit_exact 3 0) as [_ E]; [simpl; lia|lia|]; rewrite E; simpl; lra).
      rewrite E, Rabs_pos_eq by lra. assert (2 ^ 2 <= 2 ^ 100) by (apply Rle_pow; [lra|lia]). lra.
    - change (B2R (nzero : f32)) with 0. rewrite Rabs_R0. apply pow_le. lra. }
  assert (K1 : knots_ok good_float ek) by exact (OK f32 good_float (fun v => v) F).
  split; [exact K1|].
  split; [|split; [|split]].
  - unfold ArchiveSpec.track_ok. repeat split; try reflexivity; try (apply ArchiveExamples.fits_dec; vm_compute; reflexivity).
    + repeat (apply Forall_cons; [split; [reflexivity|apply ArchiveExamples.fits_dec; vm_compute; reflexivity]|]). apply Forall_nil.
    + apply ArchiveProofs.ascii_text. reflexivity.
  - split; [reflexivity|]. split; [reflexivity|]. intros i k H. do 3 (destruct i as [|i]; [injection H as <-; vm_compute; reflexivity|]). destruct i; discriminate H.
  - apply (OK (list f32) (usable_vec 3) (fun v => [v; v; nzero])). intros h Hh. split; [reflexivity|].
    intros c x Hx. do 3 (destruct c as [|c]; [injection Hx as <-; apply F; cbn; auto|]). destruct c; discriminate Hx.
  - assert (UR : forall q : quat f32, In q [q_identity; Q4 none_ nzero nzero nzero] -> usable_rot q).
    { intros q [<-|[<-|[]]]; (split; [repeat split|]); unfold norm2, real4; cbn [qx qy qz qw q_identity];
        rewrite ?(proj2 F32Err.fin_one); change (B2R (nzero : f32)) with 0; cbn; rewrite Rabs_pos_eq by lra; lra. }
    split; [eexists; eexists; split; [reflexivity|vm_compute; reflexivity]|]. split; [reflexivity|]. split.
    + repeat (apply SSorted_cons; [|repeat (apply Forall_cons; [vm_compute; reflexivity|]); apply Forall_nil]). apply SSorted_nil.
    + repeat (apply Forall_cons; [split; [vm_compute; reflexivity|apply UR; cbn; auto]|]). apply Forall_nil.
Qed.
(** Written big endian, read on a little endian machine: 1 just before 1/4, 3 at 1/4, 1 at 3/4. *)
Example C96_example :
  match Archive.load (Archive.track_from_archive Archive.TFloat) Archive.Little 0 (0%N :: ArchiveSpec.w_track Archive.Big Archive.TFloat ek_file) with
  | Ok (t, []) =>
      map (fun r => match sample_run lerp_f nzero (Some (track_of float_of t)) r with Ok x => f32_to_bits x | _ => 0%N end)
          [f32_lit 16777215 (-26); f32_lit 1 (-2); f32_lit 3 (-2)] =
      map f32_to_bits [f32_lit 1 0; f32_lit 3 0; f32_lit 1 0]
  | _ => False
  end.
Proof. vm_compute. reflexivity. Qed.
