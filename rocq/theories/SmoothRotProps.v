(** C98, for user tracks of rotations. *)
From Coq Require Import String Reals Sorted Lra Lia.
From Flocq Require Import Core.Core IEEE754.BinarySingleNaN.
From Verif Require Import Base Num NumF32 F32Facts Math MathSpec BlendingSpec QuatNorm MotionF32Spec KeysSpec Motion MotionGlam Tracks TracksSpec TracksF32 TrackValues TrackValuesSpec Loaded AuthorProofs KnotSpec KnotProps PoseSpec SmoothSpec SmoothProps SmoothTrackProps.
From Verif Require Archive ArchiveSpec ArchiveProofs ArchiveExamples BlendF32Props F32Err.
Close Scope string_scope.
Local Open Scope R_scope.

(** Components of a rotation, and of the line from one to the next. *)
Definition rc (q : quat f32) (i : nat) : R := B2R (qcomp q i).
Definition rline (x y : knot (quat f32)) (s : R) (i : nat) : R :=
  rc (kt_value x) i + (rc (kt_value y) i - rc (kt_value x) i) * ((s - B2R (kt_time x)) / (B2R (kt_time y) - B2R (kt_time x))).
Definition rpiece (i : nat) (x y : knot (quat f32)) (s : R) : R := rline x y s i / len4 (rline x y s).
Lemma rline_start (x y : knot (quat f32)) i : rline x y (B2R (kt_time x)) i = rc (kt_value x) i.
Proof. unfold rline, Rminus at 2. rewrite Rplus_opp_r. unfold Rdiv. ring. Qed.
Lemma rline_end (x y : knot (quat f32)) i : B2R (kt_time x) < B2R (kt_time y) -> rline x y (B2R (kt_time y)) i = rc (kt_value y) i.
Proof. intros H. apply Rlt_Rminus in H. unfold rline, Rdiv. rewrite Rinv_r by (apply Rgt_not_eq; exact H). ring. Qed.
Lemma norm2_rc (q : quat f32) : norm2 (real4 q) = sum4 (fun i => rc q i * rc q i).
Proof. reflexivity. Qed.
Lemma len4_qn (q : quat R) : len4 (qcomp q) = qn q.
Proof. reflexivity. Qed.

Lemma half_long X Y Z w : 0 <= w <= 1 -> 1 - / 2 ^ 19 <= X -> 1 - / 2 ^ 19 <= Y -> 0 <= Z ->
  / 2 <= 1.01 * ((1 - w) * (1 - w) * X + w * w * Y + 2 * (w * (1 - w)) * Z).
Proof.
  intros Hw HX HY HZ. assert (0 <= w * (1 - w)) by (apply Rmult_le_pos; lra). assert (0 <= w * (1 - w) * Z) by (apply Rmult_le_pos; assumption).
  pose proof (Rle_0_sqr (1 - w)) as Q1. pose proof (Rle_0_sqr w) as Q2. unfold Rsqr in *.
  assert ((1 - w) * (1 - w) * (1 - / 2 ^ 19) <= (1 - w) * (1 - w) * X) by (apply Rmult_le_compat_l; assumption).
  assert (w * w * (1 - / 2 ^ 19) <= w * w * Y) by (apply Rmult_le_compat_l; assumption).
  pose proof (Rle_0_sqr (w - / 2)) as Q3. unfold Rsqr in Q3. lra.
Qed.
Lemma ratio_range a b s : a < b -> a <= s <= b -> 0 <= (s - a) / (b - a) <= 1.
Proof.
  intros H Hs. split; [apply Rmult_le_pos; [lra|left; apply Rinv_0_lt_compat; lra]|].
  apply (Rmult_le_reg_r (b - a)); [lra|]. unfold Rdiv. rewrite Rmult_assoc, Rinv_l by (apply Rgt_not_eq; lra). lra.
Qed.
Lemma rline_long (x y : knot (quat f32)) s : B2R (kt_time x) < B2R (kt_time y) -> B2R (kt_time x) <= s <= B2R (kt_time y) ->
  Rabs (norm2 (real4 (kt_value x)) - 1) <= / 2 ^ 19 -> Rabs (norm2 (real4 (kt_value y)) - 1) <= / 2 ^ 19 ->
  / 2 ^ 20 < qdot (real4 (kt_value x)) (real4 (kt_value y)) -> / 2 <= 1.01 * sum4 (fun i => rline x y s i * rline x y s i).
Proof.
  intros LT Hs Nx Ny D. pose proof (ratio_range _ _ _ LT Hs) as Hw. set (w := (s - B2R (kt_time x)) / (B2R (kt_time y) - B2R (kt_time x))) in *.
  replace (sum4 (fun i => rline x y s i * rline x y s i)) with
    ((1 - w) * (1 - w) * norm2 (real4 (kt_value x)) + w * w * norm2 (real4 (kt_value y)) + 2 * (w * (1 - w)) * qdot (real4 (kt_value x)) (real4 (kt_value y)))
    by (unfold rline, sum4, norm2, qdot, rc; fold w; cbn [qx qy qz qw real4 qcomp]; ring).
  apply Rabs_le_inv in Nx. apply Rabs_le_inv in Ny. assert (0 < / 2 ^ 20) by (apply Rinv_0_lt_compat, pow_lt; lra).
  apply half_long; [exact Hw|lra|lra|lra].
Qed.
(** A single component is at most the length. *)
Lemma comp_qn (q : quat R) i : Rabs (qcomp q i) <= qn q.
Proof.
  unfold qn. rewrite <- (sqrt_Rsqr_abs (qcomp q i)). apply sqrt_le_1_alt. unfold norm2, Rsqr.
  pose proof (Rle_0_sqr (qx q)). pose proof (Rle_0_sqr (qy q)). pose proof (Rle_0_sqr (qz q)). pose proof (Rle_0_sqr (qw q)). unfold Rsqr in *.
  destruct i as [|[|[|i]]]; cbn [qcomp]; lra.
Qed.
Lemma rc_real (q : quat f32) i : rc q i = qcomp (real4 q) i.
Proof. destruct i as [|[|[|i]]]; reflexivity. Qed.
(** A knot is its own direction, nearly. *)
Lemma knot_near (q : quat f32) i : Rabs (norm2 (real4 q) - 1) <= / 2 ^ 19 -> Rabs (rc q i - rc q i / len4 (rc q)) <= / 2 ^ 17.
Proof.
  intros H. assert (LN : len4 (rc q) = qn (real4 q)) by reflexivity. rewrite LN, rc_real. pose proof (comp_qn (real4 q) i) as C.
  pose proof (qn_sq (real4 q)) as S. pose proof (qn_pos (real4 q)) as P. set (n := qn (real4 q)) in *. set (c := qcomp (real4 q) i) in *.
  apply Rabs_le_inv in H. rewrite <- S in H.
  assert (N : 1 - / 2 ^ 19 <= n <= 1 + / 2 ^ 19) by (split; nra).
  replace (c - c / n) with (c * / n * (n - 1)) by (field; apply Rgt_not_eq; lra).
  rewrite !Rabs_mult. rewrite (Rabs_pos_eq (/ n)) by (left; apply Rinv_0_lt_compat; lra).
  assert (A : Rabs c * / n <= 1). { apply (Rmult_le_reg_r n); [lra|]. rewrite Rmult_assoc, Rinv_l by (apply Rgt_not_eq; lra). lra. }
  assert (A0 : 0 <= Rabs c * / n) by (apply Rmult_le_pos; [apply Rabs_pos|left; apply Rinv_0_lt_compat; lra]).
  assert (B : Rabs (n - 1) <= / 2 ^ 19) by (apply Rabs_le; lra). pose proof (Rabs_pos (n - 1)).
  apply Rle_trans with (1 * / 2 ^ 19); [apply Rmult_le_compat; assumption|lra].
Qed.
(** On a piece. *)
Lemma piece_near (x y : knot (quat f32)) (r : f32) (q : quat f32) i :
  / 2 ^ 20 < qdot (real4 (kt_value x)) (real4 (kt_value y)) ->
  line_rot (kt_value x) (kt_value y) ((B2R r - B2R (kt_time x)) / (B2R (kt_time y) - B2R (kt_time x))) q ->
  Rabs (rc q i - rpiece i x y (B2R r)) <= / 2 ^ 17.
Proof.
  intros D (_ & sg & SG & Hd & E0 & E). assert (sg = 1) by (destruct SG as [->| ->]; [reflexivity|lra]). subst sg. cbv zeta in E0, E.
  set (e := blend_to _ _ _ _) in *.
  assert (X : forall k, qcomp e k = rline x y (B2R r) k).
  { intros k. unfold e, blend_to, rline, rc. destruct k as [|[|[|k]]]; cbn [qcomp qadd qscale qx qy qz qw real4]; ring. }
  pose proof (comp_qn _ i : Rabs (qcomp (qsub (real4 q) (qscale (/ qn e) e)) i) <= _) as C.
  eapply Rle_trans; [|eapply Rle_trans; [exact C|exact E]]. right. f_equal.
  unfold rpiece. rewrite <- (X i), <- (len4_ext _ _ X), len4_qn, rc_real.
  destruct i as [|[|[|i]]]; cbn [qcomp qsub qadd qscale qx qy qz qw]; unfold Rdiv; ring.
Qed.

Lemma located_rot (ks : list (knot (quat f32))) (r : f32) (q : quat f32) L : knots_ok usable_rot ks -> speed_rot ks L -> (2 <= length ks)%nat ->
  on_knots eq line_rot ks r q ->
  exists a b : knot (quat f32), adj ks a b /\ let s := read_at (B2R (kt_time (last ks (mk_knot nzero q false)))) (B2R r) in
    B2R (kt_time a) <= s <= B2R (kt_time b) /\ forall i, Rabs (rc q i - rpiece i a b s) <= / 2 ^ 17.
Proof.
  intros KO (L0 & NH & SP) H2 ON. pose proof (knots_forward ks KO) as FW.
  assert (HLAST : exists l k, ks = l ++ [k] /\ last ks (mk_knot nzero q false) = k).
  { destruct (exists_last (l := ks)) as (l & k & E); [intros ->; cbn in H2; lia|]. exists l, k. split; [exact E|]. rewrite E. apply last_last. }
  destruct HLAST as (ll & kl & EL & ->). cbv zeta.
  assert (INL : In kl ks) by (rewrite EL; apply in_or_app; right; left; reflexivity).
  destruct (knots_fin ks KO kl INL) as (_ & PL). rewrite Forall_forall in NH.
  destruct ON as [(k & l & E & Hr & V)|[(l & k & E & Hr & V)|(l & k & k' & l' & E & Hr & V)]].
  - destruct l as [|k' l]; [rewrite E in H2; cbn in H2; lia|]. exists k, k'.
    assert (AD : adj ks k k') by (exists [], l; exact E). assert (LT : B2R (kt_time k) < B2R (kt_time k')) by exact (FW _ _ AD).
    assert (Z : B2R (kt_time k) = 0).
    { destruct KO as ((k0 & l0 & E0 & Z) & _). rewrite E in E0. injection E0 as <- <-. apply (zero_time _ Z). }
    assert (RA : read_at (B2R (kt_time kl)) (B2R r) = B2R (kt_time k)) by exact (read_low _ _ _ Z PL Hr).
    split; [exact AD|]. rewrite RA. split; [split; [apply Rle_refl|apply Rlt_le, LT]|]. intros i. unfold rpiece.
    rewrite (len4_ext _ _ (rline_start k k')), rline_start, V. apply knot_near, NH. rewrite E. left. reflexivity.
  - assert (k = kl) by (rewrite EL in E; apply app_inj_tail in E; destruct E as (_ & ->); reflexivity). subst k.
    assert (PR : exists l1 j, l = l1 ++ [j]).
    { destruct (exists_last (l := l)) as (l1 & j & E1); [intros ->; rewrite E in H2; cbn in H2; lia|]. exists l1, j. exact E1. }
    destruct PR as (l1 & j & ->). exists j, kl.
    assert (AD : adj ks j kl) by (exists l1, []; rewrite E, <- app_assoc; reflexivity). assert (LT : B2R (kt_time j) < B2R (kt_time kl)) by exact (FW _ _ AD).
    assert (RA : read_at (B2R (kt_time kl)) (B2R r) = B2R (kt_time kl)) by exact (read_high _ _ PL Hr).
    split; [exact AD|]. rewrite RA. split; [split; [apply Rlt_le, LT|apply Rle_refl]|]. intros i. unfold rpiece.
    rewrite (len4_ext _ _ (fun i => rline_end j kl i LT)), (rline_end j kl i LT), V. apply knot_near, NH, INL.
  - exists k, k'. assert (AD : adj ks k k') by (exists l, l'; exact E). assert (LT : B2R (kt_time k) < B2R (kt_time k')) by exact (FW _ _ AD).
    assert (IK : In k ks) by (rewrite E; apply in_or_app; right; left; reflexivity).
    assert (IK' : In k' ks) by (rewrite E; apply in_or_app; right; right; left; reflexivity).
    destruct (knots_fin ks KO k IK) as (_ & PK). pose proof (last_latest ks ll kl KO EL k' IK') as LK.
    assert (RA : read_at (B2R (kt_time kl)) (B2R r) = B2R r) by exact (read_mid _ _ _ _ PK Hr LK).
    split; [exact AD|]. rewrite RA. split; [split; [apply Hr|apply Rlt_le, Hr]|]. intros i.
    pose proof (if_false _ _ _ (proj1 (NH k IK)) V) as V'. apply piece_near; [exact (proj1 (SP k k' l l' E))|exact V'].
Qed.

Lemma rot_smooth (ks : list (knot (quat f32))) (r r' : f32) (q q' : quat f32) L i : (i < 4)%nat -> knots_ok usable_rot ks -> speed_rot ks L ->
  on_knots eq line_rot ks r q -> on_knots eq line_rot ks r' q' ->
  Rabs (rc q i - rc q' i) <= 3 / 2 * L * Rabs (B2R r - B2R r') + / 2 ^ 16.
Proof.
  intros Hi KO SP ON ON'. assert (L0 : 0 <= L) by apply SP.
  destruct (le_lt_dec 2 (length ks)) as [H2|H2].
  - destruct (located_rot ks r q L KO SP H2 ON) as (a & a2 & A & S1 & V1). destruct (located_rot ks r' q' L KO SP H2 ON') as (c & c2 & C & S2 & V2).
    assert (LE : last ks (mk_knot nzero q' false) = last ks (mk_knot nzero q false)).
    { destruct (exists_last (l := ks)) as (l & k & E); [intros ->; cbn in H2; lia|]. rewrite E, !last_last. reflexivity. }
    rewrite LE in S2, V2. set (la := B2R (kt_time (last ks (mk_knot nzero q false)))) in *. cbv zeta in *. specialize (V1 i). specialize (V2 i).
    pose proof (knots_forward ks KO) as FW. destruct SP as (_ & NH & SP). rewrite Forall_forall in NH.
    assert (P : Rabs (rpiece i a a2 (read_at la (B2R r)) - rpiece i c c2 (read_at la (B2R r'))) <= 3 / 2 * L * Rabs (read_at la (B2R r) - read_at la (B2R r'))).
    { apply (chain (fun k : knot (quat f32) => B2R (kt_time k)) (rpiece i) (3 / 2 * L) ks FW); try assumption.
      - intros u v Q s s' Hs Hs'. assert (LT : B2R (kt_time u) < B2R (kt_time v)) by exact (FW _ _ Q). destruct Q as (l & l' & Q). destruct (SP u v l l' Q) as (SD & SL).
        assert (Nu := proj2 (NH u ltac:(rewrite Q; apply in_or_app; right; left; reflexivity))).
        assert (Nv := proj2 (NH v ltac:(rewrite Q; apply in_or_app; right; right; left; reflexivity))).
        unfold rpiece. eapply Rle_trans; [apply normal_near; [apply rline_long; assumption|apply rline_long; assumption|exact Hi]|].
        set (D := B2R (kt_time v) - B2R (kt_time u)) in *. assert (DP : 0 < D) by (apply Rlt_Rminus in LT; exact LT).
        rewrite (len4_ext _ (fun i => (rc (kt_value v) i - rc (kt_value u) i) * ((s - s') * / D))) by (intros k; unfold rline; fold D; unfold Rdiv; ring).
        rewrite len4_scale, Rmult_assoc. apply Rmult_le_compat_l; [lra|].
        assert (LN : len4 (fun i => rc (kt_value v) i - rc (kt_value u) i) = qn (qsub (real4 (kt_value v)) (real4 (kt_value u)))).
        { rewrite <- len4_qn. apply len4_ext. intros k. rewrite !rc_real. destruct k as [|[|[|k]]]; cbn [qcomp qsub qadd qscale qx qy qz qw]; ring. }
        rewrite LN, Rabs_mult, (Rabs_pos_eq (/ D)) by (left; apply Rinv_0_lt_compat, DP).
        replace (L * Rabs (s - s')) with (L * D * (Rabs (s - s') * / D)) by (field; apply Rgt_not_eq; exact DP).
        apply Rmult_le_compat_r; [apply Rmult_le_pos; [apply Rabs_pos|left; apply Rinv_0_lt_compat, DP]|exact SL].
      - intros u v w l l' Q. assert (LT : B2R (kt_time u) < B2R (kt_time v)) by (apply FW; exists l, (w :: l'); exact Q).
        unfold rpiece. rewrite (len4_ext _ _ (fun i => rline_end u v i LT)), (rline_end u v i LT), (len4_ext _ _ (rline_start v w)), rline_start. reflexivity. }
    pose proof (read_near la (B2R r) (B2R r')) as RN.
    assert (P2 : Rabs (rpiece i a a2 (read_at la (B2R r)) - rpiece i c c2 (read_at la (B2R r'))) <= 3 / 2 * L * Rabs (B2R r - B2R r')).
    { eapply Rle_trans; [exact P|]. apply Rmult_le_compat_l; [lra|exact RN]. }
    apply Rabs_le_inv in P2. apply Rabs_le_inv in V1. apply Rabs_le_inv in V2. apply Rabs_le. lra.
  - destruct ks as [|k [|k' ks]]; [destruct KO as ((k0 & l0 & Q & _) & _); discriminate Q| |cbn in H2; lia].
    assert (X : forall r x, on_knots eq line_rot [k] r x -> x = kt_value k).
    { intros s y [(k1 & l & Q & _ & V)|[(l & k1 & Q & _ & V)|(l & k1 & k2 & l' & Q & _)]].
      - injection Q as <- _. exact V.
      - destruct l as [|z [|z' l]]; [injection Q as <-; exact V|discriminate Q|discriminate Q].
      - destruct l as [|z [|z' l]]; discriminate Q. }
    rewrite (X _ _ ON), (X _ _ ON'). rewrite Rminus_eq_0, Rabs_R0.
    assert (0 < / 2 ^ 16) by (apply Rinv_0_lt_compat, pow_lt; lra).
    assert (0 <= 3 / 2 * L * Rabs (B2R r - B2R r')) by (apply Rmult_le_pos; [lra|apply Rabs_pos]). lra.
Qed.

Theorem C98_rotation_track_does_not_jump :
  forall m ord z div (machine o : Archive.endian) (io b : N) (content : Archive.track) (rest : list N) (ks : list (knot (quat f32))) (L : R),
    ArchiveSpec.endian_byte o b -> ArchiveSpec.track_ok Archive.TQuat content ->
    stored rot_words ks content -> knots_ok usable_rot ks -> speed_rot ks L ->
    exists loaded,
      Archive.load (Archive.track_from_archive Archive.TQuat) machine io (b :: ArchiveSpec.w_track o Archive.TQuat content ++ rest) = Ok (loaded, rest) /\
      forall r r', is_finite r = true -> is_finite r' = true ->
        exists x x', sample_run (lerp_quat m ord z div) q_identity (Some (track_of quat_of loaded)) r = Ok x /\
          sample_run (lerp_quat m ord z div) q_identity (Some (track_of quat_of loaded)) r' = Ok x' /\
          forall i, (i < 4)%nat -> Rabs (B2R (qcomp x i) - B2R (qcomp x' i)) <= 3 / 2 * L * Rabs (B2R r - B2R r') + / 2 ^ 16.
Proof.
  intros m ord z div machine o io b content rest ks L E TO ST KO SP.
  destruct (C96_rotation m ord z div machine o io b content rest ks E TO ST KO) as (loaded & LD & RUN). exists loaded. split; [exact LD|].
  intros r r' Fr Fr'. destruct (RUN r Fr) as (x & Ex & _ & ON). destruct (RUN r' Fr') as (x' & Ex' & _ & ON').
  exists x, x'. split; [exact Ex|]. split; [exact Ex'|]. intros i Hi. exact (rot_smooth ks r r' x x' L i Hi KO SP ON ON').
Qed.
Print Assumptions C98_rotation_track_does_not_jump.

(** ** Non-vacuity: from the identity to a third of a turn about the diagonal; from a file, by C96. *)
Definition turn2 : list (knot (quat f32)) :=
  [mk_knot nzero (Q4 nzero nzero nzero none_) false; mk_knot none_ (Q4 nhalf nhalf nhalf nhalf) false].
Example C98_rotation_track_hypotheses :
  knots_ok usable_rot turn2 /\ speed_rot turn2 1 /\
  exists content, ArchiveSpec.track_ok Archive.TQuat content /\ stored rot_words turn2 content.
Proof.
  assert (O : B2R (none_ : f32) = 1) by apply F32Err.fin_one. assert (Z : B2R (nzero : f32) = 0) by reflexivity. assert (H : B2R (nhalf : f32) = / 2) by (destruct BlendF32Props.fin_half as (_ & ->); lra).
  assert (N1 : norm2 (real4 (Q4 nzero nzero nzero none_)) = 1) by (change (B2R (nzero : f32) * B2R (nzero : f32) + B2R (nzero : f32) * B2R (nzero : f32) + B2R (nzero : f32) * B2R (nzero : f32) + B2R (none_ : f32) * B2R (none_ : f32) = 1); rewrite O, Z; ring).
  assert (N2 : norm2 (real4 (Q4 nhalf nhalf nhalf nhalf)) = 1) by (unfold norm2, real4; cbn [qx qy qz qw]; rewrite H; field).
  assert (KO : knots_ok usable_rot turn2).
  { split; [eexists; eexists; split; [reflexivity|vm_compute; reflexivity]|]. split; [reflexivity|]. split.
    - repeat (apply SSorted_cons; [|repeat (apply Forall_cons; [vm_compute; reflexivity|]); apply Forall_nil]). apply SSorted_nil.
    - apply Forall_cons; [|apply Forall_cons; [|apply Forall_nil]]; (split; [vm_compute; reflexivity|]); cbn [kt_value]; (split; [repeat split|]); [rewrite N1|rewrite N2];
        rewrite Rminus_eq_0, Rabs_R0; lra. }
  split; [exact KO|]. split.
  - split; [lra|]. split.
    + apply Forall_cons; [|apply Forall_cons; [|apply Forall_nil]]; cbn [kt_value kt_held]; (split; [reflexivity|]); [rewrite N1|rewrite N2];
        rewrite Rminus_eq_0, Rabs_R0; left; apply Rinv_0_lt_compat, pow_lt; lra.
    + intros x y l l' E. destruct l as [|u [|v l]]; [|destruct l'; discriminate E|destruct l; discriminate E].
      assert (Ex : nth 0 turn2 x = x) by exact (f_equal (fun l => nth 0 l x) E). assert (Ey : nth 1 turn2 x = y) by exact (f_equal (fun l => nth 1 l x) E).
      rewrite <- Ex, <- Ey. unfold turn2. cbn [nth].
      cbn [kt_value kt_time]. unfold qdot, qn, norm2, qsub, qadd, qscale, real4. cbn [qx qy qz qw]. rewrite O, Z, H. split; [lra|].
      rewrite <- (sqrt_square (1 * (1 - 0))) by lra. apply sqrt_le_1_alt. lra.
  - destruct (C96_every_track_has_a_file Archive.TQuat rot_words usable_rot turn2 (ArchiveSpec.ascii "turn"%string) (proj2 (proj2 words_fit)) KO) as (t & T1 & T2 & _).
    + apply ArchiveProofs.ascii_text. reflexivity.
    + vm_compute. reflexivity.
    + exists t. split; assumption.
Qed.
