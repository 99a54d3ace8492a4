(** C98, for user tracks: without held knots a sampled value does not jump. *)
From Coq Require Import String Reals Sorted Lra Lia.
From Flocq Require Import Core.Core IEEE754.BinarySingleNaN.
From Verif Require Import Base Num NumF32 F32Facts Math PoseProofs Tracks TracksSpec TracksF32 Loaded AuthorProofs TrackValues TrackValuesSpec KnotSpec KnotProps SmoothSpec SmoothProps.
From Verif Require Archive ArchiveSpec ArchiveProofs ArchiveExamples BlendF32Props F32Err.
Close Scope string_scope.
Local Open Scope R_scope.

Local Notation tm := (fun k : knot f32 => B2R (kt_time k)).
Definition fline (x y : knot f32) (s : R) : R :=
  B2R (kt_value x) + (B2R (kt_value y) - B2R (kt_value x)) * ((s - B2R (kt_time x)) / (B2R (kt_time y) - B2R (kt_time x))).

Lemma fline_start (x y : knot f32) : fline x y (B2R (kt_time x)) = B2R (kt_value x).
Proof. unfold fline, Rminus at 2. rewrite Rplus_opp_r. unfold Rdiv. ring. Qed.
Lemma fline_end (x y : knot f32) : B2R (kt_time x) < B2R (kt_time y) -> fline x y (B2R (kt_time y)) = B2R (kt_value y).
Proof. intros H. apply Rlt_Rminus in H. unfold fline, Rdiv. rewrite Rinv_r by (apply Rgt_not_eq; exact H). ring. Qed.
Lemma zero_time (x : f32) : neq x nzero = true -> is_finite x = true /\ B2R x = 0.
Proof. destruct x as [s|s| |s m e b]; intros Z; [split; reflexivity|destruct s; discriminate Z|discriminate Z|destruct s; discriminate Z]. Qed.
Lemma knots_fin {V} {good : V -> Prop} (ks : list (knot V)) : knots_ok good ks -> forall k : knot V, In k ks -> is_finite (kt_time k) = true /\ 0 <= B2R (kt_time k).
Proof.
  intros ((k0 & l & -> & Z) & _ & S & F) k Hk. rewrite Forall_forall in F. destruct (F k Hk) as (O & _).
  destruct (zero_time _ Z) as (F0 & Z0).
  destruct Hk as [<-|Hk]; [rewrite Z0; split; [exact F0|lra]|].
  apply StronglySorted_inv in S. destruct S as (_ & S). rewrite Forall_forall in S. specialize (S k Hk).
  assert (N : nle nzero (kt_time k) = true).
  { apply nlt_nle. apply Bltb_iff. apply Bltb_iff in S. rewrite (ext_finite (kt_time k0)) in S by exact F0. rewrite Z0 in S.
    split; [reflexivity|]. split; [apply S|]. rewrite (ext_finite (nzero : f32)) by reflexivity. change (B2R (nzero : f32)) with 0. apply S. }
  destruct (unit_fin _ N O) as (A & B). split; [exact A|apply B].
Qed.

Lemma knots_forward {V} {good : V -> Prop} (ks : list (knot V)) : knots_ok good ks -> forward (fun k : knot V => B2R (kt_time k)) ks.
Proof.
  intros KO x y (l & l' & E). destruct (knots_fin ks KO x) as (Fx & _); [rewrite E; apply in_or_app; right; left; reflexivity|].
  destruct (knots_fin ks KO y) as (Fy & _); [rewrite E; apply in_or_app; right; right; left; reflexivity|].
  destruct KO as (_ & _ & S & _). apply nlt_fin; [assumption..|]. rewrite E in S. clear -S. induction l as [|a l IH].
  - apply StronglySorted_inv in S. destruct S as (_ & F). apply Forall_inv in F. exact F.
  - apply StronglySorted_inv in S. apply IH, S.
Qed.
(** The last knot is the latest. *)
Lemma last_latest {V} {good : V -> Prop} (ks l : list (knot V)) (k : knot V) : knots_ok good ks -> ks = l ++ [k] -> forall x : knot V, In x ks -> B2R (kt_time x) <= B2R (kt_time k).
Proof.
  intros KO E x Hx. destruct (knots_fin ks KO x Hx) as (Fx & _).
  destruct (knots_fin ks KO k) as (Fk & _); [rewrite E; apply in_or_app; right; left; reflexivity|].
  destruct KO as (_ & _ & S & _). rewrite E in S, Hx. apply in_app_or in Hx. destruct Hx as [Hx|[->|[]]]; [|lra].
  apply Rlt_le, nlt_fin; [assumption..|]. clear -S Hx. induction l as [|a l IH]; [destruct Hx|].
  apply StronglySorted_inv in S. destruct S as (S & F). destruct Hx as [->|Hx]; [|apply IH; assumption].
  rewrite Forall_forall in F. apply F. apply in_or_app. right. left. reflexivity.
Qed.

(** The time at which a track of several knots is read. *)
Definition read_at (last r : R) : R := Rmin (Rmax r 0) last.
Lemma read_near last r r' : Rabs (read_at last r - read_at last r') <= Rabs (r - r').
Proof.
  unfold read_at, Rmin, Rmax. repeat destruct (Rle_dec _ _); unfold Rabs; repeat destruct (Rcase_abs _); lra.
Qed.
Lemma if_false (h : bool) (A B : Prop) : h = false -> (if h then A else B) -> B.
Proof. intros ->. exact (fun x => x). Qed.
Lemma read_low last r t : t = 0 -> 0 <= last -> r < 0 -> read_at last r = t.
Proof. intros -> H1 H2. unfold read_at. rewrite Rmax_right by lra. apply Rmin_left, H1. Qed.
Lemma read_high last r : 0 <= last -> last <= r -> read_at last r = last.
Proof. intros H1 H2. unfold read_at. rewrite Rmax_left by lra. apply Rmin_right, H2. Qed.
Lemma read_mid last r t t' : 0 <= t -> t <= r < t' -> t' <= last -> read_at last r = r.
Proof. intros H1 H2 H3. unfold read_at. rewrite Rmax_left by lra. apply Rmin_left. lra. Qed.
(** The straight line, to within 2^-20 of the larger value and [tiny]. *)
Definition line_to (tiny : R) (v w : f32) (k : R) (x : f32) : Prop := near_line tiny (B2R v) (B2R w) k (B2R x).
Lemma located (tiny : R) (ks : list (knot f32)) (r x : f32) L M : 0 <= tiny -> knots_ok good_float ks -> speed_float ks L -> Forall (fun k : knot f32 => Rabs (B2R (kt_value k)) <= M) ks -> (2 <= length ks)%nat ->
  on_knots (fun x v => B2R x = B2R v) (line_to tiny) ks r x ->
  exists a b : knot f32, adj ks a b /\ let s := read_at (B2R (kt_time (last ks (mk_knot nzero nzero false)))) (B2R r) in
    B2R (kt_time a) <= s <= B2R (kt_time b) /\ Rabs (B2R x - fline a b s) <= M / 2 ^ 20 + tiny.
Proof.
  intros T KO (L0 & NH & SP) HM H2 ON. pose proof (knots_forward ks KO) as FW.
  assert (T20 : 0 < / 2 ^ 20) by (apply Rinv_0_lt_compat, pow_lt; lra).
  assert (HLAST : exists l k, ks = l ++ [k] /\ last ks (mk_knot nzero nzero false) = k).
  { destruct (exists_last (l := ks)) as (l & k & E); [intros ->; cbn in H2; lia|]. exists l, k. split; [exact E|]. rewrite E. apply last_last. }
  destruct HLAST as (ll & kl & EL & ->). cbv zeta.
  assert (INL : In kl ks) by (rewrite EL; apply in_or_app; right; left; reflexivity).
  destruct (knots_fin ks KO kl INL) as (_ & PL).
  assert (M0 : 0 <= M). { rewrite Forall_forall in HM. exact (Rle_trans _ _ _ (Rabs_pos _) (HM _ INL)). }
  assert (ERR : 0 <= M / 2 ^ 20 + tiny). { unfold Rdiv. assert (0 <= M * / 2 ^ 20) by (apply Rmult_le_pos; lra). lra. }
  destruct ON as [(k & l & E & Hr & V)|[(l & k & E & Hr & V)|(l & k & k' & l' & E & Hr & V)]].
  - destruct l as [|k' l]; [rewrite E in H2; cbn in H2; lia|]. exists k, k'.
    assert (AD : adj ks k k') by (exists [], l; exact E). assert (LT : B2R (kt_time k) < B2R (kt_time k')) by exact (FW _ _ AD).
    assert (Z : B2R (kt_time k) = 0).
    { destruct KO as ((k0 & l0 & E0 & Z) & _). rewrite E in E0. injection E0 as <- <-. apply (zero_time _ Z). }
    assert (RA : read_at (B2R (kt_time kl)) (B2R r) = B2R (kt_time k)) by exact (read_low _ _ _ Z PL Hr).
    split; [exact AD|]. rewrite RA. split; [split; [apply Rle_refl|apply Rlt_le, LT]|]. rewrite fline_start, V, Rminus_eq_0, Rabs_R0. exact ERR.
  - assert (k = kl) by (rewrite EL in E; apply app_inj_tail in E; destruct E as (_ & ->); reflexivity). subst k.
    assert (PR : exists l1 j, l = l1 ++ [j]).
    { destruct (exists_last (l := l)) as (l1 & j & E1); [intros ->; rewrite E in H2; cbn in H2; lia|]. exists l1, j. exact E1. }
    destruct PR as (l1 & j & ->). exists j, kl.
    assert (AD : adj ks j kl) by (exists l1, []; rewrite E, <- app_assoc; reflexivity). assert (LT : B2R (kt_time j) < B2R (kt_time kl)) by exact (FW _ _ AD).
    assert (RA : read_at (B2R (kt_time kl)) (B2R r) = B2R (kt_time kl)) by exact (read_high _ _ PL Hr).
    split; [exact AD|]. rewrite RA. split; [split; [apply Rlt_le, LT|apply Rle_refl]|]. rewrite (fline_end j kl LT), V, Rminus_eq_0, Rabs_R0. exact ERR.
  - exists k, k'. assert (AD : adj ks k k') by (exists l, l'; exact E). assert (LT : B2R (kt_time k) < B2R (kt_time k')) by exact (FW _ _ AD).
    assert (IK : In k ks) by (rewrite E; apply in_or_app; right; left; reflexivity).
    assert (IK' : In k' ks) by (rewrite E; apply in_or_app; right; right; left; reflexivity).
    destruct (knots_fin ks KO k IK) as (_ & PK). pose proof (last_latest ks ll kl KO EL k' IK') as LK.
    assert (RA : read_at (B2R (kt_time kl)) (B2R r) = B2R r) by exact (read_mid _ _ _ _ PK Hr LK).
    split; [exact AD|]. rewrite RA. split; [split; [apply Hr|apply Rlt_le, Hr]|]. rewrite Forall_forall in NH, HM. pose proof (if_false _ _ _ (NH k IK) V) as (V' & _).
    eapply Rle_trans; [exact V'|]. apply Rplus_le_compat_r. unfold Rdiv. apply Rmult_le_compat_r; [lra|].
    apply Rmax_lub; apply HM; assumption.
Qed.

Lemma on_knots_smooth (tiny : R) (ks : list (knot f32)) (r r' x x' : f32) L M : 0 <= tiny -> knots_ok good_float ks -> speed_float ks L ->
  Forall (fun k : knot f32 => Rabs (B2R (kt_value k)) <= M) ks ->
  on_knots (fun x v => B2R x = B2R v) (line_to tiny) ks r x -> on_knots (fun x v => B2R x = B2R v) (line_to tiny) ks r' x' ->
  Rabs (B2R x - B2R x') <= L * Rabs (B2R r - B2R r') + 2 * (M / 2 ^ 20 + tiny).
Proof.
  intros T KO SP HM ON ON'.
  assert (L0 : 0 <= L) by apply SP.
  destruct (le_lt_dec 2 (length ks)) as [H2|H2].
  - destruct (located tiny ks r x L M T KO SP HM H2 ON) as (a & a2 & A & S1 & V1). destruct (located tiny ks r' x' L M T KO SP HM H2 ON') as (c & c2 & C & S2 & V2).
    set (la := B2R (kt_time (last ks (mk_knot nzero nzero false)))) in *. cbv zeta in *.
    pose proof (knots_forward ks KO) as FW.
    assert (P : Rabs (fline a a2 (read_at la (B2R r)) - fline c c2 (read_at la (B2R r'))) <= L * Rabs (read_at la (B2R r) - read_at la (B2R r'))).
    { apply (chain tm fline L ks FW); try assumption.
      - intros u v Q s s' _ _. assert (LT : B2R (kt_time u) < B2R (kt_time v)) by exact (FW _ _ Q). destruct Q as (l & l' & Q). destruct SP as (_ & _ & SP). specialize (SP u v l l' Q).
        unfold fline. set (D := B2R (kt_time v) - B2R (kt_time u)) in *. assert (DP : 0 < D) by (unfold D; lra).
        set (k := B2R (kt_value v) - B2R (kt_value u)) in *.
        replace (B2R (kt_value u) + k * ((s - B2R (kt_time u)) / D) - (B2R (kt_value u) + k * ((s' - B2R (kt_time u)) / D))) with (k * / D * (s - s')) by (unfold Rdiv; ring).
        rewrite Rabs_mult. apply Rmult_le_compat_r; [apply Rabs_pos|]. rewrite Rabs_mult, (Rabs_pos_eq (/ D)) by (left; apply Rinv_0_lt_compat, DP).
        replace L with (L * D * / D) by (field; apply Rgt_not_eq; exact DP). apply Rmult_le_compat_r; [left; apply Rinv_0_lt_compat, DP|exact SP].
      - intros u v w l l' Q. assert (LT : B2R (kt_time u) < B2R (kt_time v)) by (apply FW; exists l, (w :: l'); exact Q).
        rewrite (fline_end u v LT). symmetry. apply fline_start. }
    pose proof (read_near la (B2R r) (B2R r')) as RN.
    assert (P2 : Rabs (fline a a2 (read_at la (B2R r)) - fline c c2 (read_at la (B2R r'))) <= L * Rabs (B2R r - B2R r')).
    { eapply Rle_trans; [exact P|]. apply Rmult_le_compat_l; assumption. }
    apply Rabs_le_inv in P2. apply Rabs_le_inv in V1. apply Rabs_le_inv in V2. apply Rabs_le. lra.
  - destruct ks as [|k [|k' ks]]; [destruct KO as ((k0 & l0 & Q & _) & _); discriminate Q| |cbn in H2; lia].
    assert (X : forall r x, on_knots (fun x v => B2R x = B2R v) (line_to tiny) [k] r x -> B2R x = B2R (kt_value k)).
    { intros s y [(k1 & l & Q & _ & V)|[(l & k1 & Q & _ & V)|(l & k1 & k2 & l' & Q & _)]].
      - injection Q as <- _. exact V.
      - destruct l as [|z [|z' l]]; [injection Q as <-; exact V|discriminate Q|discriminate Q].
      - destruct l as [|z [|z' l]]; discriminate Q. }
    rewrite (X _ _ ON), (X _ _ ON'). rewrite Rminus_eq_0, Rabs_R0.
    assert (M0 : 0 <= M). { apply Forall_inv in HM. exact (Rle_trans _ _ _ (Rabs_pos _) HM). }
    assert (0 < / 2 ^ 20) by (apply Rinv_0_lt_compat, pow_lt; lra).
    assert (0 <= L * Rabs (B2R r - B2R r')) by (apply Rmult_le_pos; [exact L0|apply Rabs_pos]).
    assert (0 <= M / 2 ^ 20) by (unfold Rdiv; apply Rmult_le_pos; lra). lra.
Qed.

Theorem C98_track_does_not_jump :
  forall (machine o : Archive.endian) (io b : N) (content : Archive.track) (rest : list N) (ks : list (knot f32)) (L M : R),
    ArchiveSpec.endian_byte o b -> ArchiveSpec.track_ok Archive.TFloat content ->
    stored float_words ks content -> knots_ok good_float ks ->
    speed_float ks L -> Forall (fun k : knot f32 => Rabs (B2R (kt_value k)) <= M) ks ->
    exists loaded,
      Archive.load (Archive.track_from_archive Archive.TFloat) machine io (b :: ArchiveSpec.w_track o Archive.TFloat content ++ rest) = Ok (loaded, rest) /\
      forall r r', is_finite r = true -> is_finite r' = true ->
        exists x x', sample_run lerp_f nzero (Some (track_of float_of loaded)) r = Ok x /\
          sample_run lerp_f nzero (Some (track_of float_of loaded)) r' = Ok x' /\
          Rabs (B2R x - B2R x') <= L * Rabs (B2R r - B2R r') + 2 * (M / 2 ^ 20 + / 2 ^ 149).
Proof.
  intros machine o io b content rest ks L M E TO ST KO SP HM.
  destruct (C96_float machine o io b content rest ks E TO ST KO) as (loaded & LD & RUN). exists loaded. split; [exact LD|].
  intros r r' Fr Fr'. destruct (RUN r Fr) as (x & Ex & _ & ON). destruct (RUN r' Fr') as (x' & Ex' & _ & ON').
  exists x, x'. split; [exact Ex|]. split; [exact Ex'|].
  apply (on_knots_smooth (/ 2 ^ 149) ks); try assumption. left. apply Rinv_0_lt_compat, pow_lt. lra.
Qed.
Print Assumptions C98_track_does_not_jump.

(** ** Tracks of vectors: every component *)
Lemma sorted_map {A B} (f : A -> B) (P : A -> A -> Prop) (Q : B -> B -> Prop) l : (forall x y, P x y -> Q (f x) (f y)) -> StronglySorted P l -> StronglySorted Q (map f l).
Proof.
  intros H S. induction S as [|a l S IH F]; [apply SSorted_nil|]. cbn [map]. apply SSorted_cons; [exact IH|].
  apply Forall_map. eapply Forall_impl; [|exact F]. intros b. apply H.
Qed.
Lemma usable_nth n c (v : list f32) : usable_vec n v -> (c < n)%nat -> good_float (nth c v nzero).
Proof. intros (Lv & U) Hc. apply (U c). apply nth_error_nth'. rewrite Lv. exact Hc. Qed.
Lemma component_ok n c (ks : list (knot (list f32))) : (c < n)%nat -> knots_ok (usable_vec n) ks -> knots_ok good_float (component c ks).
Proof.
  intros Hc ((k & l & -> & Z) & N1 & S & F). split; [|split; [|split]].
  - eexists. eexists. split; [reflexivity|]. exact Z.
  - unfold component. rewrite map_length. exact N1.
  - unfold component. eapply sorted_map; [|exact S]. intros x y H. exact H.
  - unfold component. apply Forall_map. eapply Forall_impl; [|exact F]. intros x (H1 & H2). cbn [kt_time kt_value]. split; [exact H1|]. apply (usable_nth n); assumption.
Qed.
Lemma component_on n c (ks : list (knot (list f32))) (r : f32) (x : list f32) : (c < n)%nat -> knots_ok (usable_vec n) ks ->
  on_knots eq line_vec ks r x ->
  on_knots (fun x v => B2R x = B2R v) (line_to (/ 2 ^ 148)) (component c ks) r (nth c x nzero).
Proof.
  intros Hc (_ & _ & _ & F) ON.
  destruct ON as [(k & l & -> & Hr & ->)|[(l & k & -> & Hr & ->)|(l & k & k' & l' & -> & Hr & V)]].
  - left. eexists. eexists. split; [reflexivity|]. split; [exact Hr|]. reflexivity.
  - right. left. exists (component c l). eexists. unfold component. rewrite map_app. split; [reflexivity|]. split; [exact Hr|]. reflexivity.
  - right. right. exists (component c l). eexists. eexists. exists (component c l'). unfold component. rewrite map_app. cbn [map]. split; [reflexivity|].
    cbn [kt_time kt_value kt_held]. split; [exact Hr|].
    rewrite Forall_forall in F.
    destruct (F k) as (_ & Lk & _); [apply in_or_app; right; left; reflexivity|].
    destruct (F k') as (_ & Lk' & _); [apply in_or_app; right; right; left; reflexivity|].
    destruct (kt_held k); [rewrite V; reflexivity|]. destruct V as (Lx & V).
    apply (V c); apply nth_error_nth'; [rewrite Lx, Lk|rewrite Lk|rewrite Lk']; exact Hc.
Qed.

Theorem C98_vector_track_does_not_jump :
  forall m (n : nat) (kind : Archive.track_kind) (machine o : Archive.endian) (io b : N) (content : Archive.track) (rest : list N) (ks : list (knot (list f32))),
    vec_kind n = Some kind ->
    ArchiveSpec.endian_byte o b -> ArchiveSpec.track_ok kind content ->
    stored vec_words ks content -> knots_ok (usable_vec n) ks ->
    exists loaded,
      Archive.load (Archive.track_from_archive kind) machine io (b :: ArchiveSpec.w_track o kind content ++ rest) = Ok (loaded, rest) /\
      forall r r', is_finite r = true -> is_finite r' = true ->
        exists x x', sample_run (lerp_vec m) (vec_default n) (Some (track_of vec_of loaded)) r = Ok x /\
          sample_run (lerp_vec m) (vec_default n) (Some (track_of vec_of loaded)) r' = Ok x' /\
          length x = n /\ length x' = n /\
          forall c L M, (c < n)%nat -> speed_float (component c ks) L ->
            Forall (fun k : knot f32 => Rabs (B2R (kt_value k)) <= M) (component c ks) ->
            Rabs (B2R (nth c x nzero) - B2R (nth c x' nzero)) <= L * Rabs (B2R r - B2R r') + 2 * (M / 2 ^ 20 + / 2 ^ 148).
Proof.
  intros m n kind machine o io b content rest ks K E TO ST KO.
  destruct (C96_vector m n kind machine o io b content rest ks K E TO ST KO) as (loaded & LD & RUN). exists loaded. split; [exact LD|].
  intros r r' Fr Fr'. destruct (RUN r Fr) as (x & Ex & Lx & _ & ON). destruct (RUN r' Fr') as (x' & Ex' & Lx' & _ & ON').
  exists x, x'. repeat (split; [assumption|]). intros c L M Hc SP HM.
  apply (on_knots_smooth (/ 2 ^ 148) (component c ks)); try assumption.
  - left. apply Rinv_0_lt_compat, pow_lt. lra.
  - apply (component_ok n); assumption.
  - apply (component_on n); assumption.
  - apply (component_on n); assumption.
Qed.
Print Assumptions C98_vector_track_does_not_jump.

(** ** Non-vacuity: 0 at time 0, 1 at 1/2, 0 at 1; from a file, by C96. *)
Definition tent : list (knot f32) := [mk_knot nzero nzero false; mk_knot nhalf none_ false; mk_knot none_ nzero false].
Example C98_track_hypotheses :
  knots_ok good_float tent /\ speed_float tent 2 /\ Forall (fun k : knot f32 => Rabs (B2R (kt_value k)) <= 1) tent /\
  exists content, ArchiveSpec.track_ok Archive.TFloat content /\ stored float_words tent content.
Proof.
  destruct F32Err.fin_one as (_ & O). assert (Z : B2R (nzero : f32) = 0) by reflexivity. destruct BlendF32Props.fin_half as (_ & H).
  assert (F : forall h, In h [none_; nzero] -> is_finite (h : f32) = true /\ Rabs (B2R h) <= 1).
  { intros h [<-|[<-|[]]]; (split; [reflexivity|]); [rewrite O, Rabs_pos_eq; lra|rewrite Z, Rabs_R0; lra]. }
  assert (P : 1 <= 2 ^ 100) by (apply pow_R1_Rle; lra).
  assert (KO : knots_ok good_float tent).
  { split; [exists (mk_knot nzero nzero false); eexists; split; [reflexivity|vm_compute; reflexivity]|]. split; [reflexivity|]. split.
    - repeat (apply SSorted_cons; [|repeat (apply Forall_cons; [vm_compute; reflexivity|]); apply Forall_nil]). apply SSorted_nil.
    - assert (G : forall h, In h [none_; nzero] -> good_float h) by (intros h Hh; destruct (F h Hh) as (F1 & F2); split; [exact F1|eapply Rle_trans; [exact F2|exact P]]).
      repeat (apply Forall_cons; [split; [vm_compute; reflexivity|apply G; cbn; auto]|]). apply Forall_nil. }
  split; [exact KO|]. split; [|split].
  - split; [lra|]. split; [repeat constructor|]. intros x y l l' E.
    assert (Q : (x = mk_knot nzero nzero false /\ y = mk_knot nhalf none_ false) \/ (x = mk_knot nhalf none_ false /\ y = mk_knot none_ nzero false)).
    { destruct l as [|z l]; [injection E as <- <- _; left; split; reflexivity|]. injection E as _ E.
      apply two_knots in E. destruct E as (-> & ->). right. split; reflexivity. }
    destruct Q as [(-> & ->)|(-> & ->)]; cbn [kt_time kt_value]; rewrite O, Z, H; [rewrite Rabs_pos_eq by lra|rewrite Rabs_left1 by lra]; lra.
  - repeat (apply Forall_cons; [apply F; cbn; auto|]). apply Forall_nil.
  - destruct (C96_every_track_has_a_file Archive.TFloat float_words good_float tent (ArchiveSpec.ascii "tent"%string) (proj1 words_fit) KO) as (t & T1 & T2 & _).
    + apply ArchiveProofs.ascii_text. reflexivity.
    + vm_compute. reflexivity.
    + exists t. split; assumption.
Qed.
(** The same tent in three components. *)
Definition tent3 : list (knot (list f32)) := map (fun k : knot f32 => mk_knot (kt_time k) [kt_value k; kt_value k; kt_value k] false) tent.
Example C98_vector_track_hypotheses :
  knots_ok (usable_vec 3) tent3 /\ (forall c, (c < 3)%nat -> component c tent3 = tent) /\
  exists content, ArchiveSpec.track_ok Archive.TFloat3 content /\ stored vec_words tent3 content.
Proof.
  destruct C98_track_hypotheses as ((K1 & K2 & K3 & K4) & _).
  assert (KO : knots_ok (usable_vec 3) tent3).
  { split; [eexists; eexists; split; [reflexivity|vm_compute; reflexivity]|]. split; [exact K2|]. split.
    - unfold tent3. eapply sorted_map; [|exact K3]. intros x y H. exact H.
    - unfold tent3. apply Forall_map. eapply Forall_impl; [|exact K4]. intros k (A & B). cbn [kt_time kt_value]. split; [exact A|].
      split; [reflexivity|]. intros [|[|[|c]]] x Hx; cbn in Hx; try (injection Hx as <-; exact B). destruct c; discriminate Hx. }
  split; [exact KO|]. split; [intros [|[|[|c]]] Hc; [reflexivity..|lia]|].
  destruct (C96_every_track_has_a_file Archive.TFloat3 vec_words (usable_vec 3) tent3 (ArchiveSpec.ascii "tent"%string) (proj1 (proj2 words_fit) 3%nat Archive.TFloat3 eq_refl) KO) as (t & T1 & T2 & _).
  - apply ArchiveProofs.ascii_text. reflexivity.
  - vm_compute. reflexivity.
  - exists t. split; assumption.
Qed.
