(** C98: playback does not jump. *)
From Coq Require Import Reals Sorted Lra Lia Psatz.
From Flocq Require Import Core.Core IEEE754.BinarySingleNaN.
From Verif Require Import Base Num NumF32 F32Facts Math Keys KeysSpec Sampling SamplingSpec SamplingHist SamplingProps.
From Verif Require Import PoseSpec PoseProofs PoseProps AuthorSpec AuthorProofs AuthorFile AuthorProps Loaded SmoothSpec.
From Verif Require Archive ArchiveSpec ArchiveProps.
Local Open Scope R_scope.

(** ** A curve made of pieces that join *)
Section Chain.
  Context {A : Type} (tm : A -> R) (g : A -> A -> R -> R) (L : R).
  Definition adj (c : list A) (x y : A) : Prop := exists l l', c = l ++ x :: y :: l'.
  Definition forward (c : list A) : Prop := forall x y, adj c x y -> tm x < tm y.
  Definition gentle_pieces (c : list A) : Prop := forall x y, adj c x y -> forall s s', tm x <= s <= tm y -> tm x <= s' <= tm y ->
    Rabs (g x y s - g x y s') <= L * Rabs (s - s').
  Definition glued (c : list A) : Prop := forall x y z l l', c = l ++ x :: y :: z :: l' -> g x y (tm y) = g y z (tm y).

  Lemma adj_tail a c x y : adj c x y -> adj (a :: c) x y.
  Proof using. intros (l & l' & ->). exists (a :: l), l'. reflexivity. Qed.
  Lemma adj_cons a b c x y : adj (a :: b :: c) x y -> (x = a /\ y = b) \/ adj (b :: c) x y.
  Proof using.
    intros ([|z l] & l' & E).
    - injection E as -> -> _. left. split; reflexivity.
    - injection E as _ E. right. exists l, l'. exact E.
  Qed.
  Lemma adj_one a x y : ~ adj [a] x y.
  Proof using. intros ([|z [|z' l]] & l' & E); discriminate E. Qed.
  Lemma forward_later c : forall b x y, forward (b :: c) -> adj (b :: c) x y -> tm b <= tm x.
  Proof using.
    induction c as [|d c IH]; intros b x y F H; [destruct (adj_one _ _ _ H)|].
    destruct (adj_cons _ _ _ _ _ H) as [(-> & _)|H']; [lra|].
    assert (tm b < tm d) by (apply F; exists [], c; reflexivity).
    assert (tm d <= tm x) by (apply (IH d x y); [intros u v Huv; apply F, adj_tail, Huv|exact H']). lra.
  Qed.
  Lemma chain c : forward c -> gentle_pieces c -> glued c -> forall x y x' y' r r', adj c x y -> adj c x' y' -> tm x <= r <= tm y -> tm x' <= r' <= tm y' ->
    Rabs (g x y r - g x' y' r') <= L * Rabs (r - r').
  Proof using.
    induction c as [|a c IH]; intros F P G x y x' y' r r' H H' Hr Hr'; [destruct H as ([|? ?] & ? & E); discriminate E|].
    destruct c as [|b c]; [destruct (adj_one _ _ _ H)|].
    assert (F' : forward (b :: c)) by (intros u v Q; apply F, adj_tail, Q).
    assert (P' : gentle_pieces (b :: c)) by (intros u v Q; apply P, adj_tail, Q).
    assert (G' : glued (b :: c)) by (intros u v w l l' E; apply (G u v w (a :: l) l'); rewrite E; reflexivity).
    assert (AB : adj (a :: b :: c) a b) by (exists [], c; reflexivity).
    assert (MIX : forall u v s s', adj (b :: c) u v -> tm a <= s <= tm b -> tm u <= s' <= tm v -> Rabs (g a b s - g u v s') <= L * Rabs (s - s')).
    { intros u v s s' Q Hs Hs'. pose proof (forward_later c b u v F' Q) as LT.
      destruct c as [|d c]; [destruct (adj_one _ _ _ Q)|].
      assert (BD : adj (b :: d :: c) b d) by (exists [], c; reflexivity). pose proof (F' _ _ BD). pose proof (F _ _ AB).
      pose proof (P a b AB s (tm b) Hs ltac:(lra)) as E1. rewrite (G a b d [] c eq_refl) in E1.
      pose proof (IH F' P' G' b d u v (tm b) s' BD Q ltac:(lra) Hs') as E2.
      rewrite (Rabs_left1 (s - tm b)) in E1 by lra. rewrite (Rabs_left1 (tm b - s')) in E2 by lra. rewrite (Rabs_left1 (s - s')) by lra.
      apply Rabs_le_inv in E1. apply Rabs_le_inv in E2. apply Rabs_le. lra. }
    destruct (adj_cons _ _ _ _ _ H) as [(-> & ->)|Q], (adj_cons _ _ _ _ _ H') as [(-> & ->)|Q'].
    - apply P; assumption.
    - apply MIX; assumption.
    - rewrite Rabs_minus_sym, (Rabs_minus_sym r). apply MIX; assumption.
    - apply IH; assumption.
  Qed.
End Chain.

(** ** Authored curves go forward *)
Lemma sorted_below l : StronglySorted lt l -> forall i, (i < length l)%nat -> (nth i l 0 <= nth (length l - 1) l 0)%nat.
Proof.
  induction 1 as [|a l HS IH F]; intros i Hi; [cbn in Hi; lia|].
  destruct l as [|b l]; [destruct i; [cbn; lia|cbn in Hi; lia]|].
  replace (length (a :: b :: l) - 1)%nat with (S (length (b :: l) - 1)) by (cbn; lia). cbn [nth].
  destruct i as [|i]; [|apply IH; cbn in *; lia]. rewrite Forall_forall in F.
  assert (In (nth (length (b :: l) - 1) (b :: l) 0%nat) (b :: l)) as I by (apply nth_In; cbn; lia). apply F in I. apply Nat.lt_le_incl. exact I.
Qed.
Lemma curve_adj times track x y : adj (curve times track) x y ->
  exists u v, adj track u v /\ x = (nth (fst u) times nzero, snd u) /\ y = (nth (fst v) times nzero, snd v).
Proof.
  intros (l & l' & E). unfold curve in E. apply map_eq_app in E. destruct E as (l1 & l2 & -> & _ & E).
  apply map_eq_cons in E. destruct E as (u & l3 & -> & <- & E). apply map_eq_cons in E. destruct E as (v & l4 & -> & <- & _).
  exists u, v. split; [exists l1, l4; reflexivity|]. split; reflexivity.
Qed.
Lemma times_fin times i : times_ok times -> (i < length times)%nat -> is_finite (nth i times nzero) = true.
Proof.
  intros (T0 & T1 & _ & TS) Hi.
  assert (Z : nle nzero (nth i times nzero) = true).
  { destruct i as [|i]; [rewrite T0; reflexivity|]. pose proof (TS 0%nat (S i) ltac:(lia) Hi) as Q. rewrite T0 in Q. apply nlt_nle, Q. }
  assert (O : nle (nth i times nzero) none_ = true).
  { destruct (Nat.eq_dec i (length times - 1)) as [->|N]; [rewrite T1; reflexivity|]. pose proof (TS i (length times - 1)%nat ltac:(lia) ltac:(lia)) as Q. rewrite T1 in Q. apply nlt_nle, Q. }
  apply (unit_fin _ Z O).
Qed.
Lemma curve_forward times track : times_ok times -> track_ok times track -> forward (fun x : f32 * key => B2R (fst x)) (curve times track).
Proof.
  intros TO (Hl & _ & HE & HS) x y H. destruct (curve_adj _ _ _ _ H) as (u & v & (l & l' & E) & -> & ->). cbn [fst].
  assert (B : forall w, In w track -> (fst w <= length times - 1)%nat).
  { intros w Hw. destruct (In_nth _ _ (0%nat, key0) Hw) as (i & Hi & <-). rewrite <- HE.
    pose proof (sorted_below (map fst track) HS i ltac:(rewrite map_length; exact Hi)) as Q. rewrite map_length in Q.
    change 0%nat with (fst (0%nat, key0)) in Q. rewrite !map_nth in Q. exact Q. }
  assert (LT : (fst u < fst v)%nat).
  { rewrite E, map_app in HS. cbn [map] in HS. clear -HS. induction (map fst l) as [|a q IH].
    - apply StronglySorted_inv in HS. destruct HS as (_ & F). apply Forall_inv in F. exact F.
    - apply StronglySorted_inv in HS. apply IH, HS. }
  assert (Bv : (fst v <= length times - 1)%nat) by (apply B; rewrite E; apply in_or_app; right; right; left; reflexivity).
  apply nlt_fin; [apply times_fin; [exact TO|lia]|apply times_fin; [exact TO|lia]|]. apply TO; lia.
Qed.

(** ** Straight lines *)
Definition share (x y : f32 * key) (s : R) : R := (s - B2R (fst x)) / (B2R (fst y) - B2R (fst x)).
Lemma share_start (x y : f32 * key) : share x y (B2R (fst x)) = 0.
Proof. unfold share. replace (B2R (fst x) - B2R (fst x)) with 0 by ring. unfold Rdiv. ring. Qed.
Lemma share_end (x y : f32 * key) : B2R (fst x) < B2R (fst y) -> share x y (B2R (fst y)) = 1.
Proof. intros H. unfold share, Rdiv. apply Rinv_r, Rgt_not_eq. lra. Qed.
Lemma share_diff (x y : f32 * key) s s' : share x y s - share x y s' = (s - s') / (B2R (fst y) - B2R (fst x)).
Proof. unfold share, Rdiv. ring. Qed.
Lemma share_range (x y : f32 * key) s : B2R (fst x) < B2R (fst y) -> B2R (fst x) <= s <= B2R (fst y) -> 0 <= share x y s <= 1.
Proof.
  intros H Hs. unfold share. split; [apply Rmult_le_pos; [lra|left; apply Rinv_0_lt_compat; lra]|].
  apply (Rmult_le_reg_r (B2R (fst y) - B2R (fst x))); [lra|]. unfold Rdiv. rewrite Rmult_assoc, Rinv_l by (apply Rgt_not_eq; lra). lra.
Qed.
(** A chord [k] of at most [L] per unit of time. *)
Lemma chord (x y : f32 * key) s s' L k : B2R (fst x) < B2R (fst y) -> 0 <= k -> k <= L * (B2R (fst y) - B2R (fst x)) ->
  k * Rabs (share x y s - share x y s') <= L * Rabs (s - s').
Proof.
  intros H K HL. rewrite share_diff. unfold Rdiv. rewrite Rabs_mult, (Rabs_pos_eq (/ _)) by (left; apply Rinv_0_lt_compat; lra).
  set (D := B2R (fst y) - B2R (fst x)) in *. assert (0 < D) by (unfold D; lra). pose proof (Rabs_pos (s - s')).
  replace (L * Rabs (s - s')) with (L * D * (Rabs (s - s') * / D)) by (field; apply Rgt_not_eq; lra).
  apply Rmult_le_compat_r; [apply Rmult_le_pos; [lra|left; apply Rinv_0_lt_compat; lra]|exact HL].
Qed.
Definition line3 (i : nat) (x y : f32 * key) (s : R) : R :=
  half_value (coord (snd x) i) + (half_value (coord (snd y) i) - half_value (coord (snd x) i)) * share x y s.
Lemma smooth3 c r r' v v' L M : forward (fun x : f32 * key => B2R (fst x)) c -> speed3 c L -> within3 c M ->
  on_curve3 c r v -> on_curve3 c r' v' -> forall i, (i < 3)%nat ->
  Rabs (B2R (coord v i) - B2R (coord v' i)) <= L * Rabs (B2R r - B2R r') + M / 2 ^ 18.
Proof.
  intros F SP W (x & y & (N & Hr & _) & C) (x' & y' & (N' & Hr' & _) & C') i Hi.
  destruct (C i Hi) as (_ & E & _). destruct (C' i Hi) as (_ & E' & _). cbv zeta in E, E'.
  assert (P : Rabs (line3 i x y (B2R r) - line3 i x' y' (B2R r')) <= L * Rabs (B2R r - B2R r')).
  { apply (chain (fun x : f32 * key => B2R (fst x)) (line3 i) L c F); try assumption.
    - intros a b Q s s' Hs Hs'. unfold line3. set (k := half_value (coord (snd b) i) - half_value (coord (snd a) i)).
      replace (half_value (coord (snd a) i) + k * share a b s - (half_value (coord (snd a) i) + k * share a b s')) with (k * (share a b s - share a b s')) by ring.
      rewrite Rabs_mult. apply chord; [apply F, Q|apply Rabs_pos|]. destruct Q as (l & l' & Q). exact (SP a b l l' Q i Hi).
    - intros a b d l l' Q. unfold line3. rewrite share_start, share_end; [ring|]. apply F. exists l, (d :: l'). exact Q. }
  assert (B : forall a b, (exists l l', c = l ++ a :: b :: l') -> Rmax (Rabs (half_value (coord (snd a) i))) (Rabs (half_value (coord (snd b) i))) <= M).
  { intros a b (l & l' & Q). unfold within3 in W. rewrite Q in W. apply Forall_app in W. destruct W as (_ & W). inversion W as [|? ? W1 W']; subst.
    inversion W' as [|? ? W2 _]; subst. apply Rmax_lub; [apply W1, Hi|apply W2, Hi]. }
  pose proof (B _ _ N) as B1. pose proof (B _ _ N') as B2.
  unfold line3, share in P. unfold way in E, E'.
  assert (E1 := Rle_trans _ _ (M * / 524288) E ltac:(apply Rmult_le_compat_r; [lra|exact B1])).
  assert (E2 := Rle_trans _ _ (M * / 524288) E' ltac:(apply Rmult_le_compat_r; [lra|exact B2])).
  apply Rabs_le_inv in P. apply Rabs_le_inv in E1. apply Rabs_le_inv in E2. replace (2 ^ 18) with 262144 by ring. apply Rabs_le. lra.
Qed.

(** ** Rotations *)
Definition lineq (x y : f32 * key) (s : R) (i : nat) : R := rot (snd x) i + (rot (snd y) i - rot (snd x) i) * share x y s.
Definition len4 (e : nat -> R) : R := sqrt (sum4 (fun i => e i * e i)).
Lemma sum4_pos e : 0 <= sum4 (fun i => e i * e i).
Proof. unfold sum4. nra. Qed.
(** Normalising brings two quaternions no further apart than by the inverse of their lengths. *)
Lemma normal_near (e f : nat -> R) : / 2 <= 1.01 * sum4 (fun i => e i * e i) -> / 2 <= 1.01 * sum4 (fun i => f i * f i) ->
  forall i, (i < 4)%nat -> Rabs (e i / len4 e - f i / len4 f) <= 3 / 2 * len4 (fun i => e i - f i).
Proof.
  intros He Hf i Hi.
  assert (LE : 0.7 <= len4 e). { unfold len4. rewrite <- (sqrt_square 0.7) by lra. apply sqrt_le_1_alt. lra. }
  assert (LF : 0.7 <= len4 f). { unfold len4. rewrite <- (sqrt_square 0.7) by lra. apply sqrt_le_1_alt. lra. }
  assert (SE : len4 e * len4 e = sum4 (fun i => e i * e i)) by (apply sqrt_sqrt, sum4_pos).
  assert (SF : len4 f * len4 f = sum4 (fun i => f i * f i)) by (apply sqrt_sqrt, sum4_pos).
  set (d := fun i => e i - f i). assert (SD : len4 d * len4 d = sum4 (fun i => d i * d i)) by (apply sqrt_sqrt, sum4_pos).
  assert (DP : 0 <= len4 d) by apply sqrt_pos.
  set (n := fun i => e i / len4 e - f i / len4 f).
  assert (K : sum4 (fun i => n i * n i) * (len4 e * len4 f) <= sum4 (fun i => d i * d i)).
  { replace (sum4 (fun i => n i * n i) * (len4 e * len4 f)) with
      (sum4 (fun i => e i * e i) * (len4 f / len4 e) + sum4 (fun i => f i * f i) * (len4 e / len4 f) - 2 * sum4 (fun i => e i * f i))
      by (unfold n, sum4; field; split; apply Rgt_not_eq; lra).
    rewrite <- SE, <- SF. replace (len4 e * len4 e * (len4 f / len4 e)) with (len4 e * len4 f) by (field; apply Rgt_not_eq; lra).
    replace (len4 f * len4 f * (len4 e / len4 f)) with (len4 e * len4 f) by (field; apply Rgt_not_eq; lra).
    assert (Q : sum4 (fun i => d i * d i) = len4 e * len4 e + len4 f * len4 f - 2 * sum4 (fun i => e i * f i)) by (rewrite SE, SF; unfold d, sum4; ring).
    rewrite Q. pose proof (Rle_0_sqr (len4 e - len4 f)) as Z. unfold Rsqr in Z. lra. }
  assert (NI : n i * n i <= sum4 (fun i => n i * n i)).
  { unfold sum4. pose proof (Rle_0_sqr (n 0%nat)). pose proof (Rle_0_sqr (n 1%nat)). pose proof (Rle_0_sqr (n 2%nat)). pose proof (Rle_0_sqr (n 3%nat)). unfold Rsqr in *.
    destruct i as [|[|[|[|i]]]]; [..|lia]; lra. }
  assert (EF : 0.49 <= len4 e * len4 f) by nra.
  assert (Z : n i * n i * 0.49 <= len4 d * len4 d).
  { rewrite SD. eapply Rle_trans; [|exact K]. pose proof (Rle_0_sqr (n i)) as Q. unfold Rsqr in Q.
    apply Rmult_le_compat; lra. }
  change (Rabs (n i) <= 3 / 2 * len4 d). apply Rabs_le. split; nra.
Qed.
(** Between two neighbouring rotations the straight line keeps away from zero. *)
Lemma chord_long (x y : f32 * key) w : keyq_ok (snd x) -> keyq_ok (snd y) -> 0 <= sum4 (fun i => rot (snd x) i * rot (snd y) i) -> 0 <= w <= 1 ->
  / 2 <= 1.01 * sum4 (fun i => (rot (snd x) i + (rot (snd y) i - rot (snd x) i) * w) * (rot (snd x) i + (rot (snd y) i - rot (snd x) i) * w)).
Proof.
  intros Kx Ky H Hw. destruct (keyq_facts _ Kx) as (_ & Nx). destruct (keyq_facts _ Ky) as (_ & Ny).
  replace (sum4 (fun i => (rot (snd x) i + (rot (snd y) i - rot (snd x) i) * w) * (rot (snd x) i + (rot (snd y) i - rot (snd x) i) * w)))
    with ((1 - w) * (1 - w) * sum4 (fun i => rot (snd x) i * rot (snd x) i) + w * w * sum4 (fun i => rot (snd y) i * rot (snd y) i)
          + 2 * (w * (1 - w)) * sum4 (fun i => rot (snd x) i * rot (snd y) i)) by (unfold sum4; ring).
  set (X := sum4 (fun i => rot (snd x) i * rot (snd x) i)) in *. set (Y := sum4 (fun i => rot (snd y) i * rot (snd y) i)) in *.
  set (Z := sum4 (fun i => rot (snd x) i * rot (snd y) i)) in *.
  assert (0 <= w * (1 - w)) by (apply Rmult_le_pos; lra). assert (0 <= w * (1 - w) * Z) by (apply Rmult_le_pos; assumption).
  pose proof (Rle_0_sqr (1 - w)) as Q1. pose proof (Rle_0_sqr w) as Q2. unfold Rsqr in *.
  assert ((1 - w) * (1 - w) * (1 - / 1048576) <= (1 - w) * (1 - w) * X) by (apply Rmult_le_compat_l; lra).
  assert (w * w * (1 - / 1048576) <= w * w * Y) by (apply Rmult_le_compat_l; lra).
  pose proof (Rle_0_sqr (w - / 2)) as Q3. unfold Rsqr in Q3. lra.
Qed.
Lemma len4_scale (k : nat -> R) w : len4 (fun i => k i * w) = len4 k * Rabs w.
Proof.
  unfold len4. replace (sum4 (fun i => k i * w * (k i * w))) with (sum4 (fun i => k i * k i) * (w * w)) by (unfold sum4; ring).
  rewrite sqrt_mult; [|apply sum4_pos|apply Rle_0_sqr]. f_equal. apply sqrt_Rsqr_abs.
Qed.
Lemma len4_ext e f : (forall i, e i = f i) -> len4 e = len4 f.
Proof. intros H. unfold len4, sum4. rewrite !H. reflexivity. Qed.
Lemma smoothq c r r' q q' L : forward (fun x : f32 * key => B2R (fst x)) c -> speedq c L ->
  (forall x y, adj c x y -> keyq_ok (snd x) /\ keyq_ok (snd y) /\ 0 <= sum4 (fun i => rot (snd x) i * rot (snd y) i)) ->
  on_curveq c r q -> on_curveq c r' q' -> forall i, (i < 4)%nat ->
  Rabs (B2R (qcomp q i) - B2R (qcomp q' i)) <= 3 / 2 * L * Rabs (B2R r - B2R r') + / 2 ^ 16.
Proof.
  intros F SP K (x & y & (N & Hr & _) & C & _) (x' & y' & (N' & Hr' & _) & C' & _) i Hi.
  destruct (C i Hi) as (_ & E). destruct (C' i Hi) as (_ & E'). cbv zeta in E, E'.
  pose (g := fun a b s => lineq a b s i / len4 (lineq a b s)).
  assert (P : Rabs (g x y (B2R r) - g x' y' (B2R r')) <= 3 / 2 * L * Rabs (B2R r - B2R r')).
  { apply (chain (fun x : f32 * key => B2R (fst x)) g (3 / 2 * L) c F); try assumption.
    - intros a b Q s s' Hs Hs'. destruct (K a b Q) as (Ka & Kb & Kd). pose proof (F a b Q) as FT. unfold g.
      eapply Rle_trans; [apply normal_near; [apply chord_long; try assumption; apply share_range; assumption|apply chord_long; try assumption; apply share_range; assumption|exact Hi]|].
      rewrite (len4_ext _ (fun i => (rot (snd b) i - rot (snd a) i) * (share a b s - share a b s'))) by (intros k; unfold lineq; ring).
      rewrite len4_scale, Rmult_assoc. apply Rmult_le_compat_l; [lra|]. apply chord; [exact FT|apply sqrt_pos|].
      destruct Q as (l & l' & Q). exact (SP a b l l' Q).
    - intros a b d l l' Q. unfold g.
      assert (X : forall k, lineq a b (B2R (fst b)) k = lineq b d (B2R (fst b)) k).
      { intros k. unfold lineq. rewrite share_start, share_end; [ring|]. apply F. exists l, (d :: l'). exact Q. }
      rewrite (X i), (len4_ext _ _ X). reflexivity. }
  unfold g, lineq, len4, share in P. unfold way in E, E'.
  apply Rabs_le_inv in P. apply Rabs_le_inv in E. apply Rabs_le_inv in E'. replace (2 ^ 16) with 65536 by ring. apply Rabs_le. lra.
Qed.

(** ** Poses *)
Lemma curves_smooth au r r' pose pose' : authored_ok au -> on_curves au r pose -> on_curves au r' pose' ->
  forall t, (t < length (au_t au))%nat ->
  exists x x', nth_error pose (t / 4) = Some x /\ nth_error pose' (t / 4) = Some x' /\
    moved_little au (Rabs (B2R r - B2R r')) t (lane_tr x (t mod 4)) (lane_tr x' (t mod 4)).
Proof.
  intros (TO & _ & LR & LS & Tt & Tr & Ts & _ & _ & _ & _ & _ & Kr & Gr) H H' t Ht.
  destruct (H t Ht) as (x & Ex & C1 & C2 & C3). destruct (H' t Ht) as (x' & Ex' & C1' & C2' & C3').
  exists x, x'. split; [exact Ex|]. split; [exact Ex'|].
  assert (IT : forall l : list (list (nat * key)), (t < length l)%nat -> In (nth t l []) l) by (intros l Hl; apply (nth_In l [] Hl)).
  rewrite Forall_forall in Tt, Tr, Ts, Kr, Gr.
  split; [|split].
  - intros L M S W. apply (smooth3 _ _ _ _ _ L M (curve_forward _ _ TO (Tt _ (IT _ Ht))) S W C1 C1').
  - intros L S. apply (smoothq _ _ _ _ _ L (curve_forward _ _ TO (Tr _ (IT (au_r au) ltac:(lia)))) S); [|exact C2|exact C2'].
    intros a b Q. destruct (curve_adj _ _ _ _ Q) as (u & v & (l & l' & E) & -> & ->). cbn [snd].
    pose proof (Kr _ (IT (au_r au) ltac:(lia))) as KF. pose proof (Gr _ (IT (au_r au) ltac:(lia)) u v l l' E) as G.
    rewrite E in KF. apply Forall_app in KF. destruct KF as (_ & KF). inversion KF as [|? ? K1 KF']; subst. inversion KF' as [|? ? K2 _]; subst.
    split; [exact K1|]. split; [exact K2|exact G].
  - intros L M S W. apply (smooth3 _ _ _ _ _ L M (curve_forward _ _ TO (Ts _ (IT (au_s au) ltac:(lia)))) S W C3 C3').
Qed.

(** Two runs on an animation loaded from a file, each with a context of its own and any history. *)
Theorem C98_no_jumps :
  forall (machine o : Archive.endian) (kind b : N) (content : Archive.animation) (rest : list N) (id : N) (au : authored),
    ArchiveSpec.endian_byte o b -> ArchiveSpec.animation_ok content -> authored_ok au ->
    playable (animation_of id content) -> stores (animation_of id content) au ->
    exists loaded,
      Archive.load Archive.animation_from_archive machine kind (b :: ArchiveSpec.w_animation o content ++ rest) = Ok (loaded, rest) /\
      forall (lib : list anim32) (outside outside' : nat -> N) (c0 c0' : context f32) (history history' : list (@op f32 key key))
             (r r' : f32) (output output' : list (transform (V4 f32))),
        let a := animation_of id loaded in
        let valid outside c0 history r output :=
          (forall j, (outside j < 256)%N) /\ library (cx_max_soa c0) lib /\ fresh c0 /\ Forall (op_ok lib) history /\
          num_soa a = cx_max_soa c0 /\ nle nzero r = true /\ nle r none_ = true /\ (num_soa a <= length output)%nat in
        (forall x, In x lib -> an_id x <> 0%N) -> In a lib ->
        valid outside c0 history r output -> valid outside' c0' history' r' output' ->
        exists c1 c2 pose c1' c2' pose',
          exec32 outside c0 history = Ok c1 /\ run32 outside (Some a) (Some c1) r (Some output) = Ok (c2, pose) /\
          exec32 outside' c0' history' = Ok c1' /\ run32 outside' (Some a) (Some c1') r' (Some output') = Ok (c2', pose') /\
          forall t, (t < length (au_t au))%nat ->
            exists x x', nth_error pose (t / 4) = Some x /\ nth_error pose' (t / 4) = Some x' /\
              moved_little au (Rabs (B2R r - B2R r')) t (lane_tr x (t mod 4)) (lane_tr x' (t mod 4)).
Proof.
  intros machine o kind b content rest id au E OK AU P S.
  destruct (C95_loaded_on_curves machine o kind b content rest id au E OK P S) as (loaded & LD & RUN). exists loaded. split; [exact LD|].
  cbv zeta in *. intros lib outside outside' c0 c0' history history' r r' output output' NZ IN (V1 & V2 & V3 & V4 & V5 & V6 & V7 & V8) (W1 & W2 & W3 & W4 & W5 & W6 & W7 & W8).
  destruct (RUN outside lib c0 history r output V1 NZ V2 V3 V4 IN V5 V6 V7 V8) as (c1 & c2 & pose & X1 & X2 & X3).
  destruct (RUN outside' lib c0' history' r' output' W1 NZ W2 W3 W4 IN W5 W6 W7 W8) as (c1' & c2' & pose' & Y1 & Y2 & Y3).
  exists c1, c2, pose, c1', c2', pose'. repeat (split; [assumption|]). exact (curves_smooth au r r' pose pose' AU X3 Y3).
Qed.
Print Assumptions C98_no_jumps.

(** ** Non-vacuity: the animation of C95.  The second joint moves from 1 to 2 along two of the axes. *)
Lemma half_2 : half_value 16384 = 2.
Proof. unfold half_value. change (half_mant 16384) with 1024%Z. change (half_scale 16384) with (-9)%Z. change (powerRZ 2 (-9)) with (/ 2 ^ 9). lra. Qed.
Lemma two_knots {A} (a b x y : A) l l' : [a; b] = l ++ x :: y :: l' -> x = a /\ y = b.
Proof. destruct l as [|z [|z' l]]; intros E; [injection E as -> -> _; split; reflexivity|discriminate E|destruct l; discriminate E]. Qed.
Example C98_hypotheses :
  authored_ok ea /\ ArchiveSpec.animation_ok ea_file /\ playable (ea_anim 16) /\ stores (ea_anim 16) ea /\
  speed3 (curve (au_times ea) (nth 1 (au_t ea) [])) 1 /\ within3 (curve (au_times ea) (nth 1 (au_t ea) [])) 2 /\
  speedq (curve (au_times ea) (nth 1 (au_r ea) [])) 5.
Proof.
  destruct C95_hypotheses as (H1 & H2 & H3 & H4 & _). do 4 (split; [assumption|]).
  assert (T0 : B2R (f32_lit 0 0) = 0) by (destruct (f32_lit_exact 0 0 ltac:(simpl; lia) ltac:(lia)) as [_ ->]; cbn; lra).
  assert (T1 : B2R (f32_lit 1 0) = 1) by (destruct (f32_lit_exact 1 0 ltac:(simpl; lia) ltac:(lia)) as [_ ->]; cbn; lra).
  change (curve (au_times ea) (nth 1 (au_t ea) [])) with [(f32_lit 0 0, ea_k 15360); (f32_lit 1 0, ea_k 16384)].
  change (curve (au_times ea) (nth 1 (au_r ea) [])) with [(f32_lit 0 0, turn 24000); (f32_lit 1 0, turn 16384)].
  assert (Z : half_value 0 = 0) by apply half_0.
  split; [|split].
  - intros x y l l' E i Hi. apply two_knots in E. destruct E as (-> & ->). cbn [fst snd]. rewrite T0, T1.
    destruct i as [|[|[|i]]]; [..|lia]; cbn [coord ea_k vx vy vz]; rewrite ?Z, ?half_1, ?half_2; rewrite Rabs_pos_eq; lra.
  - repeat (apply Forall_cons; [intros i Hi; cbn [snd]; destruct i as [|[|[|i]]]; [..|lia]; cbn [coord ea_k vx vy vz]; rewrite ?Z, ?half_1, ?half_2; rewrite Rabs_pos_eq; lra|]). apply Forall_nil.
  - intros x y l l' E. apply two_knots in E. destruct E as (-> & ->). cbn [fst snd]. rewrite T0, T1.
    destruct (keyq_facts (turn 24000)) as (A & _); [apply turn_bounds; lia|]. destruct (keyq_facts (turn 16384)) as (B & _); [apply turn_bounds; lia|].
    assert (Q : forall i, (i < 4)%nat -> (rot (turn 16384) i - rot (turn 24000) i) * (rot (turn 16384) i - rot (turn 24000) i) <= 5).
    { intros i Hi. destruct (A i Hi) as (_ & Ai). destruct (B i Hi) as (_ & Bi). apply Rabs_le_inv in Ai. apply Rabs_le_inv in Bi. nra. }
    rewrite <- (sqrt_square (5 * (1 - 0))) by lra. apply sqrt_le_1_alt. unfold sum4.
    pose proof (Q 0%nat ltac:(lia)). pose proof (Q 1%nat ltac:(lia)). pose proof (Q 2%nat ltac:(lia)). pose proof (Q 3%nat ltac:(lia)). lra.
Qed.
