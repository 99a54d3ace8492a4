(** The trigger iterator in binary32: termination, what holds with rounding, and what does not. *)
From Coq Require Import Reals Lra Psatz Sorted.
From Flocq Require Import IEEE754.BinarySingleNaN Core.
From Verif Require Import Base Num NumF32 F32Facts F32Err MathF32 NumR Tracks TracksSpec TracksProofs TracksProps.
Local Open Scope R_scope.

(** ** Any arithmetic: the inner loops never panic on a sized track *)
Section Inner.
  Context {F : Type} {NF : Num F}.
  Variable j : tjob F.
  Hypothesis HS : track_sized (j_track j).
  Notation n := (length (t_ratios (j_track j))).

  Lemma before_lt i : (i < n)%nat -> (before (t_key_count (j_track j)) i < n)%nat.
  Proof. intros H. destruct HS as (S1 & _ & _). unfold before. destruct (Nat.eqb_spec i 0); lia. Qed.
  Lemma get_some {A} (l : list A) i : (i < length l)%nat -> exists x, nth_error l i = Some x /\ get l i = Ok x.
  Proof.
    intros H. unfold get. destruct (nth_error l i) as [x|] eqn:E; [exists x; auto|]. apply nth_error_None in E. lia.
  Qed.
  (** The straddling test of the key [i] and the key before it. *)
  Definition straddles (i : nat) (up : bool) : Prop :=
    exists v0 v1, nth_error (t_values (j_track j)) (before (t_key_count (j_track j)) i) = Some v0 /\ nth_error (t_values (j_track j)) i = Some v1 /\
      if up then nle v0 (j_threshold j) = true /\ nlt (j_threshold j) v1 = true
      else nlt (j_threshold j) v0 = true /\ nle v1 (j_threshold j) = true.
  Lemma detect_total i fwd : (i < n)%nat ->
    exists o, detect_edge j (before (t_key_count (j_track j)) i) i fwd = Ok o /\
      forall e, o = Some e -> straddles i (if fwd then e_rising e else negb (e_rising e)).
  Proof.
    intros Hi. pose proof HS as (S1 & S2 & S3). pose proof (before_lt i Hi) as Hb. unfold detect_edge, straddles. cbv zeta.
    destruct (get_some (t_values (j_track j)) (before (t_key_count (j_track j)) i) ltac:(lia)) as (v0 & N0 & G0).
    destruct (get_some (t_values (j_track j)) i ltac:(lia)) as (v1 & N1 & G1).
    rewrite G0, G1. cbn [bind].
    assert (R : forall up, exists r, (let* step := step_key (j_track j) (before (t_key_count (j_track j)) i) in
        let* ratio := if step then get (t_ratios (j_track j)) i else if (i =? 0)%nat then Ok nzero else
            let* ratio0 := get (t_ratios (j_track j)) (before (t_key_count (j_track j)) i) in
            let* ratio1 := get (t_ratios (j_track j)) i in
            Ok (nadd ratio0 (nmul (nsub ratio1 ratio0) (ndiv (nsub (j_threshold j) v0) (nsub v1 v0)))) in Ok (Some (mk_edge ratio up))) = Ok (Some (mk_edge r up))).
    { intros up. rewrite (step_key_ok _ _ HS Hb). cbn [bind].
      destruct (get_some (t_ratios (j_track j)) i Hi) as (q1 & _ & H1).
      destruct (get_some (t_ratios (j_track j)) _ Hb) as (q0 & _ & H0).
      destruct (is_step _ _); [rewrite H1; cbn [bind]; eauto|]. destruct (i =? 0)%nat; [cbn [bind]; eauto|].
      rewrite H0, H1. cbn [bind]. eauto. }
    destruct (nle v0 (j_threshold j) && nlt (j_threshold j) v1) eqn:C1.
    - apply andb_prop in C1. destruct C1. destruct (R fwd) as (r & ->). eexists. split; [reflexivity|]. intros e E. inversion E; subst. cbn.
      exists v0, v1. destruct fwd; cbn; repeat split; assumption.
    - destruct (nlt (j_threshold j) v0 && nle v1 (j_threshold j)) eqn:C2.
      + apply andb_prop in C2. destruct C2. destruct (R (negb fwd)) as (r & ->). eexists. split; [reflexivity|]. intros e E. inversion E; subst. cbn.
        exists v0, v1. destruct fwd; cbn; repeat split; assumption.
      + eexists. split; [reflexivity|]. discriminate.
  Qed.
  Definition sound_edge (fwd : bool) (e : edge F) : Prop :=
    (exists i, straddles i (if fwd then e_rising e else negb (e_rising e))) /\
    nle (if fwd then j_from j else j_to j) (e_ratio e) = true.
  Lemma edge_at_total fwd outer i : (i < n)%nat -> exists o, edge_at j fwd outer i = Ok o /\ forall e, o = Some e -> sound_edge fwd e.
  Proof.
    intros Hi. unfold edge_at. destruct (detect_total i fwd Hi) as (o & -> & HD). cbn [bind]. eexists. split; [reflexivity|].
    destruct o as [e|]; [|discriminate]. specialize (HD e eq_refl). cbv zeta.
    destruct (if fwd then accept_fwd j outer (nadd (e_ratio e) outer) else accept_bwd j outer (nadd (e_ratio e) outer)) eqn:A; [|discriminate]. intros e' E. inversion E; subst e'. split; [exists i; exact HD|].
    cbn [e_ratio]. destruct fwd; apply andb_prop in A; apply A.
  Qed.
  Lemma inner_fwd_total outer : forall c i, (i + c = n)%nat ->
    exists o, inner_fwd j outer c i = Ok o /\ forall e i', o = Some (e, i') -> (i < i' <= n)%nat /\ sound_edge true e.
  Proof.
    induction c as [|c IH]; intros i Hc; [eexists; split; [reflexivity|discriminate]|]. cbn [inner_fwd].
    destruct (edge_at_total true outer i ltac:(lia)) as (o & -> & HE). cbn [bind]. destruct o as [e|].
    - eexists. split; [reflexivity|]. intros e' i' E. inversion E; subst. split; [lia|auto].
    - destruct (get_some (t_ratios (j_track j)) i ltac:(lia)) as (q & _ & ->). cbn [bind].
      destruct (nle _ _); [eexists; split; [reflexivity|discriminate]|].
      destruct (IH (S i) ltac:(lia)) as (o & E & H). exists o. split; [exact E|]. intros e i' Ho. destruct (H e i' Ho). split; [lia|assumption].
  Qed.
  Lemma inner_bwd_total outer : forall c, (c <= n)%nat ->
    exists o, inner_bwd j outer c = Ok o /\ forall e i', o = Some (e, i') -> (-1 <= i' < Z.of_nat c - 1)%Z /\ sound_edge false e.
  Proof.
    induction c as [|c IH]; intros Hc; [eexists; split; [reflexivity|discriminate]|]. cbn [inner_bwd].
    destruct (edge_at_total false outer c ltac:(lia)) as (o & -> & HE). cbn [bind]. destruct o as [e|].
    - eexists. split; [reflexivity|]. intros e' i' E. inversion E; subst. split; [lia|auto].
    - destruct (get_some (t_ratios (j_track j)) c ltac:(lia)) as (q & _ & ->). cbn [bind].
      destruct (nle _ _); [eexists; split; [reflexivity|discriminate]|].
      destruct (IH ltac:(lia)) as (o & E & H). exists o. split; [exact E|]. intros e i' Ho. destruct (H e i' Ho). split; [lia|assumption].
  Qed.

  (** One forward loop ends if the next one does. *)
  Lemma fwd_step outer : nlt (j_from j) (j_to j) = true ->
    (nlt outer (j_to j) = true -> exists l, collects j (Some (nadd outer none_, 0%Z)) l) ->
    forall c i, (i + c = n)%nat -> exists l, collects j (Some (outer, Z.of_nat i)) l.
  Proof.
    intros Hft HN. pose proof HS as (S1 & _ & _). induction c as [c IH] using lt_wf_ind. intros i Hc.
    assert (NS : forall f, next (S f) j outer (Z.of_nat i) = if nlt outer (j_to j) then
              match inner_fwd j outer c i with Ok (Some (e, i)) => NYield e (Some (outer, Z.of_nat i)) | Ok None => next f j (nadd outer none_) 0 | _ => NPanic end else NEnd).
    { intros f. rewrite next_S. cbv zeta. rewrite Hft, Nat2Z.id, S1. replace (n - i)%nat with c by lia. reflexivity. }
    destruct (nlt outer (j_to j)) eqn:L.
    - destruct (inner_fwd_total outer c i Hc) as ([[e i']|] & E & H).
      + destruct (H e i' eq_refl) as [Hi' _]. destruct (IH (n - i')%nat ltac:(lia) i' ltac:(lia)) as [l Hl].
        exists (e :: l). eapply collects_yield; [|exact Hl]. rewrite NS, E. reflexivity.
      + destruct (HN eq_refl) as [l Hl]. exists l. eapply collects_skip; [|exact Hl]. intros f. rewrite NS, E. reflexivity.
    - exists []. apply collects_end. rewrite NS. reflexivity.
  Qed.
  Lemma bwd_step outer : nlt (j_from j) (j_to j) = false ->
    (nlt (j_to j) (nadd outer none_) = true -> exists l, collects j (Some (nsub outer none_, (Z.of_nat n - 1)%Z)) l) ->
    forall c, (c <= n)%nat -> exists l, collects j (Some (outer, (Z.of_nat c - 1)%Z)) l.
  Proof.
    intros Hft HN. pose proof HS as (S1 & _ & _). induction c as [c IH] using lt_wf_ind. intros Hc.
    assert (NS : forall f, next (S f) j outer (Z.of_nat c - 1)%Z = if nlt (j_to j) (nadd outer none_) then
              match inner_bwd j outer c with Ok (Some (e, i)) => NYield e (Some (outer, i)) | Ok None => next f j (nsub outer none_) (Z.of_nat n - 1) | _ => NPanic end else NEnd).
    { intros f. rewrite next_S. cbv zeta. rewrite Hft, S1. replace (Z.to_nat (Z.of_nat c - 1 + 1)) with c by lia. reflexivity. }
    destruct (nlt (j_to j) (nadd outer none_)) eqn:L.
    - destruct (inner_bwd_total outer c Hc) as ([[e i']|] & E & H).
      + destruct (H e i' eq_refl) as [Hi' _]. destruct (IH (Z.to_nat (i' + 1)) ltac:(lia) ltac:(lia)) as [l Hl].
        rewrite Z2Nat.id in Hl by lia. replace (i' + 1 - 1)%Z with i' in Hl by lia.
        exists (e :: l). eapply collects_yield; [|exact Hl]. rewrite NS, E. reflexivity.
      + destruct (HN eq_refl) as [l Hl]. exists l. eapply collects_skip; [|exact Hl]. intros f. rewrite NS, E. reflexivity.
    - exists []. apply collects_end. rewrite NS. reflexivity.
  Qed.

  (** Every yielded edge is a straddling pair of keys, not before the start of the window. *)
  Definition state_ok (st : tstate (F := F)) : Prop :=
    match st with None => True | Some (_, i) => (-1 <= i <= Z.of_nat n)%Z /\ (nlt (j_from j) (j_to j) = true -> (0 <= i)%Z) /\ (nlt (j_from j) (j_to j) = false -> (i < Z.of_nat n)%Z) end.
  Lemma next_sound f : forall outer i, state_ok (Some (outer, i)) -> forall e st, next f j outer i = NYield e st ->
    state_ok st /\ sound_edge (nlt (j_from j) (j_to j)) e.
  Proof.
    pose proof HS as (S1 & _ & _). induction f as [|f IH]; intros outer i Hst e st H; [discriminate|]. rewrite next_S in H. cbv zeta in H.
    destruct Hst as (B & B1 & B2). destruct (nlt (j_from j) (j_to j)) eqn:D.
    - destruct (nlt outer (j_to j)); [|discriminate]. specialize (B1 eq_refl). rewrite S1 in H.
      destruct (inner_fwd_total outer (n - Z.to_nat i) (Z.to_nat i) ltac:(lia)) as ([[e' i']|] & E & HI); rewrite E in H.
      + inversion H; subst. destruct (HI e i' eq_refl) as [Hi' He]. split; [|exact He]. cbn. rewrite D. repeat split; (lia || discriminate).
      + apply IH in H; [exact H|]. cbn. rewrite D. repeat split; (lia || discriminate).
    - destruct (nlt (j_to j) (nadd outer none_)); [|discriminate]. specialize (B2 eq_refl). rewrite S1 in H.
      destruct (inner_bwd_total outer (Z.to_nat (i + 1)) ltac:(lia)) as ([[e' i']|] & E & HI); rewrite E in H.
      + inversion H; subst. destruct (HI e i' eq_refl) as [Hi' He]. split; [|exact He]. cbn. rewrite D. repeat split; (lia || discriminate).
      + apply IH in H; [exact H|]. cbn. rewrite D. repeat split; (lia || discriminate).
  Qed.
  Lemma collect_sound f : forall st, state_ok st -> forall l, collect f j st = Edges l -> Forall (sound_edge (nlt (j_from j) (j_to j))) l.
  Proof.
    induction f as [|f IH]; intros st Hst l H; [discriminate|]. cbn [collect] in H. destruct st as [[outer i]|]; [|inversion H; constructor].
    destruct (next f j outer i) as [e st| | |] eqn:E; try discriminate; [|inversion H; constructor].
    destruct (next_sound f outer i Hst e st E) as [Hs He]. destruct (collect f j st) as [l'| |] eqn:C; try discriminate.
    inversion H; subst. constructor; [exact He|]. eapply IH; eassumption.
  Qed.
  Lemma yields_sound l : yields j l -> Forall (sound_edge (nlt (j_from j) (j_to j))) l.
  Proof.
    intros [f H]. eapply collect_sound; [|exact H]. unfold iter_new. pose proof HS as (S1 & _ & _).
    destruct (neq (j_from j) (j_to j)); [exact I|]. cbn. destruct (nlt (j_from j) (j_to j)); repeat split; (lia || discriminate).
  Qed.
End Inner.

(** Binary32: every edge returned has its track values on both sides of the threshold, and is not
    before the window. *)
Theorem C40_sound_binary32 (t : ftrack f32 f32) from to thr l : track_sized t -> yields (mk_tjob t from to thr) l ->
  Forall (fun e =>
    (exists i v0 v1,
        nth_error (t_values t) (match i with O => length (t_values t) - 1 | S i => i end)%nat = Some v0 /\ nth_error (t_values t) i = Some v1 /\
        if xorb (nlt from to) (e_rising e) then nlt thr v0 = true /\ nle v1 thr = true else nle v0 thr = true /\ nlt thr v1 = true) /\
    nle (if nlt from to then from else to) (e_ratio e) = true) l.
Proof.
  intros HS H. apply (yields_sound (mk_tjob t from to thr) HS) in H. cbn [j_from j_to] in H. eapply Forall_impl; [|exact H].
  intros e [(i & v0 & v1 & E0 & E1 & S) L]. split; [|exact L]. exists i, v0, v1. cbn [j_track j_threshold] in *.
  pose proof HS as (S1 & S2 & _).
  replace (match i with O => length (t_values t) - 1 | S i => i end)%nat with (before (t_key_count t) i).
  - split; [exact E0|]. split; [exact E1|]. destruct (nlt from to), (e_rising e); exact S.
  - unfold before. destruct i; cbn; lia.
Qed.
Print Assumptions C40_sound_binary32.

(** ** Termination *)
Definition LIM := 16777216.
Lemma int_exact k : (-16777216 <= k <= 16777216)%Z -> rnd32 (IZR k) = IZR k.
Proof.
  intros H. apply rnd_id. replace (IZR k) with (IZR k * bpow radix2 0) by (simpl; ring). apply lit_format; lia.
Qed.
Lemma abs_le_HUGE k : (-16777217 <= k <= 16777217)%Z -> Rabs (IZR k) <= HUGE.
Proof.
  intros H. apply Rle_trans with (bpow radix2 25); [|apply bpow_le; lia].
  rewrite <- abs_IZR. simpl. apply IZR_le. lia.
Qed.
Lemma fin_succ x k : fin x (IZR k) -> (-16777216 <= k < 16777216)%Z -> fin (nadd x none_) (IZR (k + 1)).
Proof.
  intros H B. rewrite <- (int_exact (k + 1)) by lia. rewrite plus_IZR. apply fin_add; [exact H|apply fin_one|].
  rewrite <- plus_IZR. apply abs_le_HUGE. lia.
Qed.
Lemma fin_pred x k : fin x (IZR k) -> (-16777216 < k <= 16777216)%Z -> fin (nsub x none_) (IZR (k - 1)).
Proof.
  intros H B. rewrite <- (int_exact (k - 1)) by lia. rewrite minus_IZR. apply fin_sub; [exact H|apply fin_one|].
  rewrite <- minus_IZR. apply abs_le_HUGE. lia.
Qed.
Lemma fin_lt x y a b : fin x a -> fin y b -> nlt x y = Rlt_bool a b.
Proof.
  intros [Fx Ex] [Fy Ey]. change (Bltb x y = Rlt_bool a b). rewrite Bltb_ext by (apply finite_notnan; assumption).
  rewrite !ext_finite by assumption. rewrite Ex, Ey. reflexivity.
Qed.
Lemma fin_trunc x a : fin x a -> fin (ntrunc x) (IZR (Ztrunc a)).
Proof.
  intros [Fx Ex]. destruct (Bnearbyint_correct 24 128 _ mode_ZR x) as (C1 & C2 & _).
  change (ntrunc x) with (Bnearbyint mode_ZR x : f32). split; [rewrite C2; exact Fx|]. rewrite C1. simpl round_mode.
  unfold round, F2R, scaled_mantissa, cexp, FIX_exp. simpl bpow. cbn [Fnum Fexp]. simpl bpow. rewrite !Rmult_1_r, Ex. reflexivity.
Qed.
Lemma fin_floor x a : fin x a -> -LIM <= a <= LIM -> fin (nfloor x) (IZR (Zfloor a)).
Proof.
  intros Hx Ha. pose proof (fin_trunc x a Hx) as Ht. unfold nfloor. cbv zeta. change (@num_arith f32 f32num) with f32arith. rewrite (fin_lt _ _ _ _ Hx Ht).
  pose proof (Zfloor_lb a). pose proof (Zfloor_ub a). unfold LIM in Ha.
  destruct (Rlt_bool_spec a (IZR (Ztrunc a))) as [L|L].
  - assert (N : a < 0). { destruct (Rlt_le_dec a 0) as [|P]; [assumption|]. rewrite Ztrunc_floor in L by exact P. lra. }
    rewrite Ztrunc_ceil in * by lra.
    assert (E : Zceil a = (Zfloor a + 1)%Z). { apply Zceil_floor_neq. intros E. assert (Zceil a = Zfloor a) by (rewrite <- E at 1; apply Zceil_IZR). rewrite H1, E in L. lra. }
    replace (Zfloor a) with (Zceil a - 1)%Z by lia. apply fin_pred; [exact Ht|].
    assert (-16777216 <= Zfloor a)%Z by (apply Zfloor_lub; lra).
    assert (Zceil a <= 0)%Z by (apply Zceil_glb; lra). lia.
  - destruct (Rle_lt_dec 0 a) as [P|P]; [rewrite Ztrunc_floor in Ht by exact P; exact Ht|].
    rewrite Ztrunc_ceil in * by lra. pose proof (Zceil_ub a). assert (E : a = IZR (Zceil a)) by lra.
    assert (Zfloor a = Zceil a) by (rewrite E at 1; apply Zfloor_IZR). rewrite H2. exact Ht.
Qed.

Section Terminate.
  Variable j : tjob f32.
  Hypothesis HS : track_sized (j_track j).
  Variables a b : R.
  Hypothesis Ha : fin (j_from j) a.
  Hypothesis Hb : fin (j_to j) b.
  Notation n := (length (t_ratios (j_track j))).
  Lemma nlt_ft : nlt (j_from j) (j_to j) = Rlt_bool a b.
  Proof. apply fin_lt; assumption. Qed.

  Lemma fwd_terminates m : a < b -> b <= LIM -> forall k outer, fin outer (IZR k) -> (-16777216 <= k)%Z -> b <= IZR (k + Z.of_nat m) ->
    exists l, collects j (Some (outer, 0%Z)) l.
  Proof.
    intros Hab HL. pose proof nlt_ft as D. rewrite Rlt_bool_true in D by exact Hab.
    induction m as [|m IH]; intros k outer Hk Bk Hm; apply (fwd_step j HS outer D) with (c := n) (i := 0%nat); try reflexivity.
    - intros L. rewrite (fin_lt _ _ _ _ Hk Hb), Rlt_bool_false in L; [discriminate|]. rewrite Z.add_0_r in Hm. exact Hm.
    - intros L. rewrite (fin_lt _ _ _ _ Hk Hb) in L. destruct (Rlt_bool_spec (IZR k) b) as [L'|]; [|discriminate].
      apply (IH (k + 1)%Z); [|lia|].
      + apply fin_succ; [exact Hk|]. split; [exact Bk|]. apply lt_IZR. unfold LIM in HL. lra.
      + replace (k + 1 + Z.of_nat m)%Z with (k + Z.of_nat (S m))%Z by lia. exact Hm.
  Qed.
  Lemma bwd_terminates m : b <= a -> - LIM < b -> a <= LIM -> forall k outer, fin outer (IZR k) -> (-16777216 <= k <= 16777216)%Z -> IZR (k - Z.of_nat m) + 1 <= b ->
    exists l, collects j (Some (outer, (Z.of_nat n - 1)%Z)) l.
  Proof.
    intros Hab HL HL'. pose proof nlt_ft as D. rewrite Rlt_bool_false in D by exact Hab. unfold LIM in *.
    induction m as [|m IH]; intros k outer Hk Bk Hm; apply (bwd_step j HS outer D); try lia.
    - intros L. change (@num_arith f32 f32num) with f32arith in *. rewrite Z.sub_0_r in Hm.
      assert (k < 16777216)%Z by (apply lt_IZR; lra).
      rewrite (fin_lt _ _ _ _ Hb (fin_succ outer k Hk ltac:(lia))), Rlt_bool_false in L; [discriminate|]. rewrite plus_IZR. exact Hm.
    - intros L. change (@num_arith f32 f32num) with f32arith in *. destruct (Z.eq_dec k (-16777216)) as [->|Nk].
      + rewrite (fin_lt _ _ _ _ Hb (fin_succ outer _ Hk ltac:(lia))) in L. destruct (Rlt_bool_spec b (IZR (-16777216 + 1))) as [L'|]; [|discriminate].
        exfalso. (* b is representable, so it is an integer here *)
        assert (Fb : generic_format radix2 (SpecFloat.fexp 24 128) b) by (destruct Hb as [_ <-]; apply generic_format_B2R).
        rewrite plus_IZR in L'.
        assert (P : b <= pred radix2 (SpecFloat.fexp 24 128) (-16777215)).
        { apply pred_ge_gt; [apply fexp_correct; reflexivity|exact Fb| |lra].
          replace (-16777215) with (IZR (-16777215) * bpow radix2 0) by (simpl; ring). apply lit_format; lia. }
        replace (-16777215) with (- (16777215)) in P by lra. rewrite pred_opp in P.
        rewrite succ_eq_pos in P by lra.
        replace (ulp radix2 (SpecFloat.fexp 24 128) 16777215) with 1 in P; [lra|].
        rewrite ulp_neq_0 by lra. unfold cexp. rewrite (mag_unique_pos radix2 16777215 24); [reflexivity|].
        split; simpl; lra.
      + apply (IH (k - 1)%Z); [|lia|].
        * apply fin_pred; [exact Hk|lia].
        * replace (k - 1 - Z.of_nat m)%Z with (k - Z.of_nat (S m))%Z by lia. exact Hm.
  Qed.
End Terminate.

(** Within (-2^24, 2^24] every window ends, and without panic. *)
Theorem C44_terminates_partial (t : ftrack f32 f32) from to thr : track_sized t ->
  is_finite from = true -> is_finite to = true ->
  -16777216 < B2R from <= 16777216 -> -16777216 < B2R to <= 16777216 ->
  exists l, yields (mk_tjob t from to thr) l.
Proof.
  intros HS Ff Ft Bf Bt. set (j := mk_tjob t from to thr).
  assert (Ha : fin (j_from j) (B2R from)) by (split; [exact Ff|reflexivity]).
  assert (Hb : fin (j_to j) (B2R to)) by (split; [exact Ft|reflexivity]).
  assert (HSj : track_sized (j_track j)) by exact HS.
  unfold yields, iter_new. destruct (neq (j_from j) (j_to j)); [exists [], 1%nat; reflexivity|].
  pose proof (fin_floor _ _ Ha ltac:(unfold LIM; lra)) as HF.
  pose proof (Zfloor_lb (B2R from)) as L1. pose proof (Zfloor_ub (B2R from)) as L2.
  assert (K1 : (-16777216 <= Zfloor (B2R from))%Z) by (apply Zfloor_lub; lra).
  assert (K2 : (Zfloor (B2R from) <= 16777216)%Z) by (apply le_IZR; lra).
  rewrite (nlt_ft j _ _ Ha Hb). destruct (Rlt_bool_spec (B2R from) (B2R to)) as [L|L].
  - destruct (fwd_terminates j HSj _ _ Ha Hb (Z.to_nat (16777216 - Zfloor (B2R from))) L ltac:(unfold LIM; lra) _ _ HF K1) as [l H].
    { rewrite Z2Nat.id by lia. apply Rle_trans with 16777216; [lra|]. apply IZR_le. lia. }
    exists l. exact H.
  - destruct (bwd_terminates j HSj _ _ Ha Hb (Z.to_nat (Zfloor (B2R from) + 16777217)) L ltac:(unfold LIM; lra) ltac:(unfold LIM; lra) _ _ HF (conj K1 K2)) as [l H].
    { rewrite Z2Nat.id by lia. replace (Zfloor (B2R from) - (Zfloor (B2R from) + 16777217))%Z with (-16777217)%Z by lia. lra. }
    replace (t_key_count (j_track j)) with (length (t_ratios (j_track j))) by (symmetry; apply HSj).
    exists l. exact H.
Qed.
Print Assumptions C44_terminates_partial.
(** Exact arithmetic: every window ends. *)
Theorem C44_terminates_real (t : ftrack R R) from to thr : track_sized t -> track_ordered t -> exists l, yields (mk_tjob t from to thr) l.
Proof.
  intros HS HO. destruct (Rtotal_order from to) as [L|[->|L]].
  - destruct (C40_forward t thr from to HS HO L) as (l & H & _). eauto.
  - exists []. apply C40_empty_window.
  - destruct (C40_backward t thr to from HS HO L) as (l & H & _). eauto.
Qed.
Print Assumptions C44_terminates_real.

(** Outside that range the iterator can run for ever: [outer + 1.0] rounds back to [outer]. *)
Definition flat : ftrack f32 f32 := mk_track 2 [nzero; none_] [nzero; nzero] [0%N].
Lemma hang_fwd j outer : nlt (j_from j) (j_to j) = true -> nlt outer (j_to j) = true ->
  inner_fwd j outer (t_key_count (j_track j)) 0 = Ok None -> @nadd f32 f32arith outer none_ = outer ->
  forall f, next f j outer 0 = NHang.
Proof.
  intros H1 H2 H3 H4. induction f as [|f IH]; [reflexivity|]. rewrite next_S. cbv zeta. rewrite H1, H2. change (Z.to_nat 0) with 0%nat. rewrite Nat.sub_0_r, H3.
  change (@num_arith f32 f32num) with f32arith. rewrite H4. exact IH.
Qed.
Lemma hang_bwd j outer : nlt (j_from j) (j_to j) = false -> nlt (j_to j) (@nadd f32 f32arith outer none_) = true ->
  inner_bwd j outer (t_key_count (j_track j)) = Ok None -> @nsub f32 f32arith outer none_ = outer ->
  forall f, next f j outer (Z.of_nat (t_key_count (j_track j)) - 1) = NHang.
Proof.
  intros H1 H2 H3 H4. induction f as [|f IH]; [reflexivity|]. rewrite next_S. cbv zeta. rewrite H1.
  change (@num_arith f32 f32num) with f32arith. rewrite H2.
  replace (Z.to_nat (Z.of_nat (t_key_count (j_track j)) - 1 + 1)) with (t_key_count (j_track j)) by lia. rewrite H3, H4. exact IH.
Qed.
Lemma collect_hang (j : tjob f32) outer inner : iter_new j = Some (outer, inner) -> (forall f, next f j outer inner = NHang) ->
  forall f, collect f j (iter_new j) = Hang.
Proof. intros E H f. rewrite E. destruct f; [reflexivity|]. cbn [collect]. rewrite H. reflexivity. Qed.

Theorem C44_hang_refuted : exists (t : ftrack f32 f32) from to thr,
  track_sized t /\ is_finite from = true /\ is_finite to = true /\ B2R from = 16777216 /\ B2R to = 16777218 /\
  forall fuel, collect fuel (mk_tjob t from to thr) (iter_new (mk_tjob t from to thr)) = Hang.
Proof.
  exists flat, (f32_lit 1 24), (f32_lit 8388609 1), none_. split; [repeat split; cbn; lia|].
  destruct (f32_lit_exact 1 24) as [F1 E1]; [simpl; lia|lia|]. destruct (f32_lit_exact 8388609 1) as [F2 E2]; [simpl; lia|lia|].
  split; [exact F1|]. split; [exact F2|]. split; [rewrite E1; simpl; lra|]. split; [rewrite E2; simpl; lra|].
  apply (collect_hang _ (f32_lit 1 24) 0).
  - assert (Q : nfloor (f32_lit 1 24) = f32_lit 1 24) by (apply to_bits_inj; vm_compute; reflexivity).
    unfold iter_new. cbn [j_from j_to j_track]. rewrite Q.
    assert (E : neq (f32_lit 1 24) (f32_lit 8388609 1) = false) by (vm_compute; reflexivity). rewrite E.
    assert (L : nlt (f32_lit 1 24) (f32_lit 8388609 1) = true) by (vm_compute; reflexivity). rewrite L. reflexivity.
  - apply hang_fwd; [vm_compute; reflexivity..|]. apply to_bits_inj. vm_compute. reflexivity.
Qed.
Print Assumptions C44_hang_refuted.
(** The lower bound is sharp too: playing backward to -2^24. *)
Theorem C44_backward_hang_refuted : exists (t : ftrack f32 f32) from to thr,
  track_sized t /\ is_finite from = true /\ is_finite to = true /\ B2R from = -16777215 /\ B2R to = -16777216 /\
  forall fuel, collect fuel (mk_tjob t from to thr) (iter_new (mk_tjob t from to thr)) = Hang.
Proof.
  exists flat, (f32_lit (-16777215) 0), (f32_lit (-1) 24), none_. split; [repeat split; cbn; lia|].
  destruct (f32_lit_exact (-16777215) 0) as [F1 E1]; [simpl; lia|lia|]. destruct (f32_lit_exact (-1) 24) as [F2 E2]; [simpl; lia|lia|].
  split; [exact F1|]. split; [exact F2|]. split; [rewrite E1; simpl; lra|]. split; [rewrite E2; simpl; lra|].
  set (j := mk_tjob flat (f32_lit (-16777215) 0) (f32_lit (-1) 24) none_).
  apply (collect_hang _ (f32_lit (-16777215) 0) 1).
  - assert (Q : nfloor (f32_lit (-16777215) 0) = f32_lit (-16777215) 0) by (apply to_bits_inj; vm_compute; reflexivity).
    unfold iter_new, j. cbn [j_from j_to j_track]. rewrite Q.
    assert (E : neq (f32_lit (-16777215) 0) (f32_lit (-1) 24) = false) by (vm_compute; reflexivity). rewrite E.
    assert (L : nlt (f32_lit (-16777215) 0) (f32_lit (-1) 24) = false) by (vm_compute; reflexivity). rewrite L. reflexivity.
  - intros [|f]; [reflexivity|]. rewrite next_S. cbv zeta.
    replace (nlt (j_from j) (j_to j)) with false by (vm_compute; reflexivity).
    change (@num_arith f32 f32num) with f32arith.
    replace (nlt (j_to j) (@nadd f32 f32arith (f32_lit (-16777215) 0) none_)) with true by (vm_compute; reflexivity).
    replace (inner_bwd j (f32_lit (-16777215) 0) (Z.to_nat (1 + 1))) with (@Ok (option (edge f32 * Z)) None) by (vm_compute; reflexivity).
    assert (Q : @nsub f32 f32arith (f32_lit (-16777215) 0) none_ = f32_lit (-1) 24) by (apply to_bits_inj; vm_compute; reflexivity).
    rewrite Q. apply (hang_bwd j); [vm_compute; reflexivity..|]. apply to_bits_inj. vm_compute. reflexivity.
Qed.
Print Assumptions C44_backward_hang_refuted.

(** ** What rounding breaks
    Each track below is sized, with increasing ratios from 0 to 1; [run] collects a window. *)
Definition run (t : ftrack f32 f32) (from to thr : f32) : option (list (N * bool)) :=
  edges_bits (collect 40 (mk_tjob t from to thr) (iter_new (mk_tjob t from to thr))).
Lemma run_yields t from to thr l : run t from to thr = Some l -> exists es, yields (mk_tjob t from to thr) es /\ map (fun e => (f32_to_bits (e_ratio e), e_rising e)) es = l.
Proof.
  unfold run, edges_bits. destruct (collect _ _ _) as [es| |] eqn:E; try discriminate. intros H. inversion H. exists es. split; [|reflexivity]. exists 40%nat. exact E.
Qed.
Definition good_track (t : ftrack f32 f32) : Prop :=
  track_sized t /\ increasing t /\ (forall i a, nth_error (t_ratios t) i = Some a -> nle nzero a = true /\ nle a none_ = true).
Ltac good := split; [repeat split; cbn; lia|]; split;
  [intros [|[|[|[|[|i]]]]] [|[|[|[|[|j]]]]] qa qb qL qHa qHb; try lia; inversion qHa; inversion qHb; vm_compute; reflexivity
  |intros [|[|[|[|[|i]]]]] qa qHa; inversion qHa; split; vm_compute; reflexivity].

(** A key just before the loop end rounds to the loop end: the frame [1, 2] stops before the edge
    at the last key and the frame [2, 2.5] starts after it, while [1, 2.5] reports it. *)
Definition late_key : ftrack f32 f32 := mk_track 3 [nzero; f32_lit 16777215 (-24); none_] [nzero; nzero; ntwo] [0%N].
Theorem C41_binary32_refuted : exists (t : ftrack f32 f32) thr a b c l1 l2 l,
  good_track t /\ nlt a b = true /\ nlt b c = true /\
  yields (mk_tjob t a b thr) l1 /\ yields (mk_tjob t b c thr) l2 /\ yields (mk_tjob t a c thr) l /\
  length l1 = 1%nat /\ length l2 = 1%nat /\ length l = 3%nat.
Proof.
  assert (R1 : exists x, run late_key none_ ntwo none_ = Some x /\ length x = 1%nat) by (eexists; split; [vm_compute; reflexivity|reflexivity]).
  assert (R2 : exists x, run late_key ntwo (f32_lit 5 (-1)) none_ = Some x /\ length x = 1%nat) by (eexists; split; [vm_compute; reflexivity|reflexivity]).
  assert (R3 : exists x, run late_key none_ (f32_lit 5 (-1)) none_ = Some x /\ length x = 3%nat) by (eexists; split; [vm_compute; reflexivity|reflexivity]).
  destruct R1 as (x1 & R1 & L1), R2 as (x2 & R2 & L2), R3 as (x3 & R3 & L3).
  apply run_yields in R1, R2, R3. destruct R1 as (l1 & Y1 & M1), R2 as (l2 & Y2 & M2), R3 as (l3 & Y3 & M3).
  exists late_key, none_, none_, ntwo, (f32_lit 5 (-1)), l1, l2, l3. split; [good|].
  split; [vm_compute; reflexivity|]. split; [vm_compute; reflexivity|]. do 3 (split; [assumption|]).
  rewrite <- M1, map_length in L1. rewrite <- M2, map_length in L2. rewrite <- M3, map_length in L3. auto.
Qed.
Print Assumptions C41_binary32_refuted.

(** Two keys of the same rounded time: played backward, the window stops at the later one and
    misses the edge at the earlier one; played forward from there, it is reported. *)
Definition twin : ftrack f32 f32 :=
  mk_track 4 [nzero; nhalf; f32_lit 8388609 (-24); none_] [nzero; ntwo; ntwo; nzero] [15%N].
Theorem C42_binary32_refuted : exists (t : ftrack f32 f32) thr a b l l',
  good_track t /\ nlt a b = true /\ yields (mk_tjob t a b thr) l /\ yields (mk_tjob t b a thr) l' /\
  length l = 2%nat /\ length l' = 1%nat.
Proof.
  assert (R1 : exists x, run twin (f32_lit 2097153 (-1)) (f32_lit 1048577 0) none_ = Some x /\ length x = 2%nat) by (eexists; split; [vm_compute; reflexivity|reflexivity]).
  assert (R2 : exists x, run twin (f32_lit 1048577 0) (f32_lit 2097153 (-1)) none_ = Some x /\ length x = 1%nat) by (eexists; split; [vm_compute; reflexivity|reflexivity]).
  destruct R1 as (x1 & R1 & L1), R2 as (x2 & R2 & L2).
  apply run_yields in R1, R2. destruct R1 as (l1 & Y1 & M1), R2 as (l2 & Y2 & M2).
  exists twin, none_, (f32_lit 2097153 (-1)), (f32_lit 1048577 0), l1, l2. split; [good|]. split; [vm_compute; reflexivity|]. do 2 (split; [assumption|]).
  rewrite <- M1, map_length in L1. rewrite <- M2, map_length in L2. auto.
Qed.
Print Assumptions C42_binary32_refuted.

(** The difference of two finite values overflows: the crossing between them is lost. *)
Definition steep : ftrack f32 f32 := mk_track 3 [nzero; nhalf; none_] [f32_lit (-7) 125; f32_lit 7 125; f32_lit 7 125] [0%N].
Theorem C40_overflow_binary32_refuted : exists (t : ftrack f32 f32) thr v0 v1,
  good_track t /\ nth_error (t_values t) 0 = Some v0 /\ nth_error (t_values t) 1 = Some v1 /\ is_finite v0 = true /\ is_finite v1 = true /\
  nle v0 thr = true /\ nlt thr v1 = true /\ exists l, yields (mk_tjob t nzero none_ thr) l /\ forall e, In e l -> e_rising e = false.
Proof.
  exists steep, (f32_lit 6 125). do 2 eexists. split; [good|]. split; [reflexivity|]. split; [reflexivity|]. do 4 (split; [vm_compute; reflexivity|]).
  assert (R1 : run steep nzero none_ (f32_lit 6 125) = Some [(0%N, false)]) by (vm_compute; reflexivity).
  apply run_yields in R1. destruct R1 as (l & Y & M). exists l. split; [exact Y|].
  destruct l as [|e [|e' l]]; inversion M. intros x [<-|[]]. reflexivity.
Qed.
Print Assumptions C40_overflow_binary32_refuted.

(** The computed time of an edge can round past the key that ends its segment: times decrease. *)
Definition overshoot : ftrack f32 f32 :=
  mk_track 4 [nzero; f32_lit 3 (-25); f32_lit 16777215 (-24); none_] [f32_lit (-1) 0; f32_lit (-1) 0; f32_lit 1 (-30); f32_lit (-1) 0] [0%N].
Theorem C40_order_binary32_refuted : exists (t : ftrack f32 f32) thr from to e1 e2,
  good_track t /\ nlt from to = true /\ yields (mk_tjob t from to thr) [e1; e2] /\ nlt (e_ratio e2) (e_ratio e1) = true.
Proof.
  assert (R1 : run overshoot nzero none_ nzero = Some [(1065353216%N, true); (1065353215%N, false)]) by (vm_compute; reflexivity).
  apply run_yields in R1. destruct R1 as (l & Y & M). destruct l as [|e1 [|e2 [|e3 l]]]; try discriminate M.
  cbn [map] in M. injection M as B1 _ B2 _.
  exists overshoot, nzero, nzero, none_, e1, e2. split; [good|]. split; [vm_compute; reflexivity|]. split; [exact Y|].
  rewrite <- (of_to_bits (e_ratio e1)), <- (of_to_bits (e_ratio e2)), B1, B2. vm_compute. reflexivity.
Qed.
Print Assumptions C40_order_binary32_refuted.

(** Concrete case of [C44_terminates_partial]: many loops backward. *)
Example C44_case : exists l, yields (mk_tjob (sawf 0) (f32_lit 100 0) (f32_lit (-1001) (-1)) none_) l.
Proof.
  destruct (f32_lit_exact 100 0) as [F1 E1]; [simpl; lia|lia|]. destruct (f32_lit_exact (-1001) (-1)) as [F2 E2]; [simpl; lia|lia|].
  apply C44_terminates_partial; [apply sawf_ok|exact F1|exact F2|rewrite E1; simpl; lra|rewrite E2; simpl; lra].
Qed.
