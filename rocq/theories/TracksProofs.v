(** Track sampling and triggering: proofs. *)
From Coq Require Import Reals Lra Psatz Sorted.
From Verif Require Import Base Num NumR Tracks TracksSpec.
Local Open Scope R_scope.

(** ** Generalities *)
Lemma step_key_ok {F V} (t : ftrack F V) i : track_sized t -> (i < length (t_ratios t))%nat -> step_key t i = Ok (is_step t i).
Proof.
  intros (_ & _ & H) Hi. unfold step_key, is_step.
  assert (L : (i / 8 < length (t_steps t))%nat). { apply Nat.div_lt_upper_bound; lia. }
  rewrite (get_nth _ _ 0%N L). cbn [bind]. f_equal.
  set (b := nth (i / 8) (t_steps t) 0%N). set (n := N.of_nat (i mod 8)).
  destruct (N.testbit b n) eqn:E.
  - apply negb_true_iff, N.eqb_neq. intros Z. assert (N.testbit (N.land b (N.shiftl 1 n)) n = false) by (rewrite Z; apply N.bits_0).
    rewrite N.land_spec, E, N.shiftl_spec_high' in H0 by lia. rewrite N.sub_diag in H0. discriminate.
  - apply negb_false_iff, N.eqb_eq. apply N.bits_inj_0. intros m. rewrite N.land_spec.
    destruct (N.eq_dec m n) as [->|Hne]; [rewrite E; reflexivity|].
    replace (N.testbit (N.shiftl 1 n) m) with false; [apply andb_false_r|]. symmetry.
    rewrite N.shiftl_1_l. apply N.pow2_bits_false. congruence.
Qed.

Lemma position_Some {A} (p : A -> bool) l : forall i, position p l = Some i ->
  (exists x, nth_error l i = Some x /\ p x = true) /\ forall k x, (k < i)%nat -> nth_error l k = Some x -> p x = false.
Proof.
  induction l as [|a l IH]; intros i H; cbn in H; [discriminate|]. destruct (p a) eqn:E.
  - inversion H; subst. split; [exists a; auto|]. intros; lia.
  - destruct (position p l) as [i'|]; [|discriminate]. inversion H; subst. destruct (IH i' eq_refl) as [A1 A2]. split; [exact A1|].
    intros [|k] x Hk Hx; cbn in Hx; [congruence|]. apply (A2 k); [lia|exact Hx].
Qed.
Lemma position_None {A} (p : A -> bool) l : position p l = None -> forall k x, nth_error l k = Some x -> p x = false.
Proof.
  induction l as [|a l IH]; intros H k x Hx; [destruct k; discriminate|]. cbn in H. destruct (p a) eqn:E; [discriminate|].
  destruct (position p l); [discriminate|]. destruct k as [|k]; cbn in Hx; [congruence|]. exact (IH eq_refl k x Hx).
Qed.

(** ** Sampling, over an ordered number type *)
Section Sampling.
  Context {F : Type} {NF : Num F}.
  Hypothesis lt_le : forall a b c : F, nlt a b = true -> nle b c = true -> nlt c a = false.
  Hypothesis le_nlt : forall b c : F, nle b c = true -> nlt c b = false.
  Context {V : Type} (lerp : V -> V -> F -> V) (default : V).

  Definition increasing (t : ftrack F V) : Prop :=
    forall i j a b, (i < j)%nat -> nth_error (t_ratios t) i = Some a -> nth_error (t_ratios t) j = Some b -> nlt a b = true.

  (** The key found for a ratio between two keys. *)
  Lemma sample_between (t : ftrack F V) r i a b v w :
    track_sized t -> increasing t ->
    nth_error (t_ratios t) i = Some a -> nth_error (t_ratios t) (S i) = Some b ->
    nth_error (t_values t) i = Some v -> nth_error (t_values t) (S i) = Some w ->
    nle a r = true -> nlt r b = true -> nlt r nzero = false -> nlt none_ r = false ->
    sample_track lerp default t r = Ok (if is_step t i then v else lerp v w (ndiv (nsub r a) (nsub b a))).
  Proof.
    intros HS HI Ha Hb Hv Hw La Lb H0 H1. pose proof HS as (S1 & S2 & S3).
    assert (Lb' : (S i < length (t_ratios t))%nat) by (apply nth_error_Some; congruence).
    assert (PO : position (fun x => nlt r x) (t_ratios t) = Some (S i)).
    { destruct (position (fun x => nlt r x) (t_ratios t)) as [p|] eqn:E.
      - apply position_Some in E. destruct E as [(x & Hx & Px) E2]. f_equal.
        destruct (lt_eq_lt_dec p (S i)) as [[Hlt| ->]|Hgt]; [|reflexivity|].
        + exfalso. assert (nlt r x = false); [|congruence]. destruct (Nat.eq_dec p i) as [->|].
          * rewrite Ha in Hx. inversion Hx; subst. apply le_nlt, La.
          * apply (lt_le x a r); [|exact La]. apply (HI p i); [lia|exact Hx|exact Ha].
        + specialize (E2 (S i) b Hgt Hb). cbn in E2. congruence.
      - pose proof (position_None _ _ E (S i) b Hb) as E2. cbn in E2. congruence. }
    unfold sample_track. rewrite PO.
    destruct (Nat.eqb_spec (length (t_ratios t)) 0); [lia|]. destruct (Nat.eqb_spec (length (t_ratios t)) 1); [lia|].
    rewrite H0, H1. cbn [orb]. replace (S i - 1)%nat with i by lia.
    rewrite step_key_ok by (auto; lia). cbn [bind].
    destruct (Nat.eqb_spec (S i) (t_key_count t)); [lia|]. rewrite orb_false_r.
    destruct (is_step t i).
    - apply get_Ok, Hv.
    - apply get_Ok in Ha, Hb, Hv, Hw. rewrite Ha. cbn [bind]. rewrite Hb. cbn [bind]. rewrite Hv. cbn [bind]. rewrite Hw. reflexivity.
  Qed.

  (** No key after the ratio. *)
  Lemma sample_after (t : ftrack F V) r v :
    track_sized t -> last_error (t_values t) = Some v -> nlt r nzero = false ->
    (forall i a, nth_error (t_ratios t) i = Some a -> nlt r a = false) ->
    sample_track lerp default t r = Ok v.
  Proof.
    intros HS Hv H0 HA. pose proof HS as (S1 & S2 & S3). unfold last_error in Hv. rewrite S2 in Hv.
    assert (L : (length (t_ratios t) - 1 < length (t_values t))%nat) by (apply nth_error_Some; congruence).
    unfold sample_track.
    destruct (Nat.eqb_spec (length (t_ratios t)) 0); [lia|].
    destruct (Nat.eqb_spec (length (t_ratios t)) 1) as [E1|E1]; cbn [orb].
    { rewrite E1 in Hv. cbn in Hv |- *. rewrite Hv. reflexivity. }
    rewrite H0. unfold last_error. rewrite S2, Hv.
    destruct (nlt none_ r); [reflexivity|].
    destruct (position (fun x => nlt r x) (t_ratios t)) as [p|] eqn:E.
    { apply position_Some in E. destruct E as [(x & Hx & Px) _]. rewrite (HA p x Hx) in Px. discriminate. }
    rewrite S1. rewrite step_key_ok by (auto; lia). cbn [bind]. rewrite Nat.eqb_refl, orb_true_r. apply get_Ok, Hv.
  Qed.

  Lemma sample_before (t : ftrack F V) r v : track_sized t -> nth_error (t_values t) 0 = Some v ->
    nlt r nzero = true -> sample_track lerp default t r = Ok v.
  Proof.
    intros (S1 & S2 & S3) Hv H0. assert (L : (0 < length (t_values t))%nat) by (apply nth_error_Some; congruence).
    unfold sample_track. destruct (Nat.eqb_spec (length (t_ratios t)) 0); [lia|]. rewrite H0, orb_true_r, Hv. reflexivity.
  Qed.
  Lemma sample_empty (t : ftrack F V) r : track_sized t -> t_ratios t = [] -> sample_track lerp default t r = Ok default.
  Proof. intros _ E. unfold sample_track. rewrite E. reflexivity. Qed.
End Sampling.

(** ** Fuel *)
Section Fuel.
  Context {F : Type} {NF : Num F}.
  Lemma next_S f j (outer : F) inner : next (S f) j outer inner =
        let key_count := t_key_count (j_track j) in
        if nlt (j_from j) (j_to j) then
          if nlt outer (j_to j) then
            match inner_fwd j outer (key_count - Z.to_nat inner) (Z.to_nat inner) with
            | Ok (Some (e, i)) => NYield e (Some (outer, Z.of_nat i))
            | Ok None => next f j (outer + none_)%num 0
            | _ => NPanic
            end
          else NEnd
        else
          if nlt (j_to j) (outer + none_)%num then
            match inner_bwd j outer (Z.to_nat (inner + 1)) with
            | Ok (Some (e, i)) => NYield e (Some (outer, i))
            | Ok None => next f j (outer - none_)%num (Z.of_nat key_count - 1)
            | _ => NPanic
            end
          else NEnd.
  Proof. reflexivity. Qed.
  Lemma next_mono f : forall j outer inner, next f j outer inner <> @NHang F -> next (S f) j outer inner = next f j outer inner.
  Proof.
    induction f as [|f IH]; intros j outer inner H; [contradiction|].
    rewrite (next_S (S f) j outer inner). rewrite (next_S f j outer inner) in H |- *. cbv zeta in *.
    destruct (nlt (j_from j) (j_to j)).
    - destruct (nlt outer (j_to j)); [|reflexivity].
      destruct (inner_fwd j outer (t_key_count (j_track j) - Z.to_nat inner) (Z.to_nat inner)) as [[[e i]|]| |]; try reflexivity.
      apply IH, H.
    - destruct (nlt (j_to j) (outer + none_)%num); [|reflexivity].
      destruct (inner_bwd j outer (Z.to_nat (inner + 1))) as [[[e i]|]| |]; try reflexivity.
      apply IH, H.
  Qed.
  Lemma collect_mono f : forall (j : tjob F) st, collect f j st <> Hang -> collect (S f) j st = collect f j st.
  Proof.
    induction f as [|f IH]; intros j st H; [contradiction|].
    change (collect (S (S f)) j st) with
      (match st with None => Edges [] | Some (outer, inner) =>
         match next (S f) j outer inner with NEnd => Edges [] | NPanic => Panics | NHang => Hang
         | NYield e st => match collect (S f) j st with Edges l => Edges (e :: l) | r => r end end end).
    cbn [collect] in H |- *. destruct st as [[outer inner]|]; [|reflexivity].
    destruct (next f j outer inner) as [e st'| | |] eqn:E.
    - rewrite next_mono by congruence. rewrite E.
      change (match st' with None => Edges [] | Some (outer, inner) =>
         match next f j outer inner with NEnd => Edges [] | NPanic => Panics | NHang => Hang
         | NYield e st => match collect f j st with Edges l => Edges (e :: l) | r => r end end end) with (collect (S f) j st').
      rewrite IH; [reflexivity|]. intros E2. rewrite E2 in H. contradiction.
    - rewrite next_mono by congruence. rewrite E. reflexivity.
    - rewrite next_mono by congruence. rewrite E. reflexivity.
    - contradiction.
  Qed.
  Lemma collect_le f f' (j : tjob F) st : (f <= f')%nat -> collect f j st <> Hang -> collect f' j st = collect f j st.
  Proof.
    intros H. induction H as [|f' H IH]; intros N; [reflexivity|].
    rewrite collect_mono; rewrite IH by exact N; [reflexivity|exact N].
  Qed.
  Lemma yields_unique (j : tjob F) l l' : yields j l -> yields j l' -> l = l'.
  Proof.
    intros [f H] [f' H']. destruct (Nat.le_ge_cases f f') as [L|L].
    - rewrite (collect_le f f' j _ L) in H' by congruence. congruence.
    - rewrite (collect_le f' f j _ L) in H by congruence. congruence.
  Qed.

  Definition collects (j : tjob F) (st : tstate) (l : list (edge F)) : Prop := exists f, collect f j st = Edges l.
  Lemma collects_end j outer inner : next 1 j outer inner = NEnd -> collects j (Some (outer, inner)) [].
  Proof. intros H. exists 2%nat. cbn [collect]. rewrite H. reflexivity. Qed.
  Lemma collects_yield j outer inner e st l : next 1 j outer inner = NYield e st -> collects j st l -> collects j (Some (outer, inner)) (e :: l).
  Proof.
    intros H [f C]. exists (S (S f)). cbn [collect].
    assert (E : next (S f) j outer inner = NYield e st).
    { clear C. induction f as [|f IH]; [exact H|]. rewrite next_mono by congruence. exact IH. }
    rewrite E. change (match (match st with None => Edges [] | Some (outer, inner) =>
         match next f j outer inner with NEnd => Edges [] | NPanic => Panics | NHang => Hang
         | NYield e st => match collect f j st with Edges l => Edges (e :: l) | r => r end end end) with Edges l0 => Edges (e :: l0) | r => r end = Edges (e :: l))
      with (match collect (S f) j st with Edges l0 => Edges (e :: l0) | r => r end = Edges (e :: l)).
    rewrite collect_mono by congruence. rewrite C. reflexivity.
  Qed.
  Lemma collects_skip j outer inner outer' inner' l :
    (forall f, next (S f) j outer inner = next f j outer' inner') -> collects j (Some (outer', inner')) l -> collects j (Some (outer, inner)) l.
  Proof.
    intros H [f C]. destruct f as [|f]; [discriminate|]. exists (S (S f)).
    change (match next (S f) j outer inner with NEnd => Edges [] | NPanic => Panics | NHang => Hang
         | NYield e st => match collect (S f) j st with Edges l => Edges (e :: l) | r => r end end = Edges l).
    rewrite H. cbn [collect] in C. destruct (next f j outer' inner') as [e st| | |]; try exact C.
    assert (N : collect f j st <> Hang) by (intros E; rewrite E in C; discriminate).
    rewrite collect_mono by exact N. exact C.
  Qed.
End Fuel.

(** ** Real arithmetic *)
Lemma nfloor_R x : exists k : Z, nfloor x = IZR k /\ IZR k <= x < IZR k + 1.
Proof.
  assert (IP : forall y, IZR (Int_part y) <= y < IZR (Int_part y) + 1).
  { intros y. destruct (base_Int_part y). lra. }
  unfold nfloor. cbn [ntrunc num_arith Rnum Rarith nlt].
  destruct (Rltb_spec x (IZR (Rtrunc x))) as [L|L]; unfold Rtrunc in *.
  - destruct (Rlt_dec x 0) as [N|N]; [|destruct (IP x); lra].
    exists (- Int_part (- x) - 1)%Z. split.
    + change (@num_arith R Rnum) with Rarith. rewrite none_R. cbn. rewrite minus_IZR. reflexivity.
    + rewrite minus_IZR. destruct (IP (- x)). rewrite opp_IZR in *. lra.
  - destruct (Rlt_dec x 0) as [N|N].
    + exists (- Int_part (- x))%Z. split; [reflexivity|]. destruct (IP (- x)). rewrite opp_IZR in *. lra.
    + exists (Int_part x). split; [reflexivity|]. apply IP.
Qed.

Section Trigger.
  Variable t : ftrack R R.
  Variable thr : R.
  Hypothesis HS : track_sized t.
  Hypothesis HO : track_ordered t.
  Let n := length (t_ratios t).

  Lemma n_key : t_key_count t = n. Proof. apply HS. Qed.
  Lemma n_val : length (t_values t) = n. Proof. apply HS. Qed.

  (** The crossing at key [i], as computed. *)
  Definition rt (i : nat) : R := nth i (t_ratios t) 0.
  Definition vl (i : nat) : R := nth i (t_values t) 0.
  Definition pv (i : nat) : nat := match i with O => n - 1 | S i => i end.
  Definition cr (i : nat) : option (R * bool) :=
    let r := if is_step t (pv i) then rt i else match i with O => 0 | S i' => rt i' + (rt i - rt i') * ((thr - vl i') / (vl i - vl i')) end in
    if Rle_dec (vl (pv i)) thr then (if Rlt_dec thr (vl i) then Some (r, true) else None)
    else if Rle_dec (vl i) thr then Some (r, false) else None.

  Lemma pv_before i : pv i = before (t_key_count t) i.
  Proof. unfold before. rewrite n_key. destruct i as [|i]; [reflexivity|]. cbn. lia. Qed.
  Lemma pv_key_before i : pv i = key_before t i.
  Proof. destruct i; [|reflexivity]. unfold key_before. rewrite n_val. reflexivity. Qed.
  Lemma pv_lt i : (i < n)%nat -> (pv i < n)%nat.
  Proof. destruct i; cbn; lia. Qed.
  Lemma rt_nth i : (i < n)%nat -> nth_error (t_ratios t) i = Some (rt i).
  Proof. intros H. apply nth_error_nth', H. Qed.
  Lemma vl_nth i : (i < n)%nat -> nth_error (t_values t) i = Some (vl i).
  Proof. intros H. apply nth_error_nth'. rewrite n_val. exact H. Qed.
  Lemma rt_bounds i : (i < n)%nat -> 0 <= rt i <= 1.
  Proof. intros H. apply (proj1 HO i). apply rt_nth, H. Qed.
  Lemma rt_lt i j : (i < j < n)%nat -> rt i < rt j.
  Proof. intros H. apply (proj2 HO i j); [lia|apply rt_nth; lia|apply rt_nth; lia]. Qed.
  Lemma rt_le i j : (i <= j < n)%nat -> rt i <= rt j.
  Proof. intros H. destruct (Nat.eq_dec i j) as [->|]; [lra|]. pose proof (rt_lt i j ltac:(lia)). lra. Qed.

  Lemma detect_cr j i fwd : j_track j = t -> j_threshold j = thr -> (i < n)%nat ->
    detect_edge j (before (t_key_count (j_track j)) i) i fwd =
    Ok (match cr i with Some (r, up) => Some (mk_edge r (if fwd then up else negb up)) | None => None end).
  Proof.
    intros Et Eh Hi. unfold detect_edge. rewrite Et, Eh, <- pv_before.
    rewrite (get_nth _ (pv i) 0) by (rewrite n_val; apply pv_lt, Hi). cbn [bind].
    rewrite (get_nth _ i 0) by (rewrite n_val; exact Hi). cbn [bind].
    fold (vl (pv i)) (vl i). rewrite step_key_ok by (auto; apply pv_lt, Hi). cbn [bind].
    assert (RAT : (if is_step t (pv i) then get (t_ratios t) i
       else if (i =? 0)%nat then Ok (@nzero R (@num_arith R Rnum))
       else let* r0 := get (t_ratios t) (pv i) in let* r1 := get (t_ratios t) i in
            Ok (@nadd R (@num_arith R Rnum) r0 (@nmul R (@num_arith R Rnum) (@nsub R (@num_arith R Rnum) r1 r0)
              (@ndiv R (@num_arith R Rnum) (@nsub R (@num_arith R Rnum) thr (vl (pv i))) (@nsub R (@num_arith R Rnum) (vl i) (vl (pv i)))))))
       = Ok (if is_step t (pv i) then rt i else match i with O => 0 | S i' => rt i' + (rt i - rt i') * ((thr - vl i') / (vl i - vl i')) end)).
    { rewrite (get_nth (t_ratios t) i 0 Hi). destruct (is_step t (pv i)); [reflexivity|].
      destruct i as [|i']; cbn [Nat.eqb]; [change (@num_arith R Rnum) with Rarith; rewrite nzero_R; reflexivity|].
      cbn [pv]. rewrite (get_nth (t_ratios t) i' 0) by (unfold n in Hi; lia). reflexivity. }
    rewrite RAT. unfold cr. cbn [nle nlt Rnum].
    destruct (Rleb_spec (vl (pv i)) thr) as [A|A], (Rle_dec (vl (pv i)) thr) as [A'|A']; try contradiction; cbn [andb].
    - destruct (Rltb_spec thr (vl i)) as [B|B], (Rlt_dec thr (vl i)) as [B'|B']; try contradiction; cbn [andb bind].
      + destruct fwd; reflexivity.
      + destruct (Rltb_spec thr (vl (pv i))); [lra|]. reflexivity.
    - destruct (Rltb_spec thr (vl (pv i))); [|lra]. cbn [andb].
      destruct (Rleb_spec (vl i) thr) as [B|B], (Rle_dec (vl i) thr) as [B'|B']; try contradiction; cbn [bind]; destruct fwd; reflexivity.
  Qed.

  Lemma alpha_bounds a b : (a <= thr < b \/ b <= thr < a) -> 0 <= (thr - a) / (b - a) <= 1.
  Proof.
    intros H. destruct H as [H|H].
    - split; [apply Rmult_le_pos; [lra|apply Rlt_le, Rinv_0_lt_compat; lra]|].
      apply (Rmult_le_reg_r (b - a)); [lra|]. unfold Rdiv. rewrite Rmult_assoc, Rinv_l by lra. lra.
    - replace ((thr - a) / (b - a)) with ((a - thr) / (a - b)) by (field; lra).
      split; [apply Rmult_le_pos; [lra|apply Rlt_le, Rinv_0_lt_compat; lra]|].
      apply (Rmult_le_reg_r (a - b)); [lra|]. unfold Rdiv. rewrite Rmult_assoc, Rinv_l by lra. lra.
  Qed.
  Lemma cr_straddles i r up : cr i = Some (r, up) ->
    (if up then vl (pv i) <= thr /\ thr < vl i else vl i <= thr /\ thr < vl (pv i)) /\
    r = if is_step t (pv i) then rt i else match i with O => 0 | S i' => rt i' + (rt i - rt i') * ((thr - vl i') / (vl i - vl i')) end.
  Proof.
    unfold cr. cbv zeta. destruct (Rle_dec (vl (pv i)) thr).
    - destruct (Rlt_dec thr (vl i)); [|discriminate]. intros H; injection H; intros <- <-. auto.
    - destruct (Rle_dec (vl i) thr); [|discriminate]. intros H; injection H; intros <- <-. split; [lra|reflexivity].
  Qed.
  Lemma cr_bounds i r up : (i < n)%nat -> cr i = Some (r, up) -> 0 <= r <= rt i /\ forall i', (i' < i)%nat -> rt i' <= r.
  Proof.
    intros Hi H. apply cr_straddles in H. destruct H as [S ->]. pose proof (rt_bounds i Hi) as B.
    destruct (is_step t (pv i)).
    - split; [lra|]. intros i' Hi'. apply rt_le. lia.
    - destruct i as [|i0]; [split; [lra|intros; lia]|]. cbn [pv] in S.
      assert (A : 0 <= (thr - vl i0) / (vl (Datatypes.S i0) - vl i0) <= 1) by (apply alpha_bounds; destruct up; [left|right]; lra).
      set (al := (thr - vl i0) / (vl (Datatypes.S i0) - vl i0)) in *.
      pose proof (rt_lt i0 (Datatypes.S i0) ltac:(lia)) as L. pose proof (rt_bounds i0 ltac:(lia)) as B0.
      split; [split; nra|]. intros i' Hi'. pose proof (rt_le i' i0 ltac:(lia)). nra.
  Qed.
  (** The computed crossing is the specified one. *)
  Lemma cr_crosses i r up : (i < n)%nat -> cr i = Some (r, up) -> crosses t thr i r up.
  Proof.
    intros Hi H. apply cr_straddles in H. destruct H as [S E]. exists (vl (pv i)), (vl i).
    rewrite <- pv_key_before. split; [apply vl_nth, pv_lt, Hi|]. split; [apply vl_nth, Hi|]. split; [exact S|].
    destruct (is_step t (pv i)); [rewrite E; apply rt_nth, Hi|]. destruct i as [|i0]; [exact E|].
    exists (rt i0), (rt (Datatypes.S i0)). split; [apply rt_nth; lia|]. split; [apply rt_nth, Hi|].
    pose proof (rt_lt i0 (Datatypes.S i0) ltac:(lia)). cbn [pv] in *. rewrite E. field; destruct up; split; lra.
  Qed.
  Lemma crosses_cr i r up : crosses t thr i r up -> (i < n)%nat /\ cr i = Some (r, up).
  Proof.
    intros (v0 & v1 & E0 & E1 & S & C). rewrite <- pv_key_before in *.
    assert (Hi : (i < n)%nat). { rewrite <- n_val. apply nth_error_Some. congruence. }
    split; [exact Hi|]. rewrite vl_nth in E0 by (apply pv_lt, Hi). rewrite vl_nth in E1 by exact Hi.
    inversion E0; subst v0. inversion E1; subst v1. clear E0 E1.
    assert (R : r = if is_step t (pv i) then rt i else match i with O => 0 | S i' => rt i' + (rt i - rt i') * ((thr - vl i') / (vl i - vl i')) end).
    { destruct (is_step t (pv i)); [rewrite rt_nth in C by exact Hi; inversion C; reflexivity|]. destruct i as [|i0]; [exact C|].
      destruct C as (r0 & r1 & C0 & C1 & C2). rewrite rt_nth in C0 by lia. rewrite rt_nth in C1 by exact Hi.
      inversion C0; subst r0. inversion C1; subst r1. cbn [pv] in *. rewrite <- C2 at 1.
      pose proof (rt_lt i0 (Datatypes.S i0) ltac:(lia)). field; destruct up; split; lra. }
    unfold cr. cbv zeta. rewrite <- R.
    destruct up; destruct (Rle_dec (vl (pv i)) thr); try lra.
    - destruct (Rlt_dec thr (vl i)); [reflexivity|lra].
    - destruct (Rle_dec (vl i) thr); [reflexivity|lra].
  Qed.

  (** Decidable window tests. *)
  Definition beforeb (b : R) (k : Z) (r : R) : bool := Rltb (r + IZR k) b || Rleb (1 + IZR k) b.
  Lemma beforeb_iff b k r : beforeb b k r = true <-> before_time b k r.
  Proof.
    unfold beforeb, before_time. rewrite orb_true_iff.
    destruct (Rltb_spec (r + IZR k) b), (Rleb_spec (1 + IZR k) b); split; intros [H|H]; try discriminate H; try (left; lra); try (right; lra); auto; try lra.
  Qed.
  Definition windowb (a b : R) (k : Z) (r : R) : bool := negb (beforeb a k r) && beforeb b k r.
  Lemma windowb_iff a b k r : windowb a b k r = true <-> in_window a b k r.
  Proof.
    unfold windowb, in_window. rewrite andb_true_iff, negb_true_iff, <- !beforeb_iff.
    destruct (beforeb a k r); intuition congruence.
  Qed.

  (** The edge at (loop, key) inside a window. *)
  Definition pick (w : Z -> R -> bool) (p : Z * nat) : option (edge R) :=
    match cr (snd p) with
    | Some (r, up) => if w (fst p) r then Some (mk_edge (r + IZR (fst p)) up) else None
    | None => None
    end.
  Definition optl {A} (o : option A) : list A := match o with Some x => [x] | None => [] end.
  Definition picks (w : Z -> R -> bool) (ps : list (Z * nat)) : list (edge R) := flat_map (fun p => optl (pick w p)) ps.
  Lemma picks_app w p q : picks w (p ++ q) = picks w p ++ picks w q.
  Proof. apply flat_map_app. Qed.
  Lemma picks_cons w p ps : picks w (p :: ps) = optl (pick w p) ++ picks w ps.
  Proof. reflexivity. Qed.
  Lemma picks_none w ps : (forall k i r up, In (k, i) ps -> cr i = Some (r, up) -> w k r = false) -> picks w ps = [].
  Proof.
    induction ps as [|[k i] ps IH]; intros H; [reflexivity|]. rewrite picks_cons, IH.
    - unfold pick. cbn [fst snd]. destruct (cr i) as [[r up]|] eqn:E; [|reflexivity]. rewrite (H k i r up); [reflexivity|left; reflexivity|exact E].
    - intros k' i' r up Hin. apply H. right. exact Hin.
  Qed.
  Lemma picks_ext w w' ps : (forall k i r up, In (k, i) ps -> cr i = Some (r, up) -> w k r = w' k r) -> picks w ps = picks w' ps.
  Proof.
    induction ps as [|[k i] ps IH]; intros H; [reflexivity|]. rewrite !picks_cons, IH.
    - f_equal. unfold pick. cbn [fst snd]. destruct (cr i) as [[r up]|] eqn:E; [|reflexivity]. rewrite (H k i r up); [reflexivity|left; reflexivity|exact E].
    - intros k' i' r up Hin. apply H. right. exact Hin.
  Qed.

  (** (loop, key) positions: one loop from key [i], and [m] loops from [k]. *)
  Definition one_loop (k : Z) (i c : nat) : list (Z * nat) := map (fun i => (k, i)) (seq i c).
  Fixpoint loops (k : Z) (m : nat) : list (Z * nat) :=
    match m with O => [] | S m => one_loop k 0 n ++ loops (k + 1) m end.
  Lemma in_loops m : forall k k' i, In (k', i) (loops k m) <-> (k <= k' < k + Z.of_nat m)%Z /\ (i < n)%nat.
  Proof.
    induction m as [|m IH]; intros k k' i; cbn [loops].
    - split; [intros []|intros [? _]; lia].
    - rewrite in_app_iff, IH. unfold one_loop. rewrite in_map_iff. split.
      + intros [(x & E & Hx)|[H1 H2]]; [|lia]. inversion E; subst. apply in_seq in Hx. lia.
      + intros [H1 H2]. destruct (Z.eq_dec k' k) as [->|]; [left; exists i; split; [reflexivity|apply in_seq; lia]|right; lia].
  Qed.
  Lemma loops_app m1 m2 : forall k, loops k (m1 + m2) = loops k m1 ++ loops (k + Z.of_nat m1) m2.
  Proof.
    induction m1 as [|m1 IH]; intros k; cbn [loops Nat.add app].
    - rewrite Z.add_0_r. reflexivity.
    - rewrite IH, app_assoc. do 2 f_equal. lia.
  Qed.
  Lemma one_loop_cons k i c : one_loop k i (S c) = (k, i) :: one_loop k (S i) c.
  Proof. reflexivity. Qed.

  Section Window.
    Variables a b : R.
    Let jf := mk_tjob t a b thr.       (* forward job *)
    Let jb := mk_tjob t b a thr.       (* backward job *)
    Hypothesis Hab : a < b.

    (** Acceptance, inside the loops visited. *)
    Definition wacc (k : Z) (r : R) : bool := Rleb a (r + IZR k) && beforeb b k r.
    Lemma wacc_window k r : a < IZR k + 1 -> wacc k r = windowb a b k r.
    Proof.
      intros H. unfold wacc, windowb. f_equal. unfold beforeb.
      destruct (Rleb_spec a (r + IZR k)), (Rltb_spec (r + IZR k) a), (Rleb_spec (1 + IZR k) a); cbn; auto; lra.
    Qed.

    Lemma edge_at_fwd k i : (i < n)%nat -> edge_at jf true (IZR k) i = Ok (pick wacc (k, i)).
    Proof.
      intros Hi. unfold edge_at. rewrite (detect_cr jf i true eq_refl eq_refl Hi). cbn [bind]. f_equal.
      unfold pick, wacc, beforeb. cbn [fst snd]. destruct (cr i) as [[r up]|]; [|reflexivity].
      cbn [e_ratio e_rising]. unfold accept_fwd. cbn [j_from j_to jf]. change (@num_arith R Rnum) with Rarith. rewrite none_R. reflexivity.
    Qed.
    Definition flip_edge (o : option (edge R)) : option (edge R) := match o with Some e => Some (opposite e) | None => None end.
    Lemma edge_at_bwd k i : (i < n)%nat -> edge_at jb false (IZR k) i = Ok (flip_edge (pick wacc (k, i))).
    Proof.
      intros Hi. unfold edge_at. rewrite (detect_cr jb i false eq_refl eq_refl Hi). cbn [bind]. f_equal.
      unfold pick, wacc, beforeb. cbn [fst snd]. destruct (cr i) as [[r up]|]; [|reflexivity].
      cbn [e_ratio e_rising]. unfold accept_bwd. cbn [j_from j_to jb]. change (@num_arith R Rnum) with Rarith. rewrite none_R.
      cbn [nle nlt Rnum]. change (@nadd R Rarith) with Rplus.
      destruct (Rleb a (r + IZR k) && (Rltb (r + IZR k) b || Rleb (1 + IZR k) b)); reflexivity.
    Qed.

    (** Breaking out of the loop skips nothing. *)
    Lemma break_fwd k i : (i < n)%nat -> b <= rt i + IZR k -> picks wacc (one_loop k (S i) (n - S i)) = [].
    Proof.
      intros Hi Hb. apply picks_none. intros k' i' r up Hin Hc. unfold one_loop in Hin. apply in_map_iff in Hin.
      destruct Hin as (x & E & Hx). inversion E; subst k' x. apply in_seq in Hx.
      assert (Hi' : (i < i' < n)%nat) by lia. destruct (cr_bounds i' r up ltac:(lia) Hc) as [[_ B1] B2]. specialize (B2 i ltac:(lia)).
      pose proof (rt_lt i i' Hi'). pose proof (rt_bounds i' ltac:(lia)).
      unfold wacc, beforeb. destruct (Rltb_spec (r + IZR k) b); [lra|]. destruct (Rleb_spec (1 + IZR k) b); [lra|]. apply andb_false_r.
    Qed.
    Lemma break_bwd k i : (i < n)%nat -> rt i + IZR k <= a -> picks wacc (one_loop k 0 i) = [].
    Proof.
      intros Hi Hb. apply picks_none. intros k' i' r up Hin Hc. unfold one_loop in Hin. apply in_map_iff in Hin.
      destruct Hin as (x & E & Hx). inversion E; subst k' x. apply in_seq in Hx.
      destruct (cr_bounds i' r up ltac:(lia) Hc) as [[_ B1] _]. pose proof (rt_lt i' i ltac:(lia)).
      unfold wacc. destruct (Rleb_spec a (r + IZR k)); [lra|]. reflexivity.
    Qed.

    Lemma inner_fwd_spec k : forall c i, (i + c = n)%nat ->
      match picks wacc (one_loop k i c) with
      | [] => inner_fwd jf (IZR k) c i = Ok None
      | e :: l => exists i', inner_fwd jf (IZR k) c i = Ok (Some (e, i')) /\ (i < i' <= n)%nat /\ l = picks wacc (one_loop k i' (n - i'))
      end.
    Proof.
      induction c as [|c IH]; intros i Hc; [reflexivity|].
      rewrite one_loop_cons, picks_cons. cbn [inner_fwd]. rewrite edge_at_fwd by lia. cbn [bind].
      destruct (pick wacc (k, i)) as [e|]; cbn [optl app].
      - exists (S i). split; [reflexivity|]. split; [lia|]. replace (n - S i)%nat with c by lia. reflexivity.
      - cbn [j_track jf]. rewrite (get_nth _ i 0) by (fold n; lia). cbn [bind]. change (j_to jf) with b. fold (rt i).
        cbn [nle Rnum]. change (@nadd R (@num_arith R Rnum)) with Rplus.
        destruct (Rleb_spec b (rt i + IZR k)) as [B|B].
        + assert (Q : picks wacc (one_loop k (S i) c) = []). { replace c with (n - S i)%nat by lia. apply break_fwd; [lia|exact B]. }
          rewrite Q. reflexivity.
        + specialize (IH (S i) ltac:(lia)). destruct (picks wacc (one_loop k (S i) c)) as [|e l]; [exact IH|].
          destruct IH as (i' & I1 & I2 & I3). exists i'. split; [exact I1|]. split; [lia|exact I3].
    Qed.

    (** Backward: keys [0..c) downwards. *)
    Lemma one_loop_snoc k c : one_loop k 0 (S c) = one_loop k 0 c ++ [(k, c)].
    Proof. unfold one_loop. rewrite seq_S, map_app. reflexivity. Qed.
    Definition down (k : Z) (c : nat) : list (edge R) := rev (map opposite (picks wacc (one_loop k 0 c))).
    Lemma down_S k c : down k (S c) = optl (flip_edge (pick wacc (k, c))) ++ down k c.
    Proof.
      unfold down. rewrite one_loop_snoc, picks_app, map_app, rev_app_distr. f_equal.
      unfold picks. cbn [flat_map]. rewrite app_nil_r. destruct (pick wacc (k, c)); reflexivity.
    Qed.
    Lemma inner_bwd_spec k : forall c, (c <= n)%nat ->
      match down k c with
      | [] => inner_bwd jb (IZR k) c = Ok None
      | e :: l => exists i', inner_bwd jb (IZR k) c = Ok (Some (e, (Z.of_nat i' - 1)%Z)) /\ (i' < c)%nat /\ l = down k i'
      end.
    Proof.
      induction c as [|c IH]; intros Hc; [reflexivity|].
      rewrite down_S. cbn [inner_bwd]. rewrite edge_at_bwd by lia. cbn [bind].
      destruct (flip_edge (pick wacc (k, c))) as [e|]; cbn [optl app].
      - exists c. split; [reflexivity|]. split; [lia|reflexivity].
      - cbn [j_track jb]. rewrite (get_nth _ c 0) by (fold n; lia). cbn [bind]. change (j_to jb) with a. fold (rt c).
        cbn [nle Rnum]. change (@nadd R (@num_arith R Rnum)) with Rplus.
        destruct (Rleb_spec (rt c + IZR k) a) as [B|B].
        + assert (Q : down k c = []). { unfold down. rewrite break_bwd by (auto; lia). reflexivity. }
          rewrite Q. reflexivity.
        + specialize (IH ltac:(lia)). destruct (down k c) as [|e l]; [exact IH|].
          destruct IH as (i' & I1 & I2 & I3). exists i'. split; [exact I1|]. split; [lia|exact I3].
    Qed.

    Lemma nlt_ab : @nlt R Rnum a b = true. Proof. cbn. destruct (Rltb_spec a b); [reflexivity|lra]. Qed.
    Lemma nlt_ba : @nlt R Rnum b a = false. Proof. cbn. destruct (Rltb_spec b a); [lra|reflexivity]. Qed.
    Lemma outer_up k : @nadd R (@num_arith R Rnum) (IZR k) (@none_ R (@num_arith R Rnum)) = IZR (k + 1).
    Proof. change (@num_arith R Rnum) with Rarith. rewrite none_R, plus_IZR. reflexivity. Qed.
    Lemma outer_down k : @nsub R (@num_arith R Rnum) (IZR k) (@none_ R (@num_arith R Rnum)) = IZR (k - 1).
    Proof. change (@num_arith R Rnum) with Rarith. rewrite none_R, minus_IZR. reflexivity. Qed.

    Lemma next_fwd f k i : (i <= n)%nat -> IZR k < b -> next (S f) jf (IZR k) (Z.of_nat i) =
      match inner_fwd jf (IZR k) (n - i) i with
      | Ok (Some (e, i)) => NYield e (Some (IZR k, Z.of_nat i)) | Ok None => next f jf (IZR (k + 1)) 0 | _ => NPanic end.
    Proof.
      intros Hi Hk. cbn [next]. cbn [j_from j_to j_track jf]. rewrite nlt_ab.
      assert (E : @nlt R Rnum (IZR k) b = true) by (cbn; destruct (Rltb_spec (IZR k) b); [reflexivity|lra]). rewrite E.
      rewrite Nat2Z.id, n_key, outer_up. reflexivity.
    Qed.
    Lemma next_bwd f k i : (i <= n)%nat -> a < IZR k + 1 -> next (S f) jb (IZR k) (Z.of_nat i - 1) =
      match inner_bwd jb (IZR k) i with
      | Ok (Some (e, i)) => NYield e (Some (IZR k, i)) | Ok None => next f jb (IZR (k - 1)) (Z.of_nat n - 1) | _ => NPanic end.
    Proof.
      intros Hi Hk. cbn [next]. cbn [j_from j_to j_track jb]. rewrite nlt_ba.
      rewrite outer_up, outer_down. assert (E : @nlt R Rnum a (IZR (k + 1)) = true) by (cbn; rewrite plus_IZR; destruct (Rltb_spec a (IZR k + 1)); [reflexivity|lra]). rewrite E.
      rewrite n_key. replace (Z.to_nat (Z.of_nat i - 1 + 1)) with i by lia. reflexivity.
    Qed.

    (** One loop, then the rest. *)
    Lemma fwd_loop k rest : IZR k < b -> collects jf (Some (IZR (k + 1), 0%Z)) rest ->
      forall c i, (i + c = n)%nat -> collects jf (Some (IZR k, Z.of_nat i)) (picks wacc (one_loop k i c) ++ rest).
    Proof.
      intros Hk HR. induction c as [c IH] using lt_wf_ind. intros i Hc.
      assert (C : c = (n - i)%nat) by lia.
      pose proof (inner_fwd_spec k c i Hc) as H. destruct (picks wacc (one_loop k i c)) as [|e l].
      - cbn [app]. eapply collects_skip; [|exact HR]. intros f. rewrite next_fwd by (auto; lia). rewrite <- C, H. reflexivity.
      - destruct H as (i' & H & Hi' & ->). cbn [app]. eapply collects_yield.
        + rewrite next_fwd by (auto; lia). rewrite <- C, H. reflexivity.
        + apply IH; lia.
    Qed.
    Lemma fwd_loops m : forall k, (forall q, (q < m)%nat -> IZR (k + Z.of_nat q) < b) -> b <= IZR (k + Z.of_nat m) ->
      collects jf (Some (IZR k, 0%Z)) (picks wacc (loops k m)).
    Proof.
      induction m as [|m IH]; intros k H1 H2.
      - apply collects_end. cbn [next]. cbn [j_from j_to jf]. rewrite nlt_ab. rewrite Z.add_0_r in H2.
        assert (E : @nlt R Rnum (IZR k) b = false) by (cbn; destruct (Rltb_spec (IZR k) b); [lra|reflexivity]). rewrite E. reflexivity.
      - cbn [loops]. rewrite picks_app. apply (fwd_loop k (picks wacc (loops (k + 1) m))) with (i := 0%nat); [| |reflexivity].
        + specialize (H1 0%nat ltac:(lia)). rewrite Z.add_0_r in H1. exact H1.
        + apply IH.
          * intros q Hq. replace (k + 1 + Z.of_nat q)%Z with (k + Z.of_nat (S q))%Z by lia. apply H1. lia.
          * replace (k + 1 + Z.of_nat m)%Z with (k + Z.of_nat (S m))%Z by lia. exact H2.
    Qed.
    Lemma bwd_loop k rest : a < IZR k + 1 -> collects jb (Some (IZR (k - 1), (Z.of_nat n - 1)%Z)) rest ->
      forall c, (c <= n)%nat -> collects jb (Some (IZR k, (Z.of_nat c - 1)%Z)) (down k c ++ rest).
    Proof.
      intros Hk HR. induction c as [c IH] using lt_wf_ind. intros Hc.
      pose proof (inner_bwd_spec k c Hc) as H. destruct (down k c) as [|e l].
      - cbn [app]. eapply collects_skip; [|exact HR]. intros f. rewrite next_bwd by (auto; lia). rewrite H. reflexivity.
      - destruct H as (i' & H & Hi' & ->). cbn [app]. eapply collects_yield.
        + rewrite next_bwd by (auto; lia). rewrite H. reflexivity.
        + apply IH; lia.
    Qed.
    Lemma loops_snoc m : forall k, loops k (S m) = loops k m ++ one_loop (k + Z.of_nat m) 0 n.
    Proof.
      intros k. replace (S m) with (m + 1)%nat by lia. rewrite loops_app. cbn [loops]. rewrite app_nil_r. reflexivity.
    Qed.
    (** [m] loops downwards from [k + m - 1] to [k], where the window ends. *)
    Lemma bwd_loops m : forall k, (forall q, (q < m)%nat -> a < IZR (k + Z.of_nat q) + 1) -> IZR k <= a ->
      collects jb (Some (IZR (k + Z.of_nat m - 1), (Z.of_nat n - 1)%Z)) (rev (map opposite (picks wacc (loops k m)))).
    Proof.
      induction m as [|m IH]; intros k H1 H2.
      - apply collects_end. cbn [next]. cbn [j_from j_to jb]. rewrite nlt_ba, outer_up.
        replace (k + Z.of_nat 0 - 1 + 1)%Z with k by lia.
        assert (E : @nlt R Rnum a (IZR k) = false) by (cbn; destruct (Rltb_spec a (IZR k)); [lra|reflexivity]). rewrite E. reflexivity.
      - rewrite loops_snoc, picks_app, map_app, rev_app_distr. replace (k + Z.of_nat (S m) - 1)%Z with (k + Z.of_nat m)%Z by lia.
        apply (bwd_loop (k + Z.of_nat m) (rev (map opposite (picks wacc (loops k m))))); [apply H1; lia| |lia].
        replace (k + Z.of_nat m - 1)%Z with (k + Z.of_nat m - 1)%Z by lia. apply IH; [|exact H2]. intros q Hq. apply H1. lia.
    Qed.

    (** All the crossings in the window, over any range of loops that contains it. *)
    Definition covers (k : Z) (m : nat) : Prop := IZR k <= a /\ b <= IZR (k + Z.of_nat m).
    Lemma picks_covers k m : covers k m -> forall K M, covers K M -> picks (windowb a b) (loops k m) = picks (windowb a b) (loops K M).
    Proof.
      (* both equal the restriction to the smallest range; extend with empty loops *)
      assert (EXT : forall k m p q, covers k m -> picks (windowb a b) (loops (k - Z.of_nat p) (p + (m + q))) = picks (windowb a b) (loops k m)).
      { intros k0 m0 p q [C1 C2]. rewrite loops_app, picks_app. replace (k0 - Z.of_nat p + Z.of_nat p)%Z with k0 by lia.
        rewrite loops_app, picks_app.
        rewrite (picks_none _ (loops (k0 - Z.of_nat p) p)).
        2:{ intros k' i r up Hin Hc. apply in_loops in Hin. destruct Hin as [Hk Hi]. unfold windowb, beforeb.
            assert (L : IZR k' + 1 <= IZR k0). { rewrite <- plus_IZR. apply IZR_le. lia. }
            destruct (Rleb_spec (1 + IZR k') a); [|lra]. rewrite orb_true_r. reflexivity. }
        rewrite (picks_none _ (loops (k0 + Z.of_nat m0) q)); [rewrite app_nil_r; reflexivity|].
        intros k' i r up Hin Hc. apply in_loops in Hin. destruct Hin as [Hk Hi]. unfold windowb, beforeb.
        destruct (cr_bounds i r up Hi Hc) as [[B1 B2] _].
        assert (L : IZR (k0 + Z.of_nat m0) <= IZR k') by (apply IZR_le; lia).
        destruct (Rltb_spec (r + IZR k') b); [lra|]. destruct (Rleb_spec (1 + IZR k') b); [lra|]. apply andb_false_r. }
      intros C K M C'.
      set (lo := Z.min k K). set (hi := Z.max (k + Z.of_nat m) (K + Z.of_nat M)).
      rewrite <- (EXT k m (Z.to_nat (k - lo)) (Z.to_nat (hi - (k + Z.of_nat m))) C).
      rewrite <- (EXT K M (Z.to_nat (K - lo)) (Z.to_nat (hi - (K + Z.of_nat M))) C').
      f_equal. f_equal; lia.
    Qed.

    Lemma range : exists k m, nfloor a = IZR k /\ IZR k <= a < IZR k + 1 /\
      (forall q, (q < m)%nat -> IZR (k + Z.of_nat q) < b) /\ b <= IZR (k + Z.of_nat m).
    Proof.
      destruct (nfloor_R a) as (k & E & B). exists k.
      destruct (nfloor_R b) as (kb & Eb & Bb).
      assert (L : (k <= kb)%Z). { apply Z.lt_succ_r. apply lt_IZR. unfold Z.succ. rewrite plus_IZR. lra. }
      destruct (Req_dec b (IZR kb)) as [->|N].
      - exists (Z.to_nat (kb - k)). split; [exact E|]. split; [exact B|]. split.
        + intros q Hq. apply IZR_lt. lia.
        + apply IZR_le. lia.
      - exists (Z.to_nat (kb - k + 1)). split; [exact E|]. split; [exact B|]. split.
        + intros q Hq. apply Rle_lt_trans with (IZR kb); [apply IZR_le; lia|lra].
        + replace (k + Z.of_nat (Z.to_nat (kb - k + 1)))%Z with (kb + 1)%Z by lia. rewrite plus_IZR. lra.
    Qed.

    Lemma wacc_loops k m : a < IZR k + 1 -> picks wacc (loops k m) = picks (windowb a b) (loops k m).
    Proof.
      intros H. apply picks_ext. intros k' i r up Hin _. apply in_loops in Hin. apply wacc_window.
      assert (IZR k <= IZR k') by (apply IZR_le; lia). lra.
    Qed.

    Lemma yields_fwd k m : covers k m -> yields jf (picks (windowb a b) (loops k m)).
    Proof.
      intros C. destruct range as (k0 & m0 & E & B & R1 & R2).
      rewrite (picks_covers k m C k0 m0) by (split; [lra|exact R2]).
      rewrite <- wacc_loops by lra. destruct (fwd_loops m0 k0 R1 R2) as [f H]. exists f.
      unfold iter_new. cbn [j_from j_to j_track jf]. rewrite nlt_ab.
      assert (N : @neq R Rnum a b = false) by (cbn; destruct (Reqb_spec a b); [lra|reflexivity]). rewrite N.
      rewrite E. exact H.
    Qed.
    Lemma yields_bwd k m : covers k m -> yields jb (rev (map opposite (picks (windowb a b) (loops k m)))).
    Proof.
      intros C. destruct range as (k0 & _ & _ & B & _). destruct (nfloor_R b) as (kb & Eb & Bb).
      assert (L : (k0 <= kb)%Z). { apply Z.lt_succ_r. apply lt_IZR. unfold Z.succ. rewrite plus_IZR. lra. }
      set (m0 := Z.to_nat (kb - k0 + 1)).
      rewrite (picks_covers k m C k0 m0).
      2:{ split; [lra|]. unfold m0. replace (k0 + Z.of_nat (Z.to_nat (kb - k0 + 1)))%Z with (kb + 1)%Z by lia. rewrite plus_IZR. lra. }
      rewrite <- wacc_loops by lra. destruct (bwd_loops m0 k0) as [f H].
      { intros q Hq. assert (IZR k0 <= IZR (k0 + Z.of_nat q)) by (apply IZR_le; lia). lra. }
      { lra. }
      exists f. unfold iter_new. cbn [j_from j_to j_track jb]. rewrite nlt_ba.
      assert (N : @neq R Rnum b a = false) by (cbn; destruct (Reqb_spec b a); [lra|reflexivity]). rewrite N.
      rewrite Eb, n_key. replace (k0 + Z.of_nat m0 - 1)%Z with kb in H by (unfold m0; lia). exact H.
    Qed.
  End Window.

  (** ** Order of crossings *)
  Lemma one_loop_sorted k c : forall i, StronglySorted earlier (one_loop k i c).
  Proof.
    induction c as [|c IH]; intros i; [constructor|]. rewrite one_loop_cons. constructor; [apply IH|].
    apply Forall_forall. intros [k' i'] Hin. unfold one_loop in Hin. apply in_map_iff in Hin. destruct Hin as (x & E & Hx).
    inversion E; subst. apply in_seq in Hx. right. cbn. lia.
  Qed.
  Lemma sorted_app {A} (P : A -> A -> Prop) l l' : StronglySorted P l -> StronglySorted P l' ->
    (forall x y, In x l -> In y l' -> P x y) -> StronglySorted P (l ++ l').
  Proof.
    induction l as [|x l IH]; intros H H' C; [exact H'|]. inversion H; subst. cbn. constructor.
    - apply IH; auto. intros y z Hy. apply C. right; exact Hy.
    - apply Forall_app. split; [assumption|]. apply Forall_forall. intros y Hy. apply C; [left; reflexivity|exact Hy].
  Qed.
  Lemma loops_sorted m : forall k, StronglySorted earlier (loops k m).
  Proof.
    induction m as [|m IH]; intros k; [constructor|]. cbn [loops]. apply sorted_app; [apply one_loop_sorted|apply IH|].
    intros [k1 i1] [k2 i2] H1 H2. unfold one_loop in H1. apply in_map_iff in H1. destruct H1 as (x & E & _). inversion E; subst.
    apply in_loops in H2. left. cbn. lia.
  Qed.
  (** [before] any time is closed under going back. *)
  Lemma before_closed b k i r up k' i' r' up' : (i < n)%nat -> (i' < n)%nat -> cr i = Some (r, up) -> cr i' = Some (r', up') ->
    earlier (k, i) (k', i') -> beforeb b k' r' = true -> beforeb b k r = true.
  Proof.
    intros Hi Hi' Hc Hc' HE. rewrite !beforeb_iff. unfold before_time.
    destruct (cr_bounds i r up Hi Hc) as [[B1 B2] _]. pose proof (rt_bounds i Hi).
    destruct (cr_bounds i' r' up' Hi' Hc') as [[B1' B2'] B3']. pose proof (rt_bounds i' Hi').
    destruct HE as [HE|[HE1 HE2]]; cbn [fst snd] in *.
    - assert (L : IZR k + 1 <= IZR k') by (rewrite <- plus_IZR; apply IZR_le; lia). intros [H1|H1]; right; lra.
    - subst k'. specialize (B3' i HE2). intros [H1|H1]; [left|right]; lra.
  Qed.

  (** A window followed by the next one. *)
  Lemma picks_split a b c ps : a <= b <= c -> StronglySorted earlier ps -> (forall k i, In (k, i) ps -> (i < n)%nat) ->
    picks (windowb a c) ps = picks (windowb a b) ps ++ picks (windowb b c) ps.
  Proof.
    intros [Hab Hbc] HSo Hin. induction ps as [|[k i] ps IH]; [reflexivity|].
    inversion HSo as [|? ? HS1 HS2]; subst. rewrite !picks_cons. rewrite IH by (auto; intros; eapply Hin; right; eassumption). clear IH.
    assert (MONO : forall r x y, x <= y -> beforeb x k r = true -> beforeb y k r = true).
    { intros r x y Hxy. rewrite !beforeb_iff. unfold before_time. lra. }
    remember (picks (windowb a b) ps) as A eqn:EA. remember (picks (windowb b c) ps) as B eqn:EB.
    unfold pick, windowb. cbn [fst snd]. destruct (cr i) as [[r up]|] eqn:E; [|reflexivity].
    destruct (beforeb b k r) eqn:Bb.
    - rewrite (MONO r b c Hbc Bb). rewrite andb_true_r. cbn [negb andb]. destruct (beforeb a k r); cbn [negb optl app]; reflexivity.
    - assert (Ba : beforeb a k r = false). { destruct (beforeb a k r) eqn:Ba; [|reflexivity]. rewrite (MONO r a b Hab Ba) in Bb. discriminate. }
      rewrite Ba. cbn [negb andb optl app].
      assert (Q : A = []).
      { rewrite EA. apply picks_none. intros k' i' r' up' Hin' Hc'. unfold windowb.
        destruct (beforeb b k' r') eqn:Bb'; [|apply andb_false_r]. exfalso.
        rewrite Forall_forall in HS2. specialize (HS2 _ Hin').
        rewrite (before_closed b k i r up k' i' r' up') in Bb; auto; [discriminate|..]; eapply Hin; [left; reflexivity|right; exact Hin']. }
      rewrite Q. destruct (beforeb c k r); reflexivity.
  Qed.

  (** ** Alternation *)
  (** State of the track after key [i]: above the threshold. *)
  Definition above (i : nat) : bool := if Rlt_dec thr (vl i) then true else false.
  Lemma cr_above i : (cr i = None -> above i = above (pv i)) /\ (forall r up, cr i = Some (r, up) -> above i = up /\ above (pv i) = negb up).
  Proof.
    unfold above. split.
    - unfold cr. cbv zeta. destruct (Rle_dec (vl (pv i)) thr), (Rlt_dec thr (vl i)), (Rlt_dec thr (vl (pv i))), (Rle_dec (vl i) thr); try discriminate; try reflexivity; lra.
    - intros r up H. apply cr_straddles in H. destruct H as [H _]. destruct up; destruct (Rlt_dec thr (vl i)), (Rlt_dec thr (vl (pv i))); try lra; auto.
  Qed.
  (** Alternates, starting opposite to [s] and ending in [s']. *)
  Fixpoint alt (s : bool) (l : list (edge R)) : Prop :=
    match l with [] => True | e :: l => e_rising e = negb s /\ alt (negb s) l end.
  Fixpoint final (s : bool) (l : list (edge R)) : bool := match l with [] => s | e :: l => final (e_rising e) l end.
  Lemma alt_app l l' : forall s, alt s l -> alt (final s l) l' -> alt s (l ++ l').
  Proof.
    induction l as [|e l IH]; intros s H H'; [exact H'|]. destruct H as [H1 H2]. split; [exact H1|].
    apply IH; [exact H2|]. cbn in H'. rewrite H1 in H'. exact H'.
  Qed.
  Lemma final_app l l' : forall s, final s (l ++ l') = final (final s l) l'.
  Proof. induction l as [|e l IH]; intros s; [reflexivity|]. apply IH. Qed.
  Definition anyw (k : Z) (r : R) : bool := true.
  Lemma alt_one k c : forall i, (i + c <= n)%nat -> 
    alt (above (pv i)) (picks anyw (one_loop k i c)) /\ final (above (pv i)) (picks anyw (one_loop k i c)) = above (match c with O => pv i | _ => (i + c - 1)%nat end).
  Proof.
    induction c as [|c IH]; intros i Hc; [split; reflexivity|]. rewrite one_loop_cons, picks_cons.
    specialize (IH (S i) ltac:(lia)). cbn [pv] in IH.
    destruct (cr_above i) as [A1 A2].
    assert (Fin : above (match c with 0%nat => i | S _ => (S i + c - 1)%nat end) = above (i + S c - 1)%nat).
    { f_equal. destruct c; lia. }
    rewrite Fin in IH.
    unfold pick. cbn [fst snd anyw]. destruct (cr i) as [[r up]|] eqn:E; cbn [optl app].
    - destruct (A2 r up eq_refl) as [U1 U2]. rewrite U1 in IH. cbn [alt final e_rising]. rewrite U2, negb_involutive. tauto.
    - rewrite (A1 eq_refl) in IH. exact IH.
  Qed.
  Lemma alt_loops m : forall k, (0 < n)%nat -> alt (above (n - 1)) (picks anyw (loops k m)) /\ final (above (n - 1)) (picks anyw (loops k m)) = above (n - 1).
  Proof.
    induction m as [|m IH]; intros k Hn; [split; reflexivity|]. cbn [loops]. rewrite picks_app.
    destruct (alt_one k n 0 ltac:(lia)) as [A1 A2]. cbn [pv] in A1, A2.
    replace (match n with 0%nat => (n - 1)%nat | S _ => (0 + n - 1)%nat end) with (n - 1)%nat in A2 by (destruct n; lia).
    destruct (IH (k + 1)%Z Hn) as [B1 B2]. split.
    - apply alt_app; [exact A1|]. rewrite A2. exact B1.
    - rewrite final_app, A2. exact B2.
  Qed.
  Lemma alt_alternates s l : alt s l -> alternates l.
  Proof.
    revert s. induction l as [|e l IH]; intros s H; [exact I|]. destruct H as [H1 H2]. destruct l as [|e' l]; [exact I|].
    split; [|apply (IH (negb s)); exact H2]. destruct H2 as [H3 _]. rewrite H3, H1. reflexivity.
  Qed.
  Lemma alternates_app_l l l' : alternates (l ++ l') -> alternates l.
  Proof.
    induction l as [|e l IH]; intros H; [exact I|]. destruct l as [|e' l]; [exact I|]. destruct H as [H1 H2]. split; [exact H1|]. apply IH. exact H2.
  Qed.
  Lemma alternates_app_r l l' : alternates (l ++ l') -> alternates l'.
  Proof.
    induction l as [|e l IH]; intros H; [exact H|]. apply IH. cbn [app] in H. destruct (l ++ l') eqn:E; [exact I|]. apply H.
  Qed.

  (** A window is a segment of all the crossings of the loops. *)
  Lemma picks_segment a b ps : a <= b -> StronglySorted earlier ps -> (forall k i, In (k, i) ps -> (i < n)%nat) ->
    exists l1 l2, picks anyw ps = l1 ++ picks (windowb a b) ps ++ l2.
  Proof.
    intros Hab HSo Hin.
    assert (PRE : forall w x qs, StronglySorted earlier qs -> (forall k i, In (k, i) qs -> (i < n)%nat) ->
              picks w qs = picks (fun k r => w k r && beforeb x k r) qs ++ picks (fun k r => w k r && negb (beforeb x k r)) qs).
    { intros w x qs. induction qs as [|[k i] qs IH]; intros Hso Hq; [reflexivity|]. inversion Hso as [|? ? HS1 HS2]; subst.
      rewrite !picks_cons, IH by (auto; intros; eapply Hq; right; eassumption). unfold pick. cbn [fst snd].
      destruct (cr i) as [[r up]|] eqn:E; [|reflexivity].
      destruct (beforeb x k r) eqn:Bx; cbn [negb]; rewrite andb_true_r, andb_false_r; cbn [optl app]; [rewrite app_assoc; reflexivity|].
      rewrite (picks_none (fun k r => w k r && beforeb x k r) qs); [reflexivity|].
      intros k' i' r' up' Hin' Hc'. destruct (beforeb x k' r') eqn:Bx'; [|apply andb_false_r]. exfalso.
      rewrite Forall_forall in HS2. specialize (HS2 _ Hin').
      rewrite (before_closed x k i r up k' i' r' up') in Bx; auto; [discriminate|..]; eapply Hq; [left; reflexivity|right; exact Hin']. }
    assert (MONO : forall k r, beforeb a k r = true -> beforeb b k r = true).
    { intros k r. rewrite !beforeb_iff. unfold before_time. lra. }
    eexists _, _.
    rewrite (PRE anyw b ps HSo Hin).
    rewrite (PRE (fun k r => anyw k r && beforeb b k r) a ps HSo Hin), <- app_assoc. f_equal. f_equal.
    apply picks_ext. intros k i r up _ _. unfold windowb. cbn [anyw andb]. apply andb_comm.
  Qed.
End Trigger.
