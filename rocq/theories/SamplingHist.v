(** Histories of a sampling context, and the invariant that survives all of them. *)
From Verif Require Import Base Num Math Gv4 Gv4Spec Gv4Proofs Sampling SamplingSpec SamplingCache SamplingProofs.

Section Hist.
  Context {F : Type} {NF : Num F} {K3 KQ : Type}.
  Variables (dec3 : K3 -> K3 -> K3 -> K3 -> vec3 (V4 F)) (decq : KQ -> KQ -> KQ -> KQ -> quat (V4 F)).
  Variable outside : nat -> N.
  Notation anim := (animation F K3 KQ).

  (** What a user can do with a context between two observations.  A job may have no animation or
      no output, a too short output, or any ratio (already clamped by [set_ratio]). *)
  Inductive op :=
  | ORun (a : option anim) (ratio : F) (output : option (list (transform (V4 F))))
  | OClear                (* SamplingContext::clear *)
  | OClone                (* go on with SamplingContext::clone *)
  | OCloneWithoutId.      (* go on with clone_without_animation_id *)

  (** A rejected run (Err) leaves the context as it was; a panic ends the history. *)
  Definition exec_op (c : context F) (o : op) : res (context F) :=
    match o with
    | ORun a r out =>
        match run dec3 decq outside a (Some c) r out with
        | Ok (c', _) => Ok c'
        | Err _ => Ok c
        | Panic => Panic
        end
    | OClear => Ok (clear c)
    | OClone => Ok (clone c)
    | OCloneWithoutId => Ok (clone_without_id c)
    end.
  Fixpoint exec (c : context F) (ops : list op) : res (context F) :=
    match ops with
    | [] => Ok c
    | o :: t => let* c' := exec_op c o in exec c' t
    end.

  (** The animations a history may use: well formed, told apart by their address, and none
      smaller (in SoA tracks) than the context (see C03). *)
  Definition library (max_soa : nat) (lib : list anim) : Prop :=
    (forall a, In a lib -> wf_animation a = true /\ max_soa <= num_soa a) /\
    (forall a b, In a lib -> In b lib -> an_id a = an_id b -> a = b).
  Definition op_ok (lib : list anim) (o : op) : Prop :=
    match o with
    | ORun (Some a) r _ => In a lib /\ nle nzero r = true /\ nle r none_ = true
    | _ => True
    end.
  (** A context as [SamplingContext::new] or [from_animation] leaves it: cursors at 0; the arrays
      hold anything. *)
  Definition fresh (c : context F) : Prop :=
    chan_sized (cx_max_soa c) (cx_t c) /\ chan_sized (cx_max_soa c) (cx_r c) /\
    chan_sized (cx_max_soa c) (cx_s c) /\
    ch_next (cx_t c) = 0 /\ ch_next (cx_r c) = 0 /\ ch_next (cx_s c) = 0.

  Context {ON : OrdNum F}.
  Variables (dec3_lane : K3 -> vec3 F) (decq_lane : KQ -> quat F).
  Hypothesis dec3_lanes : forall k0 k1 k2 k3 l, l < 4 ->
    lane_v3 (dec3 k0 k1 k2 k3) l = dec3_lane (lane (mk4 k0 k1 k2 k3) l).
  Hypothesis decq_lanes : forall k0 k1 k2 k3 l, l < 4 ->
    lane_q (decq k0 k1 k2 k3) l = decq_lane (lane (mk4 k0 k1 k2 k3) l).
  Hypothesis Hout : forall j, (outside j < 256)%N.
  Variables (d3 : K3) (dq : KQ).

  (** The cache of a context is that of the animation its id names. *)
  Definition reset_inv (lib : list anim) (c : context F) : Prop :=
    ctx_sized c /\
    forall a, In a lib -> cx_max_soa c = num_soa a -> cx_id c = an_id a -> ctx_ok a c.

  Lemma fresh_ctx_ok (a : anim) c : fresh c -> cx_max_soa c = num_soa a -> ctx_ok a c.
  Proof.
    intros (S1 & S2 & S3 & N1 & N2 & N3) E. rewrite E in *.
    split; [exact E|]. split; [split; auto|]. split; split; auto.
  Qed.
  Lemma fresh_inv lib c : fresh c -> reset_inv lib c.
  Proof.
    intros Hf. split.
    - destruct Hf as (S1 & S2 & S3 & _). split; [|split]; assumption.
    - intros a _ E _. apply fresh_ctx_ok; assumption.
  Qed.

  (** An animation larger than the context, or a too short output, is rejected; the rest works. *)
  Lemma run_step lib c oa r oo :
    library (cx_max_soa c) lib -> reset_inv lib c -> op_ok lib (ORun oa r oo) ->
    (exists e, run dec3 decq outside oa (Some c) r oo = Err e) \/
    (exists a o c' o', oa = Some a /\ oo = Some o /\ cx_max_soa c = num_soa a /\ num_soa a <= length o /\
       run dec3 decq outside oa (Some c) r oo = Ok (c', o') /\
       sampled dec3_lane decq_lane a d3 dq r o o' /\
       cx_max_soa c' = cx_max_soa c /\ reset_inv lib c').
  Proof.
    intros [Lw Li] [Hsz Hinv] Hop. destruct oa as [a|]; [|left; eexists; reflexivity].
    destruct oo as [o|]; [|left; eexists; reflexivity].
    destruct Hop as (Hin & H0 & H1). destruct (Lw a Hin) as [WA Hle].
    destruct (Nat.le_gt_cases (num_soa a) (cx_max_soa c)) as [Hc|Hc].
    2:{ left. exists InvalidJob. unfold run. cbn [ok_or bind].
        rewrite (proj2 (Nat.leb_gt _ _) Hc). reflexivity. }
    destruct (Nat.le_gt_cases (num_soa a) (length o)) as [Ho|Ho].
    2:{ left. exists InvalidJob. unfold run. cbn [ok_or bind].
        rewrite (proj2 (Nat.leb_gt _ _) Ho), andb_false_r. reflexivity. }
    right. assert (E : cx_max_soa c = num_soa a) by lia.
    destruct (run_ok dec3 decq dec3_lane decq_lane dec3_lanes decq_lanes outside Hout d3 dq a c r o
                WA H0 H1 E Hsz (Hinv a Hin E) Ho) as (c' & o' & Er & Hs & Hsz' & Hm & Hpos & Hz).
    exists a, o, c', o'.
    split; [reflexivity|]. split; [reflexivity|]. split; [exact E|]. split; [exact Ho|].
    split; [exact Er|]. split; [exact Hs|]. split; [congruence|].
    split; [exact Hsz'|]. intros b Hb Eb Idb.
    destruct (Nat.eq_dec (num_soa a) 0) as [E0|E0].
    - rewrite (Hz E0) in *. apply Hinv; assumption.
    - destruct (Hpos ltac:(lia)) as [Ida Oka].
      assert (b = a) by (apply Li; congruence). subst b. exact Oka.
  Qed.

  Lemma clear_ok lib c : reset_inv lib c -> reset_inv lib (clear c).
  Proof.
    intros [(S1 & S2 & S3) _]. apply fresh_inv. repeat split; try (apply S1 || apply S2 || apply S3).
  Qed.

  (** [clone_without_animation_id] keeps a cache under id 0.  It stays usable as long as no
      animation lives at address 0. *)
  Lemma set_id0_ok lib c : (forall a, In a lib -> an_id a <> 0%N) -> reset_inv lib c -> reset_inv lib (set_id c 0).
  Proof.
    intros H [S _]. split; [exact S|]. intros a Ha _ Id. exfalso. apply (H a Ha). symmetry. exact Id.
  Qed.

  Lemma exec_ok lib : (forall a, In a lib -> an_id a <> 0%N) -> forall ops c,
    library (cx_max_soa c) lib -> reset_inv lib c -> Forall (op_ok lib) ops ->
    exists c', exec c ops = Ok c' /\ cx_max_soa c' = cx_max_soa c /\ reset_inv lib c'.
  Proof.
    intros Hz. induction ops as [|o ops IH]; intros c Hl Hi Ho; cbn [exec].
    - exists c. auto.
    - inversion Ho as [|? ? Ho1 Ho2]; subst.
      assert (S : exists c1, exec_op c o = Ok c1 /\ cx_max_soa c1 = cx_max_soa c /\ reset_inv lib c1).
      { destruct o as [oa r oo| | |]; cbn [exec_op].
        - destruct (run_step lib c oa r oo Hl Hi Ho1) as [(e & ->)|(a & o & c' & o' & -> & -> & _ & _ & -> & _ & E & I)].
          + exists c. auto.
          + exists c'. auto.
        - exists (clear c). split; [reflexivity|]. split; [reflexivity|]. apply clear_ok, Hi.
        - exists c. auto.
        - exists (clone_without_id c). split; [reflexivity|]. split; [reflexivity|].
          apply set_id0_ok; assumption. }
      destruct S as (c1 & -> & E1 & I1). cbn [bind].
      destruct (IH c1) as (c' & Ec & Em & Iv); [rewrite E1; exact Hl|exact I1|exact Ho2|].
      exists c'. split; [exact Ec|]. split; [congruence|exact Iv].
  Qed.

  (** After any history, a run on an animation of the right size succeeds and gives the sample. *)
  Theorem history_sampled lib c0 ops a r o :
    (forall a, In a lib -> an_id a <> 0%N) ->
    library (cx_max_soa c0) lib -> fresh c0 -> Forall (op_ok lib) ops ->
    In a lib -> num_soa a = cx_max_soa c0 -> nle nzero r = true -> nle r none_ = true ->
    num_soa a <= length o ->
    exists c c' o', exec c0 ops = Ok c /\
      run dec3 decq outside (Some a) (Some c) r (Some o) = Ok (c', o') /\
      sampled dec3_lane decq_lane a d3 dq r o o'.
  Proof.
    intros Hz Hl Hf Hops Ha Hm H0 H1 Ho.
    destruct (exec_ok lib Hz ops c0 Hl (fresh_inv lib c0 Hf) Hops) as (c & Ec & Em & Iv).
    assert (Hl' : library (cx_max_soa c) lib) by (rewrite Em; exact Hl).
    destruct (run_step lib c (Some a) r (Some o) Hl' Iv (conj Ha (conj H0 H1)))
      as [(e & Er)|(a' & o1 & c' & o' & Ea & Eo & _ & _ & Er & Hs & _)].
    - exfalso. destruct Hl as [Lw _].
      destruct (run_ok dec3 decq dec3_lane decq_lane dec3_lanes decq_lanes outside Hout d3 dq a c r o)
        as (c' & o' & Er' & _); auto; try congruence.
      + apply Lw; assumption.
      + apply Iv.
      + apply Iv; congruence.
    - inversion Ea; inversion Eo; subst. exists c, c', o'. auto.
  Qed.

  (** Rejected or not, runs never panic, and after them the context still works. *)
  Theorem history_no_panic lib c0 ops :
    (forall a, In a lib -> an_id a <> 0%N) ->
    library (cx_max_soa c0) lib -> fresh c0 -> Forall (op_ok lib) ops ->
    exists c, exec c0 ops = Ok c.
  Proof.
    intros Hz Hl Hf Hops.
    destruct (exec_ok lib Hz ops c0 Hl (fresh_inv lib c0 Hf) Hops) as (c & Ec & _). eauto.
  Qed.
End Hist.

(** * The pair used by the sampler brackets the ratio *)
Section Bracket.
  Context {F : Type} {NF : Num F} {ON : OrdNum F}.
  Variables (nt ns : nat) (tp : list F) (k : ctrl F).
  Hypothesis W : wf_chan nt ns tp k.

  (** [L] and [R] are consecutive in the list. *)
  Fixpoint consecutive (l r : nat) (ks : list nat) : Prop :=
    match ks with
    | a :: (b :: _) as t => (l = a /\ r = b) \/ consecutive l r t
    | _ => False
    end.

  Lemma last_default (x : nat) l d d' : last (x :: l) d = last (x :: l) d'.
  Proof. revert x. induction l as [|y l IH]; intros x; [reflexivity|]. apply (IH y). Qed.

  Lemma bracket_sound tm (r : F) : forall rest l,
    rest <> [] -> nle (tm l) r = true -> (forall x, In x rest -> nlt r (tm x) = negb (nle (tm x) r)) ->
    let p := bracket tm r l rest in
    consecutive (fst p) (snd p) (l :: rest) /\ nle (tm (fst p)) r = true /\
    (nlt r (tm (snd p)) = true \/ snd p = last rest l).
  Proof.
    induction rest as [|x rest IH]; intros l Hne Hl Ht; [congruence|].
    destruct rest as [|y rest'].
    - cbn. auto.
    - change (bracket tm r l (x :: y :: rest'))
        with (if nlt r (tm x) then (l, x) else bracket tm r x (y :: rest')).
      destruct (nlt r (tm x)) eqn:Hx.
      + cbn [fst snd]. split; [left; auto|]. split; [exact Hl|]. left. exact Hx.
      + destruct (IH x) as (C & L & E).
        * discriminate.
        * rewrite Ht in Hx by (left; reflexivity). apply negb_false_iff in Hx. exact Hx.
        * intros z Hz. apply Ht. right. exact Hz.
        * split; [right; exact C|]. split; [exact L|].
          rewrite (last_default y rest' x l) in E. exact E.
  Qed.

  Lemma sample_pair_brackets r t :
    nle nzero r = true -> t < 4 * ns ->
    let p := sample_pair (4 * ns) tp k r t in
    let ks := track_keys (4 * ns) k (length (k_prev k)) t in
    consecutive (fst p) (snd p) ks /\
    nle (time tp k (fst p)) r = true /\
    (nlt r (time tp k (snd p)) = true \/ snd p = last ks 0).
  Proof.
    intros H0 Ht. cbv zeta. unfold sample_pair.
    assert (HIn := track_keys_In ns k (length (k_prev k)) t).
    assert (S : Sorted.StronglySorted lt (track_keys (4 * ns) k (length (k_prev k)) t))
      by (apply sorted_filter, sorted_seq).
    pose proof (w_len _ _ _ _ W) as Hlen.
    destruct (track_keys (4 * ns) k (length (k_prev k)) t) as [|l rest] eqn:EK.
    { exfalso. apply (proj2 (HIn t)). rewrite (own_first ns k) by lia. lia. }
    assert (Hl : l = t).
    { assert (Hin : In t (l :: rest)) by (apply HIn; rewrite (own_first ns k) by lia; lia).
      apply Sorted.StronglySorted_inv in S. destruct S as [_ Fl]. rewrite Forall_forall in Fl.
      destruct Hin as [|Hin]; [assumption|]. exfalso. apply Fl in Hin.
      assert (Hl : l < length (k_prev k) /\ owner (4 * ns) k l = t) by (apply HIn; left; reflexivity).
      rewrite (own_first ns k) in Hl by lia. lia. }
    assert (Hsec : In (4 * ns + t) rest).
    { assert (Hin : In (4 * ns + t) (l :: rest)).
      { apply HIn. rewrite (own_row nt ns tp k W) by lia. lia. }
      destruct Hin as [|]; [lia|assumption]. }
    destruct (bracket_sound (time tp k) r rest l) as (C & L & E).
    - intros E. rewrite E in Hsec. destruct Hsec.
    - eapply ord_trans; [apply (w_first _ _ _ _ W); lia|exact H0].
    - intros x Hx. apply ord_total; [|apply (ord_num _ _ H0)].
      apply (w_num _ _ _ _ W). apply HIn. right. exact Hx.
    - split; [exact C|]. split; [exact L|]. destruct E as [E|E]; [left; exact E|right].
      rewrite E. destruct rest as [|y rest]; [destruct Hsec|]. apply (last_default y rest l 0).
  Qed.
End Bracket.

(** * Errors *)
Section Errors.
  Context {F : Type} {NF : Num F} {K3 KQ : Type}.
  Variables (dec3 : K3 -> K3 -> K3 -> K3 -> vec3 (V4 F)) (decq : KQ -> KQ -> KQ -> KQ -> quat (V4 F)).
  Variable outside : nat -> N.

  Definition noerr {A} (x : res A) : Prop := forall e, x <> Err e.
  Lemma noerr_bind {A B} (x : res A) (f : A -> res B) : noerr x -> (forall a, noerr (f a)) -> noerr (bind x f).
  Proof. intros Hx Hf e. destruct x as [a|y|]; cbn; [apply Hf|intros _; exact (Hx y eq_refl)|discriminate]. Qed.
  Lemma noerr_ok {A} (a : A) : noerr (Ok a). Proof. intros e. discriminate. Qed.
  Lemma noerr_panic {A} : noerr (@Panic A). Proof. intros e. discriminate. Qed.
  Lemma noerr_get {A} (l : list A) i : noerr (get l i). Proof. intros e. apply get_not_Err. Qed.
  Lemma noerr_set {A} (l : list A) i x : noerr (set l i x).
  Proof. intros e. unfold set. destruct (_ <? _); discriminate. Qed.
  Lemma noerr_assert b : noerr (assert_ b). Proof. intros e. destruct b; discriminate. Qed.
  Lemma noerr_sub a b : noerr (sub_ a b). Proof. intros e. unfold sub_. destruct (_ <=? _); discriminate. Qed.
  Lemma noerr_slice {A} (l : list A) k : noerr (slice_from l k).
  Proof. intros e. unfold slice_from. destruct (_ <? _); discriminate. Qed.
  Ltac ne :=
    repeat match goal with
      | |- noerr (bind _ _) => apply noerr_bind; [|intro]
      | |- noerr (Ok _) => apply noerr_ok
      | |- noerr Panic => apply noerr_panic
      | |- noerr (get _ _) => apply noerr_get
      | |- noerr (set _ _ _) => apply noerr_set
      | |- noerr (assert_ _) => apply noerr_assert
      | |- noerr (sub_ _ _) => apply noerr_sub
      | |- noerr (slice_from _ _) => apply noerr_slice
      | |- noerr (let '(_, _) := ?p in _) => destruct p
      | |- noerr (if ?b then _ else _) => destruct b
      | |- noerr (match ?o with Some _ => _ | None => _ end) => destruct o
      | H : _ |- noerr _ => apply H
      end.
  Lemma noerr_decode buf n : noerr (decode_gv4_stream outside buf n).
  Proof.
    unfold decode_gv4_stream. ne.
    assert (G : forall g b, noerr (decode_groups outside b g)).
    { induction g as [|g IH]; intros b; cbn [decode_groups]; [ne|]. unfold decode_gv4. ne. }
    apply G.
  Qed.
  Lemma noerr_key_ratio k (tp : list F) i : noerr (key_ratio k tp i).
  Proof. unfold key_ratio. ne. Qed.
  Lemma noerr_init (k : ctrl F) i e : noerr (initialize_cache outside k i e).
  Proof. unfold initialize_cache. destruct i; ne; apply noerr_decode. Qed.
  Lemma noerr_outdate o n : noerr (outdate_cache o n).
  Proof.
    assert (G : forall is l x, noerr (set_all l is x)) by (induction is; intros; cbn [set_all]; ne).
    unfold outdate_cache. ne.
  Qed.
  Lemma noerr_scan c t ok is : noerr (scan c t ok is).
  Proof. induction is; cbn [scan]; ne. Qed.
  Lemma noerr_tf c p key lt n : noerr (track_forward c p key lt n).
  Proof. unfold track_forward. ne; apply noerr_scan. Qed.
  Lemma noerr_tb c p lt n : noerr (track_backward c p lt n).
  Proof. unfold track_backward. ne; apply noerr_scan. Qed.
  Lemma noerr_mark o t : noerr (mark o t).
  Proof. unfold mark. ne. Qed.
  Lemma noerr_forward k tp n (r : F) : forall fuel e o nx t, noerr (forward fuel k tp n r e o nx t).
  Proof.
    pose proof noerr_key_ratio. pose proof noerr_tf. pose proof noerr_mark.
    induction fuel; intros; cbn [forward]; ne.
  Qed.
  Lemma noerr_rewind k tp n (r : F) : forall fuel e o nx t, noerr (rewind fuel k tp n r e o nx t).
  Proof.
    pose proof noerr_key_ratio. pose proof noerr_tb. pose proof noerr_mark.
    induction fuel; intros; cbn [rewind]; ne.
  Qed.
  Lemma noerr_update {V} (c : chan F V) n ns k tp r pr : noerr (update_cache outside c n ns k tp r pr).
  Proof.
    pose proof noerr_init. pose proof noerr_outdate. pose proof noerr_forward. pose proof noerr_rewind.
    unfold update_cache. ne.
  Qed.
  Lemma noerr_decompress {K V} (dec : K -> K -> K -> K -> V) k (tp : list F) keys c : noerr (decompress dec k tp keys c).
  Proof.
    pose proof noerr_key_ratio.
    assert (G4 : forall A (l : list A) ats, noerr (get4 l ats)) by (intros; unfold get4; ne).
    assert (GR : forall (k : ctrl F) (tp : list F) ats, noerr (key_ratio_simd k tp ats)) by (intros; unfold key_ratio_simd; ne).
    assert (GL : forall (k : ctrl F) r, noerr (left_of k r)) by (intros; unfold left_of; ne).
    assert (G1 : forall en i, noerr (decompress_one dec k tp keys en i)) by (intros; unfold decompress_one; ne).
    assert (G : forall is en ou v, noerr (decompress_loop dec k tp keys en ou is v)) by (induction is; intros; cbn [decompress_loop]; ne).
    unfold decompress. ne.
  Qed.
  Lemma noerr_interpolates (c : context F) r : forall n i o, noerr (interpolates c r n i o).
  Proof.
    assert (G1 : forall i, noerr (interpolate_one c r i)) by (intros; unfold interpolate_one; ne).
    induction n; intros i [|x o]; cbn [interpolates]; ne.
  Qed.
  Lemma run_iff_validate oa oc r oo :
    (validate oa oc oo = false -> run dec3 decq outside oa oc r oo = Err InvalidJob) /\
    (validate oa oc oo = true -> forall e, run dec3 decq outside oa oc r oo <> Err e).
  Proof.
    unfold validate, run.
    destruct oa as [a|]; [|split; [reflexivity|discriminate]].
    destruct oc as [c|]; [|split; [reflexivity|discriminate]].
    destruct oo as [o|]; [|split; [reflexivity|discriminate]].
    cbn [ok_or bind]. destruct (_ && _); [|split; [reflexivity|discriminate]]. split; [discriminate|].
    intros _. cbn [negb].
    pose proof (@noerr_update). pose proof (@noerr_decompress). pose proof noerr_interpolates.
    match goal with |- forall e, ?x <> Err e => change (noerr x) end. ne.
  Qed.
End Errors.
