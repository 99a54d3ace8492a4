(** Proofs about the hierarchy and LocalToModelJob. *)
From Verif Require Import Base Num Math Skeleton SkeletonSpec.
Local Open Scope Z_scope.

(** * Hierarchy *)
Section Hierarchy.
  Variable ps : list Z.
  Hypothesis PF : parents_first ps.

  Lemma below_lt f i : below ps f i -> (i < length ps)%nat.
  Proof. destruct 1 as [H|i p H _]; [exact H|]. apply nth_error_Some. congruence. Qed.
  Lemma below_le f i : below ps f i -> (f <= i)%nat.
  Proof. induction 1 as [H|i p H _ IH]; [lia|]. pose proof (PF _ _ H). lia. Qed.
  Lemma below_trans a b c : below ps a b -> below ps b c -> below ps a c.
  Proof. intros H1. induction 1 as [H|i p H _ IH]; [exact H1|]. exact (below_child _ _ _ _ H IH). Qed.
  Lemma below_chain a b i : below ps a i -> below ps b i -> (a <= b)%nat -> below ps a b.
  Proof.
    intros Ha Hb Hle. revert Ha. induction Hb as [H|i p H Hb IH]; intros Ha; [exact Ha|].
    apply IH. inversion Ha as [Hl|i' p' H' Ha' E]; subst.
    - pose proof (below_le _ _ Hb). pose proof (PF _ _ H). lia.
    - assert (p' = p) by (rewrite H in H'; inversion H'; lia). subst. exact Ha'.
  Qed.

  Hypothesis DF : forall i p, nth_error ps (S i) = Some (Z.of_nat p) -> below ps p i.

  (** The subtree of [f] is a contiguous range. *)
  Lemma below_range f k : (f < k < length ps)%nat ->
    (below ps f k <-> forall j p, (f < j <= k)%nat -> nth_error ps j = Some p -> Z.of_nat f <= p).
  Proof.
    intros Hk. split.
    - destruct Hk as [Hk Hn]. clear Hn. revert Hk. induction k as [|k IH]; intros Hk Hb j p Hj Hp; [lia|].
      inversion Hb as [Hl|i q Hq Hb' E]; subst; [lia|].
      destruct (Nat.eq_dec j (S k)) as [->|].
      + rewrite Hq in Hp. inversion Hp. pose proof (below_le _ _ Hb'). lia.
      + apply (IH ltac:(lia) (below_trans _ _ _ Hb' (DF _ _ Hq)) j); [lia|exact Hp].
    - induction k as [|k IH]; intros H; [lia|].
      assert (exists p, nth_error ps (S k) = Some p) as [p Hp].
      { destruct (nth_error ps (S k)) eqn:E; eauto. apply nth_error_None in E. lia. }
      pose proof (H (S k) p ltac:(lia) Hp) as Hge.
      replace p with (Z.of_nat (Z.to_nat p)) in Hp by lia.
      apply below_child with (Z.to_nat p); [exact Hp|].
      pose proof (DF _ _ Hp) as Hbp.
      apply below_chain with k; [|exact Hbp|lia].
      destruct (Nat.eq_dec f k) as [->|]; [apply below_self; lia|].
      apply IH; [lia|]. intros j q Hj Hq. apply (H j q); [lia|exact Hq].
  Qed.

  Lemma leaf_ok j : (S j < length ps)%nat ->
    (nth_error ps (S j) = Some (Z.of_nat j) <-> exists i, nth_error ps i = Some (Z.of_nat j)).
  Proof.
    intros Hj. split; [eauto|]. intros (i & Hi). pose proof (PF _ _ Hi) as Hlt.
    assert (Hb : below ps j i) by (apply below_child with j; [exact Hi|apply below_self; lia]).
    pose proof (below_lt _ _ Hb).
    destruct (nth_error ps (S j)) as [p|] eqn:E; [|apply nth_error_None in E; lia].
    pose proof (proj1 (below_range j i ltac:(lia)) Hb (S j) p ltac:(lia) E) as Hge.
    pose proof (PF _ _ E). f_equal. lia.
  Qed.

End Hierarchy.

Lemma chain_exists ps i : parents_first ps -> (i < length ps)%nat -> exists c, chain ps i c.
Proof.
  intros PF. induction i as [i IH] using lt_wf_ind. intros Hi.
  destruct (nth_error ps i) as [p|] eqn:E; [|apply nth_error_None in E; lia].
  pose proof (PF _ _ E). destruct (Z.eq_dec p (-1)) as [->|].
  - eexists. apply chain_root, E.
  - destruct (IH (Z.to_nat p) ltac:(lia) ltac:(lia)) as (c & Hc).
    eexists. apply chain_child with (Z.to_nat p); [|exact Hc]. rewrite E. f_equal. lia.
Qed.

(** * Casts *)
Lemma wrap_id bits x : 0 < bits -> - 2 ^ (bits - 1) <= x < 2 ^ (bits - 1) -> wrap bits x = x.
Proof.
  intros Hb Hx. unfold wrap. assert (E : 2 ^ bits = 2 * 2 ^ (bits - 1)).
  { rewrite <- Z.pow_succ_r by lia. f_equal. lia. }
  assert (0 < 2 ^ (bits - 1)) by (apply Z.pow_pos_nonneg; lia).
  destruct (Z_lt_le_dec x 0) as [Hn|Hn].
  - assert (M : x mod 2 ^ bits = x + 2 ^ bits) by (symmetry; apply Z.mod_unique with (-1); lia).
    rewrite M. destruct (Z.ltb_spec (x + 2 ^ bits) (2 ^ (bits - 1))); lia.
  - rewrite Z.mod_small by lia. destruct (Z.ltb_spec x (2 ^ (bits - 1))); lia.
Qed.
Lemma as_i32_id x : -2147483648 <= x < 2147483648 -> as_i32 x = x.
Proof. intros H. apply wrap_id; [lia|exact H]. Qed.
Lemma as_i16_id x : -32768 <= x < 32768 -> as_i16 x = x.
Proof. intros H. apply wrap_id; [lia|exact H]. Qed.
Lemma as_usize_id x : 0 <= x < 2 ^ 64 -> as_usize x = x.
Proof. intros H. apply Z.mod_small. exact H. Qed.
Lemma i32_add_ok c a b : -2147483648 <= a + b <= 2147483647 -> i32_add c a b = Ok (a + b).
Proof.
  intros H. unfold i32_add. destruct (Z.leb_spec (-2147483648) (a + b)); [|lia].
  destruct (Z.leb_spec (a + b) 2147483647); [reflexivity|lia].
Qed.

(** * The loop of LocalToModelJob *)
Section Loop.
  Context {F : Type} {NF : Num F}.
  Variables (s : skeleton F) (input : list (transform (V4 F))) (root : mat4 F) (from : Z) (end_ : nat).
  Notation ps := (sk_parents s).
  Hypothesis PF : parents_first ps.
  Hypothesis Hend : (end_ <= length ps)%nat.
  Hypothesis Hbig : Z.of_nat (length ps) < 2 ^ 31.
  Hypothesis Hin : (num_soa_joints s <= length input)%nat.

  Lemma aos_lane (t : transform (V4 F)) l : (l < 4)%nat ->
    lane (to_aos (from_affine (tr_t t) (tr_r t) (tr_s t))) l =
    let t := lane_tr t l in from_affine (tr_t t) (tr_r t) (tr_s t).
  Proof. intros H. destruct l as [|[|[|[|l]]]]; try reflexivity; lia. Qed.

  Definition good (a b : nat) (out out' : list (mat4 F)) : Prop :=
    length out' = length out /\
    (forall k, (k < a \/ b <= k)%nat -> nth_error out' k = nth_error out k) /\
    (forall k, (a <= k < b)%nat -> consistent ps root input out' k).

  Lemma good_refl a out : good a a out out.
  Proof. split; [reflexivity|]. split; [reflexivity|]. intros k Hk. exfalso. clear - Hk. lia. Qed.
  Lemma child_of_ext out out' k :
    (forall j, (j < k)%nat -> nth_error out' j = nth_error out j) ->
    child_of ps root out' k = child_of ps root out k.
  Proof.
    intros H. unfold child_of. destruct (nth_error ps k) as [p|] eqn:E; [|reflexivity].
    destruct (Z.ltb_spec p 0); [reflexivity|]. pose proof (PF _ _ E) as Hp.
    specialize (H (Z.to_nat p) ltac:(lia)).
    destruct (nth_error out (Z.to_nat p)) as [m|] eqn:E1.
    - rewrite (nth_error_nth _ _ _ H), (nth_error_nth _ _ _ E1). reflexivity.
    - apply nth_error_None in E1. apply nth_error_None in H. rewrite !nth_overflow by assumption. reflexivity.
  Qed.
  Lemma good_trans a b c o1 o2 o3 : (a <= b <= c)%nat -> good a b o1 o2 -> good b c o2 o3 -> good a c o1 o3.
  Proof.
    intros Hab (L1 & U1 & C1) (L2 & U2 & C2). split; [congruence|]. split.
    - intros k Hk. rewrite U2, U1 by lia. reflexivity.
    - intros k Hk. destruct (Nat.lt_ge_cases k b) as [Hb|Hb]; [|apply C2; lia].
      unfold consistent. rewrite U2 by lia. rewrite (child_of_ext o2 o3).
      + apply C1. lia.
      + intros j Hj. apply U2. lia.
  Qed.

  Definition go_on (idx : nat) : bool :=
    (idx <? end_)%nat && match nth_error ps idx with Some q => from <=? q | None => false end.
  Lemma go_on_code idx :
    (if (idx <? end_)%nat then let* q := joint_parent s idx in Ok (from <=? q) else Ok false) = Ok (go_on idx).
  Proof.
    unfold go_on. destruct (Nat.ltb_spec idx end_); [|reflexivity].
    unfold joint_parent, get. destruct (nth_error ps idx) eqn:E; [reflexivity|]. apply nth_error_None in E. lia.
  Qed.

  Lemma step_ok t idx out : (idx < end_)%nat -> (end_ <= length out)%nat ->
    nth_error input (idx / 4) = Some t ->
    let local := lane (to_aos (from_affine (tr_t t) (tr_r t) (tr_s t))) (idx mod 4) in
    exists out',
      (let* parent := joint_parent s idx in
       if parent =? SKELETON_NO_PARENT then set out idx (mat_mul root local)
       else let* m := get out (Z.to_nat (as_usize parent)) in set out idx (mat_mul m local)) = Ok out' /\
      good idx (S idx) out out'.
  Proof.
    intros Hi Ho Ht local. unfold joint_parent.
    destruct (nth_error ps idx) as [p|] eqn:E; [|apply nth_error_None in E; lia].
    rewrite (proj2 (get_Ok _ _ _) E). cbn [bind]. pose proof (PF _ _ E) as Hp.
    assert (L : local = local_matrix input idx).
    { unfold local, local_matrix. rewrite Ht. rewrite aos_lane by (apply Nat.mod_upper_bound; lia). reflexivity. }
    clearbody local. subst local.
    assert (G : forall m, m = child_of ps root out idx ->
      good idx (S idx) out (upd out idx (mat_mul m (local_matrix input idx)))).
    { intros m Hm. split; [apply upd_length|]. split.
      - intros k Hk. apply nth_error_upd_other. lia.
      - intros k Hk. assert (k = idx) by lia. subst k. unfold consistent.
        rewrite nth_error_upd_same by lia. f_equal. f_equal. rewrite Hm. symmetry. apply child_of_ext.
        intros j Hj. apply nth_error_upd_other. lia. }
    unfold SKELETON_NO_PARENT. destruct (Z.eqb_spec p (-1)) as [->|Hne].
    - eexists. split; [apply set_lt; lia|]. apply G. unfold child_of. rewrite E. reflexivity.
    - rewrite as_usize_id by lia. rewrite (get_nth out (Z.to_nat p) mat_identity) by lia. cbn [bind].
      eexists. split; [apply set_lt; lia|]. apply G. unfold child_of. rewrite E.
      destruct (Z.ltb_spec p 0); [lia|reflexivity].
  Qed.

  (** Range covered by one call. *)
  Definition covered (idx stop : nat) : Prop :=
    (idx < stop <= end_)%nat /\ forall k, (idx < k < stop)%nat -> go_on k = true.

  Lemma inner_ok t : forall fuel idx out soa_end,
    (soa_end - idx < fuel)%nat -> (soa_end <= idx / 4 * 4 + 4)%nat ->
    (idx < end_)%nat -> (idx < soa_end)%nat -> (end_ <= length out)%nat ->
    nth_error input (idx / 4) = Some t ->
    exists stop out',
      ltm_inner fuel s root from end_ soa_end (to_aos (from_affine (tr_t t) (tr_r t) (tr_s t))) idx true out
        = Ok (stop, go_on stop, out') /\
      covered idx stop /\ (stop = soa_end \/ go_on stop = false) /\ good idx stop out out'.
  Proof.
    induction fuel as [|fuel IH]; intros idx out soa_end Hf Hs Hi His Ho Ht; [lia|].
    cbn [ltm_inner]. destruct (Nat.ltb_spec idx soa_end); [|lia]. cbn [andb].
    destruct (step_ok t idx out Hi Ho Ht) as (o1 & E1 & G1).
    cbv zeta in E1. unfold bind at 1 in E1. unfold bind at 1.
    destruct (joint_parent s idx) as [p|e|] eqn:Ep; try discriminate.
    rewrite E1. cbn [bind]. rewrite go_on_code. cbn [bind].
    assert (L1 : length o1 = length out) by apply G1.
    destruct (go_on (S idx)) eqn:Eg.
    - destruct (Nat.lt_ge_cases (S idx) soa_end) as [Hlt|Hge].
      + assert (Hdiv : (S idx / 4 = idx / 4)%nat).
        { symmetry. apply Nat.div_unique with (S idx - idx / 4 * 4)%nat; [|].
          - pose proof (Nat.div_mod idx 4 ltac:(lia)). lia.
          - pose proof (Nat.div_mod idx 4 ltac:(lia)). lia. }
        assert (Hlt2 : (S idx < end_)%nat).
        { unfold go_on in Eg. apply andb_prop in Eg. destruct Eg as [Eg _]. apply Nat.ltb_lt in Eg. exact Eg. }
        destruct (IH (S idx) o1 soa_end) as (stop & o2 & E2 & (Hst & Hcov) & Hstop & G2);
          try lia; try (rewrite Hdiv; first [exact Ht|lia]).
        exists stop, o2. split; [exact E2|]. split; [|split; [exact Hstop|]].
        * split; [lia|]. intros k Hk. destruct (Nat.eq_dec k (S idx)) as [->|]; [exact Eg|]. apply Hcov. lia.
        * apply good_trans with (S idx) o1; auto. lia.
      + exists (S idx), o1. destruct fuel as [|fuel]; [lia|]. cbn [ltm_inner].
        destruct (Nat.ltb_spec (S idx) soa_end); [lia|]. cbn [andb]. rewrite Eg. split; [reflexivity|].
        split; [split; [lia|intros k Hk; lia]|]. split; [left; lia|exact G1].
    - exists (S idx), o1. destruct fuel as [|fuel]; [lia|]. cbn [ltm_inner]. rewrite andb_false_r, Eg.
      split; [reflexivity|]. split; [split; [lia|intros k Hk; lia]|]. split; [right; reflexivity|exact G1].
  Qed.

  Lemma outer_ok : forall fuel idx out,
    (end_ - idx < fuel)%nat -> (idx < end_)%nat -> (end_ <= length out)%nat ->
    exists stop out',
      ltm_outer fuel s input root from end_ idx true out = Ok out' /\
      covered idx stop /\ go_on stop = false /\ good idx stop out out'.
  Proof.
    induction fuel as [|fuel IH]; intros idx out Hf Hi Ho; [lia|].
    cbn [ltm_outer].
    assert (Hsoa : (idx / 4 < length input)%nat).
    { eapply Nat.lt_le_trans; [|exact Hin]. unfold num_soa_joints, num_joints.
      pose proof (Nat.div_mod idx 4 ltac:(lia)). pose proof (Nat.mod_upper_bound idx 4 ltac:(lia)).
      pose proof (Nat.div_mod (length ps + 3) 4 ltac:(lia)). pose proof (Nat.mod_upper_bound (length ps + 3) 4 ltac:(lia)). lia. }
    destruct (nth_error input (idx / 4)) as [t|] eqn:Et; [|apply nth_error_None in Et; lia].
    rewrite (proj2 (get_Ok _ _ _) Et). cbn [bind].
    assert (Hend4 : ((idx + 4) / 4 * 4 = idx / 4 * 4 + 4)%nat).
    { replace (idx + 4)%nat with (idx + 1 * 4)%nat by lia. rewrite Nat.div_add by lia. lia. }
    pose proof (Nat.div_mod idx 4 ltac:(lia)) as Dm. pose proof (Nat.mod_upper_bound idx 4 ltac:(lia)) as Mu.
    rewrite Hend4.
    destruct (inner_ok t 5 idx out (idx / 4 * 4 + 4)%nat) as (stop & o1 & E1 & (C1 & C1') & Hstop & G1); try lia; try exact Et.
    rewrite E1. cbn [bind].
    destruct (go_on stop) eqn:Eg.
    - assert (Hlt2 : (stop < end_)%nat).
      { unfold go_on in Eg. apply andb_prop in Eg. destruct Eg as [Eg _]. apply Nat.ltb_lt in Eg. exact Eg. }
      assert (L1 : length o1 = length out) by apply G1.
      destruct (IH stop o1 ltac:(lia) Hlt2 ltac:(lia)) as (stop2 & o2 & E2 & (C2 & C2') & Hg2 & G2).
      exists stop2, o2. split; [exact E2|]. split; [|split; [exact Hg2|]].
      + split; [lia|]. intros k Hk. destruct (Nat.lt_trichotomy k stop) as [Hk1|[->|Hk1]]; [apply C1'; lia|exact Eg|apply C2'; lia].
      + apply good_trans with stop o1; auto. lia.
    - exists stop, o1. destruct fuel as [|fuel]; [lia|]. cbn [ltm_outer]. split; [reflexivity|].
      split; [split; auto|]. split; auto.
  Qed.
End Loop.

(** * The job *)
Section Run.
  Context {F : Type} {NF : Num F}.
  Variables (checks : bool) (j : ltm_job F) (s : skeleton F) (input : list (transform (V4 F))) (output : list (mat4 F)).
  Notation ps := (sk_parents s).
  Hypothesis Hs : lj_skeleton j = Some s.
  Hypothesis Hi : lj_input j = Some input.
  Hypothesis Ho : lj_output j = Some output.
  Hypothesis Hin : (num_soa_joints s <= length input)%nat.
  Hypothesis Hout : (num_joints s <= length output)%nat.
  Hypothesis PF : parents_first ps.
  Hypothesis Hbig : Z.of_nat (length ps) < 2 ^ 31.
  Hypothesis Hfrom : -2147483648 <= lj_from j < 2147483647.
  Hypothesis Hto : -2147483648 <= lj_to j < 2147483647.

  Let from := lj_from j.
  Let excluded := lj_from_excluded j.
  Let b := Z.to_nat (Z.max 0 (from + if excluded then 1 else 0)).
  Let e := Z.to_nat (Z.max 0 (Z.min (lj_to j + 1) (Z.of_nat (length ps)))).

  Lemma run_range : exists stop out',
    ltm_run checks j = Ok out' /\ good s input (lj_root j) b stop output out' /\
    (b <= stop)%nat /\ (stop <= e \/ stop = b)%nat /\
    (forall k p, (b <= k < stop)%nat -> from < Z.of_nat k -> nth_error ps k = Some p -> from <= p) /\
    ((stop < e)%nat -> from < Z.of_nat stop /\ exists p, nth_error ps stop = Some p /\ p < from).
  Proof.
    unfold ltm_run. rewrite Hs, Hi, Ho. cbn [ok_or bind].
    destruct (Nat.leb_spec (num_soa_joints s) (length input)); [|lia].
    destruct (Nat.leb_spec (num_joints s) (length output)); [|lia]. cbn [andb negb].
    fold from excluded.
    rewrite (i32_add_ok checks from) by (unfold from; destruct excluded; lia). cbn [bind].
    rewrite (i32_add_ok checks (lj_to j) 1) by lia. cbn [bind].
    unfold num_joints in *. rewrite as_i32_id by lia.
    fold e b.
    assert (He : (e <= length ps)%nat) by (unfold e; lia).
    assert (Hbf : from <= Z.of_nat b /\ (excluded = true -> from < Z.of_nat b) /\
                  (excluded = false -> from < Z.of_nat b -> from < 0)).
    { unfold b. destruct excluded; repeat split; intros; try discriminate; lia. }
    clearbody b e.
    assert (None_ : forall o, (o = Ok false) -> ((e <= b)%nat \/ excluded = true /\ exists p, nth_error ps b = Some p /\ p < from) ->
       (let* process := o in ltm_outer (S (e - b)) s input (lj_root j) from e b process output) = Ok output /\
       ((b < e)%nat -> from < Z.of_nat b /\ exists p, nth_error ps b = Some p /\ p < from)).
    { intros o -> H1. split; [reflexivity|]. intros Hb. destruct H1 as [H1|(H1 & p & H2 & H3)]; [lia|].
      split; [apply Hbf, H1|eauto]. }
    assert (Some_ : forall o, o = Ok true -> (b < e)%nat ->
       (excluded = true -> forall p, nth_error ps b = Some p -> from <= p) -> exists stop out',
       (let* process := o in ltm_outer (S (e - b)) s input (lj_root j) from e b process output) = Ok out' /\
       good s input (lj_root j) b stop output out' /\
       (b <= stop)%nat /\ (stop <= e \/ stop = b)%nat /\
       (forall k p, (b <= k < stop)%nat -> from < Z.of_nat k -> nth_error ps k = Some p -> from <= p) /\
       ((stop < e)%nat -> from < Z.of_nat stop /\ exists p, nth_error ps stop = Some p /\ p < from)).
    { intros o -> Hbe Hex. cbn [bind].
      destruct (outer_ok s input (lj_root j) from e PF He Hbig Hin (S (e - b)) b output ltac:(lia) Hbe ltac:(lia))
        as (stop & out' & E & (C1 & C2) & Hg & G).
      exists stop, out'. split; [exact E|]. split; [exact G|]. split; [lia|]. split; [lia|]. split.
      - intros k p Hk Hfk Hp. destruct (Nat.eq_dec k b) as [->|].
        + destruct excluded eqn:Eex; [apply (Hex eq_refl), Hp|].
          pose proof (PF _ _ Hp). destruct Hbf as (_ & _ & Hbf). specialize (Hbf eq_refl Hfk). lia.
        + specialize (C2 k ltac:(lia)). unfold go_on in C2. apply andb_prop in C2. destruct C2 as [_ C2].
          rewrite Hp in C2. apply Z.leb_le in C2. exact C2.
      - intros Hlt. split; [lia|]. unfold go_on in Hg.
        destruct (Nat.ltb_spec stop e); [|lia]. cbn [andb] in Hg.
        destruct (nth_error ps stop) as [p|] eqn:Ep; [|apply nth_error_None in Ep; lia].
        exists p. split; [reflexivity|]. apply Z.leb_gt in Hg. exact Hg. }
    destruct (Nat.ltb_spec b e) as [Hlt|Hge].
    - destruct excluded eqn:Eex; cbn [negb].
      + unfold joint_parent. destruct (nth_error ps b) as [p|] eqn:Ep; [|apply nth_error_None in Ep; lia].
        rewrite (proj2 (get_Ok _ _ _) Ep). cbn [bind]. destruct (Z.leb_spec from p) as [Hle|Hgt].
        * apply (Some_ (Ok true) eq_refl Hlt). intros _ q Hq. congruence.
        * destruct (None_ (Ok false) eq_refl) as [E N]; [right; split; [reflexivity|eauto]|].
          exists b, output. split; [exact E|]. split; [apply good_refl|]. split; [lia|]. split; [lia|]. split; [lia|].
          intros Hx. destruct (N Hx) as (N1 & q & N2 & N3). split; [exact N1|]. exists q. rewrite Ep. auto.
      + apply (Some_ (Ok true) eq_refl Hlt). discriminate.
    - destruct (None_ (Ok false) eq_refl) as [E N]; [left; lia|].
      exists b, output. split; [exact E|]. split; [apply good_refl|]. split; [lia|]. split; [lia|]. split; [lia|exact N].
  Qed.

  Lemma run_selected : depth_first ps -> exists out',
    ltm_run checks j = Ok out' /\ length out' = length output /\
    (forall i, selected ps from (lj_to j) excluded i -> consistent ps (lj_root j) input out' i) /\
    (forall i, ~ selected ps from (lj_to j) excluded i -> nth_error out' i = nth_error output i).
  Proof.
    intros (_ & DF). destruct run_range as (stop & out' & E & (L & U & C) & Hb & Hstop & HB & HC).
    exists out'. split; [exact E|]. split; [exact L|].
    assert (Hbf : from <= Z.of_nat b /\ (excluded = true -> from < Z.of_nat b) /\ (from < 0 -> b = 0%nat) /\
                  (0 <= from -> Z.of_nat b = from + if excluded then 1 else 0)).
    { unfold b. destruct excluded; repeat split; intros; try discriminate; lia. }
    assert (He : forall k, (k < e)%nat <-> Z.of_nat k <= lj_to j /\ (k < length ps)%nat) by (unfold e; lia).
    clearbody b e.
    assert (Sel : forall k, (b <= k < stop)%nat <-> selected ps from (lj_to j) excluded k).
    { intros k. unfold selected. split.
      - intros Hk. assert (Hke : (k < e)%nat) by lia. apply He in Hke. destruct Hke as [Hk1 Hk2].
        split; [exact Hk2|]. split; [exact Hk1|].
        destruct (Z_lt_le_dec from 0) as [Hneg|Hpos]; [left; exact Hneg|right].
        destruct Hbf as (Hb1 & Hb2 & _ & Hb3). specialize (Hb3 Hpos). split.
        + destruct (Nat.eq_dec k (Z.to_nat from)) as [->|Hne]; [apply below_self; lia|].
          apply below_range; auto; [lia|]. intros m p Hm Hp. rewrite Z2Nat.id by exact Hpos.
          destruct (Nat.lt_ge_cases m b) as [Hmb|Hmb]; [destruct excluded; lia|].
          apply (HB m p); auto; lia.
        + intros Hex. specialize (Hb2 Hex). lia.
      - intros (Hk1 & Hk2 & Hk3). assert (Hke : (k < e)%nat) by (apply He; auto).
        destruct Hbf as (Hb1 & Hb2 & Hb0 & Hb3). destruct Hk3 as [Hneg|(Hbel & Hex)].
        + rewrite (Hb0 Hneg) in *. split; [lia|]. destruct (Nat.lt_ge_cases k stop) as [|Hge]; [assumption|exfalso].
          destruct (HC ltac:(lia)) as (_ & p & Hp & Hlt). pose proof (PF _ _ Hp). lia.
        + destruct (Z_lt_le_dec from 0) as [Hneg|Hpos].
          * rewrite (Hb0 Hneg) in *. split; [lia|]. destruct (Nat.lt_ge_cases k stop) as [|Hge]; [assumption|exfalso].
            destruct (HC ltac:(lia)) as (_ & p & Hp & Hlt). pose proof (PF _ _ Hp). lia.
          * specialize (Hb3 Hpos). pose proof (below_le ps PF _ _ Hbel) as Hle.
            assert (Hkb : (b <= k)%nat).
            { destruct excluded; [specialize (Hex eq_refl); lia|lia]. }
            split; [exact Hkb|].
            destruct (Nat.lt_ge_cases k stop) as [|Hge]; [assumption|exfalso].
            destruct (HC ltac:(lia)) as (Hfs & p & Hp & Hlt).
            assert (Hkf : (Z.to_nat from < k < length ps)%nat) by lia.
            pose proof (proj1 (below_range ps PF DF _ _ Hkf) Hbel stop p ltac:(lia) Hp). lia. }
    split.
    - intros i Hsel. apply C. apply Sel. exact Hsel.
    - intros i Hn. apply U. rewrite <- Sel in Hn. lia.
  Qed.

  (** With a negative [from], parents-first order is enough. *)
  Lemma run_all : from < 0 -> exists out',
    ltm_run checks j = Ok out' /\ length out' = length output /\
    (forall i, (i < length ps)%nat -> Z.of_nat i <= lj_to j -> consistent ps (lj_root j) input out' i) /\
    (forall i, (length ps <= i)%nat \/ lj_to j < Z.of_nat i -> nth_error out' i = nth_error output i).
  Proof.
    intros Hneg. destruct run_range as (stop & out' & E & (L & U & C) & Hb & Hstop & HB & HC).
    exists out'. split; [exact E|]. split; [exact L|].
    assert (Hb0 : b = 0%nat) by (unfold b; destruct excluded; lia).
    assert (He : forall k, (k < e)%nat <-> Z.of_nat k <= lj_to j /\ (k < length ps)%nat) by (unfold e; lia).
    clearbody b e. subst b.
    assert (Se : stop = e).
    { destruct (Nat.lt_ge_cases stop e) as [Hlt|]; [|lia]. exfalso.
      destruct (HC Hlt) as (_ & p & Hp & Hlt'). pose proof (PF _ _ Hp). lia. }
    subst stop. split.
    - intros i H1 H2. apply C. split; [lia|]. apply He. auto.
    - intros i Hn. apply U. right. destruct (Nat.lt_ge_cases i e) as [Hlt|]; [|assumption].
      apply He in Hlt. lia.
  Qed.
End Run.

Section Chain.
  Context {F : Type} {NF : Num F}.
  (** Consistency everywhere up to [i] is the product along the chain. *)
  Lemma chain_product ps root (input : list (transform (V4 F))) out i c :
    chain ps i c -> (forall k, In k c -> consistent ps root input out k) ->
    nth_error out i = Some (fold_left mat_mul (map (local_matrix input) c) root).
  Proof.
    induction 1 as [i Hi|i p c Hi Hc IH]; intros H.
    - rewrite (H i ltac:(left; reflexivity)). unfold child_of. rewrite Hi. reflexivity.
    - rewrite (H i ltac:(apply in_or_app; right; left; reflexivity)). unfold child_of. rewrite Hi.
      destruct (Z.ltb_spec (Z.of_nat p) 0); [lia|]. rewrite Nat2Z.id.
      rewrite map_app, fold_left_app. cbn [map fold_left]. f_equal. f_equal.
      apply nth_error_nth. apply IH. intros k Hk. apply H. apply in_or_app. left. exact Hk.
  Qed.
  Lemma chain_le ps i c : parents_first ps -> chain ps i c -> forall k, In k c -> (k <= i)%nat.
  Proof.
    intros PF. induction 1 as [i Hi|i p c Hi Hc IH]; intros k Hk.
    - destruct Hk as [<-|[]]. lia.
    - apply in_app_or in Hk. destruct Hk as [Hk|[<-|[]]]; [|lia].
      specialize (IH k Hk). pose proof (PF _ _ Hi). lia.
  Qed.
  Lemma chain_lt ps i c : chain ps i c -> (i < length ps)%nat.
  Proof. destruct 1 as [i H|i p c H _]; apply nth_error_Some; congruence. Qed.

  (** Two outputs consistent with the same pose agree. *)
  Lemma consistent_unique ps root (input1 input2 : list (transform (V4 F))) out1 out2 i : parents_first ps ->
    (i < length ps)%nat ->
    (forall k, (k <= i)%nat -> consistent ps root input1 out1 k) ->
    (forall k, (k <= i)%nat -> nth_error out2 k = Some (mat_mul (child_of ps root out2 k) (local_matrix input2 k))) ->
    (forall k, (k <= i)%nat -> local_matrix input1 k = local_matrix input2 k) ->
    nth_error out1 i = nth_error out2 i.
  Proof.
    intros PF. induction i as [i IH] using lt_wf_ind. intros Hl H1 H2 HL.
    rewrite (H1 i), (H2 i), HL by lia. f_equal. f_equal. unfold child_of.
    destruct (nth_error ps i) as [p|] eqn:E; [|reflexivity].
    destruct (Z.ltb_spec p 0); [reflexivity|]. pose proof (PF _ _ E).
    assert (EE : nth_error out1 (Z.to_nat p) = nth_error out2 (Z.to_nat p)).
    { apply IH; try lia; intros k Hk; [apply H1|apply H2|apply HL]; lia. }
    destruct (nth_error out1 (Z.to_nat p)) as [m|] eqn:E1.
    - rewrite (nth_error_nth _ _ _ E1), (nth_error_nth _ _ _ (eq_sym EE)). reflexivity.
    - apply nth_error_None in E1. symmetry in EE. apply nth_error_None in EE. rewrite !nth_overflow by assumption. reflexivity.
  Qed.
End Chain.

(** * Iteration *)
Section Iter.
  Context {F : Type}.
  Variable s : skeleton F.
  Notation ps := (sk_parents s).
  Hypothesis PF : parents_first ps.
  Hypothesis Hbig : Z.of_nat (length ps) <= 32768.

  Definition call_of (i : nat) : Z * Z := (Z.of_nat i, nth i ps (-1)).
  Lemma iter_loop_ok from : forall fuel i, (length ps - i < fuel)%nat -> (i < length ps)%nat ->
    exists stop, iter_loop fuel s from i true = Ok (map call_of (seq i (stop - i))) /\
      (i < stop <= length ps)%nat /\
      (forall k p, (i < k < stop)%nat -> nth_error ps k = Some p -> from <= p) /\
      ((stop < length ps)%nat -> exists p, nth_error ps stop = Some p /\ p < from).
  Proof.
    induction fuel as [|fuel IH]; intros i Hf Hi; [lia|]. cbn [iter_loop]. unfold joint_parent.
    rewrite (get_nth ps i (-1)) by lia. cbn [bind]. rewrite as_i16_id by lia.
    unfold num_joints. destruct (Nat.ltb_spec (S i) (length ps)) as [Hlt|Hge].
    - rewrite (get_nth ps (S i) (-1)) by lia. cbn [bind].
      assert (Hn : nth_error ps (S i) = Some (nth (S i) ps (-1))) by (apply nth_error_nth'; lia).
      destruct (Z.leb_spec from (nth (S i) ps (-1))) as [Hle|Hgt].
      + destruct (IH (S i) ltac:(lia) Hlt) as (stop & E & H1 & H2 & H3). rewrite E. cbn [bind].
        exists stop. split; [|split; [lia|split; [|exact H3]]].
        * replace (stop - i)%nat with (S (stop - S i)) by lia. reflexivity.
        * intros k p Hk Hp. destruct (Nat.eq_dec k (S i)) as [->|]; [congruence|]. apply (H2 k); [lia|exact Hp].
      + exists (S i). destruct fuel as [|fuel]; [lia|]. cbn [iter_loop bind].
        replace (S i - i)%nat with 1%nat by lia. split; [reflexivity|]. split; [lia|]. split; [lia|]. eauto.
    - cbn [bind]. exists (S i). destruct fuel as [|fuel]; [lia|]. cbn [iter_loop bind].
      replace (S i - i)%nat with 1%nat by lia. split; [reflexivity|]. split; [lia|]. split; lia.
  Qed.

  Lemma iter_rev_ok l : (forall i, In i l -> (i < length ps)%nat) -> iter_rev s l = Ok (map call_of l).
  Proof.
    induction l as [|i l IH]; intros H; [reflexivity|]. cbn [iter_rev]. unfold joint_parent.
    pose proof (H i (or_introl eq_refl)).
    rewrite (get_nth ps i (-1)) by assumption. cbn [bind]. rewrite IH by (intros k Hk; apply H; right; exact Hk).
    cbn [bind]. rewrite as_i16_id by lia. reflexivity.
  Qed.
End Iter.
