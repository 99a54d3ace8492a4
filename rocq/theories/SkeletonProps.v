(** C21-C25 and the LocalToModelJob half of C55. *)
From Flocq Require Import IEEE754.BinarySingleNaN.
From Verif Require Import Base Num NumF32 Math Skeleton SkeletonSpec SkeletonProofs.
Local Open Scope Z_scope.

(** C21.  A run over the whole skeleton ([from] negative, [to] at or above the last joint).  Bit
    for bit, on every number type. *)
Theorem C21_model_matrix_is_chain_product :
  forall (F : Type) (NF : Num F) (checks : bool) (s : skeleton F) (input : list (transform (V4 F)))
         (root : mat4 F) (from to : Z) (excluded : bool) (output : list (mat4 F)),
    parents_first (sk_parents s) -> Z.of_nat (num_joints s) < 2 ^ 31 ->
    (num_soa_joints s <= length input)%nat -> (num_joints s <= length output)%nat ->
    -2147483648 <= from < 0 -> Z.of_nat (num_joints s) - 1 <= to < 2147483647 ->
    exists output',
      ltm_run checks (mk_ltm (Some s) (Some input) root from to excluded (Some output)) = Ok output' /\
      length output' = length output /\
      (forall i c, chain (sk_parents s) i c ->
         nth_error output' i = Some (fold_left mat_mul (map (local_matrix input) c) root)) /\
      (forall i, (num_joints s <= i)%nat -> nth_error output' i = nth_error output i).
Proof.
  intros F NF checks s input root from to excluded output PF Hn Hi Ho Hf Ht.
  destruct (run_all checks (mk_ltm (Some s) (Some input) root from to excluded (Some output)) s input output
              eq_refl eq_refl eq_refl Hi Ho PF Hn ltac:(cbn; lia) ltac:(cbn; lia) ltac:(cbn; lia)) as (o & E & L & C & U).
  cbn [lj_from lj_to lj_root] in *. exists o. split; [exact E|]. split; [exact L|]. split.
  - intros i c Hc. apply chain_product with (sk_parents s); [exact Hc|].
    intros k Hk. pose proof (chain_le _ _ _ PF Hc k Hk). pose proof (chain_lt _ _ _ Hc).
    unfold num_joints in *. apply C; lia.
  - intros i Hge. apply U. left. exact Hge.
Qed.
Print Assumptions C21_model_matrix_is_chain_product.

(** Every joint of such a skeleton has a chain, so C21 says something about each of them. *)
Theorem C21_every_joint_has_a_chain :
  forall ps i, parents_first ps -> (i < length ps)%nat -> exists c, chain ps i c.
Proof. exact chain_exists. Qed.
Print Assumptions C21_every_joint_has_a_chain.

(** Two trees, six joints: 0 -> (1 -> 2, 3), 4 -> 5. *)
Definition ex_parents : list Z := [-1; 0; 1; 0; -1; 4].
Definition ex_local (x : Z) : transform (V4 f32) :=
  TR (V3 (mk4 (f32_lit x 0) (f32_lit (x + 1) 0) (f32_lit (x + 2) 0) (f32_lit (x + 3) 0)) nzero nzero)
     q_identity v3_one.
Definition ex_skel : skeleton f32 := mk_skel [] ex_parents.
Definition ex_in : list (transform (V4 f32)) := [ex_local 1; ex_local 5].
Definition ex_out : list (mat4 f32) := repeat mat_identity 7.

Lemma ex_depth_first : depth_first ex_parents.
Proof.
  split.
  - intros [|[|[|[|[|[|i]]]]]] p H; inversion H; subst; try lia.
    destruct i; discriminate.
  - assert (B0 : below ex_parents 0 0) by (constructor; cbn; lia).
    assert (B1 : below ex_parents 1 1) by (constructor; cbn; lia).
    assert (B2 : below ex_parents 0 2).
    { apply below_child with 1%nat; [reflexivity|]. apply below_child with 0%nat; [reflexivity|exact B0]. }
    assert (B4 : below ex_parents 4 4) by (constructor; cbn; lia).
    intros [|[|[|[|[|i]]]]] p H; inversion H.
    + replace p with 0%nat by lia. exact B0.
    + replace p with 1%nat by lia. exact B1.
    + replace p with 0%nat by lia. exact B2.
    + lia.
    + replace p with 4%nat by lia. exact B4.
    + destruct i; discriminate.
Qed.
(** Translations 1, 2, 3 along the chain 0, 1, 2 add up to 6. *)
Example C21_example :
  parents_first ex_parents /\ chain ex_parents 2 [0; 1; 2]%nat /\
  match ltm_run true (mk_ltm (Some ex_skel) (Some ex_in) mat_identity (-1) 1024 false (Some ex_out)) with
  | Ok o => option_map (fun m => f32_to_bits (l0 (l3 m))) (nth_error o 2) = Some (f32_to_bits (f32_lit 6 0))
  | _ => False
  end.
Proof.
  split; [apply ex_depth_first|]. split.
  - apply (chain_child _ 2 1 [0; 1]%nat); [reflexivity|].
    apply (chain_child _ 1 0 [0]%nat); [reflexivity|]. apply chain_root. reflexivity.
  - vm_compute. reflexivity.
Qed.

(** C21 for the default job is limited to SKELETON_MAX_JOINTS: with 1026 joints (which the loader
    and [validate] accept), the default [to] = 1024 leaves joint 1025 as it was. *)
Theorem C21_default_range_refuted :
  exists (s : skeleton f32) (input : list (transform (V4 f32))) (output output' : list (mat4 f32)),
    parents_first (sk_parents s) /\
    let j := mk_ltm (Some s) (Some input) mat_identity SKELETON_NO_PARENT SKELETON_MAX_JOINTS false (Some output) in
    ltm_validate j = true /\ ltm_run true j = Ok output' /\
    nth_error output' 1025 = nth_error output 1025 /\
    ~ consistent (sk_parents s) mat_identity input output' 1025.
Proof.
  set (s := mk_skel [] (repeat (-1) 1026) : skeleton f32).
  set (input := repeat (ex_local 1) 257).
  set (output := repeat (mat_identity : mat4 f32) 1026).
  assert (PF : parents_first (sk_parents s)).
  { intros i p H. cbn [sk_parents s] in H. apply nth_error_In, repeat_spec in H. lia. }
  destruct (run_all true (mk_ltm (Some s) (Some input) mat_identity (-1) 1024 false (Some output)) s input output
    eq_refl eq_refl eq_refl ltac:(vm_compute; lia) ltac:(vm_compute; lia) PF ltac:(reflexivity)
    ltac:(cbn; lia) ltac:(cbn; lia) ltac:(cbn; lia)) as (o & E & _ & _ & U).
  assert (U1 : nth_error o 1025 = nth_error output 1025) by (apply U; right; vm_compute; reflexivity).
  exists s, input, output, o. split; [exact PF|]. split; [vm_compute; reflexivity|]. split; [exact E|].
  split; [exact U1|]. unfold consistent. rewrite U1. intros H.
  assert (H2 : option_map (fun m => f32_to_bits (l0 (l3 m))) (nth_error output 1025)
             = option_map (fun m => f32_to_bits (l0 (l3 m)))
                 (Some (mat_mul (mat_identity : mat4 f32) (local_matrix input 1025)))).
  { rewrite H. reflexivity. }
  vm_compute in H2. discriminate.
Qed.
Print Assumptions C21_default_range_refuted.

(** C22.  For every [from], [to] < i32::MAX and [from_excluded]: the selected joints get their
    parent's new matrix times their local matrix, all the others are untouched. *)
Theorem C22_exact_subtree_update :
  forall (F : Type) (NF : Num F) (checks : bool) (s : skeleton F) (input : list (transform (V4 F)))
         (root : mat4 F) (from to : Z) (excluded : bool) (output : list (mat4 F)),
    depth_first (sk_parents s) -> Z.of_nat (num_joints s) < 2 ^ 31 ->
    (num_soa_joints s <= length input)%nat -> (num_joints s <= length output)%nat ->
    -2147483648 <= from < 2147483647 -> -2147483648 <= to < 2147483647 ->
    exists output',
      ltm_run checks (mk_ltm (Some s) (Some input) root from to excluded (Some output)) = Ok output' /\
      length output' = length output /\
      (forall i, selected (sk_parents s) from to excluded i ->
         consistent (sk_parents s) root input output' i) /\
      (forall i, ~ selected (sk_parents s) from to excluded i ->
         nth_error output' i = nth_error output i).
Proof.
  exact (fun F NF checks s input root from to excluded output D Hn Hi Ho Hf Ht =>
    run_selected checks (mk_ltm (Some s) (Some input) root from to excluded (Some output)) s input output
      eq_refl eq_refl eq_refl Hi Ho (proj1 D) Hn Hf Ht D).
Qed.
Print Assumptions C22_exact_subtree_update.
Example C22_example :
  depth_first (sk_parents ex_skel) /\
  match ltm_run true (mk_ltm (Some ex_skel) (Some ex_in) mat_identity 1 1024 true (Some ex_out)) with
  | Ok o => map (fun m => f32_to_bits (l0 (l3 m))) o = map (fun x => f32_to_bits (f32_lit x 0)) [0; 0; 3; 0; 0; 0; 0]
  | _ => False
  end.
Proof. split; [exact ex_depth_first|vm_compute; reflexivity]. Qed.

(** C23.  [output] holds the matrices of pose [input]; pose [input2] differs only below joint [f].
    Running from [f] on [input2] gives what a full run on [input2] gives. *)
Theorem C23_incremental_equals_full :
  forall (F : Type) (NF : Num F) (checks : bool) (s : skeleton F) (input input2 : list (transform (V4 F)))
         (root : mat4 F) (f : nat) (to : Z) (output any : list (mat4 F)),
    depth_first (sk_parents s) -> Z.of_nat (num_joints s) < 2147483647 ->
    (num_soa_joints s <= length input2)%nat ->
    (num_joints s <= length output)%nat -> (num_joints s <= length any)%nat ->
    (f < num_joints s)%nat -> Z.of_nat (num_joints s) - 1 <= to < 2147483647 ->
    (forall i, (i < num_joints s)%nat -> consistent (sk_parents s) root input output i) ->
    (forall i, (i < num_joints s)%nat -> ~ below (sk_parents s) f i -> local_matrix input2 i = local_matrix input i) ->
    exists incremental full,
      ltm_run checks (mk_ltm (Some s) (Some input2) root (Z.of_nat f) to false (Some output)) = Ok incremental /\
      ltm_run checks (mk_ltm (Some s) (Some input2) root (-1) to false (Some any)) = Ok full /\
      forall i, (i < num_joints s)%nat -> nth_error incremental i = nth_error full i.
Proof.
  intros F NF checks s input input2 root f to output any D Hn Hi Ho Ha Hf Ht HC HL.
  destruct D as [PF DF].
  destruct (C22_exact_subtree_update F NF checks s input2 root (Z.of_nat f) to false output) as (o1 & E1 & L1 & C1 & U1);
    try lia; [split; assumption|].
  destruct (run_all checks (mk_ltm (Some s) (Some input2) root (-1) to false (Some any)) s input2 any
    eq_refl eq_refl eq_refl Hi Ha PF ltac:(unfold num_joints in *; lia) ltac:(cbn; lia) ltac:(cbn; lia) ltac:(cbn; lia))
    as (o2 & E2 & _ & C2 & _). unfold num_joints in *.
  exists o1, o2. split; [exact E1|]. split; [exact E2|]. intros i Hlt. cbn [lj_from lj_to lj_root] in *.
  apply consistent_unique with (sk_parents s) root input2 input2; auto.
  - intros k Hk.
    assert (Dec : below (sk_parents s) f k \/ ~ below (sk_parents s) f k).
    { destruct (Nat.lt_trichotomy f k) as [Hlt1|[->|Hgt]].
      - clear - Hlt1 PF DF Hk Hlt. assert (Hr : (f < k < length (sk_parents s))%nat) by lia.
        assert (P : forall m, (forall j p, (f < j <= m)%nat -> nth_error (sk_parents s) j = Some p -> Z.of_nat f <= p) \/
                   ~ (forall j p, (f < j <= m)%nat -> nth_error (sk_parents s) j = Some p -> Z.of_nat f <= p)).
        { induction m as [|m [IH|IH]].
          - left. intros j p Hj. lia.
          - destruct (nth_error (sk_parents s) (S m)) as [q|] eqn:Eq.
            + destruct (Z_le_gt_dec (Z.of_nat f) q) as [Hq|Hq].
              * left. intros j p Hj Hp. destruct (Nat.eq_dec j (S m)) as [->|]; [congruence|]. apply (IH j); [lia|exact Hp].
              * destruct (Nat.lt_ge_cases f (S m)).
                -- right. intros H0. specialize (H0 (S m) q ltac:(lia) Eq). lia.
                -- left. intros j p Hj. lia.
            + left. intros j p Hj Hp. destruct (Nat.eq_dec j (S m)) as [->|]; [congruence|]. apply (IH j); [lia|exact Hp].
          - right. intros H0. apply IH. intros j p Hj. apply H0. lia. }
        destruct (P k) as [Pk|Pk]; rewrite <- (below_range _ PF DF f k Hr) in Pk; auto.
      - left. apply below_self. lia.
      - right. intros Hb. pose proof (below_le _ PF _ _ Hb). lia. }
    destruct Dec as [Hb|Hb].
    + apply C1. split; [lia|]. split; [lia|]. right. rewrite Nat2Z.id. split; [exact Hb|discriminate].
    + assert (Hns : ~ selected (sk_parents s) (Z.of_nat f) to false k).
      { intros (_ & _ & [Hneg|[Hb' _]]); [lia|]. rewrite Nat2Z.id in Hb'. exact (Hb Hb'). }
      unfold consistent. rewrite U1 by exact Hns. rewrite (HC k) by lia. rewrite (HL k) by (assumption || lia).
      f_equal. f_equal. unfold child_of. destruct (nth_error (sk_parents s) k) as [p|] eqn:Ep; [|reflexivity].
      destruct (Z.ltb_spec p 0); [reflexivity|].
      assert (Hnp : ~ selected (sk_parents s) (Z.of_nat f) to false (Z.to_nat p)).
      { intros (_ & _ & [Hneg|[Hb' _]]); [lia|]. rewrite Nat2Z.id in Hb'. apply Hb.
        apply below_child with (Z.to_nat p); [rewrite Ep; f_equal; lia|exact Hb']. }
      specialize (U1 _ Hnp). destruct (nth_error output (Z.to_nat p)) as [m|] eqn:Em.
      * rewrite (nth_error_nth _ _ _ Em), (nth_error_nth _ _ _ U1). reflexivity.
      * apply nth_error_None in Em. apply nth_error_None in U1. rewrite !nth_overflow by assumption. reflexivity.
  - intros k Hk. apply C2; lia.
Qed.
Print Assumptions C23_incremental_equals_full.
(** Changing joint 1 only (lane 1 of the first element): joints 1 and 2 are its subtree. *)
Example C23_example :
  exists output,
    ltm_run true (mk_ltm (Some ex_skel) (Some ex_in) mat_identity (-1) 1024 false (Some ex_out)) = Ok output /\
    (forall i, (i < 6)%nat -> consistent (sk_parents ex_skel) mat_identity ex_in output i) /\
    let in2 := [set_tr (ex_local 1) 1 (TR v3_zero q_identity v3_one); ex_local 5] in
    (forall i, (i < 6)%nat -> ~ below (sk_parents ex_skel) 1 i -> local_matrix in2 i = local_matrix ex_in i) /\
    local_matrix in2 1 <> local_matrix ex_in 1.
Proof.
  destruct (run_all true (mk_ltm (Some ex_skel) (Some ex_in) mat_identity (-1) 1024 false (Some ex_out)) ex_skel ex_in ex_out
    eq_refl eq_refl eq_refl ltac:(vm_compute; lia) ltac:(vm_compute; lia) (proj1 ex_depth_first) ltac:(reflexivity)
    ltac:(cbn; lia) ltac:(cbn; lia) ltac:(cbn; lia)) as (o & E & _ & C & _).
  exists o. split; [exact E|]. split; [intros i Hi; apply C; cbn; lia|]. split.
  - intros i Hi Hb. destruct i as [|[|[|[|[|[|i]]]]]]; try lia; try reflexivity.
    exfalso. apply Hb. apply below_self. cbn. lia.
  - intros H. apply (f_equal (fun m => f32_to_bits (l0 (l3 m)))) in H. vm_compute in H. discriminate.
Qed.

(** C24 holds up to i32::MAX - 1 (C21 and C22 cover these); at i32::MAX it is false: the run panics
    with overflow checks, and updates nothing without. *)
Theorem C24_to_i32_max_refuted :
  forall (F : Type) (NF : Num F),
  exists (s : skeleton F) (input : list (transform (V4 F))),
    depth_first (sk_parents s) /\
    forall output, (num_joints s <= length output)%nat ->
    let j := mk_ltm (Some s) (Some input) mat_identity (-1) 2147483647 false (Some output) in
    ltm_validate j = true /\ ltm_run true j = Panic /\ ltm_run false j = Ok output.
Proof.
  intros F NF. exists (mk_skel [] [-1]), [tr_identity]. split.
  - split.
    + intros [|[|i]] p H; inversion H. lia.
    + intros [|i] p H; inversion H.
  - intros [|m output] Hl; [cbn in Hl; lia|]. split; [reflexivity|]. split; reflexivity.
Qed.
Print Assumptions C24_to_i32_max_refuted.
Theorem C24_to_at_or_above_last_partial :
  forall (F : Type) (NF : Num F) (checks : bool) (s : skeleton F) (input : list (transform (V4 F)))
         (root : mat4 F) (from to : Z) (excluded : bool) (output : list (mat4 F)),
    depth_first (sk_parents s) -> Z.of_nat (num_joints s) < 2147483647 ->
    (num_soa_joints s <= length input)%nat -> (num_joints s <= length output)%nat ->
    -2147483648 <= from < 2147483647 -> Z.of_nat (num_joints s) - 1 <= to < 2147483647 ->
    (0 < num_joints s)%nat ->
    ltm_run checks (mk_ltm (Some s) (Some input) root from to excluded (Some output)) =
    ltm_run checks (mk_ltm (Some s) (Some input) root from (Z.of_nat (num_joints s) - 1) excluded (Some output)).
Proof.
  intros F NF checks s input root from to excluded output D Hn Hi Ho Hf Ht Hp.
  unfold ltm_run. cbn [lj_skeleton lj_input lj_output lj_from lj_to lj_from_excluded lj_root ok_or bind].
  destruct (negb _); [reflexivity|]. destruct (i32_add checks from (if excluded then 1 else 0)) as [b| |]; [|reflexivity|reflexivity].
  cbn [bind]. rewrite !i32_add_ok by lia. cbn [bind]. rewrite as_i32_id by lia.
  rewrite !Z.min_r by lia. reflexivity.
Qed.
Print Assumptions C24_to_at_or_above_last_partial.

(** C25.  Iteration from joint [f] calls the closure on [f]'s subtree, in increasing order, each
    joint with its parent. *)
Theorem C25_iter_depth_first_subtree :
  forall (F : Type) (s : skeleton F) (f : nat),
    depth_first (sk_parents s) -> Z.of_nat (num_joints s) <= 32768 -> (f < num_joints s)%nat ->
    exists joints,
      iter_depth_first s (Z.of_nat f) = Ok (map (fun i => (Z.of_nat i, nth i (sk_parents s) (-1))) joints) /\
      (exists n, joints = seq f n) /\
      (forall i, In i joints <-> below (sk_parents s) f i).
Proof.
  intros F s f (PF & DF) Hn Hf. unfold num_joints in *. unfold iter_depth_first.
  destruct (Z.ltb_spec (Z.of_nat f) 0); [lia|]. rewrite Nat2Z.id. unfold num_joints.
  destruct (Nat.ltb_spec f (length (sk_parents s))); [|lia].
  destruct (iter_loop_ok s Hn (Z.of_nat f) (S (length (sk_parents s))) f ltac:(lia) Hf) as (stop & E & H1 & H2 & H3).
  exists (seq f (stop - f)). split; [exact E|]. split; [eauto|].
  intros i. rewrite in_seq. split.
  - intros Hi. destruct (Nat.eq_dec i f) as [->|]; [apply below_self; exact Hf|].
    apply below_range; auto; [lia|]. intros j p Hj. apply H2. lia.
  - intros Hb. pose proof (below_le _ PF _ _ Hb). pose proof (below_lt _ _ _ Hb).
    split; [lia|]. destruct (Nat.lt_ge_cases i stop) as [|Hge]; [lia|exfalso].
    destruct (H3 ltac:(lia)) as (p & Hp & Hlt).
    pose proof (proj1 (below_range _ PF DF f i ltac:(lia)) Hb stop p ltac:(lia) Hp). lia.
Qed.
Print Assumptions C25_iter_depth_first_subtree.
(** A negative [from] visits every joint once, parents first. *)
Theorem C25_iter_depth_first_all :
  forall (F : Type) (s : skeleton F) (from : Z),
    parents_first (sk_parents s) -> Z.of_nat (num_joints s) <= 32768 -> from < 0 ->
    iter_depth_first s from =
      Ok (map (fun i => (Z.of_nat i, nth i (sk_parents s) (-1))) (seq 0 (num_joints s))).
Proof.
  intros F s from PF Hn Hf. unfold num_joints in *. unfold iter_depth_first, num_joints.
  destruct (Z.ltb_spec from 0); [|lia].
  destruct (Nat.ltb_spec 0 (length (sk_parents s))) as [Hp|Hp].
  - destruct (iter_loop_ok s Hn from (S (length (sk_parents s))) 0 ltac:(lia) Hp) as (stop & E & H1 & H2 & H3).
    rewrite E. assert (stop = length (sk_parents s)); [|subst; rewrite Nat.sub_0_r; reflexivity].
    destruct (Nat.lt_ge_cases stop (length (sk_parents s))) as [Hlt|]; [|lia]. exfalso.
    destruct (H3 Hlt) as (p & Hpp & Hlt'). pose proof (PF _ _ Hpp). lia.
  - destruct (length (sk_parents s)); [reflexivity|lia].
Qed.
Print Assumptions C25_iter_depth_first_all.
(** The reverse iteration visits every joint once, children first. *)
Theorem C25_iter_depth_first_reverse :
  forall (F : Type) (s : skeleton F),
    Z.of_nat (num_joints s) <= 32768 ->
    iter_depth_first_reverse s =
      Ok (map (fun i => (Z.of_nat i, nth i (sk_parents s) (-1))) (rev (seq 0 (num_joints s)))).
Proof.
  intros F s Hn. unfold iter_depth_first_reverse. apply iter_rev_ok; [exact Hn|].
  intros i Hi. apply in_rev, in_seq in Hi. unfold num_joints in *. lia.
Qed.
Print Assumptions C25_iter_depth_first_reverse.
(** [is_leaf] tells the joints without children. *)
Theorem C25_is_leaf :
  forall (F : Type) (s : skeleton F) (j : nat),
    depth_first (sk_parents s) -> Z.of_nat (num_joints s) < 2 ^ 31 -> (j < num_joints s)%nat ->
    exists b, is_leaf s j = Ok b /\
      (b = true <-> forall i, nth_error (sk_parents s) i <> Some (Z.of_nat j)).
Proof.
  intros F s j (PF & DF) Hn Hj. unfold is_leaf, num_joints in *.
  destruct (Nat.eqb_spec (S j) (length (sk_parents s))) as [E|E].
  - exists true. split; [reflexivity|]. split; [|reflexivity]. intros _ i Hi.
    assert (i < length (sk_parents s))%nat by (apply nth_error_Some; congruence).
    pose proof (PF _ _ Hi). lia.
  - unfold joint_parent. rewrite (get_nth (sk_parents s) (S j) (-1)) by lia. cbn [bind]. rewrite as_i32_id by lia.
    eexists. split; [reflexivity|].
    assert (Hn' : nth_error (sk_parents s) (S j) = Some (nth (S j) (sk_parents s) (-1))) by (apply nth_error_nth'; lia).
    pose proof (leaf_ok (sk_parents s) PF DF j ltac:(lia)) as L.
    destruct (Z.eqb_spec (nth (S j) (sk_parents s) (-1)) (Z.of_nat j)) as [Eq|Ne]; cbn [negb].
    + split; [discriminate|]. intros H. exfalso. rewrite Eq in Hn'. exact (H _ Hn').
    + split; [|reflexivity]. intros _ i Hi. apply Ne. apply proj2 in L. specialize (L (ex_intro _ i Hi)).
      rewrite Hn' in L. congruence.
Qed.
Print Assumptions C25_is_leaf.
Example C25_example :
  depth_first (sk_parents ex_skel) /\
  iter_depth_first ex_skel 1 = Ok [(1, 0); (2, 1)] /\
  iter_depth_first_reverse ex_skel = Ok [(5, 4); (4, -1); (3, 0); (2, 1); (1, 0); (0, -1)] /\
  map (is_leaf ex_skel) [0; 1; 2; 3; 4; 5]%nat = map Ok [false; false; true; true; false; true].
Proof. split; [exact ex_depth_first|]. vm_compute. auto. Qed.

(** C25 at its documented limits is false: [is_leaf(num_joints)] ("in range [0, num joints]")
    panics, and beyond 32768 joints the closure gets a wrapped index. *)
Theorem C25_is_leaf_at_num_joints_refuted :
  forall (F : Type) (s : skeleton F), is_leaf s (num_joints s) = Panic.
Proof.
  intros F s. unfold is_leaf. destruct (Nat.eqb_spec (S (num_joints s)) (num_joints s)) as [E|E]; [lia|].
  unfold joint_parent, get, num_joints. rewrite (proj2 (nth_error_None _ _)) by lia. reflexivity.
Qed.
Print Assumptions C25_is_leaf_at_num_joints_refuted.
Theorem C25_iter_many_joints_refuted :
  forall F : Type, exists s : skeleton F,
    depth_first (sk_parents s) /\ iter_depth_first s 32768 = Ok [(-32768, -1)].
Proof.
  intros F. exists (mk_skel [] (repeat (-1) (Z.to_nat 32769))). split.
  - split.
    + intros i p H. apply nth_error_In, repeat_spec in H. lia.
    + intros i p H. apply nth_error_In, repeat_spec in H. lia.
  - vm_compute. reflexivity.
Qed.
Print Assumptions C25_iter_many_joints_refuted.

(** C55 for LocalToModelJob: [run] fails exactly when [validate] is false, with InvalidJob. *)
Theorem C55_ltm_run_iff_validate :
  forall (F : Type) (NF : Num F) (checks : bool) (j : ltm_job F),
    (ltm_validate j = false -> ltm_run checks j = Err InvalidJob) /\
    (ltm_validate j = true -> forall e, ltm_run checks j <> Err e).
Proof.
  intros F NF checks j. unfold ltm_validate, ltm_run.
  destruct (lj_skeleton j) as [s|]; [|split; [reflexivity|discriminate]].
  destruct (lj_input j) as [input|]; [|split; [reflexivity|discriminate]].
  destruct (lj_output j) as [output|]; [|split; [reflexivity|discriminate]].
  cbn [ok_or bind]. destruct (_ && _); [|split; [reflexivity|discriminate]]. split; [discriminate|].
  intros _ e. cbn [negb].
  assert (I : forall a b x, i32_add checks a b <> Err x).
  { intros a b x. unfold i32_add. destruct (_ && _); [discriminate|]. destruct checks; discriminate. }
  assert (B : forall A B (x : res A) (f : A -> res B), (forall y, x <> Err y) -> (forall a y, f a <> Err y) -> forall y, bind x f <> Err y).
  { intros A B x f Hx Hf y. destruct x as [a|z|]; cbn; [apply Hf|exfalso; exact (Hx z eq_refl)|discriminate]. }
  assert (G : forall A (l : list A) i x, get l i <> Err x) by (intros; apply get_not_Err).
  assert (S : forall A (l : list A) i v x, set l i v <> Err x) by (intros; unfold set; destruct (_ <? _)%nat; discriminate).
  assert (In_ : forall fuel root from en se aos idx pr out x, ltm_inner fuel s root from en se aos idx pr out <> Err x).
  { induction fuel as [|fuel IH]; intros; cbn [ltm_inner]; [discriminate|]. destruct (_ && _); [|discriminate].
    apply B; [apply G|]. intros p. apply B.
    - intros y. destruct (p =? _); [apply S|]. apply B; [apply G|intros; apply S].
    - intros o. apply B; [|intros; apply IH]. intros y. destruct (_ <? _)%nat; [|discriminate].
      apply B; [apply G|discriminate]. }
  assert (Out : forall fuel root from en idx pr out x, ltm_outer fuel s input root from en idx pr out <> Err x).
  { induction fuel as [|fuel IH]; intros; cbn [ltm_outer]; [discriminate|]. destruct pr; [|discriminate].
    apply B; [apply G|]. intros t. apply B; [intros; apply In_|]. intros [[i p] o]. apply IH. }
  apply B; [apply I|]. intros b. apply B; [apply I|]. intros en. apply B; [|intros; apply Out].
  intros y. destruct (_ <? _)%nat; [|discriminate]. destruct (negb _); [discriminate|].
  apply B; [apply G|discriminate].
Qed.
Print Assumptions C55_ltm_run_iff_validate.
