(** C93: model-space matrices of poses with scales are the product of the joints' motions down any chain, in single precision. *)
From Coq Require Import Reals Lra Lia Psatz List.
From Flocq Require Import Core.Core IEEE754.BinarySingleNaN.
From Verif Require Import Base Num NumF32 Math KeysSpec F32Facts F32Err InterpF32 NormF32 BlendF32 BlendF32Props.
From Verif Require Import Skeleton SkeletonSpec SkeletonProofs SkeletonProps BlendingSpec RigidSpec RigidF32 RigidRow RigidProps ScaleSpec ScaleRow.
Import ListNotations.
Local Open Scope R_scope.

Section Chain.
  Variables (e len : R).
  Hypotheses (He : / 1048576 <= e) (He1 : e <= / 128) (HL : p2 (-60) <= len <= p2 60).
  Definition smat (D S : R) (m : mat4 f32) (q : motion) : Prop :=
    (forall r, (r < 3)%nat -> srow e len D S m r (turn_of q r 0%nat) (turn_of q r 1%nat) (turn_of q r 2%nat) (move_of q r)) /\
    (forall c, (c < 3)%nat -> fin (entry m 3 c) 0) /\ fin (entry m 3 3) 1.
  Lemma sbottom m t sz c a : sound_joint e sz t -> p2 (-40) <= sz <= p2 40 -> (c < 4)%nat ->
    (forall c, (c < 3)%nat -> fin (entry m 3 c) 0) -> fin (entry m 3 3) 1 ->
    fin (entry (matrix_of t) 3 c) a -> (a = 0 \/ a = 1) ->
    fin (entry (mat_mul m (matrix_of t)) 3 c) a.
  Proof using He He1.
    intros HT Hz Hc B0 B1 F3 Ha. rewrite entry_mul by lia.
    assert (FE : forall k, (k < 3)%nat -> exists b, fin (entry (matrix_of t) k c) b).
    { intros k Hk. destruct (Nat.eq_dec c 3) as [->|N].
      - exists (move_of (joint_map t) k). eapply sc_move; eassumption.
      - destruct (scaled_entry e sz t k c ltac:(lra) HT Hz Hk ltac:(lia)) as (b & F & _). exists b. exact F. }
    destruct (FE 0%nat ltac:(lia)) as (b0 & F0). destruct (FE 1%nat ltac:(lia)) as (b1 & F1). destruct (FE 2%nat ltac:(lia)) as (b2 & F2).
    apply fin_add0'; [| |exact Ha].
    - apply fin_add0; [apply (fin_mul0 _ b1); auto|apply (fin_mul0 _ b0); auto|left; reflexivity].
    - apply fin_add0; [apply fin_mul1; auto|apply (fin_mul0 _ b2); auto|exact Ha].
  Qed.
  Lemma smat_step D S sz m q t : 0 <= D -> D * e <= / 128 -> D <= 10000000 -> p2 (-60) <= S <= p2 60 -> p2 (-40) <= sz <= p2 40 -> p2 (-60) <= S * sz <= p2 60 ->
    sound_joint e sz t -> S * bone t <= len -> smat D S m q -> smat (D + 1) (S * sz) (mat_mul m (matrix_of t)) (follow q (joint_map t)).
  Proof using He He1 HL.
    intros HD HDe HD1 HS Hz HSz HT HB (HR & H0 & H1). split; [|split].
    - intros r Hr. exact (srow_step e len D S sz m t r _ _ _ _ He HD HDe He1 HL HD1 HS Hz HSz Hr HT HB (HR r Hr)).
    - intros c Hc. apply (sbottom _ _ sz); [exact HT|exact Hz|lia|exact H0|exact H1|eapply sc_zero; exact Hc|left; reflexivity].
    - apply (sbottom _ _ sz); [exact HT|exact Hz|lia|exact H0|exact H1|apply fin_one|right; reflexivity].
  Qed.
  Lemma schain (l : list (transform f32 * R)) : forall D S m q, 0 <= D -> (D + INR (length l)) * e <= / 128 -> D + INR (length l) <= 10000000 -> p2 (-60) <= S <= p2 60 ->
    sound_chain e len S l -> smat D S m q ->
    smat (D + INR (length l)) (chain_size S l) (fold_left mat_mul (map (fun p => matrix_of (fst p)) l) m) (fold_left follow (map (fun p => joint_map (fst p)) l) q).
  Proof using He He1 HL.
    induction l as [|[t sz] l IH]; intros D S m q HD HDe HD1 HS HT HI; [cbn [length INR fold_left map]; rewrite Rplus_0_r; exact HI|].
    cbn [length] in *. rewrite S_INR in *. cbn [map fold_left fst]. unfold chain_size. cbn [fold_left snd]. fold (chain_size (S * sz) l). pose proof (pos_INR (length l)) as PI.
    replace (D + (INR (length l) + 1)) with ((D + 1) + INR (length l)) in * by ring.
    destruct HT as (HJ & HB & Hz & HSz & HC). destruct p2_40 as (Q1 & Q2). destruct p2_60 as (Q3 & Q4). rewrite <- Q1, <- Q2 in Hz. rewrite <- Q3, <- Q4 in HSz.
    apply IH; try assumption; try lra.
    apply smat_step; auto; try lra.
    apply Rle_trans with ((D + 1 + INR (length l)) * e); [apply Rmult_le_compat_r; lra|exact HDe].
  Qed.
  Lemma smat_motion D S m q : 0 <= D -> smat D S m q -> is_motion m q (16 * D * e * S) (10 * (D * D) * e * len).
  Proof using.
    intros HD (HR & H0 & H1). split; [|split; [|split; [|split]]].
    - intros r c Hr Hc. destruct (Nat.eq_dec r 3) as [->|Nr].
      + destruct (Nat.eq_dec c 3) as [->|Nc]; [apply H1|apply H0; lia].
      + destruct (HR r ltac:(lia)) as (a0 & a1 & a2 & p & A0 & A1 & A2 & P & _).
        destruct c as [|[|[|[|c]]]]; [apply A0|apply A1|apply A2|apply P|lia].
    - intros r c Hr Hc. destruct (HR r Hr) as (a0 & a1 & a2 & p & [_ A0] & [_ A1] & [_ A2] & _ & N & _).
      pose proof (n3_entry (a0 - turn_of q r 0%nat) (a1 - turn_of q r 1%nat) (a2 - turn_of q r 2%nat)) as (E0 & E1 & E2).
      destruct c as [|[|[|c]]]; [rewrite A0; lra|rewrite A1; lra|rewrite A2; lra|lia].
    - intros r Hr. destruct (HR r Hr) as (a0 & a1 & a2 & p & _ & _ & _ & [_ P] & _ & N & _). rewrite P. exact N.
    - intros c Hc. apply H0, Hc.
    - apply H1.
  Qed.
  Lemma smat_root S m q : p2 (-60) <= S <= p2 60 -> is_motion m q (e * S) (e * len) -> rows_within S q -> (forall r, (r < 3)%nat -> Rabs (move_of q r) <= len) -> smat 1 S m q.
  Proof using He He1 HL.
    intros HS (F & E & P & Z & O) Q M. assert (L0 : 0 < len) by (pose proof (p2_pos (-60)); lra). assert (S0 : 0 < S) by (pose proof (p2_pos (-60)); lra).
    assert (EL : 0 < e * len) by (apply Rmult_lt_0_compat; lra). assert (ES : 0 < e * S) by (apply Rmult_lt_0_compat; lra).
    split; [|split].
    - intros r Hr. exists (B2R (entry m r 0)), (B2R (entry m r 1)), (B2R (entry m r 2)), (B2R (entry m r 3)).
      do 4 (split; [split; [apply F; lia|reflexivity]|]).
      split; [|split; [|split]].
      + pose proof (n3_box _ _ _ _ (E r 0%nat Hr ltac:(lia)) (E r 1%nat Hr ltac:(lia)) (E r 2%nat Hr ltac:(lia))). lra.
      + pose proof (P r Hr). lra.
      + apply n3_le; [lra|]. exact (Q r Hr).
      + rewrite Rmult_1_l. apply M, Hr.
    - intros c Hc. split; [apply F; lia|apply Z, Hc].
    - split; [apply F; lia|exact O].
  Qed.
End Chain.

(** ** C93
    The matrix of a joint is the motion its chain of parents makes, one after the other, below the root: up to [16 d e] of the
    joint's size in model space in the axes and [10 d^2 e] of the longest bone in the position, for a chain of [d - 1] joints.
    [sz] bounds the scales of each joint. *)
Theorem C93_scaled_models :
  forall (checks : bool) (s : skeleton f32) (pose : list (transform (V4 f32))) (root : mat4 f32) (q0 : motion)
         (from to : Z) (excluded : bool) (output : list (mat4 f32)) (e len S : R) (sz : nat -> R) (i : nat) (c : list nat),
    parents_first (sk_parents s) -> (Z.of_nat (num_joints s) < 2 ^ 31)%Z ->
    (num_soa_joints s <= length pose)%nat -> (num_joints s <= length output)%nat ->
    (-2147483648 <= from < 0)%Z -> (Z.of_nat (num_joints s) - 1 <= to < 2147483647)%Z ->
    chain (sk_parents s) i c ->
    / 2 ^ 20 <= e -> (INR (length c) + 1) * e <= / 128 -> / 2 ^ 60 <= len <= 2 ^ 60 -> / 2 ^ 60 <= S <= 2 ^ 60 ->
    is_motion root q0 (e * S) (e * len) -> rows_within S q0 -> (forall r, (r < 3)%nat -> Rabs (move_of q0 r) <= len) ->
    let links := map (fun j => (joint pose j, sz j)) c in
    sound_chain e len S links ->
    exists output' m,
      ltm_run checks (mk_ltm (Some s) (Some pose) root from to excluded (Some output)) = Ok output' /\
      nth_error output' i = Some m /\
      let q := fold_left follow (map (fun j => joint_map (joint pose j)) c) q0 in
      let d := INR (length c) + 1 in
      is_motion m q (16 * d * e * chain_size S links) (10 * (d * d) * e * len).
Proof.
  intros checks s pose root q0 from to excluded output e len S sz i c PF NJ LP LO Hf Ht HC He Hd HL HS HR0 HQ0 HM0 links HP.
  destruct (C21_model_matrix_is_chain_product f32 _ checks s pose root from to excluded output PF NJ LP LO Hf Ht) as (o & E & _ & C & _).
  exists o, (fold_left mat_mul (map (local_matrix pose) c) root). split; [exact E|]. split; [apply C, HC|]. cbv zeta.
  pose proof (pos_INR (length c)) as PI. pose proof (le_INR _ _ (chain_nonempty _ _ _ HC)) as P1. cbn [INR] in P1.
  destruct p2_60 as (Q3 & Q4). rewrite <- Q3, <- Q4 in HL, HS.
  assert (He' : / 1048576 <= e) by (replace (2 ^ 20) with 1048576 in He by (simpl; lra); exact He).
  assert (He1 : e <= / 128) by (apply Rle_trans with ((INR (length c) + 1) * e); [|exact Hd]; nra).
  assert (HD1 : 1 + INR (length c) <= 10000000).
  { apply Rmult_le_reg_r with e; [lra|]. nra. }
  replace (map (local_matrix pose) c) with (map (fun p => matrix_of (fst p)) links).
  - replace (map (fun j => joint_map (joint pose j)) c) with (map (fun p => joint_map (fst p)) links) by (unfold links; rewrite map_map; reflexivity).
    assert (LL : length links = length c) by (unfold links; apply map_length). rewrite <- LL in *.
    replace (INR (length links) + 1) with (1 + INR (length links)) in * by ring.
    apply smat_motion; [lra|]. apply (schain e len He' He1 HL); auto; try lra. apply smat_root; assumption.
  - unfold links. rewrite map_map. apply map_ext_in. intros j Hj. pose proof (chain_joints _ _ _ HC j Hj) as Lj.
    assert (J : (j / 4 < length pose)%nat) by (pose proof (soa_index s j Lj); lia).
    unfold local_matrix, joint, matrix_of, fst. destruct (nth_error pose (j / 4)) as [t|] eqn:N.
    + rewrite (nth_error_nth _ _ _ N). reflexivity.
    + apply nth_error_None in N. lia.
Qed.
Print Assumptions C93_scaled_models.

(** So a point [x] of the joint's space, at most [far] from its origin, is where the chain of motions puts it. *)
Theorem C93_points : forall (m : mat4 f32) (q : motion) (a b far : R) (x : nat -> R) (r : nat),
  is_motion m q a b -> (r < 3)%nat -> sum3 (fun k => x k * x k) <= far * far -> 0 <= far ->
  Rabs (sum3 (fun k => B2R (entry m r k) * x k) + B2R (entry m r 3) - (sum3 (fun k => turn_of q r k * x k) + move_of q r)) <= 1.7321 * a * far + b.
Proof.
  intros m q a b far x r (_ & E & P & _) Hr Hx Hf. pose proof (P r Hr) as Pr.
  pose proof (E r 0%nat Hr ltac:(lia)) as E0. pose proof (E r 1%nat Hr ltac:(lia)) as E1. pose proof (E r 2%nat Hr ltac:(lia)) as E2.
  unfold sum3 in *. set (a0 := B2R (entry m r 0)) in *. set (a1 := B2R (entry m r 1)) in *. set (a2 := B2R (entry m r 2)) in *.
  set (t0 := turn_of q r 0%nat) in *. set (t1 := turn_of q r 1%nat) in *. set (t2 := turn_of q r 2%nat) in *.
  pose proof (n3_cs (a0 - t0) (a1 - t1) (a2 - t2) (x 0%nat) (x 1%nat) (x 2%nat)) as C. pose proof (n3_box _ _ _ _ E0 E1 E2) as B. pose proof (n3_le _ _ _ far Hf Hx) as B'.
  assert (M : n3 (a0 - t0) (a1 - t1) (a2 - t2) * n3 (x 0%nat) (x 1%nat) (x 2%nat) <= 1.7321 * a * far) by (apply Rmult_le_compat; auto using n3_pos).
  match goal with |- Rabs ?z <= _ => replace z with (((a0 - t0) * x 0%nat + (a1 - t1) * x 1%nat + (a2 - t2) * x 2%nat) + (B2R (entry m r 3) - move_of q r)) by ring end.
  eapply Rle_trans; [apply Rabs_triang|]. lra.
Qed.
Print Assumptions C93_points.

(** Two joints, each moved by (1,0,0), turned by 120 degrees about (1,1,1) and scaled by (2,1,0).  The turn takes x to y, so the
    second joint is at (1,0,0) + (0,2,0). *)
Definition scaled_skel : skeleton f32 := mk_skel [TR v3_zero q_identity v3_one] [-1; 0]%Z.
Definition scaled_pose : list (transform (V4 f32)) :=
  [TR (V3 (splat none_) (splat nzero) (splat nzero)) (Q4 (splat nhalf) (splat nhalf) (splat nhalf) (splat nhalf)) (V3 (splat ntwo) (splat none_) (splat nzero))].
Lemma scaled_joint j : (j < 4)%nat -> joint scaled_pose j = TR (V3 none_ nzero nzero) (Q4 nhalf nhalf nhalf nhalf) (V3 ntwo none_ nzero).
Proof. intros Hj. unfold joint, scaled_pose. rewrite Nat.div_small, Nat.mod_small by exact Hj. destruct j as [|[|[|[|j]]]]; [..|lia]; reflexivity. Qed.
Lemma scaled_sound j : (j < 4)%nat -> sound_joint (/ 2 ^ 19) 2 (joint scaled_pose j) /\ bone (joint scaled_pose j) = 1.
Proof.
  intros Hj. rewrite (scaled_joint j Hj). pose proof fin_one as [F1 B1]. pose proof fin_zero as [F0 B0]. pose proof fin_half as [Fh Bh]. pose proof fin_two as [F2 B2].
  split; [split; [repeat split; assumption|]; split; [intros c; destruct c as [|[|[|c]]]; exact Fh|]; split; [repeat split; assumption|]; split|].
  - unfold sumsq. cbn [tr_r qx qy qz qw]. rewrite Bh. replace (_ - 1) with 0 by lra. rewrite Rabs_R0. simpl; lra.
  - intros i. unfold at3. cbn [tr_s vx vy vz]. destruct i as [|[|i]]; [rewrite B2|rewrite B1|rewrite B0]; apply Rabs_le; lra.
  - unfold bone, at3. cbn [tr_t vx vy vz]. rewrite B0, B1. replace (1 * 1 + 0 * 0 + 0 * 0) with 1 by ring. apply sqrt_1.
Qed.
Lemma stay_rows : rows_within 1 stay.
Proof. intros r Hr. unfold sum3, stay. cbn [turn_of]. destruct r as [|[|[|r]]]; [..|lia]; cbn [Nat.eqb]; lra. Qed.
Example C93_example :
  exists output' m,
    ltm_run true (mk_ltm (Some scaled_skel) (Some scaled_pose) mat_identity (-1) 1000 false (Some (repeat mat_identity 2))) = Ok output' /\
    nth_error output' 1 = Some m /\
    Rabs (B2R (entry m 0 3) - 1) <= 180 / 2 ^ 19 /\ Rabs (B2R (entry m 1 3) - 2) <= 180 / 2 ^ 19 /\ Rabs (B2R (entry m 2 3) - 0) <= 180 / 2 ^ 19.
Proof.
  assert (HC : chain (sk_parents scaled_skel) 1 [0; 1]%nat).
  { apply (chain_child (sk_parents scaled_skel) 1 0 [0]%nat eq_refl). apply chain_root. reflexivity. }
  destruct (C93_scaled_models true scaled_skel scaled_pose mat_identity stay (-1) 1000 false (repeat mat_identity 2) (/ 2 ^ 19) 2 1 (fun _ => 2) 1 [0; 1]%nat)
    as (o & m & E & N & M);
    [|reflexivity|apply le_n|apply le_n|lia|split; [vm_compute; discriminate|lia]|exact HC|simpl; lra|cbn [length INR]; simpl; lra|simpl; lra|simpl; lra| | | | |].
  - intros i p H. do 2 (destruct i as [|i]; [injection H as <-; lia|]). destruct i; discriminate.
  - pose proof (identity_motion (/ 2 ^ 19 * 1) 2 ltac:(simpl; lra) ltac:(lra)) as I. rewrite Rmult_1_r in I |- *. exact I.
  - apply stay_rows.
  - intros r _. cbn [stay move_of]. rewrite Rabs_R0. lra.
  - destruct (scaled_sound 0 ltac:(lia)) as (S0 & L0). destruct (scaled_sound 1 ltac:(lia)) as (S1 & L1). cbn [map sound_chain]. rewrite L0, L1.
    split; [exact S0|]. split; [lra|]. split; [simpl; lra|]. split; [simpl; lra|]. split; [exact S1|]. split; [lra|]. split; [simpl; lra|]. split; [simpl; lra|exact I].
  - exists o, m. split; [exact E|]. split; [exact N|]. destruct M as (_ & _ & P & _).
    assert (D : 10 * ((INR (length [0; 1]%nat) + 1) * (INR (length [0; 1]%nat) + 1)) * / 2 ^ 19 * 2 = 180 / 2 ^ 19) by (cbn [length INR]; simpl; lra).
    rewrite D in P. cbn [map fold_left] in P. rewrite !scaled_joint in P by lia.
    assert (W : forall r, (r < 3)%nat -> move_of (follow (follow stay (joint_map (TR (V3 none_ nzero nzero) (Q4 nhalf nhalf nhalf nhalf) (V3 ntwo none_ nzero))))
      (joint_map (TR (V3 none_ nzero nzero) (Q4 nhalf nhalf nhalf nhalf) (V3 ntwo none_ nzero)))) r = match r with 0%nat => 1 | 1%nat => 2 | _ => 0 end).
    { intros r Hr. unfold follow, joint_map, stay, sum3, at3, rotation. cbn [turn_of move_of tr_t tr_r tr_s vx vy vz qx qy qz qw].
      rewrite (proj2 fin_half), (proj2 fin_one), (proj2 fin_zero), (proj2 fin_two). destruct r as [|[|[|r]]]; [..|lia]; cbn [Nat.eqb]; field. }
    pose proof (P 0%nat ltac:(lia)) as P0. pose proof (P 1%nat ltac:(lia)) as P1. pose proof (P 2%nat ltac:(lia)) as P2. rewrite W in P0, P1, P2 by lia. auto.
Qed.
