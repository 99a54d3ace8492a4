(** C78: model-space matrices of poses without scaling stay rigid, down any chain of joints. *)
From Coq Require Import Reals Lra Lia Psatz.
From Flocq Require Import Core.Core IEEE754.BinarySingleNaN.
From Verif Require Import Base Num NumF32 Math KeysSpec F32Facts F32Err InterpF32 NormF32 BlendF32 BlendF32Props.
From Verif Require Import Skeleton SkeletonSpec SkeletonProofs SkeletonProps BlendingSpec RigidSpec RigidF32 RigidRow.
Local Open Scope R_scope.

(** ** Rotations *)
Lemma follow_rotation m n : is_rotation (turn_of m) -> is_rotation (turn_of n) -> is_rotation (turn_of (follow m n)).
Proof.
  destruct m as [p pm]. destruct n as [q qm]. cbn [turn_of follow]. intros [Hp Dp] [Hq Dq]. split.
  - intros i j Hi Hj. rewrite <- (Hp i j Hi Hj). unfold sum3 in *.
    pose proof (Hq 0 0 ltac:(lia) ltac:(lia))%nat as H00. pose proof (Hq 0 1 ltac:(lia) ltac:(lia))%nat as H01. pose proof (Hq 0 2 ltac:(lia) ltac:(lia))%nat as H02.
    pose proof (Hq 1 1 ltac:(lia) ltac:(lia))%nat as H11. pose proof (Hq 1 2 ltac:(lia) ltac:(lia))%nat as H12. pose proof (Hq 2 2 ltac:(lia) ltac:(lia))%nat as H22.
    cbn [Nat.eqb] in *. clear Hp Dp Hq Dq.
    generalize dependent (q 0%nat 0%nat). intros a. generalize dependent (q 0%nat 1%nat). intros b. generalize dependent (q 0%nat 2%nat). intros c.
    generalize dependent (q 1%nat 0%nat). intros a'. generalize dependent (q 1%nat 1%nat). intros b'. generalize dependent (q 1%nat 2%nat). intros c'.
    generalize dependent (q 2%nat 0%nat). intros a''. generalize dependent (q 2%nat 1%nat). intros b''. generalize dependent (q 2%nat 2%nat). intros c''.
    intros H22 H12 H02 H11 H01 H00.
    transitivity (p i 0%nat * p j 0%nat * (a * a + b * b + c * c) + p i 1%nat * p j 1%nat * (a' * a' + b' * b' + c' * c')
      + p i 2%nat * p j 2%nat * (a'' * a'' + b'' * b'' + c'' * c'')
      + (p i 0%nat * p j 1%nat + p i 1%nat * p j 0%nat) * (a * a' + b * b' + c * c')
      + (p i 0%nat * p j 2%nat + p i 2%nat * p j 0%nat) * (a * a'' + b * b'' + c * c'')
      + (p i 1%nat * p j 2%nat + p i 2%nat * p j 1%nat) * (a' * a'' + b' * b'' + c' * c'')); [ring|].
    rewrite H00, H01, H02, H11, H12, H22. ring.
  - replace 1 with (det3 p * det3 q) by (rewrite Dp, Dq; ring). unfold det3, sum3. ring.
Qed.
Lemma stay_rotation : is_rotation (turn_of stay).
Proof.
  split; [|unfold det3, stay; cbn [turn_of Nat.eqb]; ring].
  intros i j Hi Hj. unfold sum3, stay. cbn [turn_of].
  destruct i as [|[|[|i]]]; [..|lia]; (destruct j as [|[|[|j]]]; [..|lia]); cbn [Nat.eqb]; ring.
Qed.

(** ** Down a chain *)
Section Chain.
  Variables (e len : R).
  Hypotheses (He : / 1048576 <= e) (He1 : e <= / 128) (HL : p2 (-60) <= len <= p2 60).
  Definition mat_inv (D : R) (m : mat4 f32) (q : motion) : Prop :=
    (forall r, (r < 3)%nat -> row_inv e len D m r (turn_of q r 0%nat) (turn_of q r 1%nat) (turn_of q r 2%nat) (move_of q r)) /\
    (forall c, (c < 3)%nat -> fin (entry m 3 c) 0) /\ fin (entry m 3 3) 1 /\ is_rotation (turn_of q).

  Lemma rnd0 : rnd32 0 = 0. Proof. apply round_0, _. Qed.
  Lemma rnd1 : rnd32 1 = 1. Proof. apply round_generic; [apply _|]. exact (fin_fmt _ _ fin_one). Qed.
  Lemma fin_mul0 x a y : fin x a -> fin y 0 -> fin (nmul x y) 0.
  Proof.
    intros Fx Fy. rewrite <- rnd0. replace 0 with (a * 0) by ring. apply fin_mul; auto.
    rewrite Rmult_0_r, Rabs_R0. pose proof HUGE_big; lra.
  Qed.
  Lemma fin_add0 x a y : fin x a -> fin y 0 -> (a = 0 \/ a = 1) -> fin (nadd x y) a.
  Proof.
    intros Fx Fy H. assert (E : rnd32 (a + 0) = a) by (rewrite Rplus_0_r; destruct H as [->| ->]; [apply rnd0|apply rnd1]).
    rewrite <- E at 1. apply fin_add; auto. pose proof HUGE_big. rewrite Rplus_0_r. destruct H as [->| ->]; [rewrite Rabs_R0|rewrite Rabs_R1]; lra.
  Qed.
  Lemma fin_add0' x a y : fin x 0 -> fin y a -> (a = 0 \/ a = 1) -> fin (nadd x y) a.
  Proof.
    intros Fx Fy H. assert (E : rnd32 (0 + a) = a) by (rewrite Rplus_0_l; destruct H as [->| ->]; [apply rnd0|apply rnd1]).
    rewrite <- E at 1. apply fin_add; auto. pose proof HUGE_big. rewrite Rplus_0_l. destruct H as [->| ->]; [rewrite Rabs_R0|rewrite Rabs_R1]; lra.
  Qed.
  Lemma fin_mul1 x a y : fin x a -> fin y 1 -> (a = 0 \/ a = 1) -> fin (nmul x y) a.
  Proof.
    intros Fx Fy H. assert (E : rnd32 (a * 1) = a) by (rewrite Rmult_1_r; destruct H as [->| ->]; [apply rnd0|apply rnd1]).
    rewrite <- E at 1. apply fin_mul; auto. pose proof HUGE_big. rewrite Rmult_1_r. destruct H as [->| ->]; [rewrite Rabs_R0|rewrite Rabs_R1]; lra.
  Qed.
  Lemma bottom_step m t c a : near_rigid e len t -> (c < 4)%nat ->
    (forall c, (c < 3)%nat -> fin (entry m 3 c) 0) -> fin (entry m 3 3) 1 ->
    fin (entry (matrix_of t) 3 c) a -> (a = 0 \/ a = 1) ->
    fin (entry (mat_mul m (matrix_of t)) 3 c) a.
  Proof using He He1.
    intros HT Hc B0 B1 F3 Ha. rewrite entry_mul by lia.
    assert (FE : forall k, (k < 3)%nat -> exists b, fin (entry (matrix_of t) k c) b).
    { intros k Hk. destruct (Nat.eq_dec c 3) as [->|N].
      - exists (move_of (joint_motion t) k). eapply col_move; eassumption.
      - destruct (matrix_entry e len t k c ltac:(lra) HT Hk ltac:(lia)) as (b & F & _). exists b. exact F. }
    destruct (FE 0%nat ltac:(lia)) as (b0 & F0). destruct (FE 1%nat ltac:(lia)) as (b1 & F1). destruct (FE 2%nat ltac:(lia)) as (b2 & F2).
    apply fin_add0'; [| |exact Ha].
    - apply fin_add0; [apply (fin_mul0 _ b1); auto|apply (fin_mul0 _ b0); auto|left; reflexivity].
    - apply fin_add0; [apply fin_mul1; auto|apply (fin_mul0 _ b2); auto|exact Ha].
  Qed.
  Lemma mat_step D m q t : 0 <= D -> D * e <= / 128 -> D <= 10000000 -> near_rigid e len t -> mat_inv D m q ->
    mat_inv (D + 1) (mat_mul m (matrix_of t)) (follow q (joint_motion t)).
  Proof using He He1 HL.
    intros HD HDe HD1 HT (HR & H0 & H1 & HQ). split; [|split; [|split]].
    - intros r Hr. exact (row_step e len D m t r _ _ _ _ He HD HDe He1 HL HD1 Hr HT (HR r Hr)).
    - intros c Hc. apply bottom_step; [exact HT|lia|exact H0|exact H1|apply col_zero; exact Hc|left; reflexivity].
    - apply bottom_step; [exact HT|lia|exact H0|exact H1|apply fin_one|right; reflexivity].
    - apply follow_rotation; [exact HQ|]. apply (q_rot e len t He1 HT).
  Qed.
  Lemma chain_inv (pose : nat -> transform f32) c : forall D m q, 0 <= D -> (D + INR (length c)) * e <= / 128 -> D + INR (length c) <= 10000000 ->
    (forall j, In j c -> near_rigid e len (pose j)) -> mat_inv D m q ->
    mat_inv (D + INR (length c)) (fold_left mat_mul (map (fun j => matrix_of (pose j)) c) m) (fold_left follow (map (fun j => joint_motion (pose j)) c) q).
  Proof using He He1 HL.
    induction c as [|j c IH]; intros D m q HD HDe HD1 HT HI; [cbn [length INR fold_left map]; rewrite Rplus_0_r; exact HI|].
    cbn [length] in *. rewrite S_INR in *. cbn [map fold_left]. pose proof (pos_INR (length c)) as PI.
    replace (D + (INR (length c) + 1)) with ((D + 1) + INR (length c)) in * by ring.
    apply IH; try lra; [intros k Hk; apply HT; right; exact Hk|].
    apply mat_step; auto; try lra; [|apply HT; left; reflexivity].
    apply Rle_trans with ((D + 1 + INR (length c)) * e); [apply Rmult_le_compat_r; lra|exact HDe].
  Qed.
  Lemma inv_motion D m q : 0 <= D -> mat_inv D m q -> is_motion m q (16 * D * e) (10 * (D * D) * e * len) /\ is_rotation (turn_of q).
  Proof using.
    intros HD (HR & H0 & H1 & HQ). split; [|exact HQ]. split; [|split; [|split; [|split]]].
    - intros r c Hr Hc. destruct (Nat.eq_dec r 3) as [->|Nr].
      + destruct (Nat.eq_dec c 3) as [->|Nc]; [apply H1|apply H0; lia].
      + destruct (HR r ltac:(lia)) as (a0 & a1 & a2 & p & A0 & A1 & A2 & P & _).
        destruct c as [|[|[|[|c]]]]; [apply A0|apply A1|apply A2|apply P|lia].
    - intros r c Hr Hc. destruct (HR r Hr) as (a0 & a1 & a2 & p & [_ A0] & [_ A1] & [_ A2] & _ & N & _).
      pose proof (n3_entry (a0 - turn_of q r 0%nat) (a1 - turn_of q r 1%nat) (a2 - turn_of q r 2%nat)) as (E0 & E1 & E2).
      destruct c as [|[|[|c]]]; [rewrite A0; lra|rewrite A1; lra|rewrite A2; lra|lia].
    - intros r Hr. destruct (HR r Hr) as (a0 & a1 & a2 & p & _ & _ & _ & [_ P] & _ & N & _). rewrite P. exact N.
    - intros c Hc. apply H0, Hc.
    - apply H1.
  Qed.
  Lemma root_inv m q : is_motion m q e (e * len) -> is_rotation (turn_of q) -> (forall r, (r < 3)%nat -> Rabs (move_of q r) <= len) ->
    mat_inv 1 m q.
  Proof using He He1 HL.
    intros (F & E & P & Z & O) Q M. assert (L0 : 0 < len) by (pose proof (p2_pos (-60)); lra).
    assert (EL : 0 < e * len) by (apply Rmult_lt_0_compat; lra).
    split; [|split; [|split; [|exact Q]]].
    - intros r Hr. exists (B2R (entry m r 0)), (B2R (entry m r 1)), (B2R (entry m r 2)), (B2R (entry m r 3)).
      do 4 (split; [split; [apply F; lia|reflexivity]|]).
      split; [|split; [|split]].
      + pose proof (n3_box _ _ _ _ (E r 0%nat Hr ltac:(lia)) (E r 1%nat Hr ltac:(lia)) (E r 2%nat Hr ltac:(lia))). lra.
      + pose proof (P r Hr). lra.
      + destruct Q as [Q _]. specialize (Q r r Hr Hr). rewrite Nat.eqb_refl in Q. exact Q.
      + rewrite Rmult_1_l. apply M, Hr.
    - intros c Hc. split; [apply F; lia|apply Z, Hc].
    - split; [apply F; lia|exact O].
  Qed.
End Chain.

(** ** Columns of a rotation *)
Lemma rotation_columns q : is_rotation q ->
  forall i j, (i < 3)%nat -> (j < 3)%nat -> sum3 (fun k => q k i * q k j) = if Nat.eqb i j then 1 else 0.
Proof.
  intros [H D] i j Hi Hj. unfold sum3 in *. unfold det3 in D.
  pose proof (H 0 0 ltac:(lia) ltac:(lia))%nat as H00. pose proof (H 0 1 ltac:(lia) ltac:(lia))%nat as H01. pose proof (H 0 2 ltac:(lia) ltac:(lia))%nat as H02.
  pose proof (H 1 1 ltac:(lia) ltac:(lia))%nat as H11. pose proof (H 1 2 ltac:(lia) ltac:(lia))%nat as H12. pose proof (H 2 2 ltac:(lia) ltac:(lia))%nat as H22.
  cbn [Nat.eqb] in *. clear H.
  set (a := q 0%nat 0%nat) in *. set (b := q 0%nat 1%nat) in *. set (c := q 0%nat 2%nat) in *.
  set (a' := q 1%nat 0%nat) in *. set (b' := q 1%nat 1%nat) in *. set (c' := q 1%nat 2%nat) in *.
  set (a'' := q 2%nat 0%nat) in *. set (b'' := q 2%nat 1%nat) in *. set (c'' := q 2%nat 2%nat) in *.
  (* each row is the cross product of the other two *)
  assert (Z : forall x y z, x * x + y * y + z * z = 0 -> x = 0 /\ y = 0 /\ z = 0) by (intros; repeat split; nra).
  assert (R0 : a - (b' * c'' - c' * b'') = 0 /\ b - (c' * a'' - a' * c'') = 0 /\ c - (a' * b'' - b' * a'') = 0).
  { apply Z. transitivity ((a * a + b * b + c * c) + ((a' * a' + b' * b' + c' * c') * (a'' * a'' + b'' * b'' + c'' * c'')
      - (a' * a'' + b' * b'' + c' * c'') * (a' * a'' + b' * b'' + c' * c''))
      - 2 * (a * (b' * c'' - c' * b'') - b * (a' * c'' - c' * a'') + c * (a' * b'' - b' * a''))); [ring|].
    rewrite H00, H11, H22, H12, D. ring. }
  assert (R1 : a' - (b'' * c - c'' * b) = 0 /\ b' - (c'' * a - a'' * c) = 0 /\ c' - (a'' * b - b'' * a) = 0).
  { apply Z. transitivity ((a' * a' + b' * b' + c' * c') + ((a'' * a'' + b'' * b'' + c'' * c'') * (a * a + b * b + c * c)
      - (a * a'' + b * b'' + c * c'') * (a * a'' + b * b'' + c * c''))
      - 2 * (a * (b' * c'' - c' * b'') - b * (a' * c'' - c' * a'') + c * (a' * b'' - b' * a''))); [ring|].
    rewrite H00, H11, H22, H02, D. ring. }
  assert (R2 : a'' - (b * c' - c * b') = 0 /\ b'' - (c * a' - a * c') = 0 /\ c'' - (a * b' - b * a') = 0).
  { apply Z. transitivity ((a'' * a'' + b'' * b'' + c'' * c'') + ((a * a + b * b + c * c) * (a' * a' + b' * b' + c' * c')
      - (a * a' + b * b' + c * c') * (a * a' + b * b' + c * c'))
      - 2 * (a * (b' * c'' - c' * b'') - b * (a' * c'' - c' * a'') + c * (a' * b'' - b' * a''))); [ring|].
    rewrite H00, H11, H22, H01, D. ring. }
  destruct R0 as (A0 & B0 & C0). destruct R1 as (A1 & B1 & C1). destruct R2 as (A2 & B2 & C2).
  assert (EA : a = b' * c'' - c' * b'') by lra. assert (EB : b = c' * a'' - a' * c'') by lra. assert (EC : c = a' * b'' - b' * a'') by lra.
  assert (EA1 : a' = b'' * c - c'' * b) by lra. assert (EB1 : b' = c'' * a - a'' * c) by lra. assert (EC1 : c' = a'' * b - b'' * a) by lra.
  assert (EA2 : a'' = b * c' - c * b') by lra. assert (EB2 : b'' = c * a' - a * c') by lra. assert (EC2 : c'' = a * b' - b * a') by lra.
  assert (G : forall x y z, x * a + y * a' + z * a'' = x * (b' * c'' - c' * b'') + y * (b'' * c - c'' * b) + z * (b * c' - c * b')).
  { intros x y z. rewrite <- EA, <- EA1, <- EA2. reflexivity. }
  assert (G1 : forall x y z, x * b + y * b' + z * b'' = x * (c' * a'' - a' * c'') + y * (c'' * a - a'' * c) + z * (c * a' - a * c')).
  { intros x y z. rewrite <- EB, <- EB1, <- EB2. reflexivity. }
  assert (G2 : forall x y z, x * c + y * c' + z * c'' = x * (a' * b'' - b' * a'') + y * (a'' * b - b'' * a) + z * (a * b' - b * a')).
  { intros x y z. rewrite <- EC, <- EC1, <- EC2. reflexivity. }
  destruct i as [|[|[|i]]]; [..|lia]; (destruct j as [|[|[|j]]]; [..|lia]); cbn [Nat.eqb];
    fold a b c a' b' c' a'' b'' c''; rewrite ?G, ?G1, ?G2; try (rewrite <- D; ring); ring.
Qed.

(** ** C78 *)
Lemma chain_joints ps i c : chain ps i c -> forall j, In j c -> (j < length ps)%nat.
Proof.
  induction 1 as [i H|i p c H HC IH]; intros j Hj.
  - destruct Hj as [<-|[]]. apply nth_error_Some. congruence.
  - apply in_app_or in Hj. destruct Hj as [Hj|[<-|[]]]; [apply IH, Hj|]. apply nth_error_Some. congruence.
Qed.
Lemma chain_nonempty ps i c : chain ps i c -> (1 <= length c)%nat.
Proof. destruct 1; cbn [length]; [lia|]. rewrite app_length. cbn [length]. lia. Qed.
Lemma soa_index (s : skeleton f32) j : (j < num_joints s)%nat -> (j / 4 < num_soa_joints s)%nat.
Proof.
  unfold num_soa_joints. intros H. apply Nat.div_lt_upper_bound; [lia|].
  pose proof (Nat.div_mod (num_joints s + 3) 4 ltac:(lia)). pose proof (Nat.mod_upper_bound (num_joints s + 3) 4 ltac:(lia)). lia.
Qed.

Lemma rigid_fold (s : skeleton f32) (pose : list (transform (V4 f32))) root q0 e len i c :
  (num_soa_joints s <= length pose)%nat -> chain (sk_parents s) i c ->
  / 2 ^ 20 <= e -> (INR (length c) + 1) * e <= / 128 -> / 2 ^ 60 <= len <= 2 ^ 60 ->
  is_motion root q0 e (e * len) -> is_rotation (turn_of q0) -> (forall r, (r < 3)%nat -> Rabs (move_of q0 r) <= len) ->
  (forall j, In j c -> near_rigid e len (joint pose j)) ->
  let q := fold_left follow (map (fun j => joint_motion (joint pose j)) c) q0 in
  let d := INR (length c) + 1 in
  is_motion (fold_left mat_mul (map (local_matrix pose) c) root) q (16 * d * e) (10 * (d * d) * e * len) /\ is_rotation (turn_of q).
Proof.
  intros LP HC He Hd HL HR0 HQ0 HM0 HP.
  cbv zeta. pose proof (pos_INR (length c)) as PI. pose proof (le_INR _ _ (chain_nonempty _ _ _ HC)) as P1. cbn [INR] in P1.
  assert (HL' : p2 (-60) <= len <= p2 60).
  { assert (A : p2 (-60) = / 2 ^ 60) by (change (-60)%Z with (- (60))%Z; rewrite bpow_opp; f_equal; simpl; lra).
    assert (B : p2 60 = 2 ^ 60) by (simpl; lra). lra. }
  assert (He' : / 1048576 <= e) by (replace (2 ^ 20) with 1048576 in He by (simpl; lra); exact He).
  assert (He1 : e <= / 128) by (apply Rle_trans with ((INR (length c) + 1) * e); [|exact Hd]; nra).
  assert (HD1 : 1 + INR (length c) <= 10000000).
  { apply Rmult_le_reg_r with e; [lra|]. nra. }
  replace (map (local_matrix pose) c) with (map (fun j => matrix_of (joint pose j)) c).
  - replace (INR (length c) + 1) with (1 + INR (length c)) in * by ring.
    apply (inv_motion e len); [lra|]. apply (chain_inv e len He' He1 HL'); auto; try lra. apply root_inv; assumption.
  - apply map_ext_in. intros j Hj. pose proof (chain_joints _ _ _ HC j Hj) as Lj.
    assert (J : (j / 4 < length pose)%nat) by (pose proof (soa_index s j Lj); lia).
    unfold local_matrix, joint, matrix_of. destruct (nth_error pose (j / 4)) as [t|] eqn:N.
    + rewrite (nth_error_nth _ _ _ N). reflexivity.
    + apply nth_error_None in N. lia.
Qed.

Theorem C78_rigid_models :
  forall (checks : bool) (s : skeleton f32) (pose : list (transform (V4 f32))) (root : mat4 f32) (q0 : motion)
         (from to : Z) (excluded : bool) (output : list (mat4 f32)) (e len : R) (i : nat) (c : list nat),
    parents_first (sk_parents s) -> (Z.of_nat (num_joints s) < 2 ^ 31)%Z ->
    (num_soa_joints s <= length pose)%nat -> (num_joints s <= length output)%nat ->
    (-2147483648 <= from < 0)%Z -> (Z.of_nat (num_joints s) - 1 <= to < 2147483647)%Z ->
    chain (sk_parents s) i c ->
    / 2 ^ 20 <= e -> (INR (length c) + 1) * e <= / 128 -> / 2 ^ 60 <= len <= 2 ^ 60 ->
    is_motion root q0 e (e * len) -> is_rotation (turn_of q0) -> (forall r, (r < 3)%nat -> Rabs (move_of q0 r) <= len) ->
    (forall j, In j c -> near_rigid e len (joint pose j)) ->
    exists output' m,
      ltm_run checks (mk_ltm (Some s) (Some pose) root from to excluded (Some output)) = Ok output' /\
      nth_error output' i = Some m /\
      let q := fold_left follow (map (fun j => joint_motion (joint pose j)) c) q0 in
      let d := INR (length c) + 1 in
      is_motion m q (16 * d * e) (10 * (d * d) * e * len) /\ is_rotation (turn_of q).
Proof.
  intros checks s pose root q0 from to excluded output e len i c PF NJ LP LO Hf Ht HC He Hd HL HR0 HQ0 HM0 HP.
  destruct (C21_model_matrix_is_chain_product f32 _ checks s pose root from to excluded output PF NJ LP LO Hf Ht) as (o & E & _ & C & _).
  exists o, (fold_left mat_mul (map (local_matrix pose) c) root). split; [exact E|]. split; [apply C, HC|].
  eapply rigid_fold; eassumption.
Qed.
Print Assumptions C78_rigid_models.

(** The axes of a joint, the columns of its matrix, have unit length and are orthogonal. *)
Theorem C78_axes_orthonormal :
  forall (m : mat4 f32) (q : motion) (a b : R) (i j : nat),
    is_motion m q a b -> is_rotation (turn_of q) -> a <= / 8 -> (i < 3)%nat -> (j < 3)%nat ->
    Rabs (sum3 (fun k => B2R (entry m k i) * B2R (entry m k j)) - (if Nat.eqb i j then 1 else 0)) <= 8 * a.
Proof.
  intros m q a b i j (_ & E & _) HQ Ha Hi Hj. rewrite <- (rotation_columns _ HQ i j Hi Hj).
  assert (A0 : 0 <= a) by (pose proof (E 0%nat 0%nat ltac:(lia) ltac:(lia)) as H; pose proof (Rabs_pos (B2R (entry m 0 0) - turn_of q 0 0)); lra).
  pose proof (rotation_columns _ HQ i i Hi Hi) as Ni. pose proof (rotation_columns _ HQ j j Hj Hj) as Nj. rewrite Nat.eqb_refl in Ni, Nj.
  unfold sum3 in *.
  pose proof (E 0%nat i ltac:(lia) Hi) as I0. pose proof (E 1%nat i ltac:(lia) Hi) as I1. pose proof (E 2%nat i ltac:(lia) Hi) as I2.
  pose proof (E 0%nat j ltac:(lia) Hj) as J0. pose proof (E 1%nat j ltac:(lia) Hj) as J1. pose proof (E 2%nat j ltac:(lia) Hj) as J2.
  clear E HQ. revert Ni Nj I0 I1 I2 J0 J1 J2.
  generalize (turn_of q 0%nat i), (turn_of q 1%nat i), (turn_of q 2%nat i), (turn_of q 0%nat j), (turn_of q 1%nat j), (turn_of q 2%nat j).
  generalize (B2R (entry m 0 i)), (B2R (entry m 1 i)), (B2R (entry m 2 i)), (B2R (entry m 0 j)), (B2R (entry m 1 j)), (B2R (entry m 2 j)).
  intros x0 x1 x2 y0 y1 y2 u0 u1 u2 v0 v1 v2 Ni Nj I0 I1 I2 J0 J1 J2.
  assert (NU : n3 u0 u1 u2 = 1) by (unfold n3; rewrite Ni; apply sqrt_1).
  assert (NV : n3 v0 v1 v2 = 1) by (unfold n3; rewrite Nj; apply sqrt_1).
  pose proof (n3_box _ _ _ _ I0 I1 I2) as BI. pose proof (n3_box _ _ _ _ J0 J1 J2) as BJ.
  pose proof (n3_cs u0 u1 u2 (y0 - v0) (y1 - v1) (y2 - v2)) as C1. pose proof (n3_cs (x0 - u0) (x1 - u1) (x2 - u2) v0 v1 v2) as C2.
  pose proof (n3_cs (x0 - u0) (x1 - u1) (x2 - u2) (y0 - v0) (y1 - v1) (y2 - v2)) as C3.
  rewrite NU in C1. rewrite NV in C2.
  assert (C3' : n3 (x0 - u0) (x1 - u1) (x2 - u2) * n3 (y0 - v0) (y1 - v1) (y2 - v2) <= (1.7321 * a) * (1.7321 * / 8))
    by (apply Rmult_le_compat; try apply n3_pos; lra).
  replace (x0 * y0 + x1 * y1 + x2 * y2 - (u0 * v0 + u1 * v1 + u2 * v2)) with
    ((u0 * (y0 - v0) + u1 * (y1 - v1) + u2 * (y2 - v2)) + ((x0 - u0) * v0 + (x1 - u1) * v1 + (x2 - u2) * v2)
     + ((x0 - u0) * (y0 - v0) + (x1 - u1) * (y1 - v1) + (x2 - u2) * (y2 - v2))) by ring.
  apply Rabs_le_inv in C1. apply Rabs_le_inv in C2. apply Rabs_le_inv in C3. apply Rabs_le. lra.
Qed.
Print Assumptions C78_axes_orthonormal.

(** Three joints in a chain, each turned by 120 degrees about (1,1,1) and moved by (1,0,0).  Three
    such turns make a full turn, so the last joint's axes are those of the world. *)
Definition rigid_skel : skeleton f32 := mk_skel [TR v3_zero q_identity v3_one] [-1; 0; 1]%Z.
Definition rigid_pose : list (transform (V4 f32)) :=
  [TR (V3 (splat none_) (splat nzero) (splat nzero)) (Q4 (splat nhalf) (splat nhalf) (splat nhalf) (splat nhalf)) v3_one].
Lemma rigid_pose_near j : (j < 4)%nat -> near_rigid (/ 2 ^ 19) 1 (joint rigid_pose j).
Proof.
  intros Hj.
  assert (E : joint rigid_pose j = TR (V3 none_ nzero nzero) (Q4 nhalf nhalf nhalf nhalf) (V3 none_ none_ none_)).
  { unfold joint, rigid_pose. rewrite Nat.div_small, Nat.mod_small by exact Hj. destruct j as [|[|[|[|j]]]]; [..|lia]; reflexivity. }
  rewrite E. pose proof fin_one as [F1 B1]. pose proof fin_zero as [F0 B0]. pose proof fin_half as [Fh Bh].
  split; [repeat split; assumption|]. split; [intros c; destruct c as [|[|[|c]]]; exact Fh|]. split; [repeat split; assumption|].
  unfold sumsq. cbn [tr_t tr_r tr_s vx vy vz qx qy qz qw]. rewrite B0, B1, Bh.
  split; [lra|]. replace (_ - 1) with 0 by lra. replace (1 - 1) with 0 by ring. rewrite Rabs_R0.
  assert (0 < / 2 ^ 19) by (simpl; lra). lra.
Qed.
Lemma identity_motion e len : 0 <= e -> 0 <= len -> is_motion mat_identity stay e (e * len).
Proof.
  intros He Hl. pose proof fin_one as [F1 B1]. pose proof fin_zero as [F0 B0].
  assert (Z : Rabs (1 - 1) <= e) by (replace (1 - 1) with 0 by ring; rewrite Rabs_R0; exact He).
  assert (Z' : Rabs (0 - 0) <= e) by (replace (0 - 0) with 0 by ring; rewrite Rabs_R0; exact He).
  split; [|split; [|split; [|split]]].
  - intros r c Hr Hc. destruct r as [|[|[|[|r]]]]; [..|lia]; (destruct c as [|[|[|[|c]]]]; [..|lia]); first [exact F1|exact F0].
  - intros r c Hr Hc. unfold stay. cbn [turn_of].
    destruct r as [|[|[|r]]]; [..|lia]; (destruct c as [|[|[|c]]]; [..|lia]); cbn [Nat.eqb];
      match goal with |- context [entry ?m ?r ?c] => first [change (entry m r c) with (none_ : f32); rewrite B1; exact Z|change (entry m r c) with (nzero : f32); rewrite B0; exact Z'] end.
  - intros r Hr. destruct r as [|[|[|r]]]; [..|lia];
      match goal with |- context [entry ?m ?r ?c] => change (entry m r c) with (nzero : f32) end; rewrite B0; cbn [stay move_of];
      replace (0 - 0) with 0 by ring; rewrite Rabs_R0; apply Rmult_le_pos; assumption.
  - intros c Hc. destruct c as [|[|[|c]]]; [..|lia]; exact B0.
  - exact B1.
Qed.
Example C78_example :
  exists output' m,
    ltm_run true (mk_ltm (Some rigid_skel) (Some rigid_pose) mat_identity (-1) 1000 false (Some (repeat mat_identity 3))) = Ok output' /\
    nth_error output' 2 = Some m /\
    (forall r c, (r < 3)%nat -> (c < 3)%nat -> Rabs (B2R (entry m r c) - (if Nat.eqb r c then 1 else 0)) <= 64 / 2 ^ 19) /\
    Rabs (sum3 (fun k => B2R (entry m k 0) * B2R (entry m k 1))) <= 512 / 2 ^ 19.
Proof.
  assert (HC : chain (sk_parents rigid_skel) 2 [0; 1; 2]%nat).
  { apply (chain_child (sk_parents rigid_skel) 2 1 [0; 1]%nat eq_refl). apply (chain_child (sk_parents rigid_skel) 1 0 [0]%nat eq_refl). apply chain_root. reflexivity. }
  destruct (C78_rigid_models true rigid_skel rigid_pose mat_identity stay (-1) 1000 false (repeat mat_identity 3) (/ 2 ^ 19) 1 2 [0; 1; 2]%nat)
    as (o & m & E & N & M & Q);
    [|reflexivity|apply le_n|apply le_n|lia|split; [vm_compute; discriminate|lia]|exact HC|simpl; lra|cbn [length INR]; simpl; lra|simpl; lra| | | | |].
  - intros i p H. do 3 (destruct i as [|i]; [injection H as <-; lia|]). destruct i; discriminate.
  - apply identity_motion; simpl; lra.
  - apply stay_rotation.
  - intros r _. cbn [stay move_of]. rewrite Rabs_R0. lra.
  - intros j Hj. apply rigid_pose_near. destruct Hj as [<-|[<-|[<-|[]]]]; lia.
  - exists o, m. split; [exact E|]. split; [exact N|].
    set (q := fold_left follow _ _) in *.
    assert (D : 16 * (INR (length [0; 1; 2]%nat) + 1) * / 2 ^ 19 = 64 / 2 ^ 19) by (cbn [length INR]; lra).
    rewrite D in M. split.
    + intros r c Hr Hc. replace (if Nat.eqb r c then 1 else 0) with (turn_of q r c); [apply M; assumption|].
      assert (J : forall j, (j < 4)%nat -> forall r c, (r < 3)%nat -> (c < 3)%nat -> turn_of (joint_motion (joint rigid_pose j)) r c = if Nat.eqb c ((r + 2) mod 3) then 1 else 0).
      { intros j Hj r' c' Hr' Hc'. unfold joint_motion. cbn [turn_of].
        assert (EJ : joint rigid_pose j = TR (V3 none_ nzero nzero) (Q4 nhalf nhalf nhalf nhalf) (V3 none_ none_ none_)).
        { unfold joint, rigid_pose. rewrite Nat.div_small, Nat.mod_small by exact Hj. destruct j as [|[|[|[|j]]]]; [..|lia]; reflexivity. }
        rewrite EJ. cbn [tr_r qx qy qz qw]. rewrite (proj2 fin_half).
        destruct r' as [|[|[|r']]]; [..|lia]; (destruct c' as [|[|[|c']]]; [..|lia]); cbn; lra. }
      unfold q. cbn [map fold_left follow turn_of]. unfold sum3. cbn [stay turn_of].
      rewrite !J by lia.
      destruct r as [|[|[|r]]]; [..|lia]; (destruct c as [|[|[|c]]]; [..|lia]); cbn; ring.
    + pose proof (C78_axes_orthonormal m q _ _ 0 1 M Q ltac:(simpl; lra) ltac:(lia) ltac:(lia)) as H. cbn [Nat.eqb] in H.
      rewrite Rminus_0_r in H. lra.
Qed.
