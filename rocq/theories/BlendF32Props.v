(** C74, C75: blended poses on binary32. *)
From Coq Require Import Reals Lra Psatz Permutation.
From Flocq Require Import IEEE754.BinarySingleNaN Core.
From Verif Require Import Base Num NumR NumF32 F32Facts F32Err Math KeysSpec Skeleton Blending BlendingSpec BlendingProofs BlendingProps.
From Verif Require Import NormF32 BlendLane BlendF32 BlendF32Spec BlendF32Proofs BlendMean.
Local Open Scope R_scope.

Lemma ok_inv32 (sk : skeleton f32) ctx thr ls adds out c o :
  rest_sized sk -> blend_run (mk_bjob (Some sk) (Some ctx) thr ls adds (Some out)) = BOk (c, o) ->
  (num_soa_joints sk <= length out)%nat /\ length o = length out /\
  (forall k, (k < num_soa_joints sk)%nat -> nth k o tr_identity = full_col sk thr ls adds k) /\
  (forall k, (num_soa_joints sk <= k)%nat -> nth_error o k = nth_error out k).
Proof.
  intros Hr H. pose proof (run_ok_valid _ _ H) as V. destruct (valid_size _ _ _ _ _ _ V) as [V1 V2].
  assert (D : effective ls \/ length out = num_soa_joints sk).
  { destruct (existsb eff ls) eqn:E.
    - left. apply existsb_exists in E. exact E.
    - right. destruct (Nat.eq_dec (length out) (num_soa_joints sk)) as [e|n]; [exact e|].
      exfalso. rewrite (run_panics sub_zero_f32) in H; auto; [discriminate|].
      intros (l & I & El). assert (existsb eff ls = true) by (apply existsb_exists; eauto). congruence. }
  destruct (run_ok sub_zero_f32 sk ctx out thr ls adds Hr V D) as (c1 & o1 & R1 & L1 & P1 & T1).
  rewrite R1 in H. assert (E : o1 = o) by congruence. rewrite <- E. auto.
Qed.
Lemma joint_base (sk : skeleton f32) ctx thr ls out c o i :
  rest_sized sk -> blend_run (mk_bjob (Some sk) (Some ctx) thr ls [] (Some out)) = BOk (c, o) ->
  (i < 4 * num_soa_joints sk)%nat -> joint o i = g_base sk thr ls i.
Proof.
  intros Hr H Hi. destruct (ok_inv32 _ _ _ _ _ _ _ _ Hr H) as (_ & _ & P & _).
  unfold joint. rewrite P by (apply Nat.div_lt_upper_bound; lia). unfold full_col. cbn [fold_left]. apply gl_base.
Qed.

(** C74.  Any number of layers, none of them additive: at every joint where the layers and the rest
    pose are usable ([usable_layer], [usable_transform]), the blended translation and scale are
    finite, and the blended rotation is finite and unit within 2^-19. *)
Theorem C74_blended_unit :
  forall (sk : skeleton f32) ctx thr ls out c o,
    rest_sized sk ->
    blend_run (mk_bjob (Some sk) (Some ctx) thr ls [] (Some out)) = BOk (c, o) ->
    usable_threshold thr ->
    forall i, (i < 4 * num_soa_joints sk)%nat ->
      usable_transform (joint (sk_rest sk) i) -> Forall (usable_layer i) ls ->
      (forall k, is_finite (linear (joint o i) k) = true) /\
      (forall k, is_finite (qcomp (tr_r (joint o i)) k) = true) /\
      Rabs (sumsq (tr_r (joint o i)) - 1) <= / 2 ^ 19.
Proof.
  intros sk ctx thr ls out c o Hr H Ht i Hi Hu Hl. rewrite (joint_base _ _ _ _ _ _ _ _ Hr H Hi). apply base_ok; assumption.
Qed.
Print Assumptions C74_blended_unit.

(** C75.  Up to 4096 layers: each translation and scale component of the result is the weighted mean
    of the layers ([mean], the same as in C32, of the values the f32 inputs stand for), with an error
    of at most (n + 4) 2^-22 times the largest magnitude among the blended components. *)
Theorem C75_blended_mean :
  forall (sk : skeleton f32) ctx thr ls out c o,
    rest_sized sk ->
    blend_run (mk_bjob (Some sk) (Some ctx) thr ls [] (Some out)) = BOk (c, o) ->
    usable_threshold thr -> (length ls <= 4096)%nat ->
    forall i, (i < 4 * num_soa_joints sk)%nat ->
      usable_transform (joint (sk_rest sk) i) -> Forall (usable_layer i) ls ->
      forall k M, 0 <= M <= 2 ^ 40 ->
        (forall l, In l ls -> 0 < B2R (ly_weight l) -> Rabs (B2R (linear (joint (ly_transform l) i) k)) <= M) ->
        Rabs (B2R (linear (joint (sk_rest sk) i) k)) <= M ->
        Rabs (B2R (linear (joint o i) k)
              - mean (B2R thr) (map real_layer ls) (map real_soa (sk_rest sk)) i (rlinear k))
        <= (INR (length ls) + 4) / 2 ^ 22 * M + / 2 ^ 100.
Proof.
  intros sk ctx thr ls out c o Hr H Ht Hn i Hi Hu Hl k M HM Hb Hm. rewrite (joint_base _ _ _ _ _ _ _ _ Hr H Hi).
  replace (/ 2 ^ 100) with (p2 (-100)).
  - apply base_mean; auto.
    + change (p2 40) with (IZR (2 ^ 40)). rewrite (pow_IZR 2 40) in HM. exact HM.
    + apply Forall_forall. intros l I P. apply Hb; assumption.
  - change (-100)%Z with (- (100))%Z. rewrite bpow_opp. f_equal. change (p2 100) with (IZR (2 ^ 100)). rewrite (pow_IZR 2 100). reflexivity.
Qed.
Print Assumptions C75_blended_mean.

(** Reordering the layers moves a component by at most twice that. *)
Theorem C75_layer_order :
  forall (sk : skeleton f32) ctx1 ctx2 thr ls1 ls2 out1 out2 c1 c2 o1 o2,
    rest_sized sk -> Permutation ls1 ls2 ->
    blend_run (mk_bjob (Some sk) (Some ctx1) thr ls1 [] (Some out1)) = BOk (c1, o1) ->
    blend_run (mk_bjob (Some sk) (Some ctx2) thr ls2 [] (Some out2)) = BOk (c2, o2) ->
    usable_threshold thr -> (length ls1 <= 4096)%nat ->
    forall i, (i < 4 * num_soa_joints sk)%nat ->
      usable_transform (joint (sk_rest sk) i) -> Forall (usable_layer i) ls1 ->
      forall k M, 0 <= M <= 2 ^ 40 ->
        (forall l, In l ls1 -> 0 < B2R (ly_weight l) -> Rabs (B2R (linear (joint (ly_transform l) i) k)) <= M) ->
        Rabs (B2R (linear (joint (sk_rest sk) i) k)) <= M ->
        Rabs (B2R (linear (joint o1 i) k) - B2R (linear (joint o2 i) k))
        <= 2 * ((INR (length ls1) + 4) / 2 ^ 22 * M + / 2 ^ 100).
Proof.
  intros sk ctx1 ctx2 thr ls1 ls2 out1 out2 c1 c2 o1 o2 Hr HP H1 H2 Ht Hn i Hi Hu Hl k M HM Hb Hm.
  pose proof (C75_blended_mean _ _ _ _ _ _ _ Hr H1 Ht Hn i Hi Hu Hl k M HM Hb Hm) as E1.
  assert (Hl2 : Forall (usable_layer i) ls2).
  { apply Forall_forall. intros l I. apply (proj1 (Forall_forall _ _) Hl). eapply Permutation_in; [apply Permutation_sym, HP|exact I]. }
  assert (Hb2 : forall l, In l ls2 -> 0 < B2R (ly_weight l) -> Rabs (B2R (linear (joint (ly_transform l) i) k)) <= M).
  { intros l I. apply Hb. eapply Permutation_in; [apply Permutation_sym, HP|exact I]. }
  rewrite (Permutation_length HP) in Hn.
  pose proof (C75_blended_mean _ _ _ _ _ _ _ Hr H2 Ht Hn i Hi Hu Hl2 k M HM Hb2 Hm) as E2.
  rewrite <- (Permutation_length HP) in E2.
  assert (EM : mean (B2R thr) (map real_layer ls1) (map real_soa (sk_rest sk)) i (rlinear k)
             = mean (B2R thr) (map real_layer ls2) (map real_soa (sk_rest sk)) i (rlinear k)).
  { rewrite !mean_TX. unfold X, T. rewrite (Rsum_perm (rw i) _ _ HP), (Rsum_perm (fun l => rw i l * val i k l) _ _ HP). reflexivity. }
  rewrite EM in E1. apply Rabs_le_inv in E1. apply Rabs_le_inv in E2. apply Rabs_le. lra.
Qed.
Print Assumptions C75_layer_order.

(** ** A concrete job *)
Lemma fin_SF (x : f32) s m e : B2SF x = SpecFloat.S754_finite s m e -> fin x (F2R (Float radix2 (SpecFloat.cond_Zopp s (Zpos m)) e)).
Proof. destruct x; cbn; intros E; try discriminate. injection E as -> -> ->. split; reflexivity. Qed.
Lemma fin_two : fin (ntwo : f32) 2.
Proof.
  replace 2 with (F2R (Float radix2 (SpecFloat.cond_Zopp false (Zpos 8388608)) (-22))) by (unfold F2R; simpl; lra).
  apply fin_SF. vm_compute. reflexivity.
Qed.
Lemma fin_half : fin (nhalf : f32) (/ 2).
Proof.
  replace (/ 2) with (F2R (Float radix2 (SpecFloat.cond_Zopp false (Zpos 8388608)) (-24))) by (unfold F2R; simpl; lra).
  apply fin_SF. vm_compute. reflexivity.
Qed.
(** Two joints' worth of rest pose, a full layer, a half-weight layer that masks the second joint,
    and a layer of weight zero full of NaNs. *)
Definition nan_soa : transform (V4 f32) :=
  let n := splat (B754_nan : f32) in TR (V3 n n n) (Q4 n n n n) (V3 n n n).
Definition ex_layers : list (layer f32) :=
  [mk_layer [k1 none_] none_ []; mk_layer [k1 ntwo] nhalf [mk4 none_ nzero nhalf ntwo]; mk_layer [nan_soa] nzero []].
Lemma usable_k1 (x : f32) v i : fin x v -> Rabs v <= 2 ^ 40 -> (i < 4)%nat -> usable_transform (joint [k1 x] i).
Proof.
  intros [Fx Bx] Hv Hi. pose proof (fin_one : fin (none_ : f32) 1) as [F1 B1]. pose proof (fin_zero : fin (nzero : f32) 0) as [F0 B0].
  assert (E40 : 1 <= 2 ^ 40) by (apply pow_R1_Rle; lra). assert (0 <= 2 ^ 40) by lra.
  unfold joint. rewrite Nat.div_small, Nat.mod_small by exact Hi. cbn [nth].
  assert (S : lane_tr (k1 x) i = TR (V3 x nzero nzero) (Q4 nzero nzero nzero none_) (V3 none_ none_ none_)).
  { destruct i as [|[|[|[|i]]]]; [..|lia]; reflexivity. }
  rewrite S. split; [|split].
  - intros c. destruct c as [|[|[|[|[|c]]]]]; cbn [linear tr_t tr_s vx vy vz];
      (split; [assumption|]); rewrite ?Bx, ?B0, ?B1; rewrite ?Rabs_R0, ?Rabs_R1; try lra.
  - intros c. destruct c as [|[|[|c]]]; cbn [qcomp tr_r qx qy qz qw]; assumption.
  - unfold sumsq. cbn [tr_r qx qy qz qw]. rewrite B0, B1. replace (_ - 1) with 0 by ring. rewrite Rabs_R0. lra.
Qed.
Lemma usable_of (x : f32) v : fin x v -> v <= 0 \/ / 2 ^ 15 <= v <= 2 ^ 10 -> usable_weight x.
Proof. intros [F B] H. split; [exact F|]. rewrite B. exact H. Qed.
Lemma ex_usable i : (i < 4)%nat -> Forall (usable_layer i) ex_layers.
Proof.
  intros Hi. unfold ex_layers.
  assert (P40 : 2 <= 2 ^ 40) by (replace 2 with (2 ^ 1) at 1 by ring; apply Rle_pow; [lra|lia]).
  repeat apply Forall_cons; [| | |apply Forall_nil]; unfold usable_layer; cbn [ly_weight ly_transform ly_joint_weights]; split.
  - apply (usable_of _ _ fin_one). simpl. lra.
  - intros _. split; [apply (usable_k1 _ _ _ fin_one); [rewrite Rabs_R1; lra|exact Hi]|]. intros N. contradiction.
  - apply (usable_of _ _ fin_half). simpl. lra.
  - intros _. split; [apply (usable_k1 _ _ _ fin_two); [rewrite Rabs_pos_eq; lra|exact Hi]|]. intros _.
    rewrite Nat.div_small, Nat.mod_small by exact Hi. cbn [nth]. destruct i as [|[|[|[|i]]]]; [..|lia]; cbn [lane l0 l1 l2 l3].
    + apply (usable_of _ _ fin_one). simpl. lra.
    + apply (usable_of _ _ fin_zero). simpl. lra.
    + apply (usable_of _ _ fin_half). simpl. lra.
    + apply (usable_of _ _ fin_two). simpl. lra.
  - apply (usable_of _ _ fin_zero). simpl. lra.
  - rewrite (proj2 fin_zero). intros F. exfalso. lra.
Qed.
Definition is_bok (r : bres f32) : bool := match r with BOk _ => true | _ => false end.
(** The hypotheses hold of this job, so do both conclusions at its four lanes: joint 0, for instance, is
    (1 * 1 + 1/2 * 2) / (3/2) = 4/3 within 7 * 2^-21 + 2^-100. *)
Example C74_C75_example :
  exists c o,
    blend_run (mk_bjob (Some one_joint) (Some (mk_bctx 0 0 nzero [])) nhalf ex_layers [] (Some [k1 ntwo])) = BOk (c, o) /\
    (forall i, (i < 4)%nat -> Rabs (sumsq (tr_r (joint o i)) - 1) <= / 2 ^ 19) /\
    Rabs (B2R (vx (tr_t (joint o 0))) - 4 / 3) <= 7 / 2 ^ 22 * 2 + / 2 ^ 100.
Proof.
  set (j := mk_bjob _ _ _ _ _ _). assert (K : is_bok (blend_run j) = true) by (vm_compute; reflexivity).
  destruct (blend_run j) as [[c o]|e s|] eqn:E; [|discriminate|discriminate]. exists c, o. clear K. split; [reflexivity|].
  assert (P40 : 2 <= 2 ^ 40) by (replace 2 with (2 ^ 1) at 1 by ring; apply Rle_pow; [lra|lia]).
  assert (UT : usable_threshold (nhalf : f32)) by (split; [apply fin_half|]; rewrite (proj2 fin_half); simpl; lra).
  assert (UR : forall i, (i < 4)%nat -> usable_transform (joint (sk_rest one_joint) i)).
  { intros i Hi. apply (usable_k1 _ _ _ fin_zero); [rewrite Rabs_R0; lra|exact Hi]. }
  split.
  - intros i Hi. apply (C74_blended_unit one_joint _ _ _ _ _ _ eq_refl E UT i Hi (UR i Hi) (ex_usable i Hi)).
  - pose proof (C75_blended_mean one_joint _ _ _ _ _ _ eq_refl E UT ltac:(cbn; lia) 0%nat ltac:(cbn; lia) (UR 0%nat ltac:(lia)) (ex_usable 0 ltac:(lia)) 0%nat 2) as H.
    cbn [linear] in H. cbn [ex_layers length INR] in H.
    replace (4 / 3) with (mean (B2R (nhalf : f32)) (map real_layer ex_layers) (map real_soa (sk_rest one_joint)) 0 (rlinear 0)).
    + replace (7 / 2 ^ 22) with ((1 + 1 + 1 + 4) / 2 ^ 22) by (f_equal; ring). apply H; [lra| |].
      * intros l [<-|[<-|[<-|[]]]]; cbn [ly_weight ly_transform].
        -- intros _. change (vx (tr_t (joint [k1 none_] 0))) with (none_ : f32). rewrite (proj2 fin_one), Rabs_R1. lra.
        -- intros _. change (vx (tr_t (joint [k1 ntwo] 0))) with (ntwo : f32). rewrite (proj2 fin_two), Rabs_pos_eq; lra.
        -- rewrite (proj2 fin_zero). intros F. exfalso. lra.
      * change (vx (tr_t (joint (sk_rest one_joint) 0))) with (nzero : f32). rewrite (proj2 fin_zero), Rabs_R0. lra.
    + rewrite mean_TX. unfold X, T, Rsum, ex_layers. cbn [fold_right].
      assert (R1 : rw 0 (mk_layer [k1 none_] none_ []) = 1).
      { rewrite rw_nil; cbn [ly_weight ly_joint_weights]; [apply fin_one|rewrite (proj2 fin_one); lra|reflexivity]. }
      assert (R3 : rw 0 (mk_layer [nan_soa] (nzero : f32) []) = 0) by (apply rw_npos; cbn [ly_weight]; rewrite (proj2 fin_zero); lra).
      assert (R2 : rw 0 (mk_layer [k1 ntwo] nhalf [mk4 none_ nzero nhalf ntwo]) = / 2).
      { unfold rw, joint_weight, real_layer, mask. cbn [ly_weight ly_joint_weights map Nat.div Nat.modulo Nat.divmod fst snd nth Nat.sub map4 lane l0].
        rewrite (proj2 fin_half), (proj2 fin_one). rewrite !Rmax_right by lra. ring. }
      rewrite R1, R2, R3.
      unfold val. cbn [linear ly_transform].
      change (vx (tr_t (joint [k1 none_] 0))) with (none_ : f32). change (vx (tr_t (joint [k1 ntwo] 0))) with (ntwo : f32).
      change (vx (tr_t (joint (sk_rest one_joint) 0))) with (nzero : f32).
      rewrite (proj2 fin_one), (proj2 fin_two), (proj2 fin_half), (proj2 fin_zero).
      rewrite (Rmax_left 0) by lra. rewrite (Rmax_right (/ 2)) by lra. field.
Qed.

(** ** The ranges are needed *)
Definition pow2f (e : Z) : f32 := f32_of_bits (N.shiftl (Z.to_N (e + 127)) 23).
Definition w_bits (r : bres f32) : option (list N) :=
  match r with BOk (_, o) => Some (map (fun t => f32_to_bits (l0 (qw (tr_r t)))) o) | _ => None end.
(** A positive threshold and a positive weight, both tiny: the squared length of the rotation underflows,
    the job returns Ok and the rotation is infinite. *)
Theorem C74_tiny_weights_refuted :
  exists thr w, nlt nzero thr = true /\ nlt nzero w = true /\
    w_bits (blend_run (mk_bjob (Some one_joint) (Some (mk_bctx 0 0 nzero [])) thr [mk_layer [k1 none_] w []] [] (Some [k1 ntwo])))
    = Some [2139095040%N].
Proof. exists (pow2f (-100)), (pow2f (-80)). vm_compute. repeat split. Qed.
Print Assumptions C74_tiny_weights_refuted.
(** A huge weight: the squared length overflows and the rotation is zero. *)
Theorem C74_huge_weights_refuted :
  exists w, nlt nzero w = true /\ is_finite w = true /\
    w_bits (blend_run (mk_bjob (Some one_joint) (Some (mk_bctx 0 0 nzero [])) nhalf [mk_layer [k1 none_] w []] [] (Some [k1 ntwo])))
    = Some [0%N].
Proof. exists (pow2f 70). vm_compute. repeat split. Qed.
Print Assumptions C74_huge_weights_refuted.
