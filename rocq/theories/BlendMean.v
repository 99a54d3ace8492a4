(** Single-precision blending: distance to the exact weighted mean. *)
From Coq Require Import Reals Lra Psatz.
From Flocq Require Import IEEE754.BinarySingleNaN Core Relative.
From Verif Require Import Base Num NumR NumF32 F32Facts F32Err InterpF32 NormF32 Math Keys KeysSpec Skeleton Blending BlendingProofs BlendingSpec
  BlendingReal BlendLane BlendF32 BlendF32Spec BlendF32Proofs.
Local Open Scope R_scope.

(** ** The real job *)
Lemma real_identity : real_soa tr_identity = (tr_identity : transform (V4 R)).
Proof.
  assert (Z : B2R (nzero : f32) = (nzero : R)) by (rewrite nzero_R; reflexivity).
  assert (O : B2R (none_ : f32) = (none_ : R)) by (rewrite none_R; apply (proj2 fin_one)).
  assert (Z' : map4 (@B2R 24 128) (nzero : V4 f32) = (nzero : V4 R)) by (apply V4_ext; intros [|[|[|[|j]]]] Hj; try lia; exact Z).
  assert (O' : map4 (@B2R 24 128) (none_ : V4 f32) = (none_ : V4 R)) by (apply V4_ext; intros [|[|[|[|j]]]] Hj; try lia; exact O).
  set (z := map4 (@B2R 24 128) (nzero : V4 f32)) in *. set (o := map4 (@B2R 24 128) (none_ : V4 f32)) in *.
  transitivity (TR (V3 z z z) (Q4 z z z o) (V3 o o o)); [reflexivity|]. rewrite Z', O'. reflexivity.
Qed.
Lemma joint_real (l : list (transform (V4 f32))) i c : rlinear c (joint (map real_soa l) i) = B2R (linear (joint l i) c).
Proof.
  unfold joint.
  transitivity (rlinear c (lane_tr (real_soa (nth (i / 4) l tr_identity)) (i mod 4))).
  { f_equal. f_equal. rewrite <- (map_nth real_soa). f_equal. symmetry. exact real_identity. }
  assert (G : forall t m, (m < 4)%nat -> rlinear c (lane_tr (real_soa t) m) = B2R (linear (lane_tr t m) c)).
  { intros t m Hm. destruct m as [|[|[|[|m]]]]; [..|lia]; destruct c as [|[|[|[|[|c0]]]]]; reflexivity. }
  apply G. apply Nat.mod_upper_bound. lia.
Qed.
(** The exact weight of a layer. *)
Definition rw (i : nat) (l : layer f32) : R := joint_weight (real_layer l) i.
Lemma rw_pos i (l : layer f32) : 0 < B2R (ly_weight l) ->
  rw i l = B2R (ly_weight l) * match ly_joint_weights l with [] => 1 | ws => Rmax 0 (B2R (lane (nth (i / 4) ws nzero) (i mod 4))) end.
Proof.
  intros P. change (rw i l) with (Rmax 0 (B2R (ly_weight l)) * mask (map (map4 (@B2R 24 128)) (ly_joint_weights l)) i). rewrite (Rmax_right 0 (B2R (ly_weight l))) by lra. f_equal.
  unfold mask. destruct (ly_joint_weights l) as [|a ws]; [reflexivity|]. cbn [map]. f_equal.
  change (map4 (@B2R 24 128) a :: map (map4 (@B2R 24 128)) ws) with (map (map4 (@B2R 24 128)) (a :: ws)).
  assert (Z : (nzero : V4 R) = map4 (@B2R 24 128) (nzero : V4 f32)).
  { apply V4_ext; intros [|[|[|[|j]]]] Hj; try lia; transitivity (nzero : R); try reflexivity; rewrite nzero_R; reflexivity. }
  etransitivity; [|apply lane_map4]. f_equal. rewrite <- (map_nth (map4 (@B2R 24 128))). f_equal. exact Z.
Qed.
Lemma rw_nil i (l : layer f32) : 0 < B2R (ly_weight l) -> ly_joint_weights l = [] -> rw i l = B2R (ly_weight l).
Proof. intros P E. rewrite rw_pos by exact P. rewrite E. ring. Qed.
Lemma rw_cons i (l : layer f32) : 0 < B2R (ly_weight l) -> ly_joint_weights l <> [] ->
  rw i l = B2R (ly_weight l) * Rmax 0 (B2R (lane (nth (i / 4) (ly_joint_weights l) nzero) (i mod 4))).
Proof. intros P E. rewrite rw_pos by exact P. destruct (ly_joint_weights l); [contradiction|reflexivity]. Qed.
Lemma rw_npos i (l : layer f32) : B2R (ly_weight l) <= 0 -> rw i l = 0.
Proof. intros P. change (rw i l) with (Rmax 0 (B2R (ly_weight l)) * mask (map (map4 (@B2R 24 128)) (ly_joint_weights l)) i). rewrite Rmax_left by exact P. ring. Qed.
Lemma rw_nonneg i (l : layer f32) : 0 <= rw i l. Proof. apply jw_nonneg. Qed.
(** The computed weight is the exact one within one rounding. *)
Lemma gw_err i (l : layer f32) : usable_layer i l -> 0 < B2R (ly_weight l) ->
  exists W, fin (gw l i) W /\ good_weight W /\ (ly_joint_weights l = [] -> W = rw i l) /\ Rabs (W - rw i l) <= 1.001 * eps * rw i l.
Proof.
  intros U P. destruct (gw_fin i l U P) as (W & FW & GW & EW). exists W. split; [exact FW|]. split; [exact GW|].
  unfold gw in FW. destruct U as (Uw & U). destruct (U P) as (_ & Um). clear U.
  pose proof (rw_nil i l P) as RN. pose proof (rw_cons i l P) as RC.
  destruct (ly_joint_weights l) as [|a ws] eqn:E.
  - rewrite (RN eq_refl). rewrite (EW eq_refl). split; [reflexivity|]. replace (_ - _) with 0 by ring. rewrite Rabs_R0.
    apply Rmult_le_pos; unfold eps; lra.
  - split; [discriminate|]. specialize (Um ltac:(discriminate)). rewrite (RC ltac:(discriminate)). clear RN RC. set (m := lane _ _) in *.
    destruct Um as [Fm Bm]. pose proof (weight_pos _ Uw P) as Bw. destruct Uw as [Fw _].
    pose proof (fin_max _ _ _ _ (fin_of _ Fm) fin_zero) as FM. rewrite Rmax_comm in FM.
    set (M := Rmax 0 (B2R m)) in *.
    assert (HM : M = 0 \/ p2 (-15) <= M <= p2 10).
    { destruct (Rle_lt_dec (B2R m) 0) as [L|G]; [left; apply Rmax_left, L|right]. unfold M. rewrite Rmax_right by lra. apply weight_pos; [split|]; assumption. }
    pose proof (p2_pos (-15)) as P15. pose proof (p2_pos 10) as P10.
    assert (BP : Rabs (B2R (ly_weight l) * M) <= p2 20).
    { destruct HM as [->|HM]; [rewrite Rmult_0_r, Rabs_R0; apply Rlt_le, p2_pos|]. rewrite Rabs_pos_eq by (apply Rmult_le_pos; lra). apply (mul_hi _ _ 10 10); lra. }
    pose proof (fin_mul _ _ _ _ (fin_of _ Fw) FM (p2_le_HUGE 20 _ ltac:(lia) BP)) as F2.
    assert (EQ : W = rnd32 (B2R (ly_weight l) * M)) by (transitivity (B2R (nmul (ly_weight l) (nmax m nzero))); [symmetry; apply (proj2 FW)|apply (proj2 F2)]).
    rewrite EQ. destruct HM as [->|HM].
    + rewrite Rmult_0_r. replace (rnd32 0) with 0 by (symmetry; apply round_0, valid_rnd_N). rewrite Rminus_0_r, Rabs_R0. lra.
    + pose proof (mul_lo _ _ _ _ (proj1 Bw) (proj1 HM)) as LO. set (v := B2R (ly_weight l) * M) in *.
      eapply Rle_trans; [apply rnd_err|]. pose proof (p2_pos (-15 + -15)) as PL. rewrite (Rabs_pos_eq v) by lra.
      assert (T : tiny <= 0.001 * eps * p2 (-15 + -15)).
      { apply Rle_trans with (p2 (-10) * p2 (-24) * p2 (-15 + -15)); [unfold tiny; rewrite <- !bpow_plus; apply bpow_le; lia|].
        apply Rmult_le_compat_r; [lra|]. unfold eps. simpl. lra. }
      assert (0.001 * eps * p2 (-15 + -15) <= 0.001 * eps * v) by (apply Rmult_le_compat_l; [unfold eps; lra|exact LO]). lra.
Qed.

(** ** Sums *)
Definition kn (n : nat) : R := (INR n + 3) * (1.001 * eps).
Definition tn (n : nat) : R := 2 * INR n * tiny.
Lemma kn_S n : kn (S n) = kn n + 1.001 * eps. Proof. unfold kn. rewrite S_INR. ring. Qed.
Lemma tn_S n : tn (S n) = tn n + 2 * tiny. Proof. unfold tn. rewrite S_INR. ring. Qed.
Lemma INR_4096 n : (n <= 4096)%nat -> INR n <= 4096.
Proof. intros H. rewrite INR_IZR_INZ. apply IZR_le. lia. Qed.
Lemma kn_small n : (n <= 4096)%nat -> 0 < kn n <= / 4000.
Proof.
  intros H. apply INR_4096 in H.
  pose proof (pos_INR n). unfold kn, eps. lra.
Qed.
Lemma tn_small n : (n <= 4096)%nat -> 0 <= tn n /\ eps * (tn n + tiny) <= tiny.
Proof.
  intros H. apply INR_4096 in H.
  pose proof (pos_INR n). pose proof tiny_pos. unfold tn, eps. split; [nra|]. nra.
Qed.

Lemma err_add2 x y p q v v' A A' k t : fin x p -> fin y q -> Rabs (p + q) <= HUGE ->
  Rabs v <= A -> Rabs v' <= A' -> 0 <= k <= / 1000 -> 0 <= t -> eps * (t + tiny) <= tiny ->
  Rabs (p - v) <= k * A + t -> Rabs (q - v') <= k * A' + tiny ->
  exists r, fin (nadd x y) r /\ Rabs (r - (v + v')) <= (k + 1.001 * eps) * (A + A') + (t + 2 * tiny).
Proof.
  intros Fx Fy H HA HA' Hk Ht Hs E1 E2. exists (rnd32 (p + q)). split; [apply fin_add; assumption|].
  destruct (rnd_add_rel p q (fin_fmt _ _ Fx) (fin_fmt _ _ Fy)) as (e & He & ->). apply eps_inv in He. rewrite eps_val in *.
  apply Rabs_le_inv in E1. apply Rabs_le_inv in E2. apply Rabs_le_inv in HA. apply Rabs_le_inv in HA'.
  assert (B : Rabs (p + q) <= (1 + k) * (A + A') + (t + tiny)) by (apply Rabs_le; lra).
  assert (C : Rabs ((p + q) * e) <= ((1 + k) * (A + A') + (t + tiny)) * / 16777216).
  { rewrite Rabs_mult. apply Rmult_le_compat; try apply Rabs_pos; [exact B|apply Rabs_le; lra]. }
  apply Rabs_le_inv in C.
  assert (D : k * (A + A') <= / 1000 * (A + A')) by (apply Rmult_le_compat_r; lra).
  apply Rabs_le. lra.
Qed.
(** One weighted term. *)
Lemma err_term y w u W om M : fin y u -> fin w W -> Rabs u <= M -> M <= p2 40 -> 0 <= W <= p2 20 -> 0 <= om -> Rabs (W - om) <= 1.001 * eps * om ->
  exists v, fin (nmul y w) v /\ Rabs v <= p2 60 /\ Rabs (v - om * u) <= 2.01 * eps * (om * M) + tiny.
Proof.
  intros Fy Fw Hu HM HW Ho E. pose proof (Rabs_pos u) as Pu.
  assert (BM : Rabs (u * W) <= p2 60).
  { rewrite Rabs_mult, (Rabs_pos_eq W) by lra. apply (mul_hi _ _ 40 20); lra. }
  exists (rnd32 (u * W)). split; [apply fin_mul; auto; apply (p2_le_HUGE 60); [lia|exact BM]|]. split; [apply rnd_abs_le; [lia|exact BM]|].
  pose proof (rnd_err (u * W)) as R1.
  assert (W1 : W <= 1.00001 * om) by (apply Rabs_le_inv in E; unfold eps in E; lra).
  assert (A1 : Rabs (u * W) <= 1.00001 * (om * M)).
  { rewrite Rabs_mult, (Rabs_pos_eq W) by lra. apply Rle_trans with (M * (1.00001 * om)); [apply Rmult_le_compat; lra|apply Req_le; ring]. }
  assert (A2 : Rabs (u * W - om * u) <= 1.001 * eps * (om * M)).
  { replace (u * W - om * u) with (u * (W - om)) by ring. rewrite Rabs_mult.
    apply Rle_trans with (M * (1.001 * eps * om)); [apply Rmult_le_compat; auto; apply Rabs_pos|apply Req_le; ring]. }
  replace (rnd32 (u * W) - om * u) with ((rnd32 (u * W) - u * W) + (u * W - om * u)) by ring.
  assert (0 <= om * M) by (apply Rmult_le_pos; lra).
  eapply Rle_trans; [apply Rabs_triang|]. unfold eps in *. lra.
Qed.

Section Joint.
  Variables (i c : nat) (M : R).
  Hypothesis HM : 0 <= M <= p2 40.
  Definition val (l : layer f32) : R := B2R (linear (joint (ly_transform l) i) c).
  Definition bounded (l : layer f32) : Prop := 0 < B2R (ly_weight l) -> Rabs (val l) <= M.
  Definition T (ls : list (layer f32)) : R := Rsum (rw i) ls.
  Definition X (ls : list (layer f32)) : R := Rsum (fun l => rw i l * val l) ls.

  Lemma T_app ls l : T (ls ++ [l]) = T ls + rw i l. Proof. unfold T. rewrite Rsum_app. cbn. ring. Qed.
  Lemma X_app ls l : X (ls ++ [l]) = X ls + rw i l * val l. Proof. unfold X. rewrite Rsum_app. cbn. ring. Qed.
  Lemma T_nonneg ls : 0 <= T ls.
  Proof. unfold T, Rsum. induction ls as [|l ls IH]; cbn; [lra|]. pose proof (rw_nonneg i l). lra. Qed.
  Lemma term_bound l : bounded l -> Rabs (rw i l * val l) <= rw i l * M.
  Proof using HM.
    intros B. pose proof (rw_nonneg i l) as P. rewrite Rabs_mult, (Rabs_pos_eq (rw i l)) by exact P.
    destruct (Rle_lt_dec (B2R (ly_weight l)) 0) as [L|G]; [rewrite (rw_npos i l L); lra|].
    apply Rmult_le_compat_l; [exact P|apply B, G].
  Qed.
  Lemma X_bound ls : Forall bounded ls -> Rabs (X ls) <= T ls * M.
  Proof using HM.
    intros H. unfold X, T, Rsum. induction H as [|l ls B H IH]; cbn; [rewrite Rabs_R0; lra|].
    eapply Rle_trans; [apply Rabs_triang|]. pose proof (term_bound l B). lra.
  Qed.

  Definition mean_inv (ls : list (layer f32)) (a : option (f32 * transform f32)) : Prop :=
    match a with
    | None => T ls = 0 /\ X ls = 0
    | Some (acc, o) => exists A x, fin acc A /\ fin (linear o c) x /\
        Rabs (A - T ls) <= kn (length ls) * T ls /\ Rabs (x - X ls) <= kn (length ls) * (T ls * M) + tn (length ls)
    end.
  Lemma fin_inj x a b : fin x a -> fin x b -> a = b.
  Proof. intros [_ <-] [_ <-]. reflexivity. Qed.
  Lemma mean_mono ls l a : rw i l = 0 -> mean_inv ls a -> mean_inv (ls ++ [l]) a.
  Proof using HM.
    intros Z H. destruct a as [[acc o]|]; cbn [mean_inv] in *.
    - destruct H as (A & x & FA & Fx & EA & Ex). exists A, x. split; [exact FA|]. split; [exact Fx|].
      rewrite T_app, X_app, Z, Rmult_0_l, !Rplus_0_r, app_length. cbn [length]. rewrite Nat.add_1_r, kn_S, tn_S.
      pose proof (T_nonneg ls) as P. pose proof tiny_pos as TP. assert (E0 : 0 < eps) by (unfold eps; lra).
      assert (P2 : 0 <= T ls * M) by (apply Rmult_le_pos; lra).
      assert (0 <= 1.001 * eps * T ls) by (apply Rmult_le_pos; lra). assert (0 <= 1.001 * eps * (T ls * M)) by (apply Rmult_le_pos; lra). split; lra.
    - rewrite T_app, X_app, Z, Rmult_0_l. destruct H as [-> ->]. split; ring.
  Qed.
  Lemma step_mean ls l a : (length ls < 4096)%nat -> usable_layer i l -> bounded l -> Forall bounded ls -> st_ok a ->
    mean_inv ls a -> mean_inv (ls ++ [l]) (g_step i a l).
  Proof using HM.
    intros Hn U B Bs Hs H. unfold g_step. rewrite (eff_fin l (proj1 U)).
    destruct (Rlt_dec 0 (B2R (ly_weight l))) as [P|P]; [|apply mean_mono; [apply rw_npos; lra|exact H]].
    destruct (gw_err i l U P) as (W & FW & GW & _ & EW). pose proof (good_range W GW) as RW. pose proof (rw_nonneg i l) as Pl.
    destruct (proj2 U P) as ((Lt & _) & _). destruct (Lt c) as [Ft _].
    assert (Hu : Rabs (val l) <= M) by (apply B, P).
    destruct (err_term _ _ _ _ _ _ (fin_of _ Ft) FW Hu (proj2 HM) RW Pl EW) as (v & Fv & Bv & Ev).
    pose proof (kn_small (length ls) ltac:(lia)) as K. pose proof (tn_small (length ls) ltac:(lia)) as [T0 TS]. pose proof (T_nonneg ls) as PT.
    pose proof (term_bound l B) as TB. pose proof (X_bound ls Bs) as XB. pose proof tiny_pos as TP.
    assert (E2 : 2.01 * eps <= kn (S (length ls))) by (unfold kn; rewrite S_INR; pose proof (pos_INR (length ls)); unfold eps; lra).
    assert (PM : 0 <= rw i l * M) by (apply Rmult_le_pos; lra).
    destruct a as [[acc o]|]; cbn [mean_inv].
    - destruct H as (A & x & FA & Fx & EA & Ex). destruct Hs as (A' & r & FA' & BA & Lo & _).
      rewrite <- (fin_inj _ _ _ FA FA') in BA. destruct (Lo c) as (x' & Fx' & Bx). rewrite <- (fin_inj _ _ _ Fx Fx') in Bx.
      rewrite T_app, X_app, app_length. cbn [length]. rewrite Nat.add_1_r, kn_S, tn_S.
      assert (K2 : 2.01 * eps <= kn (length ls)) by (unfold kn; pose proof (pos_INR (length ls)); unfold eps; lra).
      assert (HA : Rabs (A + W) <= HUGE).
      { apply (p2_le_HUGE 47); [lia|]. change 47%Z with (1 + 46)%Z. rewrite (p2_shift 1 46 2) by (simpl; lra).
        pose proof (bpow_le radix2 20 46 ltac:(lia)). apply Rabs_le. lra. }
      assert (HX : Rabs (x + v) <= HUGE).
      { apply (p2_le_HUGE 87); [lia|]. eapply Rle_trans; [apply Rabs_triang|]. change 87%Z with (1 + 86)%Z. rewrite (p2_shift 1 86 2) by (simpl; lra).
        pose proof (bpow_le radix2 60 86 ltac:(lia)). lra. }
      exists (rnd32 (A + W)), (rnd32 (x + v)).
      split; [apply fin_add; assumption|]. split; [rewrite linear_npass; apply fin_add; assumption|]. split.
      + destruct (rnd_add_rel A W (fin_fmt _ _ FA) (fin_fmt _ _ FW)) as (e & He & ->). apply eps_inv in He.
        apply Rabs_le_inv in EA. apply Rabs_le_inv in EW.
        assert (C1 : 1.001 * eps * rw i l <= kn (length ls) * rw i l) by (apply Rmult_le_compat_r; unfold eps in *; lra).
        assert (KT : kn (length ls) * (T ls + rw i l) <= / 4000 * (T ls + rw i l)) by (apply Rmult_le_compat_r; lra).
        assert (B1 : Rabs (A + W) <= (1 + kn (length ls)) * (T ls + rw i l)) by (apply Rabs_le; lra).
        assert (C : Rabs ((A + W) * e) <= ((1 + kn (length ls)) * (T ls + rw i l)) * / 16777216).
        { rewrite Rabs_mult. apply Rmult_le_compat; try apply Rabs_pos; [exact B1|apply Rabs_le; lra]. }
        apply Rabs_le_inv in C. apply Rabs_le. unfold eps in *. lra.
      + assert (Ev' : Rabs (v - rw i l * val l) <= kn (length ls) * (rw i l * M) + tiny).
        { eapply Rle_trans; [exact Ev|]. apply Rplus_le_compat_r. 
apply Rmult_le_compat_r; [exact PM|unfold eps in *; lra]. }
        destruct (err_add2 _ _ _ _ (X ls) (rw i l * val l) (T ls * M) (rw i l * M) (kn (length ls)) (tn (length ls)) Fx Fv HX XB TB) as (r0 & F0 & E0);
          try assumption; try lra.
        rewrite (fin_inj _ _ _ (fin_add _ _ _ _ Fx Fv HX) F0). replace ((T ls + rw i l) * M) with (T ls * M + rw i l * M) by ring. exact E0.
    - destruct H as [TZ XZ]. exists W, v. split; [exact FW|]. split; [rewrite linear_1st; exact Fv|].
      rewrite T_app, X_app, TZ, XZ, !Rplus_0_l, app_length. cbn [length]. rewrite Nat.add_1_r. split.
      + eapply Rle_trans; [exact EW|]. apply Rmult_le_compat_r; [exact Pl|]. unfold eps in *. lra.
      + eapply Rle_trans; [exact Ev|]. apply Rplus_le_compat; [apply Rmult_le_compat_r; assumption|]. rewrite tn_S. lra.
  Qed.

  Lemma cols_mean ls : (length ls <= 4096)%nat -> Forall (usable_layer i) ls -> Forall bounded ls -> mean_inv ls (g_cols i ls).
  Proof using HM.
    intros Hn Hu Hb. unfold g_cols.
    assert (G : forall ls pre a, (length pre + length ls <= 4096)%nat -> Forall (usable_layer i) ls -> Forall bounded ls -> Forall bounded pre ->
              st_ok a -> mean_inv pre a -> mean_inv (pre ++ ls) (fold_left (g_step i) ls a)).
    { clear ls Hn Hu Hb. induction ls as [|l ls IH]; intros pre a Hn Hu Hb Hp Hs H; [rewrite app_nil_r; exact H|].
      inversion_clear Hu as [|? ? U Us]. inversion_clear Hb as [|? ? B Bs]. cbn [fold_left length] in *.
      replace (pre ++ l :: ls) with ((pre ++ [l]) ++ ls) by (rewrite <- app_assoc; reflexivity). apply IH; auto.
      - rewrite app_length. cbn [length]. lia.
      - apply Forall_app. split; [exact Hp|]. constructor; [exact B|constructor].
      - apply step_ok; assumption.
      - apply step_mean; auto; lia. }
    apply (G ls []); auto.
    - constructor.
    - cbn [mean_inv]. split; reflexivity.
  Qed.
End Joint.

(** Without partial layers the weights are added up once for all joints. *)
Lemma sumw_err i ls : (length ls <= 4096)%nat -> Forall (usable_layer i) ls -> some_partial ls = false ->
  exists A, fin (sumw ls nzero) A /\ Rabs (A - T i ls) <= kn (length ls) * T i ls.
Proof.
  intros Hn Hu Hp. unfold sumw.
  assert (G : forall ls pre a, (length pre + length ls <= 4096)%nat -> Forall (usable_layer i) ls -> some_partial ls = false ->
     (exists A, fin a A /\ 0 <= A <= p2 46 /\ Rabs (A - T i pre) <= kn (length pre) * T i pre) ->
     exists A, fin (fold_left sum_step ls a) A /\ 0 <= A <= p2 46 /\ Rabs (A - T i (pre ++ ls)) <= kn (length (pre ++ ls)) * T i (pre ++ ls)).
  { clear ls Hn Hu Hp. induction ls as [|l ls IH]; intros pre a Hn Hu Hp H; [rewrite app_nil_r; exact H|].
    inversion_clear Hu as [|? ? U Us]. unfold some_partial in Hp. cbn [existsb] in Hp. apply orb_false_elim in Hp. destruct Hp as [Hp Hps].
    cbn [fold_left length] in *. replace (pre ++ l :: ls) with ((pre ++ [l]) ++ ls) by (rewrite <- app_assoc; reflexivity).
    apply IH; auto; [rewrite app_length; cbn [length]; lia|].
    destruct H as (A & FA & BA & EA). unfold sum_step. rewrite (eff_fin l (proj1 U)) in *.
    rewrite T_app, app_length. cbn [length]. rewrite Nat.add_1_r, kn_S.
    pose proof (kn_small (length pre) ltac:(lia)) as K. pose proof (T_nonneg i pre) as PT. assert (E0 : 0 < eps) by (unfold eps; lra).
    destruct (Rlt_dec 0 (B2R (ly_weight l))) as [P|P].
    - cbn [andb] in Hp. assert (N : ly_joint_weights l = []) by (unfold is_partial in Hp; destruct (ly_joint_weights l); [reflexivity|discriminate]).
      rewrite (rw_nil i l P N). pose proof (weight_pos _ (proj1 U) P) as B. destruct U as ((Fw & _) & _).
      pose proof (bpow_le radix2 10 20 ltac:(lia)). set (W := B2R (ly_weight l)) in *. pose proof (fin_of _ Fw) as FW. fold W in FW.
      assert (HA : Rabs (A + W) <= HUGE).
      { apply (p2_le_HUGE 47); [lia|]. change 47%Z with (1 + 46)%Z. rewrite (p2_shift 1 46 2) by (simpl; lra).
        pose proof (bpow_le radix2 20 46 ltac:(lia)). apply Rabs_le. lra. }
      exists (rnd32 (A + W)). split; [apply fin_add; assumption|]. split; [split|].
      + apply rnd_nonneg. lra.
      + eapply Rle_trans; [apply Rle_abs|]. apply (absorb 20); [lia| |]; rewrite Rabs_pos_eq by lra; [apply BA|lra].
      + destruct (rnd_add_rel A W (fin_fmt _ _ FA) (fin_fmt _ _ FW)) as (e & He & ->). apply eps_inv in He.
        apply Rabs_le_inv in EA.
        assert (KW : 0 <= kn (length pre) * W) by (apply Rmult_le_pos; lra).
        assert (KT : kn (length pre) * (T i pre + W) <= / 4000 * (T i pre + W)) by (apply Rmult_le_compat_r; lra).
        assert (B1 : Rabs (A + W) <= (1 + kn (length pre)) * (T i pre + W)) by (apply Rabs_le; lra).
        assert (C : Rabs ((A + W) * e) <= ((1 + kn (length pre)) * (T i pre + W)) * / 16777216).
        { rewrite Rabs_mult. apply Rmult_le_compat; try apply Rabs_pos; [exact B1|apply Rabs_le; lra]. }
        apply Rabs_le_inv in C. apply Rabs_le. unfold eps in *. lra.
    - rewrite (rw_npos i l) by lra. rewrite Rplus_0_r. exists A. split; [exact FA|]. split; [exact BA|].
      assert (0 <= 1.001 * eps * T i pre) by (apply Rmult_le_pos; lra). lra. }
  destruct (G ls [] nzero) as (A & FA & _ & EA); auto.
  { exists 0. split; [apply fin_zero|]. pose proof (p2_pos 46). split; [lra|]. cbn. rewrite Rminus_0_r, Rabs_R0. lra. }
  exists A. split; assumption.
Qed.

(** Dividing by the weight. *)
Lemma final_mean s wt x Wc Wf Y M k t : fin s x -> fin wt Wc -> Rabs x <= p2 86 ->
  p2 (-20) <= Wf <= p2 47 -> 0 <= M -> 0 < k <= / 4000 -> 0 <= t <= p2 (-136) -> p2 (-20) <= Wc ->
  Rabs (Wc - Wf) <= k * Wf -> Rabs Y <= Wf * M -> Rabs (x - Y) <= (2 * k + 4.3 * eps) * (Wf * M) + t ->
  exists v, fin (nmul s (nrecip wt)) v /\ Rabs (v - Y / Wf) <= (3.01 * k + 6.4 * eps) * M + p2 (-100).
Proof.
  intros Fs Fw Bx HW HM Hk Ht Wc0 EW YB EX. pose proof (p2_pos (-20)) as P20.
  assert (B1 : Rabs (1 / Wc) <= p2 20).
  { unfold Rdiv. rewrite Rmult_1_l, Rabs_pos_eq by (apply Rlt_le, Rinv_0_lt_compat; lra).
    change 20%Z with (- -20)%Z. rewrite bpow_opp. apply Rinv_le; assumption. }
  assert (A0 : Wc <> 0) by lra.
  pose proof (fin_div none_ _ _ _ fin_one Fw A0 (p2_le_HUGE 20 _ ltac:(lia) B1)) as FR.
  pose proof (rnd_abs_le 20 _ ltac:(lia) B1) as B2.
  set (r := rnd32 (1 / Wc)) in *. set (j := / Wf).
  assert (J1 : Wf * j = 1) by (apply Rinv_r; lra). assert (J0 : 0 < j) by (apply Rinv_0_lt_compat; lra).
  assert (J2 : p2 (-47) <= j <= p2 20).
  { unfold j. change (-47)%Z with (- (47))%Z. rewrite (bpow_opp radix2 47). replace (p2 20) with (/ p2 (-20)) by (rewrite <- bpow_opp; reflexivity).
    split; apply Rinv_le; lra. }
  assert (ER : Rabs (r - j) <= (1.001 * k + 1.02 * eps) * j).
  { set (m := 1 / Wc) in *.
    assert (M1 : Wc * m = 1) by (unfold m; field; lra).
    assert (M0 : 0 < m) by (unfold m, Rdiv; rewrite Rmult_1_l; apply Rinv_0_lt_compat; lra).
    assert (D : Rabs (m - j) <= 1.001 * k * j).
    { replace (m - j) with (m * j * (Wf - Wc)).
      2:{ replace (m * j * (Wf - Wc)) with (m * (Wf * j) - j * (Wc * m)) by ring. rewrite J1, M1. ring. }
      assert (MB : m <= 1.001 * j).
      { apply Rabs_le_inv in EW. assert (Wf <= 1.001 * Wc) by (assert (k * Wf <= / 4000 * Wf) by (apply Rmult_le_compat_r; lra); lra).
        apply Rmult_le_reg_r with (Wc * Wf); [apply Rmult_lt_0_compat; lra|].
        replace (m * (Wc * Wf)) with (Wf * (Wc * m)) by ring. replace (1.001 * j * (Wc * Wf)) with (1.001 * Wc * (Wf * j)) by ring. rewrite M1, J1. lra. }
      rewrite Rabs_mult, (Rabs_minus_sym Wf Wc), Rabs_pos_eq by (apply Rmult_le_pos; lra).
      apply Rle_trans with (m * j * (k * Wf)); [apply Rmult_le_compat_l; [apply Rmult_le_pos; lra|exact EW]|].
      replace (m * j * (k * Wf)) with (m * k * (Wf * j)) by ring. rewrite J1, Rmult_1_r.
      apply Rle_trans with (1.001 * j * k); [apply Rmult_le_compat_r; lra|apply Req_le; ring]. }
    pose proof (rnd_err m) as RE. fold r in RE.
    assert (TJ : tiny <= 0.001 * eps * j).
    { apply Rle_trans with (p2 (-10) * p2 (-24) * p2 (-47)); [unfold tiny; rewrite <- !bpow_plus; apply bpow_le; lia|].
      apply Rmult_le_compat; [|apply Rlt_le, p2_pos| |lra]; [pose proof (p2_pos (-10)); pose proof (p2_pos (-24)); apply Rmult_le_pos; lra|].
      unfold eps. simpl. lra. }
    rewrite (Rabs_pos_eq m) in RE by lra.
    assert (kj : k * j <= / 4000 * j) by (apply Rmult_le_compat_r; lra).
    apply Rabs_le_inv in D. apply Rabs_le_inv in RE. unfold eps in *. apply Rabs_le. lra. }
  assert (HX : Rabs (x * r) <= p2 106).
  { rewrite Rabs_mult. apply (mul_hi _ _ 86 20); split; auto; apply Rabs_pos. }
  exists (rnd32 (x * r)). split; [apply fin_mul; auto; apply (p2_le_HUGE 106); [lia|exact HX]|].
  pose proof (rnd_err (x * r)) as RE.
  set (q := Wf * M) in *.
  assert (Qj : q * j = M) by (unfold q; replace (Wf * M * j) with (M * (Wf * j)) by ring; rewrite J1; ring).
  assert (Q0 : 0 <= q) by (unfold q; apply Rmult_le_pos; lra).
  assert (XB : Rabs x <= 1.001 * q + t).
  { assert (k * q <= / 4000 * q) by (apply Rmult_le_compat_r; lra). apply Rabs_le_inv in YB. apply Rabs_le_inv in EX. unfold eps in *. apply Rabs_le. lra. }
  assert (TJ : t * j <= p2 (-116)).
  { replace (-116)%Z with (-136 + 20)%Z by reflexivity. rewrite bpow_plus. apply Rmult_le_compat; lra. }
  assert (T0 : 0 <= t * j) by (apply Rmult_le_pos; lra).
  assert (D1 : Rabs (x * (r - j)) <= (1.001 * k + 1.02 * eps) * (1.001 * M + t * j)).
  { rewrite Rabs_mult. apply Rle_trans with ((1.001 * q + t) * ((1.001 * k + 1.02 * eps) * j)).
    - apply Rmult_le_compat; auto; apply Rabs_pos.
    - apply Req_le. rewrite <- Qj. ring. }
  assert (D2 : Rabs ((x - Y) * j) <= (2 * k + 4.3 * eps) * M + t * j).
  { rewrite Rabs_mult, (Rabs_pos_eq j) by lra. apply Rle_trans with (((2 * k + 4.3 * eps) * q + t) * j); [apply Rmult_le_compat_r; lra|].
    apply Req_le. rewrite <- Qj. ring. }
  assert (D3 : Rabs (x * r) <= 1.01 * M + 2 * (t * j)).
  { rewrite Rabs_mult. apply Rle_trans with ((1.001 * q + t) * (1.001 * j)).
    - apply Rmult_le_compat; auto; try apply Rabs_pos. assert (k * j <= / 4000 * j) by (apply Rmult_le_compat_r; lra).
      apply Rabs_le_inv in ER. unfold eps in *. apply Rabs_le. lra.
    - replace ((1.001 * q + t) * (1.001 * j)) with ((1.001 * 1.001) * (q * j) + 1.001 * (t * j)) by ring. rewrite Qj. lra. }
  replace (rnd32 (x * r) - Y / Wf) with ((rnd32 (x * r) - x * r) + (x * (r - j) + (x - Y) * j)) by (unfold Rdiv; fold j; ring).
  eapply Rle_trans; [apply Rabs_triang|]. eapply Rle_trans; [apply Rplus_le_compat_l, Rabs_triang|].
  assert (kM : k * M <= / 4000 * M) by (apply Rmult_le_compat_r; lra).
  assert (kt : k * (t * j) <= / 4000 * (t * j)) by (apply Rmult_le_compat_r; lra).
  assert (L1 : tiny <= / 8 * p2 (-100)).
  { rewrite <- (p2_shift (-3) (-100) (/ 8)) by (simpl; lra). apply bpow_le. lia. }
  assert (L2 : p2 (-116) <= / 8 * p2 (-100)).
  { rewrite <- (p2_shift (-3) (-100) (/ 8)) by (simpl; lra). apply bpow_le. lia. }
  assert (kM0 : 0 <= k * M) by (apply Rmult_le_pos; lra).
  set (tj := t * j) in *. set (P := p2 (-100)) in *. clearbody tj P. unfold eps in *. lra.
Qed.

(** Adding the rest pose. *)
Lemma rest_step s y w x u W X T be Wf M k t : fin s x -> fin y u -> fin w W -> 0 <= W <= p2 20 -> Rabs u <= M -> 0 <= M <= p2 40 -> Rabs x <= p2 86 ->
  0 <= T -> 0 <= be -> T + be = Wf -> Rabs X <= T * M -> 0 < k <= / 4000 -> 0 <= t -> eps * (t + tiny) <= tiny ->
  Rabs (x - X) <= k * (T * M) + t -> Rabs (W - be) <= (k + 1.01 * eps) * Wf ->
  exists x', fin (nadd s (nmul y w)) x' /\ Rabs (x' - (X + be * u)) <= (2 * k + 4.3 * eps) * (Wf * M) + (t + 2 * tiny).
Proof.
  intros Fs Fy Fw HW Hu HM Hx T0 B0 TB XB Hk Ht Hs EX EW. pose proof (Rabs_pos u) as Pu. pose proof tiny_pos as TP.
  assert (BM : Rabs (u * W) <= p2 60).
  { rewrite Rabs_mult, (Rabs_pos_eq W) by lra. apply (mul_hi _ _ 40 20); lra. }
  pose proof (fin_mul _ _ _ _ Fy Fw (p2_le_HUGE 60 _ ltac:(lia) BM)) as Fv. pose proof (rnd_abs_le 60 _ ltac:(lia) BM) as Bv.
  pose proof (rnd_err (u * W)) as R1. set (v := rnd32 (u * W)) in *.
  assert (HX : Rabs (x + v) <= HUGE).
  { apply (p2_le_HUGE 87); [lia|]. eapply Rle_trans; [apply Rabs_triang|]. change 87%Z with (1 + 86)%Z. rewrite (p2_shift 1 86 2) by (simpl; lra).
    pose proof (bpow_le radix2 60 86 ltac:(lia)). lra. }
  exists (rnd32 (x + v)). split; [apply fin_add; assumption|].
  destruct (rnd_add_rel x v (fin_fmt _ _ Fs) (fin_fmt _ _ Fv)) as (e & He & ->). apply eps_inv in He.
  set (q := Wf * M). assert (Q0 : 0 <= q) by (unfold q; apply Rmult_le_pos; lra).
  assert (kq : k * q <= / 4000 * q) by (apply Rmult_le_compat_r; lra). assert (kq0 : 0 <= k * q) by (apply Rmult_le_pos; lra).
  assert (D1 : Rabs (u * W - be * u) <= (k + 1.01 * eps) * q).
  { replace (u * W - be * u) with (u * (W - be)) by ring. rewrite Rabs_mult.
    apply Rle_trans with (M * ((k + 1.01 * eps) * Wf)); [apply Rmult_le_compat; auto; apply Rabs_pos|apply Req_le; unfold q; ring]. }
  assert (TM : T * M + be * M = q) by (unfold q; rewrite <- TB; ring).
  assert (bu : Rabs (be * u) <= be * M) by (rewrite Rabs_mult, (Rabs_pos_eq be) by lra; apply Rmult_le_compat_l; lra).
  assert (bM0 : 0 <= be * M) by (apply Rmult_le_pos; lra). assert (TM0 : 0 <= T * M) by (apply Rmult_le_pos; lra).
  assert (kT : k * (T * M) <= k * q) by (apply Rmult_le_compat_l; lra).
  assert (D0 : Rabs (u * W) <= 1.001 * q) by (apply Rabs_le_inv in D1; apply Rabs_le_inv in bu; apply Rabs_le; unfold eps in *; lra).
  assert (D2 : Rabs (v - be * u) <= (k + 2.02 * eps) * q + tiny).
  { replace (v - be * u) with ((v - u * W) + (u * W - be * u)) by ring. eapply Rle_trans; [apply Rabs_triang|]. unfold eps in *. lra. }
  assert (D3 : Rabs (x + v - (X + be * u)) <= (2 * k + 2.02 * eps) * q + t + tiny).
  { replace (x + v - (X + be * u)) with ((x - X) + (v - be * u)) by ring. eapply Rle_trans; [apply Rabs_triang|]. lra. }
  assert (D4 : Rabs (x + v) <= 1.001 * q + (t + tiny)).
  { apply Rabs_le_inv in D3. apply Rabs_le_inv in XB. apply Rabs_le_inv in bu. apply Rabs_le. unfold eps in *. lra. }
  assert (D5 : Rabs ((x + v) * e) <= (1.001 * q + (t + tiny)) * / 16777216).
  { rewrite Rabs_mult. apply Rmult_le_compat; try apply Rabs_pos; [exact D4|apply Rabs_le; lra]. }
  apply Rabs_le_inv in D3. apply Rabs_le_inv in D5. apply Rabs_le. unfold eps in *. lra.
Qed.

Lemma mean_TX thr ls rest i c : mean thr (map real_layer ls) (map real_soa rest) i (rlinear c) =
  (X i c ls + Rmax 0 (thr - T i ls) * B2R (linear (joint rest i) c)) / Rmax thr (T i ls).
Proof.
  unfold mean. rewrite joint_real.
  assert (E1 : total (map real_layer ls) i = T i ls).
  { unfold total, T, Rsum. induction ls as [|l ls IH]; [reflexivity|]. cbn [map fold_right]. rewrite IH. reflexivity. }
  rewrite E1. f_equal. f_equal. unfold X, Rsum. clear E1. induction ls as [|l ls IH]; [reflexivity|]. cbn [map fold_right]. rewrite IH. f_equal.
  unfold rw, val. f_equal. apply joint_real.
Qed.

Lemma max_lip a b c : Rabs (Rmax a b - Rmax a c) <= Rabs (b - c).
Proof. unfold Rmax, Rabs. repeat destruct Rle_dec; repeat destruct Rcase_abs; lra. Qed.
Lemma rest_weight thr A T k : 0 < thr -> 0 <= T -> 0 < k <= / 4000 -> Rabs (A - T) <= k * T -> fmt thr -> fmt A ->
  Rabs (Rmax (rnd32 (thr - A)) 0 - Rmax 0 (thr - T)) <= (k + 1.01 * eps) * Rmax thr T.
Proof.
  intros Ht HT Hk E Fa Fb. destruct (rnd_sub_rel thr A Fa Fb) as (e & He & ->). apply eps_inv in He.
  rewrite Rmax_comm. eapply Rle_trans; [apply max_lip|].
  pose proof (Rmax_l thr T) as M1. pose proof (Rmax_r thr T) as M2. set (Wf := Rmax thr T) in *. clearbody Wf.
  assert (kW : k * Wf <= / 4000 * Wf) by (apply Rmult_le_compat_r; lra). assert (kT : k * T <= k * Wf) by (apply Rmult_le_compat_l; lra).
  apply Rabs_le_inv in E.
  assert (B : Rabs (thr - A) <= 1.001 * Wf) by (apply Rabs_le; lra).
  assert (C : Rabs ((thr - A) * e) <= (1.001 * Wf) * / 16777216).
  { rewrite Rabs_mult. apply Rmult_le_compat; try apply Rabs_pos; [exact B|apply Rabs_le; lra]. }
  apply Rabs_le_inv in C. apply Rabs_le. unfold eps. lra.
Qed.
Lemma T_hi i ls : (length ls <= 4096)%nat -> Forall (usable_layer i) ls -> T i ls <= p2 46.
Proof.
  intros Hn H. assert (G : T i ls <= INR (length ls) * (1.5 * p2 20)).
  { unfold T, Rsum. clear Hn. induction H as [|l ls U H IH]; [cbn; lra|]. cbn [fold_right length]. rewrite S_INR.
    assert (rw i l <= 1.5 * p2 20); [|lra].
    destruct (Rle_lt_dec (B2R (ly_weight l)) 0) as [L|P]; [rewrite (rw_npos i l L); pose proof (p2_pos 20); lra|].
    destruct (gw_err i l U P) as (W & FW & GW & _ & EW). pose proof (good_range W GW) as RW. apply Rabs_le_inv in EW. unfold eps in EW. lra. }
  apply INR_4096 in Hn. pose proof (p2_pos 20) as P. eapply Rle_trans; [exact G|].
  apply Rle_trans with (8192 * p2 20); [|rewrite <- (p2_shift 13 20 8192) by (simpl; lra); apply bpow_le; lia].
  pose proof (pos_INR (length ls)). apply Rle_trans with (4096 * (1.5 * p2 20)); [apply Rmult_le_compat_r; lra|lra].
Qed.

Lemma base_mean sk thr ls i c M : (length ls <= 4096)%nat -> 0 <= M <= p2 40 -> usable_threshold thr -> usable_transform (joint (sk_rest sk) i) ->
  Forall (usable_layer i) ls -> Forall (bounded i c M) ls -> Rabs (B2R (linear (joint (sk_rest sk) i) c)) <= M ->
  Rabs (B2R (linear (g_base sk thr ls i) c) - mean (B2R thr) (map real_layer ls) (map real_soa (sk_rest sk)) i (rlinear c))
  <= (INR (length ls) + 4) / 2 ^ 22 * M + p2 (-100).
Proof.
  intros Hn HM Hth Hr Hl Hb HMr.
  destruct (rest_ok thr i ls (joint (sk_rest sk) i) Hth Hr Hl) as (A' & r' & FA' & LA & Lo & _). cbv zeta in FA', Lo.
  pose proof (cols_mean i c M HM ls Hn Hl Hb) as HC. pose proof (cols_ok i ls Hl) as HK. pose proof (X_bound i c M HM ls Hb) as XB.
  rewrite mean_TX. unfold g_base. cbv zeta. rewrite linear_norm.
  destruct Hth as [Ft Bt].
  assert (Bt' : p2 (-20) <= B2R thr <= p2 20).
  { change (-20)%Z with (- (20))%Z. rewrite (p2_inv 20), (p2_pow 20) by lia. exact Bt. }
  pose proof (fin_of _ Ft) as Ft'. pose proof (p2_pos (-20)) as P20. pose proof (p2_pos 46) as P46.
  pose proof (kn_small _ Hn) as K. pose proof (tn_small _ Hn) as [T0 TS]. pose proof (T_nonneg i ls) as PT. pose proof tiny_pos as TP.
  pose proof (T_hi i ls Hn Hl) as TH. pose proof (p2_pos (-100)) as P100.
  assert (KN : (3.01 * kn (length ls) + 6.4 * eps) * M <= (INR (length ls) + 4) / 2 ^ 22 * M).
  { apply Rmult_le_compat_r; [lra|]. unfold kn, eps. pose proof (pos_INR (length ls)). simpl. lra. }
  destruct Hr as (Lr & _). destruct (Lr c) as [Fr _]. pose proof (fin_of _ Fr) as Fr'.
  set (u := B2R (linear (joint (sk_rest sk) i) c)) in *.
  set (k := kn (length ls)) in *. set (t := tn (length ls)) in *.
  assert (T36 : 0 <= t + 2 * tiny <= p2 (-136)).
  { split; [lra|]. unfold t, tn. pose proof (INR_4096 _ Hn). apply Rle_trans with (16384 * tiny).
    - pose proof (pos_INR (length ls)). assert (2 * INR (length ls) * tiny <= 8192 * tiny) by (apply Rmult_le_compat_r; lra). lra.
    - unfold tiny. rewrite <- (p2_shift 14 (-150) 16384) by (simpl; lra). apply bpow_le. lia. }
  assert (W0 : p2 (-20) <= Rmax (B2R thr) (T i ls) <= p2 47).
  { pose proof (bpow_le radix2 20 47 ltac:(lia)). pose proof (bpow_le radix2 46 47 ltac:(lia)).
    split; [eapply Rle_trans; [apply Bt'|apply Rmax_l]|apply Rmax_lub; lra]. }
  assert (BE : T i ls + Rmax 0 (B2R thr - T i ls) = Rmax (B2R thr) (T i ls)) by (unfold Rmax; repeat destruct Rle_dec; lra).
  pose proof (Rmax_l 0 (B2R thr - T i ls)) as BE0.
  assert (YB : Rabs (X i c ls + Rmax 0 (B2R thr - T i ls) * u) <= Rmax (B2R thr) (T i ls) * M).
  { rewrite <- BE. eapply Rle_trans; [apply Rabs_triang|]. rewrite Rabs_mult, (Rabs_pos_eq (Rmax 0 _)) by exact BE0.
    assert (Rmax 0 (B2R thr - T i ls) * Rabs u <= Rmax 0 (B2R thr - T i ls) * M) by (apply Rmult_le_compat_l; assumption). lra. }
  assert (FIN : forall wt s Wc x, fin wt Wc -> fin s x -> p2 (-20) <= Wc -> Rabs x <= p2 86 ->
     Rabs (Wc - Rmax (B2R thr) (T i ls)) <= k * Rmax (B2R thr) (T i ls) ->
     Rabs (x - (X i c ls + Rmax 0 (B2R thr - T i ls) * u)) <= (2 * k + 4.3 * eps) * (Rmax (B2R thr) (T i ls) * M) + (t + 2 * tiny) ->
     Rabs (B2R (nmul s (nrecip wt)) - (X i c ls + Rmax 0 (B2R thr - T i ls) * u) / Rmax (B2R thr) (T i ls)) <= (INR (length ls) + 4) / 2 ^ 22 * M + p2 (-100)).
  { intros wt s Wc x Fw Fs Bw Bx Ew Ex. destruct (final_mean s wt x Wc _ _ M k _ Fs Fw Bx W0 (proj1 HM) K T36 Bw Ew YB Ex) as (v & [_ <-] & Ev). lra. }
  pose proof (Rmax_l (B2R thr) (T i ls)) as M1. pose proof (Rmax_r (B2R thr) (T i ls)) as M2.
  assert (kT : k * T i ls <= k * Rmax (B2R thr) (T i ls)) by (apply Rmult_le_compat_l; lra).
  destruct (Lo c) as (x' & Fx' & Bx'). clear Lo. unfold g_rest in *.
  destruct (g_cols i ls) as [[acc o]|] eqn:EC.
  - cbn [mean_inv] in HC. destruct HC as (A & x & FA & Fx & EA & Ex). fold k t in EA, Ex.
    destruct HK as (A1 & r1 & FA1 & BA & Lo & _). rewrite <- (fin_inj _ _ _ FA FA1) in BA. clear A1 FA1.
    destruct (Lo c) as (x1 & Fx1 & Bx1). rewrite <- (fin_inj _ _ _ Fx Fx1) in Bx1. clear x1 Fx1 Lo.
    destruct (some_partial ls) eqn:SP; cbn [fst snd] in *.
    + assert (TH' : Rabs (B2R thr - A) <= HUGE).
      { apply (p2_le_HUGE 47); [lia|]. change 47%Z with (1 + 46)%Z. rewrite (p2_shift 1 46 2) by (simpl; lra).
        pose proof (bpow_le radix2 20 46 ltac:(lia)). apply Rabs_le. lra. }
      pose proof (fin_sub _ _ _ _ Ft' FA TH') as FS. pose proof (fin_max _ _ _ _ FS fin_zero) as FB.
      pose proof (rest_weight (B2R thr) A (T i ls) k ltac:(lra) PT K EA (fin_fmt _ _ Ft') (fin_fmt _ _ FA)) as EB.
      set (W := Rmax (rnd32 (B2R thr - A)) 0) in *.
      assert (RW : 0 <= W <= p2 20).
      { split; [apply Rmax_r|]. apply Rmax_lub; [|pose proof (p2_pos 20); lra]. apply rnd_le_p2; [lia|lra]. }
      destruct (rest_step _ _ _ _ _ _ _ _ _ _ M k t Fx Fr' FB RW HMr HM Bx1 PT BE0 BE XB K T0 TS Ex EB) as (x2 & Fx2 & Ex2).
      rewrite linear_npass in *. rewrite (fin_inj _ _ _ Fx' Fx2) in Bx'.
      eapply FIN; [apply (fin_max _ _ _ _ Ft' FA)|exact Fx2| |exact Bx'| |exact Ex2].
      * eapply Rle_trans; [apply Bt'|apply Rmax_l].
      * eapply Rle_trans; [apply max_lip|]. lra.
    + destruct (sumw_err i ls Hn Hl SP) as (Sw & FS & ES). fold k in ES. destruct (sumw_fin i ls Hl) as (Sw' & FS' & BS).
      rewrite <- (fin_inj _ _ _ FS FS') in BS. clear Sw' FS'.
      assert (TH' : Rabs (B2R thr - Sw) <= HUGE).
      { apply (p2_le_HUGE 47); [lia|]. change 47%Z with (1 + 46)%Z. rewrite (p2_shift 1 46 2) by (simpl; lra).
        pose proof (bpow_le radix2 20 46 ltac:(lia)). apply Rabs_le. lra. }
      pose proof (fin_sub _ _ _ _ Ft' FS TH') as FD. cbv zeta in *.
      pose proof (rest_weight (B2R thr) Sw (T i ls) k ltac:(lra) PT K ES (fin_fmt _ _ Ft') (fin_fmt _ _ FS)) as EB.
      pose proof (nlt0_fin _ _ FD) as ND.
      assert (SG : 0 < rnd32 (B2R thr - Sw) <-> Sw < B2R thr).
      { destruct (rnd_sub_rel (B2R thr) Sw (fin_fmt _ _ Ft') (fin_fmt _ _ FS)) as (e & He & ->). apply eps_inv in He. split; intros G.
        - destruct (Rlt_le_dec Sw (B2R thr)) as [L|L]; [exact L|]. exfalso. assert ((Sw - B2R thr) * (1 + e) >= 0) by (apply Rle_ge, Rmult_le_pos; lra). lra.
        - apply Rmult_lt_0_compat; lra. }
      revert FA' Fx'.
      match goal with |- context [if ?cond then _ else _] => replace cond with (if Rlt_dec 0 (rnd32 (B2R thr - Sw)) then true else false)
        by (symmetry; exact ND) end.
      destruct (Rlt_dec 0 (rnd32 (B2R thr - Sw))) as [G|G]; cbn [fst snd]; intros FA' Fx'.
      * rewrite Rmax_left in EB by lra. apply SG in G.
        assert (RW : 0 <= rnd32 (B2R thr - Sw) <= p2 20) by (split; [apply rnd_nonneg; lra|apply rnd_le_p2; [lia|lra]]).
        destruct (rest_step _ _ _ _ _ _ _ _ _ _ M k t Fx Fr' FD RW HMr HM Bx1 PT BE0 BE XB K T0 TS Ex EB) as (x2 & Fx2 & Ex2).
        rewrite linear_npass in *. rewrite (fin_inj _ _ _ Fx' Fx2) in Bx'.
        eapply FIN; [exact Ft'|exact Fx2|apply Bt'|exact Bx'| |exact Ex2].
        apply Rabs_le_inv in ES. unfold Rmax in *. destruct Rle_dec; apply Rabs_le; lra.
      * assert (L : B2R thr <= Sw) by (apply Rnot_lt_le; intros L; apply G, SG, L).
        rewrite (fin_inj _ _ _ Fx' Fx) in Bx'.
        eapply FIN; [exact FS|exact Fx|lra|exact Bx'| |].
        -- apply Rabs_le_inv in ES. unfold Rmax in *. destruct Rle_dec; apply Rabs_le; lra.
        -- assert (Bb : Rmax 0 (B2R thr - T i ls) <= k * T i ls).
           { apply Rabs_le_inv in ES. apply Rmax_lub; [apply Rmult_le_pos; lra|lra]. }
           set (be := Rmax 0 (B2R thr - T i ls)) in *. set (Wf := Rmax (B2R thr) (T i ls)) in *. clearbody be Wf.
           assert (bu : Rabs (be * u) <= k * (T i ls * M)).
           { rewrite Rabs_mult, (Rabs_pos_eq be), <- Rmult_assoc by exact BE0. apply Rmult_le_compat; auto. apply Rabs_pos. }
           assert (TW : k * (T i ls * M) <= k * (Wf * M)) by (apply Rmult_le_compat_l; [lra|]; apply Rmult_le_compat_r; lra).
           assert (WM : 0 <= Wf * M) by (apply Rmult_le_pos; lra).
           apply Rabs_le_inv in bu. apply Rabs_le_inv in Ex. unfold eps. apply Rabs_le. lra.
  - destruct HC as [TZ XZ]. cbn [fst snd]. clear FIN. rewrite TZ, XZ, Rminus_0_r, !Rmax_right, Rmax_left, Rplus_0_l by lra.
    replace (B2R thr * u / B2R thr) with u by (field; lra).
    assert (Q : Rabs (1 / 1) <= HUGE) by (apply (p2_le_HUGE 0); [lia|]; simpl; rewrite Rabs_pos_eq; lra).
    pose proof (fin_div none_ _ _ _ fin_one fin_one ltac:(lra) Q) as FR.
    assert (R1 : rnd32 (1 / 1) = 1). { replace (1 / 1) with 1 by field. apply fmt_rnd. eapply fin_fmt, fin_one. }
    rewrite R1 in FR.
    assert (Q2 : Rabs (u * 1) <= HUGE) by (rewrite Rmult_1_r; apply (p2_le_HUGE 40); [lia|lra]).
    pose proof (fin_mul _ _ _ _ Fr' FR Q2) as F. rewrite Rmult_1_r, (fmt_rnd u) in F by (eapply fin_fmt, Fr').
    match goal with |- Rabs (B2R ?z - _) <= _ => replace (B2R z) with u by (symmetry; exact (proj2 F)) end.
    replace (u - u) with 0 by ring. rewrite Rabs_R0.
    assert (0 <= (INR (length ls) + 4) / 2 ^ 22 * M); [|lra]. pose proof (pos_INR (length ls)).
    apply Rmult_le_pos; [|lra]. unfold Rdiv. apply Rmult_le_pos; [lra|]. simpl. lra.
Qed.
