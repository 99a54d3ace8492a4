(** Motion blending in single precision: what the loop and the final division compute. *)
From Coq Require Import Reals Lra Psatz.
From Flocq Require Import IEEE754.BinarySingleNaN Core Relative.
From Verif Require Import Base Num NumF32 NumR F32Facts F32Err InterpF32 NormF32 BlendF32 Math MathSpec BlendingSpec QuatNorm
  Motion MotionProps MotionGlam MotionF32Spec MotionF32.
Local Open Scope R_scope.

(** ** One layer *)
Lemma nle0_fin x a : fin x a -> nle (nzero : f32) x = (if Rle_dec 0 a then true else false).
Proof.
  intros [F <-]. change (nle (nzero : f32) x) with (Bleb (nzero : f32) x).
  rewrite Bleb_ext by (destruct x; try reflexivity; discriminate). rewrite zero_ext, ext_finite by exact F.
  destruct (Rle_bool_spec 0 (B2R x)), (Rle_dec 0 (B2R x)); auto; lra.
Qed.
Lemma nle_fin0 x a : fin x a -> nle x (nzero : f32) = (if Rle_dec a 0 then true else false).
Proof.
  intros [F <-]. change (nle x (nzero : f32)) with (Bleb x (nzero : f32)).
  rewrite Bleb_ext by (destruct x; try reflexivity; discriminate). rewrite zero_ext, ext_finite by exact F.
  destruct (Rle_bool_spec (B2R x) 0), (Rle_dec (B2R x) 0); auto; lra.
Qed.
Lemma neq_fin0 x a : fin x a -> neq x (nzero : f32) = (if Req_EM_T a 0 then true else false).
Proof.
  intros [F <-]. change (neq x (nzero : f32)) with (Beqb x (nzero : f32)).
  rewrite Beqb_ext by (destruct x; try reflexivity; discriminate). rewrite zero_ext, ext_finite by exact F.
  destruct (Req_bool_spec (B2R x) 0), (Req_EM_T (B2R x) 0); auto; lra.
Qed.
Lemma rnd0 : rnd32 0 = 0. Proof. apply round_0. apply valid_rnd_N. Qed.
Lemma len3_comp r : Rabs (vx r) <= len3 r /\ Rabs (vy r) <= len3 r /\ Rabs (vz r) <= len3 r.
Proof. unfold len3. rewrite <- !(sqrt_Rsqr_abs). unfold Rsqr, dot3. repeat split; apply sqrt_le_1_alt; nra. Qed.
Lemma tiny_rel k x : (-100 <= k)%Z -> p2 k <= x -> tiny <= / 1000 * eps * x.
Proof.
  intros Hk H. apply Rle_trans with (p2 (-10) * p2 (-24) * p2 k); [rewrite <- !bpow_plus; apply bpow_le; lia|].
  replace (p2 (-24)) with eps by (unfold eps; simpl; lra). apply Rmult_le_compat; [|apply Rlt_le, p2_pos| |exact H].
  - apply Rmult_le_pos; [apply Rlt_le, p2_pos|unfold eps; lra].
  - apply Rmult_le_compat_r; [unfold eps; lra|simpl; lra].
Qed.

Section Move.
  Variables (w : f32) (W : R) (t : vec3 f32) (r : vec3 R).
  Hypotheses (FW : fin w W) (BW : p2 (-20) <= W <= p2 20) (Ft : fin3 t r) (Br : r = V3 0 0 0 \/ p2 (-20) <= len3 r <= p2 40).
  Definition mlen32 := v3_len t.
  Definition mdenom32 : f32 := if neq mlen32 nzero then nzero else ndiv w mlen32.

  Lemma mlen_cases : (r = V3 0 0 0 /\ fin mlen32 0 /\ mdenom32 = nzero) \/
    (p2 (-20) <= len3 r <= p2 40 /\ exists L, fin mlen32 L /\ Rabs (L - len3 r) <= 2.7 * eps * len3 r /\
      fin mdenom32 (rnd32 (W / L)) /\ Rabs (rnd32 (W / L) - W / len3 r) <= 3.8 * eps * (W / len3 r)).
  Proof using All.
    destruct Br as [->|B].
    - left. assert (F : fin mlen32 0) by (apply v3_len_0; exact Ft). split; [reflexivity|]. split; [exact F|].
      unfold mdenom32. rewrite (neq_fin0 _ _ F). destruct (Req_EM_T 0 0); [reflexivity|lra].
    - right. split; [exact B|]. destruct (len3_comp r) as (C0 & C1 & C2).
      assert (B50 : forall x, x <= p2 40 -> x <= p2 50) by (intros x Hx; eapply Rle_trans; [exact Hx|]; apply bpow_le; lia).
      assert (BL : p2 (-32) <= len3 r) by (apply Rle_trans with (p2 (-20)); [apply bpow_le; lia|apply B]).
      destruct (v3_len_err t r Ft) as (L & FL & EL); [repeat split; apply B50; lra|exact BL|].
      pose proof (p2_pos (-20)) as P20. pose proof (p2_pos 20) as P20'. set (n := len3 r) in *.
      change (v3_len t) with mlen32 in FL. exists L. split; [exact FL|]. split; [exact EL|]. apply Rabs_le_inv in EL. unfold eps in EL.
      assert (Lp : 0 < L) by lra. assert (Ip : 0 < / n) by (apply Rinv_0_lt_compat; lra).
      assert (Is : / n * (1 - 2.71 * / 16777216) <= / L <= / n * (1 + 2.71 * / 16777216)).
      { split.
        - apply Rmult_le_reg_r with (L * n); [nra|]. replace (/ L * (L * n)) with n by (field; lra).
          replace (/ n * (1 - 2.71 * / 16777216) * (L * n)) with ((1 - 2.71 * / 16777216) * L) by (field; lra). lra.
        - apply Rmult_le_reg_r with (L * n); [nra|]. replace (/ L * (L * n)) with n by (field; lra).
          replace (/ n * (1 + 2.71 * / 16777216) * (L * n)) with ((1 + 2.71 * / 16777216) * L) by (field; lra). lra. }
      assert (IH : / n <= p2 20) by (replace (p2 20) with (/ p2 (-20)) by (rewrite <- bpow_opp; reflexivity); apply Rinv_le; lra).
      assert (IL : p2 (-40) <= / n) by (change (-40)%Z with (Z.opp 40); rewrite bpow_opp; apply Rinv_le; lra).
      assert (DH : W / n <= p2 40) by (change 40%Z with (20 + 20)%Z; rewrite bpow_plus; apply Rmult_le_compat; lra).
      assert (DL : p2 (-60) <= W / n) by (change (-60)%Z with (-20 + -40)%Z; rewrite bpow_plus; apply Rmult_le_compat; try (apply Rlt_le, p2_pos); lra).
      assert (Ds : W / n * (1 - 2.71 * / 16777216) <= W / L <= W / n * (1 + 2.71 * / 16777216)).
      { unfold Rdiv. rewrite !Rmult_assoc. split; apply Rmult_le_compat_l; lra. }
      assert (HD : Rabs (W / L) <= HUGE).
      { apply (p2_le_HUGE 41); [lia|]. change 41%Z with (1 + 40)%Z. rewrite (p2_shift 1 40 2) by (simpl; lra). pose proof (p2_pos (-60)).
        apply Rabs_le. split; nra. }
      split.
      + unfold mdenom32. rewrite (neq_fin0 _ _ FL). destruct (Req_EM_T L 0); [lra|]. apply fin_div; auto.
      + pose proof (tiny_rel (-60) _ ltac:(lia) DL) as T. pose proof (p2_pos (-60)) as P60.
        destruct (rnd_rel (W / L)) as (e & tt & He & Ht & ->). apply eps_inv in He. apply Rabs_le_inv in Ht. unfold eps in *.
        set (d := W / L) in *. set (D := W / n) in *. clearbody d D.
        assert (d * - / 16777216 <= d * e <= d * / 16777216) by (assert (0 <= d) by nra; split; apply Rmult_le_compat_l; lra).
        apply Rabs_le. lra.
  Qed.
  Lemma move_dl : exists q, fin (nmul mlen32 w) q /\ Rabs (q - W * len3 r) <= 5 * eps * (W * len3 r).
  Proof using All.
    destruct mlen_cases as [(E & F & _)|(B & L & FL & EL & _)].
    - exists 0. pose proof (fin_mul _ _ _ _ F FW) as G. rewrite Rmult_0_l, Rabs_R0, rnd0 in G. split; [apply G; pose proof HUGE_big; lra|].
      rewrite E. unfold len3, dot3. cbn [vx vy vz]. rewrite !Rmult_0_l, !Rplus_0_l, sqrt_0, !Rmult_0_r, Rminus_0_r, Rabs_R0. lra.
    - set (n := len3 r) in *. pose proof (p2_pos (-20)) as P20. apply Rabs_le_inv in EL.
      assert (NH : W * n <= p2 60) by (change 60%Z with (20 + 40)%Z; rewrite bpow_plus; apply Rmult_le_compat; lra).
      assert (NL : p2 (-40) <= W * n) by (change (-40)%Z with (-20 + -20)%Z; rewrite bpow_plus; apply Rmult_le_compat; lra).
      assert (Ds : W * n * (1 - 2.7 * eps) <= L * W <= W * n * (1 + 2.7 * eps)) by (unfold eps in *; nra).
      pose proof (tiny_rel (-40) _ ltac:(lia) NL) as T. pose proof (p2_pos (-40)) as P40. unfold eps in *.
      set (d := L * W) in *. set (D := W * n) in *. 
      assert (HD : Rabs d <= HUGE).
      { apply (p2_le_HUGE 61); [lia|]. change 61%Z with (1 + 60)%Z. rewrite (p2_shift 1 60 2) by (simpl; lra). apply Rabs_le. split; nra. }
      exists (rnd32 d). split; [apply fin_mul; auto|].
      destruct (rnd_rel d) as (e & tt & He & Ht & ->). apply eps_inv in He. apply Rabs_le_inv in Ht. clearbody d D.
      assert (d * - / 16777216 <= d * e <= d * / 16777216) by (assert (0 <= d) by nra; split; apply Rmult_le_compat_l; lra).
      apply Rabs_le. lra.
  Qed.
  Lemma move_dt u ur : fin u ur -> Rabs ur <= len3 r -> exists q, fin (nmul u mdenom32) q /\ Rabs (q - W * (/ len3 r * ur)) <= 5 * eps * W.
  Proof using All.
    intros Fu Hu. pose proof (p2_pos (-20)) as P20. destruct mlen_cases as [(E & F & ED)|(B & L & FL & EL & FD & DD)].
    - rewrite E in *. assert (Z : len3 (V3 0 0 0) = 0).
      { unfold len3, dot3. cbn [vx vy vz]. rewrite !Rmult_0_l, !Rplus_0_l. apply sqrt_0. }
      rewrite Z in *. assert (ur = 0) as -> by (apply Rabs_le_inv in Hu; lra). exists 0. rewrite ED.
      pose proof (fin_mul _ _ _ _ Fu fin_zero) as G. rewrite Rmult_0_l, Rabs_R0, rnd0 in G. split; [apply G; pose proof HUGE_big; lra|].
      rewrite !Rmult_0_r, Rminus_0_r, Rabs_R0. unfold eps. lra.
    - set (n := len3 r) in *. set (d := rnd32 (W / L)) in *. clearbody d.
      assert (D0 : 0 < W / n) by (apply Rdiv_lt_0_compat; lra).
      assert (X : Rabs (ur * d - W * (/ n * ur)) <= 3.8 * eps * W).
      { replace (ur * d - W * (/ n * ur)) with (ur * (d - W / n)) by (field; lra). rewrite Rabs_mult.
        apply Rle_trans with (n * (3.8 * eps * (W / n))); [apply Rmult_le_compat; auto; apply Rabs_pos|]. apply Req_le. field. lra. }
      assert (Y : Rabs (W * (/ n * ur)) <= W).
      { rewrite Rabs_mult, (Rabs_pos_eq W) by lra. rewrite <- (Rmult_1_r W) at 2. apply Rmult_le_compat_l; [lra|].
        rewrite Rabs_mult, Rabs_pos_eq by (apply Rlt_le, Rinv_0_lt_compat; lra). apply Rle_trans with (/ n * n).
        - apply Rmult_le_compat_l; [apply Rlt_le, Rinv_0_lt_compat; lra|exact Hu].
        - rewrite Rinv_l; lra. }
      pose proof (tiny_rel (-20) W ltac:(lia) ltac:(lra)) as T. set (p := ur * d) in *. set (v := W * (/ n * ur)) in *.
      apply Rabs_le_inv in X. apply Rabs_le_inv in Y. unfold eps in *.
      assert (PB : Rabs p <= 1.001 * W) by (apply Rabs_le; lra).
      exists (rnd32 p). split.
      + apply fin_mul; auto. apply (p2_le_HUGE 21); [lia|]. change 21%Z with (1 + 20)%Z. rewrite (p2_shift 1 20 2) by (simpl; lra). fold p. lra.
      + pose proof (rnd_err p) as RE. apply Rabs_le_inv in RE. unfold eps in RE. apply Rabs_le. lra.
  Qed.
End Move.

(** One term added to a running sum. *)
Definition kap (k : R) : R := (1.001 * k + 5) * eps.
Lemma acc_step s t p q S T B w k : fin s p -> fin t q -> Rabs S <= B -> Rabs T <= w -> 0 <= k <= 4096 -> B + w <= p2 100 ->
  Rabs (p - S) <= kap k * B -> Rabs (q - T) <= 5 * eps * w ->
  exists r, fin (nadd s t) r /\ Rabs (r - (S + T)) <= kap (k + 1) * (B + w).
Proof.
  intros Fs Ft HS HT Hk HB E1 E2. pose proof (Rabs_pos S). pose proof (Rabs_pos T).
  assert (KK : 0 <= kap k <= / 1000) by (unfold kap, eps; lra).
  assert (G1 : kap k * B <= / 1000 * B) by (apply Rmult_le_compat_r; lra).
  assert (G2 : 5 * eps * w <= kap k * w) by (apply Rmult_le_compat_r; [lra|]; unfold kap, eps; lra).
  assert (HH : Rabs (p + q) <= HUGE).
  { apply (p2_le_HUGE 101); [lia|]. change 101%Z with (1 + 100)%Z. rewrite (p2_shift 1 100 2) by (simpl; lra).
    apply Rabs_le_inv in HS. apply Rabs_le_inv in HT. apply Rabs_le_inv in E1. apply Rabs_le_inv in E2.
    assert (kap k * w <= / 1000 * w) by (apply Rmult_le_compat_r; lra). apply Rabs_le. lra. }
  destruct (err_add s t p q S T B w (kap k) 0 0 Fs Ft HH HS HT KK) as (r & Fr & Er); try lra.
  exists r. split; [exact Fr|]. eapply Rle_trans; [exact Er|]. apply Req_le. unfold kap. ring.
Qed.

(** ** The rotation sum *)
Lemma mcomp s q w a b om : fin s a -> fin q b -> fin w om -> Rabs a <= p2 47 -> Rabs b <= 2 -> Rabs om <= p2 20 ->
  exists o d e, fin (nadd s (nmul q w)) o /\ Rabs o <= p2 47 /\ o = (a + (b * om + d)) * (1 + e) /\ Rabs d <= eps * (Rabs b * Rabs om) + tiny /\ Rabs e <= eps.
Proof.
  intros Fs Fq Fw Ba Bb HW.
  assert (AW : Rabs (b * om) <= p2 21).
  { rewrite Rabs_mult. change 21%Z with (1 + 20)%Z. rewrite (p2_shift 1 20 2) by (simpl; lra). apply Rmult_le_compat; auto; apply Rabs_pos. }
  pose proof (rnd_abs_le 21 _ ltac:(lia) AW) as AR. pose proof (fin_mul _ _ _ _ Fq Fw (p2_le_HUGE 21 _ ltac:(lia) AW)) as Ft.
  assert (AS : Rabs (a + rnd32 (b * om)) <= HUGE).
  { apply (p2_le_HUGE 48); [lia|]. eapply Rle_trans; [apply Rabs_triang|].
    replace (p2 48) with (p2 47 + p2 47) by (change 48%Z with (1 + 47)%Z; rewrite (p2_shift 1 47 2) by (simpl; lra); lra).
    apply Rplus_le_compat; [exact Ba|]. eapply Rle_trans; [exact AR|]. apply bpow_le. lia. }
  destruct (rnd_add_rel a (rnd32 (b * om)) (fin_fmt _ _ Fs) (rnd_fmt _)) as (e & He & E).
  exists (rnd32 (a + rnd32 (b * om))), (rnd32 (b * om) - b * om), e. split; [apply fin_add; assumption|]. split; [|split; [|split]].
  - apply (absorb 21); [lia|exact Ba|exact AR].
  - rewrite E. f_equal. ring.
  - rewrite <- Rabs_mult. apply rnd_err.
  - exact He.
Qed.
Definition msigned (o : order) (s q : quat f32) (w : f32) : f32 := if nle (nzero : f32) (g_dot o s q) then nabs w else nneg (nabs w).
Lemma bq50 b r k : b <= p2 k -> (k <= 50)%Z -> boundq b r -> boundq (p2 50) r.
Proof. intros H K (A & B & C & D). assert (b <= p2 50) by (eapply Rle_trans; [exact H|]; apply bpow_le; exact K). repeat split; lra. Qed.
Lemma mrot_pass o s q w a b W : finq s a -> finq q b -> fin w W -> boundq (p2 47) a -> boundq 2 b -> 0.99 <= nq b <= 1.01 -> p2 (-20) <= W <= p2 20 ->
  exists r D om, finq (q_add s (q_mul_num q (msigned o s q w))) r /\ boundq (p2 47) r /\ p2 (-42) <= nq r /\
    fin (msigned o s q w) om /\ (om = if Rle_dec 0 D then W else - W) /\ Rabs (D - rdot a b) <= 4.1 * eps * absdot a b + 5 * tiny.
Proof.
  intros Fs Fq Fw Ba Bb Nb HW. pose proof (p2_pos (-20)) as P20.
  destruct (g_dot_err o s q a b Fs Fq (bq50 (p2 47) a 47 ltac:(lra) ltac:(lia) Ba) (bq50 2 b 1 ltac:(simpl; lra) ltac:(lia) Bb)) as (D & FD & ED).
  pose proof (fin_abs _ _ Fw) as FA. rewrite Rabs_pos_eq in FA by lra.
  set (om := if Rle_dec 0 D then W else - W).
  assert (Fo : fin (msigned o s q w) om).
  { unfold msigned, om. rewrite (nle0_fin _ _ FD). destruct (Rle_dec 0 D); [exact FA|apply fin_neg, FA]. }
  assert (Ao : Rabs om = W) by (unfold om; destruct (Rle_dec 0 D); [|rewrite Rabs_Ropp]; apply Rabs_pos_eq; lra).
  assert (Bo : Rabs om <= p2 20) by (rewrite Ao; lra).
  destruct Fs as (F0 & F1 & F2 & F3). destruct Fq as (G0 & G1 & G2 & G3). destruct Ba as (A0 & A1 & A2 & A3). destruct Bb as (B0 & B1 & B2 & B3).
  destruct (mcomp _ _ _ _ _ _ F0 G0 Fo A0 B0 Bo) as (o0 & d0 & e0 & H0 & P0 & E0 & K0 & L0).
  destruct (mcomp _ _ _ _ _ _ F1 G1 Fo A1 B1 Bo) as (o1 & d1 & e1 & H1 & P1 & E1 & K1 & L1).
  destruct (mcomp _ _ _ _ _ _ F2 G2 Fo A2 B2 Bo) as (o2 & d2 & e2 & H2 & P2 & E2 & K2 & L2).
  destruct (mcomp _ _ _ _ _ _ F3 G3 Fo A3 B3 Bo) as (o3 & d3 & e3 & H3 & P3 & E3 & K3 & L3).
  rewrite Ao in *.
  exists (Q4 o0 o1 o2 o3), D, om. split; [split; [|split; [|split]]; assumption|]. split; [repeat split; assumption|]. split; [|split; [exact Fo|split; [reflexivity|exact ED]]].
  unfold nq at 1. cbn [qx qy qz qw].
  assert (LB : forall u c d e x, x = (u + (c * om + d)) * (1 + e) -> Rabs d <= eps * (Rabs c * W) + tiny -> Rabs e <= eps ->
     0.98 * ((u + c * om) * (u + c * om)) - (/ 10000 * (c * c * (W * W)) + 100 * tiny) <= x * x).
  { intros u c d e x -> Hd He. pose proof (sq_lower (u + c * om) d e He) as Q. pose proof (d_small c W d ltac:(lra) Hd) as Q2.
    replace (u + (c * om + d)) with (u + c * om + d) by ring. lra. }
  pose proof (LB _ _ _ _ _ E0 K0 L0) as Q0. pose proof (LB _ _ _ _ _ E1 K1 L1) as Q1.
  pose proof (LB _ _ _ _ _ E2 K2 L2) as Q2. pose proof (LB _ _ _ _ _ E3 K3 L3) as Q3.
  pose proof (absdot_le a b W ltac:(lra)) as AD.
  set (dd := if Rle_dec 0 D then rdot a b else - rdot a b).
  assert (SG : - (4.1 * eps * absdot a b + 5 * tiny) <= dd).
  { apply Rabs_le_inv in ED. unfold dd. destruct (Rle_dec 0 D); lra. }
  assert (EX : (qx a + qx b * om) * (qx a + qx b * om) + (qy a + qy b * om) * (qy a + qy b * om) +
               (qz a + qz b * om) * (qz a + qz b * om) + (qw a + qw b * om) * (qw a + qw b * om) = nq a + nq b * (W * W) + 2 * (W * dd)).
  { unfold om, dd, nq, rdot. destruct (Rle_dec 0 D); ring. }
  assert (WD : - (W * (4.1 * eps * absdot a b + 5 * tiny)) <= W * dd) by (rewrite <- Ropp_mult_distr_r_reverse; apply Rmult_le_compat_l; [lra|exact SG]).
  assert (NB : nq b * (W * W) = qx b * qx b * (W * W) + qy b * qy b * (W * W) + qz b * qz b * (W * W) + qw b * qw b * (W * W)) by (unfold nq; ring).
  assert (WL : p2 (-40) <= W * W) by (change (-40)%Z with (-20 + -20)%Z; rewrite bpow_plus; apply Rmult_le_compat; lra).
  assert (Na : 0 <= nq a) by (clear; unfold nq; nra).
  assert (TW : W * tiny <= / 100000 * (W * W)).
  { apply Rle_trans with (p2 20 * tiny); [apply Rmult_le_compat_r; [apply Rlt_le, tiny_pos|lra]|].
    apply Rle_trans with (p2 (-20) * p2 (-40)); [unfold tiny; rewrite <- !bpow_plus; apply bpow_le; lia|].
    apply Rmult_le_compat; try (apply Rlt_le, p2_pos); [simpl; lra|exact WL]. }
  assert (T1 : tiny <= / 100000 * (W * W)).
  { apply Rle_trans with (p2 (-20) * p2 (-40)); [unfold tiny; rewrite <- !bpow_plus; apply bpow_le; lia|].
    apply Rmult_le_compat; try (apply Rlt_le, p2_pos); [simpl; lra|exact WL]. }
  assert (NW : 0.99 * (W * W) <= nq b * (W * W) <= 1.01 * (W * W)) by (clear - Nb; pose proof (Rle_0_sqr W); unfold Rsqr in *; split; apply Rmult_le_compat_r; lra).
  assert (P42 : p2 (-42) <= / 2 * p2 (-40)) by (change (-42)%Z with (-2 + -40)%Z; rewrite bpow_plus; apply Rmult_le_compat_r; [apply Rlt_le, p2_pos|simpl; lra]).
  set (X := nq b * (W * W)) in *. set (Y := W * W) in *. set (Wd := W * dd) in *. set (A := nq a) in *.
  set (WA := W * absdot a b) in *. replace (W * (4.1 * eps * absdot a b + 5 * tiny)) with (4.1 * eps * WA + 5 * (W * tiny)) in WD by (unfold WA; ring).
  set (WT := W * tiny) in *. unfold eps in *. eapply Rle_trans; [exact P42|].
  set (pl := p2 (-40)) in *. clearbody WA WT Wd X Y A pl. clear - Q0 Q1 Q2 Q3 EX WD NB NW AD TW T1 WL Na. lra.
Qed.

(** ** The loop *)
Definition part (f : mlayer R -> R) (l : mlayer R) : R := if Rlt_dec 0 (ml_weight l) then ml_weight l * f l else 0.
Definition part3 (l : mlayer R) : vec3 R := V3 (part (fun l => vx (dir l)) l) (part (fun l => vy (dir l)) l) (part (fun l => vz (dir l)) l).
Record Inv (k : nat) (W DL : R) (DT : vec3 R) (a : @macc f32) : Prop := mkInv {
  iW : W = 0 \/ p2 (-20) <= W <= INR k * p2 20;
  iDL : (DL = 0 /\ DT = V3 0 0 0) \/ (p2 (-40) <= DL <= INR k * p2 60);
  iDT : bound3 W DT;
  iaw : exists x, fin (a_w a) x /\ Rabs (x - W) <= kap (INR k) * W;
  iadl : exists x, fin (a_dl a) x /\ Rabs (x - DL) <= kap (INR k) * DL;
  iadt : exists d, fin3 (a_dt a) d /\ Rabs (vx d - vx DT) <= kap (INR k) * W /\ Rabs (vy d - vy DT) <= kap (INR k) * W /\ Rabs (vz d - vz DT) <= kap (INR k) * W;
  iadr : (W = 0 /\ a_dr a = q_zero) \/ exists r, finq (a_dr a) r /\ boundq (p2 47) r /\ p2 (-42) <= nq r }.

Definition used (l : mlayer f32) : Prop :=
  is_finite (ml_weight l) = true /\ p2 (-20) <= B2R (ml_weight l) <= p2 20 /\ finite3 (tr_t (ml_delta l)) /\
  (real3 (tr_t (ml_delta l)) = V3 0 0 0 \/ p2 (-20) <= len3 (real3 (tr_t (ml_delta l))) <= p2 40) /\
  finite4 (tr_r (ml_delta l)) /\ Rabs (norm2 (real4 (tr_r (ml_delta l))) - 1) <= / 100.
Lemma fin_of x : is_finite x = true -> fin x (B2R x). Proof. intros H. split; auto. Qed.
Lemma skipped x : nle x (nzero : f32) = true -> B2R x <= 0.
Proof.
  intros H. destruct (is_finite x) eqn:F; [|destruct x; try discriminate; cbn; lra].
  rewrite (nle_fin0 x _ (fin_of _ F)) in H. destruct (Rle_dec (B2R x) 0); [assumption|discriminate].
Qed.
(** What the job does with a layer: nothing, or one step for a layer in range. *)
Lemma step_layer o a l : usable_mlayer l ->
  (mstep_on o a l = a /\ forall f, part f (real_mlayer l) = 0) \/
  (used l /\ (forall f, part f (real_mlayer l) = B2R (ml_weight l) * f (real_mlayer l)) /\
   mstep_on o a l = mk_macc (nadd (a_w a) (ml_weight l)) (nadd (a_dl a) (nmul (mlen32 (tr_t (ml_delta l))) (ml_weight l)))
     (v3_add (a_dt a) (v3_mul_num (tr_t (ml_delta l)) (mdenom32 (ml_weight l) (tr_t (ml_delta l)))))
     (q_add (a_dr a) (q_mul_num (tr_r (ml_delta l)) (msigned o (a_dr a) (tr_r (ml_delta l)) (ml_weight l))))).
Proof.
  intros [H|U].
  - left. split; [unfold mstep_on; cbv zeta; change (@num_arith f32 f32num) with f32arith; rewrite H; reflexivity|]. intros f. unfold part. cbn. pose proof (skipped _ H). destruct (Rlt_dec 0 (B2R (ml_weight l))); [lra|reflexivity].
  - right. split; [exact U|]. destruct U as (F & B & _). pose proof (p2_pos (-20)) as P. split.
    + intros f. unfold part. cbn [ml_weight real_mlayer]. destruct (Rlt_dec 0 (B2R (ml_weight l))); [reflexivity|lra].
    + unfold mstep_on. cbv zeta. change (@num_arith f32 f32num) with f32arith. rewrite (nle_fin0 _ _ (fin_of _ F)).
      destruct (Rle_dec (B2R (ml_weight l)) 0); [lra|]. reflexivity.
Qed.
Lemma kap_mono k B : 0 <= B -> kap (INR k) * B <= kap (INR (S k)) * B.
Proof. intros H. apply Rmult_le_compat_r; [exact H|]. rewrite S_INR. unfold kap, eps. lra. Qed.
Lemma INR_4096' n : (n <= 4096)%nat -> 0 <= INR n <= 4096.
Proof.
  intros H. split; [apply pos_INR|]. replace 4096 with (INR 4096) by (rewrite INR_IZR_INZ; reflexivity). apply le_INR. exact H.
Qed.
Lemma quat_usable q : finite4 q -> Rabs (norm2 (real4 q) - 1) <= / 100 -> finq q (real4 q) /\ boundq 2 (real4 q) /\ 0.99 <= nq (real4 q) <= 1.01.
Proof.
  intros (F0 & F1 & F2 & F3) H. apply Rabs_le_inv in H. split; [repeat split; assumption|]. split; [|change nq with norm2; lra].
  assert (G : forall x, x * x <= 1.01 -> Rabs x <= 2) by (intros x Hx; apply Rabs_le; split; nra). unfold norm2 in H.
  repeat split; apply G; nra.
Qed.
Lemma dir_bound l : bound3 1 (dir l).
Proof.
  unfold dir. destruct (len3_comp (tr_t (ml_delta l))) as (C0 & C1 & C2). change (len3 (tr_t (ml_delta l))) with (mlen l) in *.
  assert (G : forall x, Rabs x <= mlen l -> Rabs (/ mlen l * x) <= 1).
  { intros x Hx. destruct (Req_dec (mlen l) 0) as [E|E].
    - rewrite E, Rinv_0, Rmult_0_l, Rabs_R0. lra.
    - assert (0 < mlen l) by (pose proof (Rabs_pos x); lra). rewrite Rabs_mult, Rabs_pos_eq by (apply Rlt_le, Rinv_0_lt_compat; lra).
      apply Rmult_le_reg_l with (mlen l); [lra|]. rewrite <- Rmult_assoc, Rinv_r by lra. lra. }
  repeat split; cbn; apply G; assumption.
Qed.

Lemma inv_step o k W DL DT a l : usable_mlayer l -> (k < 4096)%nat -> Inv k W DL DT a ->
  Inv (S k) (W + part (fun _ => 1) (real_mlayer l)) (DL + part mlen (real_mlayer l)) (plus3 DT (part3 (real_mlayer l))) (mstep_on o a l).
Proof.
  intros U Hk [HW HDL HDT (aw & Faw & Eaw) (adl & Fdl & Edl) (d & Fd & E0 & E1 & E2) HR].
  pose proof (INR_4096' k ltac:(lia)) as Hk'. pose proof (p2_pos (-20)) as P20. pose proof (p2_pos (-40)) as P40.
  pose proof (p2_pos 20) as P20'. pose proof (p2_pos 60) as P60'.
  assert (W0 : 0 <= W) by (destruct HW; lra). assert (DL0 : 0 <= DL) by (destruct HDL; lra).
  destruct (step_layer o a l U) as [(-> & Z)|(Us & PF & ->)].
  - unfold part3. rewrite !Z. rewrite !Rplus_0_r. replace (plus3 DT (V3 0 0 0)) with DT by (destruct DT; unfold plus3; cbn; f_equal; ring).
    pose proof (kap_mono k W W0) as M1. pose proof (kap_mono k DL DL0) as M2.
    assert (I1 : INR k * p2 20 <= INR (S k) * p2 20) by (rewrite S_INR; nra). assert (I2 : INR k * p2 60 <= INR (S k) * p2 60) by (rewrite S_INR; nra).
    constructor; [destruct HW; [left; assumption|right; lra]|destruct HDL; [left; assumption|right; lra]|exact HDT| | | |exact HR].
    + exists aw. split; [exact Faw|lra]. + exists adl. split; [exact Fdl|lra]. + exists d. split; [exact Fd|]. repeat split; lra.
  - unfold part3. rewrite !PF. destruct Us as (Fw & Bw & (T0 & T1 & T2) & Bt & Fr & Nr).
    set (w := B2R (ml_weight l)) in *. pose proof (fin_of _ Fw) as FW. fold w in FW.
    assert (Ft : fin3 (tr_t (ml_delta l)) (real3 (tr_t (ml_delta l)))) by (repeat split; assumption).
    change (mlen (real_mlayer l)) with (len3 (real3 (tr_t (ml_delta l)))).
    set (t := tr_t (ml_delta l)) in *. set (r := real3 t) in *. destruct (len3_comp r) as (C0 & C1 & C2).
    assert (n0 : 0 <= len3 r) by apply len3_nonneg.
    assert (nH : len3 r <= p2 40) by (destruct Bt as [->|]; [|lra]; unfold len3, dot3; cbn [vx vy vz]; rewrite !Rmult_0_l, !Rplus_0_l, sqrt_0; apply Rlt_le, p2_pos).
    assert (wn : w * len3 r <= p2 60) by (change 60%Z with (20 + 40)%Z; rewrite bpow_plus; apply Rmult_le_compat; lra).
    assert (wn0 : 0 <= w * len3 r) by (apply Rmult_le_pos; lra).
    assert (S60 : INR (S k) * p2 60 <= p2 73).
    { rewrite S_INR. change 73%Z with (13 + 60)%Z. rewrite bpow_plus. apply Rmult_le_compat_r; [lra|]. simpl. lra. }
    assert (S20 : INR (S k) * p2 20 <= p2 33).
    { rewrite S_INR. change 33%Z with (13 + 20)%Z. rewrite bpow_plus. apply Rmult_le_compat_r; [lra|]. simpl. lra. }
    assert (I20 : 0 <= INR k * p2 20) by (apply Rmult_le_pos; lra). assert (I60 : 0 <= INR k * p2 60) by (apply Rmult_le_pos; lra).
    assert (W1 : W + w * 1 <= INR (S k) * p2 20) by (rewrite S_INR; destruct HW; nra).
    assert (DL1 : DL + w * len3 r <= INR (S k) * p2 60) by (rewrite S_INR; destruct HDL; nra).
    pose proof (bpow_le radix2 33 100 ltac:(lia)) as Q33. pose proof (bpow_le radix2 73 100 ltac:(lia)) as Q73.
    pose proof (dir_bound (real_mlayer l)) as (D0 & D1 & D2).
    assert (DW : forall x, Rabs x <= 1 -> Rabs (w * x) <= w) by (intros x Hx; rewrite Rabs_mult, (Rabs_pos_eq w) by lra; rewrite <- (Rmult_1_r w) at 2; apply Rmult_le_compat_l; lra).
    destruct HDT as (B0 & B1 & B2).
    destruct (quat_usable _ Fr Nr) as (Fq & Bq & Nq).
    constructor; cbn [a_w a_dl a_dt a_dr].
    + right. lra.
    + assert (Z : len3 (V3 0 0 0) = 0) by (unfold len3, dot3; cbn [vx vy vz]; rewrite !Rmult_0_l, !Rplus_0_l; apply sqrt_0).
      destruct Bt as [Z0|Bt].
      * assert (DZ : dir (real_mlayer l) = V3 0 0 0).
        { unfold dir. change (tr_t (ml_delta (real_mlayer l))) with r. rewrite Z0. unfold scale3. cbn. f_equal; ring. }
        rewrite DZ, Z0, Z, Rmult_0_r, Rplus_0_r. cbn [vx vy vz]. rewrite !Rmult_0_r. destruct HDL as [[-> ->]|HDL]; [left|right; rewrite S_INR; lra].
        split; [reflexivity|]. unfold plus3. cbn. f_equal; ring.
      * right. split; [|exact DL1]. assert (p2 (-40) <= w * len3 r) by (change (-40)%Z with (-20 + -20)%Z; rewrite bpow_plus; apply Rmult_le_compat; lra). lra.
    + unfold plus3. repeat split; cbn [vx vy vz]; (eapply Rle_trans; [apply Rabs_triang|]);
        [pose proof (DW _ D0)|pose proof (DW _ D1)|pose proof (DW _ D2)]; lra.
    + destruct (acc_step _ _ aw w W (w * 1) W (w * 1) (INR k) Faw FW) as (x & Fx & Ex); try lra.
      * rewrite Rabs_pos_eq; lra. * rewrite Rabs_pos_eq; lra.
      * rewrite Rmult_1_r, Rminus_diag_eq, Rabs_R0 by reflexivity. unfold eps. lra.
      * exists x. split; [exact Fx|]. rewrite S_INR. exact Ex.
    + destruct (move_dl _ _ _ _ FW Bw Ft Bt) as (q & Gq & Eq).
      destruct (acc_step _ _ adl q DL (w * len3 r) DL (w * len3 r) (INR k) Fdl Gq) as (x & Fx & Ex); try lra.
      * rewrite Rabs_pos_eq; lra. * rewrite Rabs_pos_eq; lra.
      * exists x. split; [exact Fx|]. rewrite S_INR. exact Ex.
    + destruct Fd as (G0 & G1 & G2).
      destruct Ft as (T0' & T1' & T2').
      destruct (move_dt _ _ _ _ FW Bw (Logic.conj T0' (Logic.conj T1' T2')) Bt _ _ T0' C0) as (q0 & H0 & K0).
      destruct (move_dt _ _ _ _ FW Bw (Logic.conj T0' (Logic.conj T1' T2')) Bt _ _ T1' C1) as (q1 & H1 & K1).
      destruct (move_dt _ _ _ _ FW Bw (Logic.conj T0' (Logic.conj T1' T2')) Bt _ _ T2' C2) as (q2 & H2 & K2).
      destruct (acc_step _ _ (vx d) q0 (vx DT) (w * vx (dir (real_mlayer l))) W w (INR k) G0 H0) as (x0 & X0 & Y0); try (apply DW, D0); try assumption; try lra.
      destruct (acc_step _ _ (vy d) q1 (vy DT) (w * vy (dir (real_mlayer l))) W w (INR k) G1 H1) as (x1 & X1 & Y1); try (apply DW, D1); try assumption; try lra.
      destruct (acc_step _ _ (vz d) q2 (vz DT) (w * vz (dir (real_mlayer l))) W w (INR k) G2 H2) as (x2 & X2 & Y2); try (apply DW, D2); try assumption; try lra.
      exists (V3 x0 x1 x2). split; [repeat split; [apply X0|apply X0|apply X1|apply X1|apply X2|apply X2]|].
      rewrite Rmult_1_r, S_INR. cbn [vx vy vz plus3]. repeat split; assumption.
    + right. assert (FR : exists s, finq (a_dr a) s /\ boundq (p2 47) s).
      { destruct HR as [[_ ->]|(s & Fs & Bs & _)]; [|exists s; split; assumption].
        exists (Q4 0 0 0 0). split; [repeat split; apply fin_zero|]. pose proof (p2_pos 47). repeat split; cbn; rewrite Rabs_R0; lra. }
      destruct FR as (s & Fs & Bs). destruct (mrot_pass o _ _ _ _ _ _ Fs Fq FW Bs Bq Nq Bw) as (r' & _ & _ & Fr' & Br' & Nr' & _).
      exists r'. split; [exact Fr'|]. split; assumption.
Qed.
Lemma inv_0 : Inv 0 0 0 (V3 0 0 0) macc0.
Proof.
  assert (Z : forall b, 0 <= b -> Rabs 0 <= b) by (intros; rewrite Rabs_R0; assumption).
  constructor; [left; reflexivity|left; split; reflexivity| | | | |left; split; reflexivity].
  - repeat split; apply Z; lra.
  - exists 0. split; [apply fin_zero|]. rewrite Rminus_0_r, Rmult_0_r. apply Z. lra.
  - exists 0. split; [apply fin_zero|]. rewrite Rminus_0_r, Rmult_0_r. apply Z. lra.
  - exists (V3 0 0 0). split; [repeat split; apply fin_zero|]. cbn. rewrite Rminus_0_r, Rmult_0_r. repeat split; apply Z; lra.
Qed.
Lemma inv_run o ls : Forall usable_mlayer ls -> forall k W DL DT a, (k + length ls <= 4096)%nat -> Inv k W DL DT a ->
  let rs := map real_mlayer ls in
  Inv (k + length ls) (W + total_weight rs) (DL + wsum mlen rs) (plus3 DT (mean_dir rs)) (fold_left (mstep_on o) ls a).
Proof.
  induction 1 as [|l ls U _ IH]; intros k W DL DT a Hk I; cbv zeta.
  - cbn [map length fold_left]. rewrite Nat.add_0_r. unfold total_weight, mean_dir, plus3. cbn. rewrite !Rplus_0_r. destruct DT. exact I.
  - cbn [map length fold_left] in *. pose proof (inv_step o k W DL DT a l U ltac:(lia) I) as I'.
    specialize (IH (S k) _ _ _ _ ltac:(lia) I'). cbv zeta in IH. replace (k + S (length ls))%nat with (S k + length ls)%nat by lia.
    replace (W + total_weight (real_mlayer l :: map real_mlayer ls)) with (W + part (fun _ => 1) (real_mlayer l) + total_weight (map real_mlayer ls))
      by (unfold total_weight; cbn [wsum]; unfold part; ring).
    replace (DL + wsum mlen (real_mlayer l :: map real_mlayer ls)) with (DL + part mlen (real_mlayer l) + wsum mlen (map real_mlayer ls))
      by (cbn [wsum]; unfold part; ring).
    replace (plus3 DT (mean_dir (real_mlayer l :: map real_mlayer ls))) with (plus3 (plus3 DT (part3 (real_mlayer l))) (mean_dir (map real_mlayer ls)))
      by (unfold plus3, mean_dir, part3; cbn [wsum vx vy vz]; unfold part; f_equal; ring).
    exact IH.
Qed.
