(** C71, C72: sampled poses follow their keys, on binary32. *)
From Coq Require Import Reals Lra Psatz.
From Flocq Require Import IEEE754.BinarySingleNaN Core.
From Verif Require Import Base Num NumF32 F32Facts F32Err Math Keys KeysSpec KeysProofs KeysUnit.
From Verif Require Import Sampling SamplingSpec SamplingCache SamplingProofs SamplingHist SamplingOrd SamplingProps MathProps.
From Verif Require Import PoseSpec PoseProofs.
Local Open Scope R_scope.

Lemma wf_parts (a : anim32) : wf_animation a = true -> (0 < num_soa a)%nat ->
  (wf_chan (an_num_tracks a) (num_soa a) (an_timepoints a) (an_t a) /\ length (an_tkeys a) = length (k_prev (an_t a))) /\
  (wf_chan (an_num_tracks a) (num_soa a) (an_timepoints a) (an_r a) /\ length (an_rkeys a) = length (k_prev (an_r a))) /\
  (wf_chan (an_num_tracks a) (num_soa a) (an_timepoints a) (an_s a) /\ length (an_skeys a) = length (k_prev (an_s a))).
Proof.
  intros WA Hpos. unfold wf_animation in WA.
  repeat match goal with H : _ && _ = true |- _ => apply andb_prop in H; destruct H end.
  match goal with H : forallb isnum _ = true |- _ => rename H into Htp end.
  split; [|split]; (split; [|]).
  all: match goal with
       | H : wf_channel _ _ ?n _ ?k = true |- wf_chan _ _ _ ?k => apply (wf_facts _ _ _ _ _ eq_refl Hpos Htp H)
       | H : wf_channel _ _ ?n _ ?k = true |- ?n = length (k_prev ?k) => apply (wf_facts _ _ _ _ _ eq_refl Hpos Htp H)
       end.
Qed.
Lemma covers_parts (a : anim32) : covers a = true ->
  forallb (fun x => nle nzero x && nle x none_) (an_timepoints a) = true /\
  channel_covers (4 * num_soa a) (an_timepoints a) (an_t a) = true /\
  channel_covers (4 * num_soa a) (an_timepoints a) (an_r a) = true /\
  channel_covers (4 * num_soa a) (an_timepoints a) (an_s a) = true.
Proof.
  unfold covers. intros H. repeat match goal with H : _ && _ = true |- _ => apply andb_prop in H; destruct H end. auto.
Qed.

(** Every lane of the output. *)
Definition every_track (a : anim32) (output : list (transform (V4 f32))) (P : nat -> transform f32 -> Prop) : Prop :=
  forall i l, (i < num_soa a)%nat -> (l < 4)%nat ->
    exists x, nth_error output i = Some x /\ P (4 * i + l)%nat (lane_tr x l).

Lemma some_inj {A} (x y : A) : Some x = Some y -> x = y.
Proof. congruence. Qed.
Lemma sampled_every (a : anim32) r before after (P : nat -> transform f32 -> Prop) : sampled32 a key0 key0 r before after ->
  (forall t, (t < 4 * num_soa a)%nat -> P t (sample_track float3_lane quat_decompress a key0 key0 r t)) ->
  every_track a after P.
Proof.
  intros (_ & S & _) H i l Hi Hl. specialize (S i l Hi Hl).
  destruct (nth_error after i) as [x|]; [|discriminate]. exists x. split; [reflexivity|].
  apply some_inj in S. rewrite S. apply H. lia.
Qed.

(** C71.  In the setting of C01 (any history of the context), for an animation whose tracks end at
    ratio 1 and whose translation and scale keys are finite halves: every sampled translation and
    scale coordinate is finite, follows the straight line between its two neighbouring keys, stays
    between them and equals a key at the time of that key ([follows3]). *)
Theorem C71_follows_keys :
  forall (outside : nat -> N) (lib : list anim32) (c0 : context f32) (history : list (@op f32 key key))
         (a : anim32) (r : f32) (output : list (transform (V4 f32))),
    (forall j, (outside j < 256)%N) -> (forall b, In b lib -> an_id b <> 0%N) ->
    library (cx_max_soa c0) lib -> fresh c0 -> Forall (op_ok lib) history ->
    In a lib -> num_soa a = cx_max_soa c0 -> nle nzero r = true -> nle r none_ = true ->
    (num_soa a <= length output)%nat ->
    covers a = true -> Forall key3_ok (an_tkeys a) -> Forall key3_ok (an_skeys a) ->
    exists c c' output',
      exec32 outside c0 history = Ok c /\
      run32 outside (Some a) (Some c) r (Some output) = Ok (c', output') /\
      every_track a output' (fun t p =>
        follows3 (4 * num_soa a) (an_timepoints a) (an_t a) (an_tkeys a) key0 r t (tr_t p) /\
        follows3 (4 * num_soa a) (an_timepoints a) (an_s a) (an_skeys a) key0 r t (tr_s p)).
Proof.
  intros outside lib c0 history a r output Hout Hz HL HF HH Ha Hn H0 H1 Ho Hc Kt Ks.
  destruct (C01_sampling_history_independent outside lib c0 history a r output Hout Hz HL HF HH Ha Hn H0 H1 Ho)
    as (c & c' & o & E1 & E2 & S).
  exists c, c', o. split; [exact E1|]. split; [exact E2|]. eapply sampled_every; [exact S|]. intros t Ht.
  destruct (wf_parts a (proj1 (proj1 HL a Ha)) ltac:(lia)) as ((Wt & Lt) & _ & (Ws & Ls)).
  destruct (covers_parts a Hc) as (Htp & Ct & _ & Cs). cbn [tr_t tr_s].
  split; eapply sample3_follows; eassumption.
Qed.
Print Assumptions C71_follows_keys.

(** C71: while the ratio moves forward without passing a key of the track, every translation and
    scale coordinate moves one way, starting at the left key. *)
Definition monotone3 (T : nat) (k : ctrl f32) (keys : list key) (t : nat) (v v' : vec3 f32) : Prop :=
  exists kl kr, consecutive kl kr (track_keys T k (length (k_prev k)) t) /\
    forall c, (c < 3)%nat ->
      let a := half_value (coord (nth kl keys key0) c) in
      let b := half_value (coord (nth kr keys key0) c) in
      (a <= b -> a <= B2R (coord v c) <= B2R (coord v' c)) /\ (b <= a -> B2R (coord v' c) <= B2R (coord v c) <= a).
Definition no_key_between (T : nat) (tp : list f32) (k : ctrl f32) (r r' : f32) (t : nat) : Prop :=
  forall x, In x (removelast (track_keys T k (length (k_prev k)) t)) -> ~ (B2R r < B2R (time tp k x) <= B2R r').
Theorem C71_monotone_between_keys :
  forall (a : anim32) (r r' : f32) (before before' after after' : list (transform (V4 f32))) (i l : nat),
    wf_animation a = true -> covers a = true -> Forall key3_ok (an_tkeys a) -> Forall key3_ok (an_skeys a) ->
    nle nzero r = true -> nle r r' = true -> nle r' none_ = true ->
    sampled32 a key0 key0 r before after -> sampled32 a key0 key0 r' before' after' ->
    (i < num_soa a)%nat -> (l < 4)%nat ->
    exists x x', nth_error after i = Some x /\ nth_error after' i = Some x' /\
      let T := (4 * num_soa a)%nat in let t := (4 * i + l)%nat in let tp := an_timepoints a in
      (no_key_between T tp (an_t a) r r' t ->
       monotone3 T (an_t a) (an_tkeys a) t (tr_t (lane_tr x l)) (tr_t (lane_tr x' l))) /\
      (no_key_between T tp (an_s a) r r' t ->
       monotone3 T (an_s a) (an_skeys a) t (tr_s (lane_tr x l)) (tr_s (lane_tr x' l))).
Proof.
  intros a r r' be be' af af' i l WA Hc Kt Ks H0 H1 H2 (_ & S & _) (_ & S' & _) Hi Hl.
  specialize (S i l Hi Hl). specialize (S' i l Hi Hl).
  destruct (nth_error af i) as [x|]; [|discriminate]. destruct (nth_error af' i) as [x'|]; [|discriminate].
  exists x, x'. split; [reflexivity|]. split; [reflexivity|]. cbv zeta.
  apply some_inj in S. apply some_inj in S'.
  destruct (wf_parts a WA ltac:(lia)) as ((Wt & Lt) & _ & (Ws & Ls)).
  destruct (covers_parts a Hc) as (Htp & Ct & _ & Cs).
  rewrite S, S'. unfold sample_track. cbn [tr_t tr_s].
  split; intros HN; eapply sample3_monotone; try eassumption; lia.
Qed.
Print Assumptions C71_monotone_between_keys.

(** C72.  If moreover the rotation keys are unit quaternions and neighbouring ones are at most half
    a turn apart, every sampled rotation is finite, is the normalised interpolation of its two
    neighbouring keys within 2^-17, and has norm 1 within 2^-19 ([followsq]). *)
Theorem C72_rotations_follow_keys :
  forall (outside : nat -> N) (lib : list anim32) (c0 : context f32) (history : list (@op f32 key key))
         (a : anim32) (r : f32) (output : list (transform (V4 f32))),
    (forall j, (outside j < 256)%N) -> (forall b, In b lib -> an_id b <> 0%N) ->
    library (cx_max_soa c0) lib -> fresh c0 -> Forall (op_ok lib) history ->
    In a lib -> num_soa a = cx_max_soa c0 -> nle nzero r = true -> nle r none_ = true ->
    (num_soa a <= length output)%nat ->
    covers a = true -> Forall keyq_ok (an_rkeys a) -> hemisphere (4 * num_soa a) (an_r a) (an_rkeys a) key0 ->
    exists c c' output',
      exec32 outside c0 history = Ok c /\
      run32 outside (Some a) (Some c) r (Some output) = Ok (c', output') /\
      every_track a output' (fun t p =>
        followsq (4 * num_soa a) (an_timepoints a) (an_r a) (an_rkeys a) key0 r t (tr_r p)).
Proof.
  intros outside lib c0 history a r output Hout Hz HL HF HH Ha Hn H0 H1 Ho Hc Kr Hem.
  destruct (C01_sampling_history_independent outside lib c0 history a r output Hout Hz HL HF HH Ha Hn H0 H1 Ho)
    as (c & c' & o & E1 & E2 & S).
  exists c, c', o. split; [exact E1|]. split; [exact E2|]. eapply sampled_every; [exact S|]. intros t Ht.
  destruct (wf_parts a (proj1 (proj1 HL a Ha)) ltac:(lia)) as (_ & (Wr & Lr) & _).
  destruct (covers_parts a Hc) as (Htp & _ & Cr & _). cbn [tr_r].
  eapply sampleq_follows; eassumption.
Qed.
Print Assumptions C72_rotations_follow_keys.

(** ** The hypotheses are met *)
(** A rotation key: 0 to 90 degrees about x. *)
Definition turn (n : N) : key := pack 3 0 (V3 n 16384 16384)%N.
Lemma turn_bounds n : (16384 <= n < 32768)%N ->
  keyq_ok (turn n) /\
  - 0.00003 <= rot (turn n) 0 /\ Rabs (rot (turn n) 1) <= 0.00003 /\ Rabs (rot (turn n) 2) <= 0.00003 /\ 0.69 <= rot (turn n) 3.
Proof.
  intros Hn.
  destruct (C20_decoded_unit 3 0 (V3 n 16384 16384)%N ltac:(reflexivity) ltac:(reflexivity) ltac:(apply Hn) ltac:(reflexivity) ltac:(reflexivity))
    as (F & C & Sg & Lo & _).
  fold (turn n) in *.
  destruct (C 0%nat ltac:(lia)) as [C0 B0]. destruct (C 1%nat ltac:(lia)) as [C1 _]. destruct (C 2%nat ltac:(lia)) as [C2 _].
  change (N.to_nat 3) with 3%nat in *. change (place 3 0) with 0%nat in *. change (place 3 1) with 1%nat in *. change (place 3 2) with 2%nat in *.
  cbn [stored vx vy vz] in C0, C1, C2.
  change (B2R (qcomp (quat_decompress (turn n)) 0)) with (rot (turn n) 0) in *.
  change (B2R (qcomp (quat_decompress (turn n)) 1)) with (rot (turn n) 1) in *.
  change (B2R (qcomp (quat_decompress (turn n)) 2)) with (rot (turn n) 2) in *.
  assert (SS : sumsq (quat_decompress (turn n)) = rot (turn n) 0 * rot (turn n) 0 + rot (turn n) 1 * rot (turn n) 1 +
                rot (turn n) 2 * rot (turn n) 2 + rot (turn n) 3 * rot (turn n) 3) by reflexivity.
  pose proof sqrt2_bounds as S2.
  assert (D1 : 0 <= dequantized 16384 <= 0.000022).
  { unfold dequantized. change (IZR (Z.of_N 16384)) with 16384. split; nra. }
  assert (D0 : 0 <= dequantized n).
  { unfold dequantized. assert (16384 <= IZR (Z.of_N n)) by (apply IZR_le; lia). nra. }
  assert (P3 : 0 <= rot (turn n) 3).
  { unfold rot. destruct (qcomp (quat_decompress (turn n)) 3) as [s|s| |s m e b]; cbn [B2R]; try lra.
    change (s = false) in Sg. rewrite Sg. cbn [cond_Zopp]. apply F2R_ge_0. simpl. lia. }
  apply Rabs_le_inv in C0. apply Rabs_le_inv in B0. apply Rabs_le_inv in C1. apply Rabs_le_inv in C2.
  set (x := rot (turn n) 0) in *. set (y := rot (turn n) 1) in *. set (z := rot (turn n) 2) in *. set (w := rot (turn n) 3) in *.
  assert (X2 : x * x <= 0.50001) by (clear - B0; nra).
  assert (Y2 : y * y <= 0.00001) by (clear - C1 D1; nra). assert (Z2 : z * z <= 0.00001) by (clear - C2 D1; nra).
  split; [|split; [lra|split; [apply Rabs_le; lra|split; [apply Rabs_le; lra|]]]].
  - exists 3%N, 0%N, (V3 n 16384 16384)%N. repeat (split; [first [reflexivity|apply Hn]|]). cbv zeta.
    change (N.to_nat 3) with 3%nat. change (B2R (qcomp (quat_decompress (turn n)) 3)) with w. rewrite SS. lra.
  - rewrite SS in Lo. nra.
Qed.
Lemma turn_dot n m : (16384 <= n < 32768)%N -> (16384 <= m < 32768)%N -> 0 <= sum4 (fun c => rot (turn n) c * rot (turn m) c).
Proof.
  intros Hn Hm. destruct (turn_bounds n Hn) as (_ & A0 & A1 & A2 & A3). destruct (turn_bounds m Hm) as (Km & B0 & B1 & B2 & B3).
  destruct (turn_bounds n Hn) as (Kn & _).
  destruct (keyq_facts _ Kn) as (Fn & _). destruct (keyq_facts _ Km) as (Fm & _).
  destruct (Fn 0%nat ltac:(lia)) as [_ Xn]. destruct (Fm 0%nat ltac:(lia)) as [_ Xm].
  apply Rabs_le_inv in A1. apply Rabs_le_inv in A2. apply Rabs_le_inv in B1. apply Rabs_le_inv in B2.
  apply Rabs_le_inv in Xn. apply Rabs_le_inv in Xm. unfold sum4.
  assert (-0.0001 <= rot (turn n) 0 * rot (turn m) 0) by nra. assert (-0.0001 <= rot (turn n) 1 * rot (turn m) 1) by nra.
  assert (-0.0001 <= rot (turn n) 2 * rot (turn m) 2) by nra. assert (0.4 <= rot (turn n) 3 * rot (turn m) 3) by nra. lra.
Qed.

(** The animation of C01_example, with rotations: track 0 turns to 90 degrees and back. *)
Definition ex_turns : list N := [16384; 16384; 16384; 16384; 32767; 20000; 16384; 16384; 24000; 32767; 16384]%N.
Definition ex_anim71 (id : N) : anim32 := mk_anim id 3 ex_tp ex_ctrl ex_k3 ex_ctrl (map turn ex_turns) ex_ctrl ex_k3.
Example C71_C72_hypotheses :
  library (cx_max_soa (ex_ctx 4)) [ex_anim71 16] /\ fresh (ex_ctx 4) /\
  covers (ex_anim71 16) = true /\ Forall key3_ok (an_tkeys (ex_anim71 16)) /\ Forall key3_ok (an_skeys (ex_anim71 16)) /\
  Forall keyq_ok (an_rkeys (ex_anim71 16)) /\
  hemisphere (4 * num_soa (ex_anim71 16)) (an_r (ex_anim71 16)) (an_rkeys (ex_anim71 16)) key0.
Proof.
  assert (T : forall n, In n ex_turns -> (16384 <= n < 32768)%N).
  { intros n Hn. assert (E : forallb (fun n => (16384 <=? n) && (n <? 32768))%N ex_turns = true) by reflexivity.
    rewrite forallb_forall in E. apply E in Hn. lia. }
  assert (H3 : Forall key3_ok ex_k3).
  { unfold ex_k3. cbn [map]. repeat (apply Forall_cons; [repeat split; try reflexivity; discriminate|]). apply Forall_nil. }
  split; [|split; [|split; [|split; [|split; [|split]]]]].
  - split.
    + intros a [<-|[]]; (split; [vm_compute; reflexivity|apply le_n]).
    + intros a b [<-|[]] [<-|[]] E; reflexivity.
  - repeat split.
  - vm_compute. reflexivity.
  - exact H3.
  - exact H3.
  - apply Forall_forall. intros q Hq. apply in_map_iff in Hq. destruct Hq as (n & <- & Hn). apply turn_bounds, T, Hn.
  - intros t kl kr Ht C. destruct (consecutive_In _ _ _ C) as [I1 I2].
    apply filter_In in I1. apply filter_In in I2. destruct I1 as [I1 _]. destruct I2 as [I2 _].
    apply in_seq in I1. apply in_seq in I2. change (length (k_prev (an_r (ex_anim71 16)))) with (length ex_turns) in *.
    change (an_rkeys (ex_anim71 16)) with (map turn ex_turns).
    rewrite (nth_indep _ key0 (turn 0)), map_nth by (rewrite map_length; lia).
    rewrite (nth_indep (map turn ex_turns) key0 (turn 0)), map_nth by (rewrite map_length; lia).
    apply turn_dot; apply T, nth_In; lia.
Qed.
(** From ratio 1/16 to 1/8 track 0 passes no key, and its translation grows (from 1/4 to 1/2). *)
Example C71_monotone_hypotheses :
  no_key_between 4 ex_tp ex_ctrl (f32_lit 1 (-4)) (f32_lit 1 (-3)) 0 /\
  match run32 (fun _ => 0%N) (Some (ex_anim71 16)) (Some (ex_ctx 4)) (f32_lit 1 (-4)) (Some ex_out),
        run32 (fun _ => 0%N) (Some (ex_anim71 16)) (Some (ex_ctx 4)) (f32_lit 1 (-3)) (Some ex_out) with
  | Ok (_, [x]), Ok (_, [x']) =>
      f32_to_bits (l0 (vx (tr_t x))) = f32_to_bits (f32_lit 1 (-2)) /\ f32_to_bits (l0 (vx (tr_t x'))) = f32_to_bits (f32_lit 1 (-1))
  | _, _ => False
  end.
Proof.
  split; [|vm_compute; auto]. intros x Hx.
  change (removelast (track_keys 4 ex_ctrl (length (k_prev ex_ctrl)) 0)) with [0; 4; 8]%nat in Hx.
  assert (E : time ex_tp ex_ctrl x = f32_lit 0 0 \/ time ex_tp ex_ctrl x = f32_lit 1 (-2) \/ time ex_tp ex_ctrl x = f32_lit 1 (-1)).
  { destruct Hx as [<-|[<-|[<-|[]]]]; [left|right; left|right; right]; reflexivity. }
  pose proof (f32_lit_exact 1 (-4) ltac:(simpl; lia) ltac:(lia)) as [_ L4].
  pose proof (f32_lit_exact 1 (-3) ltac:(simpl; lia) ltac:(lia)) as [_ L3].
  pose proof (f32_lit_exact 0 0 ltac:(simpl; lia) ltac:(lia)) as [_ L0].
  pose proof (f32_lit_exact 1 (-2) ltac:(simpl; lia) ltac:(lia)) as [_ L2].
  pose proof (f32_lit_exact 1 (-1) ltac:(simpl; lia) ltac:(lia)) as [_ L1].
  rewrite L4, L3. destruct E as [E|[E|E]]; rewrite E, ?L0, ?L1, ?L2; simpl; lra.
Qed.
(** At ratio 1/8 track 0 is half way from identity to 90 degrees about x: sine and cosine of 22.5
    degrees, 0.38268 (bits 0x3EC3EF63) and 0.92388 (0x3F6C8359), up to the quantisation of the keys. *)
Example C72_example :
  match run32 (fun _ => 0%N) (Some (ex_anim71 16)) (Some (ex_ctx 4)) (f32_lit 1 (-3)) (Some ex_out) with
  | Ok (_, [t]) => f32_to_bits (l0 (qx (tr_r t))) = 1053028451%N /\ f32_to_bits (l0 (qw (tr_r t))) = 1064076057%N
  | _ => False
  end.
Proof. vm_compute. auto. Qed.

(** ** The hypotheses are needed *)
(** Four tracks of two keys each: at ratio 0 and at time point [j]. *)
Definition two_ctrl (j : nat) : ctrl f32 := mk_ctrl [0; 0; 0; 0; j; j; j; j]%nat [0; 0; 0; 0; 4; 4; 4; 4]%nat [] [] (f32_lit 1 0).
Definition two_k3 : list key := map (fun h => V3 h h h) [0; 0; 0; 0; 15360; 15360; 15360; 15360]%N.
Definition two_anim (j : nat) (qa qb : key) : anim32 :=
  mk_anim 16 4 ex_tp (two_ctrl j) two_k3 (two_ctrl j) [qa; qa; qa; qa; qb; qb; qb; qb] (two_ctrl j) two_k3.
Definition id_key : key := pack 3 0 (V3 16384 16384 16384)%N.
Lemma two_k3_ok : Forall key3_ok two_k3.
Proof. unfold two_k3. cbn [map]. repeat (apply Forall_cons; [repeat split; try reflexivity; discriminate|]). apply Forall_nil. Qed.

Lemma half_0 : half_value 0 = 0.
Proof. unfold half_value. change (half_mant 0) with 0%Z. lra. Qed.
Lemma half_1 : half_value 15360 = 1.
Proof.
  unfold half_value. change (half_mant 15360) with 1024%Z. change (half_scale 15360) with (-10)%Z.
  change (powerRZ 2 (-10)) with (/ 2 ^ 10). lra.
Qed.

(** An animation whose tracks end before ratio 1 is extrapolated: with values 0 at ratio 0 and 1 at
    ratio 1/2, the translation at ratio 1 is 2. *)
Theorem C71_short_track_refuted :
  exists (a : anim32) (c c' : context f32) (output output' : list (transform (V4 f32))) x,
    wf_animation a = true /\ fresh c /\ num_soa a = cx_max_soa c /\
    Forall key3_ok (an_tkeys a) /\
    (forall k c, In k (an_tkeys a) -> (c < 3)%nat -> 0 <= half_value (coord k c) <= 1) /\
    run32 (fun _ => 0%N) (Some a) (Some c) none_ (Some output) = Ok (c', output') /\
    nth_error output' 0 = Some x /\ B2R (vx (tr_t (lane_tr x 0))) = 2.
Proof.
  assert (E : match run32 (fun _ => 0%N) (Some (two_anim 2 id_key id_key)) (Some (ex_ctx 4)) none_ (Some ex_out) with
              | Ok (_, [x]) => (f32_to_bits (vx (tr_t (lane_tr x 0))) =? f32_to_bits (f32_lit 2 0))%N
              | _ => false end = true) by (vm_compute; reflexivity).
  destruct (run32 (fun _ => 0%N) (Some (two_anim 2 id_key id_key)) (Some (ex_ctx 4)) none_ (Some ex_out)) as [[c' [|x [|? ?]]]|?|] eqn:R; try discriminate E.
  exists (two_anim 2 id_key id_key), (ex_ctx 4), c', ex_out, [x], x.
  split; [vm_compute; reflexivity|]. split; [repeat split|]. split; [reflexivity|]. split; [exact two_k3_ok|].
  split. { intros k cc Hk Hcc.
    assert (Hk2 : (k = V3 0 0 0 \/ k = V3 15360 15360 15360)%N).
    { unfold two_anim, two_k3 in Hk. cbn in Hk. intuition. }
    destruct cc as [|[|[|?]]]; [| | |lia]; destruct Hk2 as [Ek|Ek]; rewrite Ek; cbn [coord vx vy vz]; rewrite ?half_0, ?half_1; lra. }
  split; [exact R|]. split; [reflexivity|]. apply N.eqb_eq, to_bits_inj in E. rewrite E. clear.
  destruct (f32_lit_exact 2 0 ltac:(simpl; lia) ltac:(lia)) as [_ ->]. simpl. lra.
Qed.
Print Assumptions C71_short_track_refuted.

(** Two keys of a track at the same time (here both at ratio 0; then no later key) make NaN. *)
Theorem C71_equal_times_refuted :
  exists (a : anim32) (c c' : context f32) (output output' : list (transform (V4 f32))) x,
    wf_animation a = true /\ fresh c /\ num_soa a = cx_max_soa c /\
    Forall key3_ok (an_tkeys a) /\
    run32 (fun _ => 0%N) (Some a) (Some c) nzero (Some output) = Ok (c', output') /\
    nth_error output' 0 = Some x /\ is_nan (vx (tr_t (lane_tr x 0))) = true.
Proof.
  assert (E : match run32 (fun _ => 0%N) (Some (two_anim 0 id_key id_key)) (Some (ex_ctx 4)) nzero (Some ex_out) with
              | Ok (_, [x]) => is_nan (vx (tr_t (lane_tr x 0)))
              | _ => false end = true) by (vm_compute; reflexivity).
  destruct (run32 (fun _ => 0%N) (Some (two_anim 0 id_key id_key)) (Some (ex_ctx 4)) nzero (Some ex_out)) as [[c' [|x [|? ?]]]|?|] eqn:R; try discriminate E.
  exists (two_anim 0 id_key id_key), (ex_ctx 4), c', ex_out, [x], x.
  split; [vm_compute; reflexivity|]. split; [repeat split|]. split; [reflexivity|]. split; [exact two_k3_ok|].
  split; [exact R|]. split; [reflexivity|exact E].
Qed.
Print Assumptions C71_equal_times_refuted.

(** Neighbouring keys that are opposite quaternions (the same rotation) make NaN half way: sampling
    does not choose the shorter arc. *)
Definition opp_key : key := pack 3 1 (V3 16383 16383 16383)%N.
Theorem C72_opposite_keys_refuted :
  exists (a : anim32) (c c' : context f32) (output output' : list (transform (V4 f32))) x,
    wf_animation a = true /\ covers a = true /\ fresh c /\ num_soa a = cx_max_soa c /\
    Forall keyq_ok (an_rkeys a) /\
    run32 (fun _ => 0%N) (Some a) (Some c) nhalf (Some output) = Ok (c', output') /\
    nth_error output' 0 = Some x /\ is_nan (qw (tr_r (lane_tr x 0))) = true.
Proof.
  assert (E : match run32 (fun _ => 0%N) (Some (two_anim 4 id_key opp_key)) (Some (ex_ctx 4)) nhalf (Some ex_out) with
              | Ok (_, [x]) => is_nan (qw (tr_r (lane_tr x 0)))
              | _ => false end = true) by (vm_compute; reflexivity).
  destruct (run32 (fun _ => 0%N) (Some (two_anim 4 id_key opp_key)) (Some (ex_ctx 4)) nhalf (Some ex_out)) as [[c' [|x [|? ?]]]|?|] eqn:R; try discriminate E.
  exists (two_anim 4 id_key opp_key), (ex_ctx 4), c', ex_out, [x], x.
  split; [vm_compute; reflexivity|]. split; [vm_compute; reflexivity|]. split; [repeat split|]. split; [reflexivity|].
  split.
  { assert (K1 : keyq_ok id_key) by (apply (turn_bounds 16384); lia).
    assert (K2 : keyq_ok opp_key).
    { exists 3%N, 1%N, (V3 16383 16383 16383)%N. repeat (split; [reflexivity|]). cbv zeta.
      destruct (C20_decoded_unit 3 1 (V3 16383 16383 16383)%N ltac:(reflexivity) ltac:(reflexivity) ltac:(reflexivity) ltac:(reflexivity) ltac:(reflexivity))
        as (_ & C & _).
      fold opp_key in *. unfold sumsq. change (N.to_nat 3) with 3%nat in *.
      destruct (C 0%nat ltac:(lia)) as [C0 _]. destruct (C 1%nat ltac:(lia)) as [C1 _]. destruct (C 2%nat ltac:(lia)) as [C2 _].
      change (place 3 0) with 0%nat in *. change (place 3 1) with 1%nat in *. change (place 3 2) with 2%nat in *.
      cbn [stored vx vy vz] in C0, C1, C2.
      assert (D : -0.000022 <= dequantized 16383 <= 0).
      { pose proof sqrt2_bounds. unfold dequantized. change (IZR (Z.of_N 16383)) with 16383. split; nra. }
      assert (Q : forall x d, Rabs (x - d) <= / 2097152 -> -0.000022 <= d <= 0 -> x * x <= 0.1).
      { clear. intros x d Hx Hd. apply Rabs_le_inv in Hx. nra. }
      pose proof (Q _ _ C0 D) as Q0. pose proof (Q _ _ C1 D) as Q1. pose proof (Q _ _ C2 D) as Q2.
      unfold qcomp in Q0, Q1, Q2 |- *. lra. }
    unfold two_anim. cbn [an_rkeys]. repeat (apply Forall_cons; [assumption|]). apply Forall_nil. }
  split; [exact R|]. split; [reflexivity|exact E].
Qed.
Print Assumptions C72_opposite_keys_refuted.
