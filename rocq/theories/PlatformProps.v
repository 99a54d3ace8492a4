(** C94: the same inputs give the same bits on every platform. *)
From Coq Require Import ZArith.
From Flocq Require Import IEEE754.BinarySingleNaN.
From Verif Require Import Base Num NumF32 Math Keys Skeleton Blending Sampling Ik Skinning Motion Tracks TrackValues
  MotionGlam Player Platform PlatformSpec PlatformProofs SamplingProps PlayerProps.
Local Open Scope Z_scope.

(** ** Sampling *)
(** [set_ratio] followed by [run], in any state of the context. *)
Theorem C94_sampling :
  forall (P P' : platform) (a : animf) (c : option (context f32)) (ratio : f32) (output : option (list soaf)),
    platform_ok P -> platform_ok P' -> byte_buffers a -> ratio <> minus_zero ->
    set_ratio_on P ratio = set_ratio_on P' ratio /\
    run_on P (Some a) c (set_ratio_on P ratio) output = run_on P' (Some a) c (set_ratio_on P' ratio) output.
Proof.
  intros P P' a c ratio output HP HP' B R.
  rewrite (set_ratio_ok P HP _ R), (set_ratio_ok P' HP' _ R), (run_ok_on P HP _ _ _ _ B), (run_ok_on P' HP' _ _ _ _ B).
  split; reflexivity.
Qed.
Print Assumptions C94_sampling.

(** ** Blending *)
Theorem C94_blending :
  forall (P P' : platform) (j : bjob f32),
    platform_ok P -> platform_ok P' -> plain_job j -> blend_on P j = blend_on P' j.
Proof. intros P P' j HP HP' H. rewrite (blend_run_on P HP j H), (blend_run_on P' HP' j H). reflexivity. Qed.
Print Assumptions C94_blending.

(** ** Model-space matrices: debug and release builds too, except at the end of the range of i32 (C24). *)
Theorem C94_local_to_model :
  forall (P P' : platform) (j : ltm_job f32),
    -2147483648 <= lj_from j < 2147483647 -> -2147483648 <= lj_to j < 2147483647 ->
    ltm_on P j = ltm_on P' j.
Proof. intros P P' j H1 H2. rewrite (ltm_run_on P j H2 H1), (ltm_run_on P' j H2 H1). reflexivity. Qed.
Print Assumptions C94_local_to_model.

(** ** Inverse kinematics: whatever the inputs, -0.0 and NaN included. *)
Theorem C94_ik :
  forall (P P' : platform), platform_ok P -> platform_ok P' ->
    (forall (j : ik2_job f32) (o : ik2_out f32), ik2_on P j o = ik2_on P' j o) /\
    (forall (j : aim_job f32) (o : aim_out f32), aim_on P j o = aim_on P' j o).
Proof.
  intros P P' HP HP'. split; intros j o.
  - rewrite (ik2_run_on P HP j o), (ik2_run_on P' HP' j o). reflexivity.
  - rewrite (aim_run_on P HP j o), (aim_run_on P' HP' j o). reflexivity.
Qed.
Print Assumptions C94_ik.

(** ** Skinning (as long as the number of weights fits a usize), root motion, user tracks and triggers. *)
Theorem C94_other_jobs :
  forall (P P' : platform),
    (forall j : sjob f32, (sj_vertex_count j * sj_influences j < 2 ^ 64)%N -> skin_on P j = skin_on P' j) /\
    (forall (ls : list (mlayer f32)) (o : transform f32), @motion_run f32 (on P) ls o = @motion_run f32 (on P') ls o) /\
    (forall (t : option (ftrack f32 f32)) (r : f32),
       @sample_run f32 (on P) f32 (@lerp_f f32 (on P)) nzero t r = @sample_run f32 (on P') f32 (@lerp_f f32 (on P')) nzero t r) /\
    (forall (fuel : nat) (j : tjob f32),
       @collect f32 (on P) fuel j (@iter_new f32 (on P) j) = @collect f32 (on P') fuel j (@iter_new f32 (on P') j)).
Proof.
  intros P P'. split; [|split; [|split]]; intros; unfold on.
  - unfold skin_on, on. rewrite !skin_run_with, (skin_run_checks (p_checks P)), (skin_run_checks (p_checks P')) by assumption. reflexivity.
  - rewrite !motion_run_with. reflexivity.
  - rewrite !sample_run_with. reflexivity.
  - rewrite !collect_with, !iter_new_with. reflexivity.
Qed.
Print Assumptions C94_other_jobs.

(** ** Lock-step: two machines given the same frames go through the same outcomes, the same poses and the
    same matrices, bit for bit, whatever state they start from. *)
Theorem C94_playback :
  forall (P P' : platform) (sk : skeleton f32) (p : player) (frames : list frame),
    platform_ok P -> platform_ok P' -> Forall plain_frame frames ->
    play_all_on P sk p frames = play_all_on P' sk p frames.
Proof. intros P P' sk p frames HP HP' H. apply play_all_same; assumption. Qed.
Print Assumptions C94_playback.

(** ** The platforms are those of the world, and differ. *)
(** The model's own choices (the first operand of a tie); debug build. *)
Definition first_zero : platform := mk_platform f32_min f32_max (fun _ => 0%N) true.
(** The second operand of a tie, as [minps] and [maxps] of x86_64; release build; other bytes around the
    buffers. *)
Definition second_zero : platform :=
  mk_platform (fun x y => if is_nan y then x else if is_nan x then y else if Bltb x y then x else y)
              (fun x y => if is_nan y then x else if is_nan x then y else if Bltb y x then x else y) (fun _ => 255%N) false.
(** -0.0 below +0.0, as [fminnm] and [fmaxnm] of aarch64. *)
Definition ordered_zero : platform :=
  mk_platform (fun x y => if is_nan y then x else if is_nan x then y else
                          if Bltb x y || Beqb x y && Bsign x then x else y)
              (fun x y => if is_nan y then x else if is_nan x then y else
                          if Bltb y x || Beqb x y && Bsign y then x else y) (fun j => N.of_nat (Nat.modulo j 256)) false.

Lemma lt_not_nan (x y : f32) : Bltb x y = true -> is_nan x = false /\ is_nan y = false.
Proof. destruct x as [|[]| |[]], y as [|[]| |[]]; try discriminate; split; reflexivity. Qed.
Lemma lt_asym (x y : f32) : Bltb x y = true -> Bltb y x = false /\ Beqb x y = false.
Proof.
  unfold Bltb, Beqb, SpecFloat.SFltb, SpecFloat.SFeqb. fold (Bcompare x y). fold (Bcompare y x).
  rewrite (Bcompare_swap _ _ x y). destruct (Bcompare x y) as [[]|]; try discriminate; split; reflexivity.
Qed.
Lemma lt_neq (x y : f32) : Bltb y x = true -> Beqb x y = false.
Proof.
  unfold Bltb, Beqb, SpecFloat.SFltb, SpecFloat.SFeqb. fold (Bcompare x y). fold (Bcompare y x).
  rewrite (Bcompare_swap _ _ x y). destruct (Bcompare x y) as [[]|]; try discriminate; reflexivity.
Qed.
Lemma nan_unique (x y : f32) : is_nan x = true -> is_nan y = true -> x = y.
Proof. destruct x, y; try discriminate; reflexivity. Qed.

Example C94_platforms : platform_ok first_zero /\ platform_ok second_zero /\ platform_ok ordered_zero.
Proof.
  split; [split; [exact f32_min_ok|split; [exact f32_max_ok|intros j; reflexivity]]|].
  split; (split; [|split]).
  all: try (intros j; reflexivity).
  all: try (intros j; cbn [p_outside ordered_zero]; change 256%N with (N.of_nat 256);
            pose proof (Nat.mod_upper_bound j 256 ltac:(discriminate)); lia).
  all: intros x y; cbn [p_min p_max second_zero ordered_zero]; repeat split; intros H.
  all: try (destruct (is_nan y) eqn:Ny; destruct (is_nan x) eqn:Nx; try discriminate; auto using nan_unique; fail).
  all: try (rewrite H; reflexivity).
  all: try (destruct (lt_not_nan _ _ H) as [N1 N2]; rewrite N1, N2; destruct (lt_asym _ _ H) as [A1 A2]; rewrite ?H, ?A1, ?A2;
            try rewrite (lt_neq _ _ H); reflexivity).
  all: try (destruct (is_nan y), (is_nan x); auto;
            match goal with |- context [if ?b then _ else _] => destruct b end; auto; fail).
Qed.

(** The platforms do not compute the same [max]. *)
Example C94_platforms_differ :
  p_max first_zero minus_zero nzero <> p_max second_zero minus_zero nzero /\
  p_max first_zero minus_zero nzero <> p_max ordered_zero minus_zero nzero.
Proof. split; discriminate. Qed.

(** The frames of C73_example: two layers, one with joint weights, and an additive one; one frame is rejected.
    Their ratios include a negative one and a NaN. *)
Example C94_example :
  Forall plain_frame (pe_history ++ [pe_frame 3 2 1]) /\
  (forall P P', platform_ok P -> platform_ok P' ->
     play_all_on P pe_skel (pe_new nhalf) (pe_history ++ [pe_frame 3 2 1]) =
     play_all_on P' pe_skel (pe_new nhalf) (pe_history ++ [pe_frame 3 2 1])) /\
  match play_all_on second_zero pe_skel (pe_new nhalf) (pe_history ++ [pe_frame 3 2 1]) with
  | Some ([Drawn; Failed InvalidJob; Drawn; Drawn], p) => matrix_bits (Some (Drawn, p)) <> []
  | _ => False
  end.
Proof.
  assert (F : Forall plain_frame (pe_history ++ [pe_frame 3 2 1])).
  { assert (B : forall id, byte_buffers (ex_anim id)).
    { intros id. split; [|split]; repeat (apply Forall_cons; [reflexivity|]); apply Forall_nil. }
    assert (L : forall r, r <> 0 -> f32_to_bits (f32_lit r (-3)) <> 2147483648%N -> f32_lit r (-3) <> minus_zero).
    { intros r _ H E. apply H. rewrite E. reflexivity. }
    assert (G : forall r w t, f32_to_bits (f32_lit r (-3)) <> 2147483648%N -> plain_frame (pe_frame r w t)).
    { intros r w t H. unfold plain_frame, pe_frame. cbn [fr_layers].
      apply Forall_cons; [split; [apply B|split; [intros E; apply H; cbn [in_ratio] in E; rewrite E; reflexivity|apply Forall_nil]]|].
      apply Forall_cons; [split; [apply B|split]|].
      - intros E. assert (H1 : f32_to_bits (f32_lit 1 (-3)) = 2147483648%N) by (cbn [in_ratio] in E; rewrite E; reflexivity).
        vm_compute in H1. discriminate H1.
      - cbn [in_joint_weights]. apply Forall_cons; [|apply Forall_nil].
        assert (Q : (nhalf : f32) <> minus_zero).
        { intros E. assert (H1 : f32_to_bits nhalf = 2147483648%N) by (rewrite E; reflexivity). vm_compute in H1. discriminate H1. }
        repeat split; exact Q.
      - apply Forall_cons; [split; [apply B|split; [discriminate|apply Forall_nil]]|]. apply Forall_nil. }
    repeat (apply Forall_cons; [apply G; vm_compute; discriminate|]). apply Forall_nil. }
  split; [exact F|]. split; [intros P P' HP HP'; apply C94_playback; assumption|].
  vm_compute. discriminate.
Qed.

(** ** What -0.0 does *)
(** [set_ratio(-0.0)] then [ratio()] shows which zero the machine's [max] returned. *)
Theorem C94_minus_zero_ratio_refuted :
  exists P P', platform_ok P /\ platform_ok P' /\ set_ratio_on P minus_zero <> set_ratio_on P' minus_zero.
Proof.
  destruct C94_platforms as (H1 & H2 & _). exists first_zero, second_zero. split; [exact H1|]. split; [exact H2|].
  intros E. assert (B : f32_to_bits (set_ratio_on first_zero minus_zero) = f32_to_bits (set_ratio_on second_zero minus_zero))
    by (rewrite E; reflexivity).
  vm_compute in B. discriminate B.
Qed.
Print Assumptions C94_minus_zero_ratio_refuted.

(** A joint weight of -0.0 may change the sign of a zero in the blended pose. *)
Definition mz_rest : soaf := TR (V3 (splat minus_zero) nzero nzero) q_identity v3_one.
Definition mz_job : bjob f32 :=
  mk_bjob (Some (mk_skel [mz_rest] [-1])) (Some (mk_bctx 0 0 nzero [])) none_
    [mk_layer [tr_identity] none_ [splat minus_zero]] [] (Some [tr_identity]).
Definition pose_bits (r : bres f32) : list N :=
  match r with BOk (_, o) => flat_map (fun t => bits4 (vx (tr_t t))) o | _ => [] end.
Theorem C94_minus_zero_weight_refuted :
  exists P P' j, platform_ok P /\ platform_ok P' /\ blend_on P j <> blend_on P' j.
Proof.
  destruct C94_platforms as (H1 & H2 & _). exists first_zero, second_zero, mz_job. split; [exact H1|]. split; [exact H2|].
  intros E. assert (B : pose_bits (blend_on first_zero mz_job) = pose_bits (blend_on second_zero mz_job)) by (rewrite E; reflexivity).
  vm_compute in B. discriminate B.
Qed.
Print Assumptions C94_minus_zero_weight_refuted.
