(** C81-C83: job objects do what their latest settings say; layers without a weight; index arguments. *)
From Verif Require Import Base Num NumF32 Math Keys Skeleton Sampling Blending Skinning Motion Tracks Ik Objects ObjectsSpec
  SkeletonSpec SkeletonProofs SkeletonProps SamplingProps BlendingProps TracksProps IkProps SkinningProps.
Local Open Scope Z_scope.

Section Any.
  Context {J C Q R : Type} (apply : C -> J -> J) (ask : Q -> J -> option R) (write : R -> J -> J).
  Context (says : J -> Q -> R -> Prop) (holds : list (event C R) -> J).
  Hypothesis ask_says : forall q j r, ask q j = Some r <-> says j q r.
  Hypothesis holds_call : forall h c, holds (h ++ [Did c]) = apply c (holds h).
  Hypothesis holds_got : forall h r, holds (h ++ [Got r]) = write r (holds h).

  Lemma exec_from : forall ops h j ev,
    exec apply ask write (holds h) ops = Some (j, ev) <->
    answers says holds h ops ev /\ j = holds (h ++ ev).
  Proof using ask_says holds_call holds_got.
    induction ops as [|[c|q] ops IH]; intros h j ev; cbn [exec].
    - split.
      + intros [= <- <-]. rewrite app_nil_r. split; [constructor|reflexivity].
      + intros [A ->]. inversion A; subst. rewrite app_nil_r. reflexivity.
    - rewrite <- holds_call. split.
      + destruct (exec _ _ _ _ _) as [[j' ev']|] eqn:E; [|discriminate]. intros [= <- <-].
        apply IH in E. destruct E as [A ->]. split; [constructor; exact A|].
        rewrite <- app_assoc. reflexivity.
      + intros [A ->]. inversion A; subst.
        rewrite (proj2 (IH (h ++ [Did c]) (holds ((h ++ [Did c]) ++ ev0)) ev0)); [|split; [assumption|reflexivity]].
        rewrite <- app_assoc. reflexivity.
    - split.
      + destruct (ask q (holds h)) as [r|] eqn:K; [|discriminate]. rewrite <- holds_got.
        destruct (exec _ _ _ _ _) as [[j' ev']|] eqn:E; [|discriminate]. intros [= <- <-].
        apply IH in E. destruct E as [A ->]. apply ask_says in K. split; [econstructor; eassumption|].
        rewrite <- app_assoc. reflexivity.
      + intros [A ->]. inversion A; subst.
        match goal with K : says (holds h) q _ |- _ => apply ask_says in K; rewrite K end. rewrite <- holds_got.
        rewrite (proj2 (IH (h ++ [Got r]) (holds ((h ++ [Got r]) ++ ev0)) ev0)); [|split; [assumption|reflexivity]].
        rewrite <- app_assoc. reflexivity.
  Qed.

  Lemma exec_holds : forall j0 ops j ev, holds [] = j0 ->
    exec apply ask write j0 ops = Some (j, ev) <-> answers says holds [] ops ev /\ j = holds ev.
  Proof using ask_says holds_call holds_got. intros j0 ops j ev <-. exact (exec_from ops [] j ev). Qed.
End Any.

Lemma latest_snoc {E V} (w : E -> option V) d h e :
  latest w d (h ++ [e]) = match w e with Some v => v | None => latest w d h end.
Proof. revert d; induction h as [|e' h IH]; intros d; cbn; [destruct (w e); reflexivity|apply IH]. Qed.

(** The model's calls return what the specification says. *)
Lemma sampling_asks outside q j r : sampling_ask outside q j = Some r <-> sampling_says outside j q r.
Proof.
  split.
  - destruct q; cbn; [intros [= <-]; constructor..|]. destruct (run _ _ _ _ _ _ _) as [[c o]|e|] eqn:E; intros [= <-]; constructor; exact E.
  - intros H; inversion H as [| |c o E|e E]; subst; cbn; [reflexivity..| |]; rewrite E; reflexivity.
Qed.
Lemma blending_asks q j r : blending_ask q j = Some r <-> blending_says j q r.
Proof.
  split.
  - destruct q; cbn; [intros [= <-]; constructor..|]. destruct (blend_run j) as [s|e s|] eqn:E; intros [= <-]; [constructor; exact E|].
    destruct (bj_skeleton j) eqn:S; [destruct (bj_context j) eqn:C; [destruct (bj_output j) eqn:O|]|];
      (apply blending_failed with (1 := E); congruence) || (apply blending_unset with (1 := E); tauto).
  - intros H; inversion H as [| |s E|e s E S C O|e s E U]; subst; cbn; [reflexivity..| | |]; rewrite E; [reflexivity| |].
    + destruct (bj_skeleton j), (bj_context j), (bj_output j); congruence.
    + destruct (bj_skeleton j), (bj_context j), (bj_output j), U as [?|[?|?]]; congruence.
Qed.
Lemma ltm_asks checks q j r : ltm_ask checks q j = Some r <-> ltm_says checks j q r.
Proof.
  split.
  - destruct q; cbn; [intros [= <-]; constructor|]. destruct (ltm_run checks j) eqn:E; intros [= <-]; constructor; exact E.
  - intros H; inversion H as [|o E|e E]; subst; cbn; [reflexivity| |]; rewrite E; reflexivity.
Qed.
Lemma skinning_asks checks q j r : skinning_ask checks q j = Some r <-> skinning_says checks j q r.
Proof.
  split.
  - destruct q; cbn; [destruct (skin_validate checks j) eqn:E|destruct (skin_run checks j) eqn:E]; intros [= <-]; constructor; exact E.
  - intros H; inversion H as [b E|o E|e o E]; subst; cbn; rewrite E; reflexivity.
Qed.
Lemma two_bone_asks q j r : two_bone_ask q j = Some r <-> two_bone_says j q r. Proof. reflexivity. Qed.
Lemma aim_asks q j r : aim_ask q j = Some r <-> aim_says j q r. Proof. reflexivity. Qed.
Lemma motion_asks q j r : motion_ask q j = Some r <-> motion_says j q r.
Proof. split; [destruct q; intros [= <-]; constructor|intros H; inversion H; subst; reflexivity]. Qed.
Lemma track_asks V (lerp : V -> V -> f32 -> V) zero q j r : track_ask lerp zero q j = Some r <-> track_says lerp zero j q r.
Proof.
  split.
  - destruct q; cbn; destruct (tk_track j) as [t|] eqn:T.
    + intros [= <-]. exact (track_valid _ _ _ t T).
    + intros [= <-]. exact (track_invalid _ _ _ T).
    + destruct (sample_track lerp zero t (tk_ratio j)) eqn:E; intros [= <-]; [eapply track_ran|eapply track_failed]; eauto.
    + intros [= <-]. exact (track_unset _ _ _ T).
  - intros H; inversion H as [t T|T|t v T E|t e T E|T]; subst; cbn; rewrite T; try rewrite E; reflexivity.
Qed.
Lemma trigger_asks q j r : trigger_ask q j = Some r <-> trigger_says j q r.
Proof.
  split.
  - destruct q; cbn; destruct (tg_track j) as [t|] eqn:T; intros [= <-].
    + exact (trigger_valid _ t T).
    + exact (trigger_invalid _ T).
    + apply (trigger_ran _ t); auto.
    + exact (trigger_unset _ T).
  - intros H; inversion H as [t T|T|t [tr fr to th] T E1 E2 E3 E4|T]; subst; cbn; rewrite T; cbn in *; subst; reflexivity.
Qed.

(** C81.  For every sequence of calls on a new job: the calls succeed with the events [ev] exactly when every
    result in [ev] is that of its call on the latest settings, and the job ends with its latest settings. *)
Theorem C81_sampling : forall outside ops j ev,
  exec sampling_apply (sampling_ask outside) sampling_write sampling_default ops = Some (j, ev) <->
  answers (sampling_says outside) sampling_holds [] ops ev /\ j = sampling_holds ev.
Proof.
  intros. apply exec_holds; [apply sampling_asks| | |reflexivity].
  - intros h c. unfold sampling_holds. rewrite !latest_snoc. destruct c; reflexivity.
  - intros h r. unfold sampling_holds. rewrite !latest_snoc. destruct r; reflexivity.
Qed.
Print Assumptions C81_sampling.

Theorem C81_blending : forall ops j ev,
  exec blending_apply blending_ask blending_write bjob_default ops = Some (j, ev) <->
  answers blending_says blending_holds [] ops ev /\ j = blending_holds ev.
Proof.
  intros. apply exec_holds; [apply blending_asks| | |reflexivity].
  - intros h c. unfold blending_holds. rewrite !latest_snoc. destruct c; reflexivity.
  - intros h r. unfold blending_holds. rewrite !latest_snoc. destruct r as [| |? [[? ?]|]]; reflexivity.
Qed.
Print Assumptions C81_blending.

Theorem C81_local_to_model : forall checks ops j ev,
  exec ltm_apply (ltm_ask checks) ltm_write ltm_default ops = Some (j, ev) <->
  answers (ltm_says checks) ltm_holds [] ops ev /\ j = ltm_holds ev.
Proof.
  intros. apply exec_holds; [apply ltm_asks| | |reflexivity].
  - intros h c. unfold ltm_holds. rewrite !latest_snoc. destruct c; reflexivity.
  - intros h r. unfold ltm_holds. rewrite !latest_snoc. destruct r; reflexivity.
Qed.
Print Assumptions C81_local_to_model.

Theorem C81_skinning : forall checks ops j ev,
  exec skinning_apply (skinning_ask checks) skinning_write skinning_default ops = Some (j, ev) <->
  answers (skinning_says checks) skinning_holds [] ops ev /\ j = skinning_holds ev.
Proof.
  intros. apply exec_holds; [apply skinning_asks| | |reflexivity].
  - intros h c. unfold skinning_holds. rewrite !latest_snoc. destruct c; reflexivity.
  - intros h r. unfold skinning_holds. rewrite !latest_snoc. destruct r as [|? [? ? ?]]; reflexivity.
Qed.
Print Assumptions C81_skinning.

Theorem C81_two_bone : forall ops j ev,
  exec two_bone_apply two_bone_ask two_bone_write two_bone_default ops = Some (j, ev) <->
  answers two_bone_says two_bone_holds [] ops ev /\ j = two_bone_holds ev.
Proof.
  intros. apply exec_holds; [apply two_bone_asks| | |reflexivity].
  - intros h c. unfold two_bone_holds. rewrite !latest_snoc. destruct c; reflexivity.
  - intros h r. unfold two_bone_holds. rewrite !latest_snoc. destruct r as [? [? ? ?]]; reflexivity.
Qed.
Print Assumptions C81_two_bone.

Theorem C81_aim : forall ops j ev,
  exec aim_apply aim_ask aim_write aiming_default ops = Some (j, ev) <->
  answers aim_says aim_holds [] ops ev /\ j = aim_holds ev.
Proof.
  intros. apply exec_holds; [apply aim_asks| | |reflexivity].
  - intros h c. unfold aim_holds. rewrite !latest_snoc. destruct c; reflexivity.
  - intros h r. unfold aim_holds. rewrite !latest_snoc. destruct r as [? [? ?]]; reflexivity.
Qed.
Print Assumptions C81_aim.

(** A motion blending job always answers. *)
Theorem C81_motion : forall zero ops,
  (forall j ev,
    exec (motion_apply zero) motion_ask motion_write (motion_default zero) ops = Some (j, ev) <->
    answers motion_says (motion_holds zero) [] ops ev /\ j = motion_holds zero ev) /\
  exec (motion_apply zero) motion_ask motion_write (motion_default zero) ops <> None.
Proof.
  intros zero ops. split.
  - intros. apply exec_holds; [apply motion_asks| | |reflexivity].
    + intros h c. unfold motion_holds. rewrite !latest_snoc. destruct c; reflexivity.
    + intros h r. unfold motion_holds. rewrite !latest_snoc. destruct r; reflexivity.
  - generalize (motion_default zero). induction ops as [|[c|[|]] ops IH]; intros j; cbn [exec motion_ask]; [discriminate| | |];
      match goal with |- context [exec _ _ _ ?k ops] => specialize (IH k); destruct (exec _ _ _ k ops) as [[? ?]|]; congruence end.
Qed.
Print Assumptions C81_motion.

Theorem C81_track_sampling : forall V (lerp : V -> V -> f32 -> V) zero ops j ev,
  exec (track_apply zero) (track_ask lerp zero) track_write (track_default zero) ops = Some (j, ev) <->
  answers (track_says lerp zero) (track_holds zero) [] ops ev /\ j = track_holds zero ev.
Proof.
  intros. apply exec_holds; [apply track_asks| | |reflexivity].
  - intros h c. unfold track_holds. rewrite !latest_snoc. destruct c; reflexivity.
  - intros h r. unfold track_holds. rewrite !latest_snoc. destruct r; reflexivity.
Qed.
Print Assumptions C81_track_sampling.

Theorem C81_track_triggering : forall ops,
  (forall j ev,
    exec trigger_apply trigger_ask trigger_write trigger_default ops = Some (j, ev) <->
    answers trigger_says trigger_holds [] ops ev /\ j = trigger_holds ev) /\
  exec trigger_apply trigger_ask trigger_write trigger_default ops <> None.
Proof.
  intros ops. split.
  - intros. apply exec_holds; [apply trigger_asks| | |reflexivity].
    + intros h c. unfold trigger_holds. rewrite !latest_snoc. destruct c; reflexivity.
    + intros h r. unfold trigger_holds. rewrite !latest_snoc. destruct r; reflexivity.
  - generalize trigger_default. induction ops as [|[c|[|]] ops IH]; intros j; cbn [exec trigger_ask];
      [discriminate| | |destruct (tg_track j)];
      match goal with |- context [exec _ _ _ ?k ops] => specialize (IH k); destruct (exec _ _ _ k ops) as [[? ?]|]; congruence end.
Qed.
Print Assumptions C81_track_triggering.

(** ** Histories *)
Definition bits_of_pose (o : option pose_t) : option (list N) :=
  option_map (map (fun t => f32_to_bits (l0 (vx (tr_t t))))) o.
(** A run without a context fails and changes nothing; the ratio is clamped when set; the run writes the output
    that is then cleared; [take_context] empties the field, so that the next run fails. *)
Example C81_sampling_example :
  let a := ex_anim 16 in
  let ops := [Call (SaSetRatio (f32_lit 3 0)); Call (SaSetAnimation a); Call (SaSetOutput SamplingProps.ex_out); Ask CtxRun;
              Call (SaSetContext (ex_ctx 3)); Ask CtxValidate; Ask CtxRun; Call (SaSetRatio nhalf); Ask CtxRun;
              Ask TakeContext; Call SaClearOutput; Ask CtxRun] in
  option_map (fun r => (f32_to_bits (sa_ratio (fst r)),
      map (fun e => match e with
                    | Got (SaRan _ o) => (0%N, bits_of_pose (Some o)) | Got (SaFailed InvalidJob) => (1%N, None)
                    | Got (SaValid true) => (2%N, None) | Got (SaTook (Some _)) => (3%N, None) | _ => (4%N, None) end) (snd r)))
    (exec sampling_apply (sampling_ask (fun _ => 0%N)) sampling_write sampling_default ops) =
  Some (f32_to_bits nhalf, [(4%N, None); (4%N, None); (4%N, None); (1%N, None); (4%N, None); (2%N, None);
    (0%N, Some [f32_to_bits nzero]); (4%N, None); (0%N, Some [f32_to_bits (f32_lit 3 0)]); (3%N, None); (4%N, None); (1%N, None)]).
Proof. vm_compute. reflexivity. Qed.

(** The layers are used by the run, then removed: the next run gives the rest pose. *)
Example C81_blending_example :
  let ops := [Call (BlSetSkeleton one_joint); Call (BlSetOutput [k1 none_]); Call (BlLayersMut [layer_with_weight [k1 ntwo] none_]);
              Ask CtxRun; Call (BlLayersMut []); Ask CtxRun; Ask TakeContext; Ask CtxRun] in
  option_map (fun r => map (fun e => match e with
                    | Got (BlRan (Ok _) (Some (_, o))) => bits_of_pose (Some o) | Got (BlRan (Err _) None) => Some [] | _ => None end) (snd r))
    (exec blending_apply blending_ask blending_write bjob_default ops) =
  Some [None; None; None; Some [f32_to_bits ntwo]; None; Some [f32_to_bits nzero]; None; Some []].
Proof. vm_compute. reflexivity. Qed.

(** A job moved to another range between two runs. *)
Example C81_local_to_model_example :
  let x (o : list (mat4 f32)) := map (fun m => f32_to_bits (l0 (l3 m))) o in
  let ops := [Call (LtSetSkeleton ex_skel); Call (LtSetInput ex_in); Ask Run; Call (LtSetOutput SkeletonProps.ex_out);
              Call (LtSetTo (IxUsize 1)); Ask Run; Call (LtSetTo (IxI16 5)); Call (LtSetFrom (IxI32 4)); Ask Validate; Ask Run] in
  option_map (fun r => map (fun e => match e with
                    | Got (LtRan o) => Some (x o) | Got (LtFailed _) => Some [] | _ => None end) (snd r))
    (exec ltm_apply (ltm_ask true) ltm_write ltm_default ops) =
  Some [None; None; Some []; None; None;
        Some (map f32_to_bits [f32_lit 1 0; f32_lit 3 0; nzero; nzero; nzero; nzero; nzero]); None; None; None;
        Some (map f32_to_bits [f32_lit 1 0; f32_lit 3 0; nzero; nzero; f32_lit 5 0; f32_lit 11 0; nzero])].
Proof. vm_compute. reflexivity. Qed.

(** Normals are added, then removed again: the second run does not touch the normals it was given. *)
Example C81_skinning_example :
  let v (x : Z) : vec3 f32 := V3 (f32_lit x 0) nzero nzero in
  let ops := [Call (SkSetVertexCount 1); Call (SkSetInfluencesCount 1); Call (SkSetJointMatrices [atf ntwo nzero nzero]);
              Call (SkSetJointIndices [0%N]); Call (SkSetInPositions [v 1]); Call (SkSetOutPositions [v 0]); Ask Validate; Ask Run;
              Call (SkSetInNormals [v 7]); Call (SkSetOutNormals [v 8]); Ask Run; Call SkClearInPositions; Ask Run] in
  let xs (o : option (list (vec3 f32))) := option_map (map (fun p => f32_to_bits (vx p))) o in
  let is z := Some [f32_to_bits (f32_lit z 0)] in
  option_map (fun r => filter (fun x => negb (Nat.eqb (fst (fst x)) 3)) (map (fun e => match e with
      | Got (SkRan (Ok _) o) => (0%nat, xs (so_positions o), xs (so_normals o))
      | Got (SkRan _ o) => (1%nat, xs (so_positions o), xs (so_normals o))
      | Got (SkValid true) => (2%nat, None, None) | _ => (3%nat, None, None) end) (snd r)))
    (exec skinning_apply (skinning_ask true) skinning_write skinning_default ops) =
  Some [(2%nat, None, None); (0%nat, is 3, None); (0%nat, is 3, is 7); (1%nat, is 3, is 7)].
Proof. vm_compute. reflexivity. Qed.

(** The same chain as C62_C63_example, set up through the setters; an invalid axis gives an error, which leaves
    the outputs; clearing them restores the identity. *)
Definition out_code (r : res unit) (a : V4 f32) (reached : bool) : bool * bool * bool :=
  (match r with Ok _ => true | _ => false end, nlt (l3 a) none_, reached).
Example C81_two_bone_example :
  let ops := [Call (I2SetTarget (mk4 none_ nzero nzero nzero)); Call (I2SetMidJoint (atf none_ nzero nzero));
              Call (I2SetEndJoint (atf none_ none_ nzero)); Ask RunIt;
              Call (I2SetMidAxis nzero); Ask RunIt; Call I2ClearMidCorrection; Call I2ClearReached; Ask RunIt] in
  option_map (fun r => (out_code (Ok tt) (o_mid (snd (fst r))) (o_reached (snd (fst r))),
      flat_map (fun e => match e with Got (r, o) => [out_code r (o_mid o) (o_reached o)] | _ => [] end) (snd r)))
    (exec two_bone_apply two_bone_ask two_bone_write two_bone_default ops) =
  Some ((true, false, false), [(true, true, true); (false, true, true); (false, false, false)]).
Proof. vm_compute. reflexivity. Qed.
Example C81_aim_example :
  let ops := [Call (AiSetTarget (mk4 none_ none_ nzero nzero)); Ask RunIt; Call (AiSetWeight nzero); Ask RunIt;
              Call (AiSetForward nzero); Ask RunIt; Call AiClearOuts] in
  option_map (fun r => (out_code (Ok tt) (ao_corr (snd (fst r))) (ao_reached (snd (fst r))),
      flat_map (fun e => match e with Got (r, o) => [out_code r (ao_corr o) (ao_reached o)] | _ => [] end) (snd r)))
    (exec aim_apply aim_ask aim_write aiming_default ops) =
  Some ((true, false, false), [(true, true, true); (true, false, true); (false, false, true)]).
Proof. vm_compute. reflexivity. Qed.

Example C81_track_example :
  let ops := [Call (TkSetRatio (f32_lit 1 (-2))); Ask Run; Call (TkSetTrack (sawf 0)); Ask Run; Call TkClearTrack; Ask Run;
              Call TkClearResult] in
  option_map (fun r => (f32_to_bits (tk_result (fst r)),
      flat_map (fun e => match e with Got (TkRan v) => [Some (f32_to_bits v)] | Got _ => [None] | _ => [] end) (snd r)))
    (exec (track_apply nzero) (track_ask lerp_f nzero) track_write (track_default nzero) ops) =
  Some (0%N, [None; Some (f32_to_bits none_); None]).
Proof. vm_compute. reflexivity. Qed.
Example C81_trigger_example :
  let ops := [Call (TgSetTo ntwo); Ask Run; Call (TgSetTrack (sawf 0)); Call (TgSetThreshold none_); Ask Run] in
  option_map (fun r => flat_map (fun e => match e with
      | Got (TgIter j st) => [edges_bits (collect 100 j st)] | Got _ => [None] | _ => [] end) (snd r))
    (exec trigger_apply trigger_ask trigger_write trigger_default ops) =
  Some [None; Some [(f32_to_bits (f32_lit 1 (-2)), true); (f32_to_bits (f32_lit 3 (-2)), false);
                    (f32_to_bits (f32_lit 5 (-2)), true); (f32_to_bits (f32_lit 7 (-2)), false)]].
Proof. vm_compute. reflexivity. Qed.
Example C81_motion_example :
  let t (x : Z) : transform f32 := TR (V3 (f32_lit x 0) nzero nzero) (Q4 nzero nzero nzero none_) (V3 none_ none_ none_) in
  let ops := [Call (MoLayersMut [mk_mlayer none_ (t 4)]); Ask Validate; Ask Run; Call MoClearOutput] in
  option_map (fun r => (f32_to_bits (vx (tr_t (mo_output (fst r)))),
      flat_map (fun e => match e with Got (MoRan o) => [Some (f32_to_bits (vx (tr_t o)))] | Got _ => [None] | _ => [] end) (snd r)))
    (exec (motion_apply (t 9)) motion_ask motion_write (motion_default (t 9)) ops) =
  Some (f32_to_bits (f32_lit 9 0), [None; Some (f32_to_bits (f32_lit 4 0))]).
Proof. vm_compute. reflexivity. Qed.

(** ** C82 *)
Lemma blend_layers_skip {F} {NF : Num F} n (l : layer F) post : layer_ok n l = true -> nle (ly_weight l) nzero = true ->
  forall pre s, blend_layers n (pre ++ l :: post) s = blend_layers n (pre ++ post) s.
Proof.
  intros O W. induction pre as [|p pre IH]; intros s; cbn [app blend_layers].
  - rewrite O, W. reflexivity.
  - destruct (negb _); [reflexivity|]. destruct (nle (ly_weight p) nzero); [apply IH|].
    destruct (layer_pass _ _ _ _) as [[? ?]| |]; [apply IH|reflexivity|reflexivity].
Qed.
Lemma add_layers_skip {F} {NF : Num F} n m (l : layer F) post : layer_ok n l = true ->
  nlt nzero (ly_weight l) = false -> nlt (ly_weight l) nzero = false ->
  forall pre s, add_layers n m (pre ++ l :: post) s = add_layers n m (pre ++ post) s.
Proof.
  intros O W1 W2. induction pre as [|p pre IH]; intros [c o]; cbn [app add_layers].
  - rewrite O, W1, W2. reflexivity.
  - destruct (negb _); [reflexivity|]. cbv zeta.
    destruct (if nlt nzero (ly_weight p) then _ else _); [apply IH|reflexivity|reflexivity].
Qed.

(** C82.  A layer built by [BlendingLayer::new], or by [with_joint_weights] whatever the weights, has no effect on
    a run wherever it stands, provided its buffers are long enough. *)
Theorem C82_unweighted_layer :
  forall (sk : skeleton f32) ctx thr pre post adds apre apost out (l : layer f32),
    (exists t, l = layer_new t) \/ (exists t ws, l = layer_with_joint_weights t ws) ->
    (num_soa_joints sk <= length (ly_transform l))%nat ->
    (ly_joint_weights l = [] \/ (num_soa_joints sk <= length (ly_joint_weights l))%nat) ->
    blend_run (mk_bjob (Some sk) ctx thr (pre ++ l :: post) adds out) =
      blend_run (mk_bjob (Some sk) ctx thr (pre ++ post) adds out) /\
    blend_run (mk_bjob (Some sk) ctx thr (pre ++ post) (apre ++ l :: apost) out) =
      blend_run (mk_bjob (Some sk) ctx thr (pre ++ post) (apre ++ apost) out).
Proof.
  intros sk ctx thr pre post adds apre apost out l K L1 L2.
  assert (W : ly_weight l = nzero) by (destruct K as [[t ->]|[t [ws ->]]]; reflexivity).
  assert (O : layer_ok (num_soa_joints sk) l = true).
  { unfold layer_ok. apply andb_true_intro. split; [apply Nat.leb_le, L1|].
    destruct (ly_joint_weights l) eqn:E; [reflexivity|]. destruct L2 as [?|L2]; [discriminate|]. apply Nat.leb_le, L2. }
  split; unfold blend_run; cbn [bj_skeleton bj_context bj_output bj_threshold bj_layers bj_additive];
    (destruct ctx as [c|]; [|reflexivity]); (destruct out as [o|]; [|reflexivity]).
  - rewrite (blend_layers_skip _ l post O) by (rewrite W; reflexivity). reflexivity.
  - destruct (negb _); [reflexivity|]. destruct (blend_layers _ _ _) as [s| |]; [|reflexivity|reflexivity].
    destruct (blend_rest_pose _ _ _) as [s'| |]; [|reflexivity|reflexivity].
    destruct (normalize _ _); [|reflexivity|reflexivity].
    apply (add_layers_skip _ _ l apost O); rewrite W; reflexivity.
Qed.
Print Assumptions C82_unweighted_layer.

(** C82, the other constructor: a layer built by [with_weight] runs, among the layers or the additive ones, as any layer
    of that pose and weight without joint weights. *)
Theorem C82_weighted_layer :
  forall sk ctx thr pre post adds apre apost out (l : layer f32) t w,
    ly_transform l = t -> ly_weight l = w -> ly_joint_weights l = [] ->
    blend_run (mk_bjob sk ctx thr (pre ++ layer_with_weight t w :: post) adds out) =
      blend_run (mk_bjob sk ctx thr (pre ++ l :: post) adds out) /\
    blend_run (mk_bjob sk ctx thr (pre ++ post) (apre ++ layer_with_weight t w :: apost) out) =
      blend_run (mk_bjob sk ctx thr (pre ++ post) (apre ++ l :: apost) out).
Proof. intros sk ctx thr pre post adds apre apost out [t' w' ws] t w E1 E2 E3. cbn in E1, E2, E3. subst. split; reflexivity. Qed.
Print Assumptions C82_weighted_layer.

(** C82 with joint weights: the caller asked for a weight of 1 on every joint of the only layer, and gets the rest
    pose; the same layer given a weight plays. *)
Example C82_example :
  let l := layer_with_joint_weights [k1 ntwo] [splat none_] in
  let run l := bits_x (blend_run (mk_bjob (Some one_joint) (Some (bctx_new 1)) nhalf [l] [] (Some [k1 none_]))) in
  run l = Some [f32_to_bits nzero] /\ run (mk_layer (ly_transform l) none_ (ly_joint_weights l)) = Some [f32_to_bits ntwo].
Proof. split; vm_compute; reflexivity. Qed.

(** ** C83 *)
(** Any i32 or i16, and any usize below 2^31, is the index given. *)
Theorem C83_index_partial :
  (forall n : N, (n < 2147483648)%N -> index_i32 (IxUsize n) = Z.of_N n) /\
  (forall z, index_i32 (IxI32 z) = z) /\ (forall z, index_i32 (IxI16 z) = z).
Proof. split; [|split; reflexivity]. intros n H. cbn. apply as_i32_id. lia. Qed.
Print Assumptions C83_index_partial.

(** A usize above is not: with [set_to(usize::MAX)], "up to the last joint", a run does nothing at all, for any
    skeleton and buffers. *)
Theorem C83_usize_max_refuted :
  forall checks (s : skeleton f32) input output,
    (num_soa_joints s <= length input)%nat -> (num_joints s <= length output)%nat ->
    exists j ev,
      exec ltm_apply (ltm_ask checks) ltm_write ltm_default
        [Call (LtSetSkeleton s); Call (LtSetInput input); Call (LtSetOutput output);
         Call (LtSetTo (IxUsize 18446744073709551615)); Ask Run] = Some (j, ev ++ [Got (LtRan output)]) /\
      lj_output j = Some output.
Proof.
  intros checks s input output H1 H2.
  set (j := mk_ltm (Some s) (Some input) mat_identity (-1) (-1) false (Some output)).
  assert (E : ltm_run checks j = Ok output).
  { unfold ltm_run, j. cbn [lj_skeleton lj_input lj_output lj_from lj_to lj_from_excluded lj_root Base.ok_or Base.bind].
    match goal with |- context [if negb ?b then _ else _] =>
      replace b with true by (symmetry; apply andb_true_intro; split; apply Nat.leb_le; assumption) end. cbn [negb].
    change (i32_add checks (-1) 0) with (@Ok Z (-1)). cbn [Base.bind]. change (i32_add checks (-1) 1) with (@Ok Z 0). cbn [Base.bind].
    rewrite !Z.max_l by lia. reflexivity. }
  exists j, [Did (LtSetSkeleton s); Did (LtSetInput input); Did (LtSetOutput output); Did (LtSetTo (IxUsize 18446744073709551615))].
  split; [|reflexivity].
  cbn [exec]. match goal with |- context [ltm_ask checks Run ?k] => change k with j end.
  unfold ltm_ask. rewrite E. reflexivity.
Qed.
Print Assumptions C83_usize_max_refuted.
Example C83_hypotheses : (num_soa_joints ex_skel <= length ex_in)%nat /\ (num_joints ex_skel <= length SkeletonProps.ex_out)%nat.
Proof. split; vm_compute; lia. Qed.
