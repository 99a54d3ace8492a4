(** What a job object holds after a history of calls: for each field, what the last call that writes this
    field wrote, or the documented default.  Each field lists its writers. *)
From Verif Require Import Base Num NumF32 Math Keys Skeleton Sampling Blending Skinning Motion Tracks Ik Objects.

(** [writes e = Some v]: the event [e] writes [v]. *)
Fixpoint latest {E V} (writes : E -> option V) (dflt : V) (h : list E) : V :=
  match h with
  | [] => dflt
  | e :: h => latest writes (match writes e with Some v => v | None => dflt end) h
  end.

Section Answers.
  (** [says j q r]: the call [q] on an object that holds [j] returns [r]. *)
  Context {J C Q R : Type} (says : J -> Q -> R -> Prop) (holds : list (event C R) -> J).
  (** [answers h ops ev]: after the history [h], the calls [ops] give the events [ev]; every result is that
      of the call on what the object holds at that time. *)
  Inductive answers : list (event C R) -> list (op C Q) -> list (event C R) -> Prop :=
  | answers_nil h : answers h [] []
  | answers_call h c ops ev :
      answers (h ++ [Did c]) ops ev -> answers h (Call c :: ops) (Did c :: ev)
  | answers_ask h q r ops ev :
      says (holds h) q r -> answers (h ++ [Got r]) ops ev -> answers h (Ask q :: ops) (Got r :: ev).
End Answers.

Definition sampling_holds (h : list (event sampling_call sampling_result)) : sampling_job :=
  mk_sampling_job
    (latest (fun e => match e with Did (SaSetAnimation a) => Some (Some a) | Did SaClearAnimation => Some None | _ => None end) None h)
    (latest (fun e => match e with
                      | Did (SaSetContext c) => Some (Some c) | Did SaClearContext => Some None
                      | Got (SaTook _) => Some None | Got (SaRan c _) => Some (Some c) | _ => None end) None h)
    (latest (fun e => match e with Did (SaSetRatio r) => Some (set_ratio r) (* clamped: C05 *) | _ => None end) nzero h)
    (latest (fun e => match e with
                      | Did (SaSetOutput o) => Some (Some o) | Did SaClearOutput => Some None
                      | Got (SaRan _ o) => Some (Some o) | _ => None end) None h).

(** The default context is empty, the default threshold is 0.1 (13421773 / 2^27, the nearest binary32). *)
Definition blending_holds (h : list (event blending_call blending_result)) : bjob f32 :=
  mk_bjob
    (latest (fun e => match e with Did (BlSetSkeleton s) => Some (Some s) | Did BlClearSkeleton => Some None | _ => None end) None h)
    (latest (fun e => match e with
                      | Did (BlSetContext c) => Some (Some c) | Did BlClearContext => Some None
                      | Got (BlTook _) => Some None | Got (BlRan _ (Some (c, _))) => Some (Some c) | _ => None end)
      (Some (mk_bctx 0 0 nzero [])) h)
    (latest (fun e => match e with Did (BlSetThreshold t) => Some t | _ => None end) (nlit 13421773 (-27)) h)
    (latest (fun e => match e with Did (BlLayersMut l) => Some l | _ => None end) [] h)
    (latest (fun e => match e with Did (BlAdditiveLayersMut l) => Some l | _ => None end) [] h)
    (latest (fun e => match e with
                      | Did (BlSetOutput o) => Some (Some o) | Did BlClearOutput => Some None
                      | Got (BlRan _ (Some (_, o))) => Some (Some o) | _ => None end) None h).

(** By default every joint is updated: [from] is -1 (no parent), [to] is 1024 (the maximum). *)
Definition ltm_holds (h : list (event ltm_call ltm_result)) : ltm_job f32 :=
  mk_ltm
    (latest (fun e => match e with Did (LtSetSkeleton s) => Some (Some s) | Did LtClearSkeleton => Some None | _ => None end) None h)
    (latest (fun e => match e with Did (LtSetInput i) => Some (Some i) | Did LtClearInput => Some None | _ => None end) None h)
    (latest (fun e => match e with Did (LtSetRoot m) => Some m | _ => None end) mat_identity h)
    (latest (fun e => match e with Did (LtSetFrom i) => Some (index_i32 i) | _ => None end) (-1)%Z h)
    (latest (fun e => match e with Did (LtSetTo i) => Some (index_i32 i) | _ => None end) 1024%Z h)
    (latest (fun e => match e with Did (LtSetFromExcluded b) => Some b | _ => None end) false h)
    (latest (fun e => match e with
                      | Did (LtSetOutput o) => Some (Some o) | Did LtClearOutput => Some None
                      | Got (LtRan o) => Some (Some o) | _ => None end) None h).

Definition skinning_holds (h : list (event skinning_call skinning_result)) : sjob f32 :=
  mk_sjob
    (latest (fun e => match e with Did (SkSetVertexCount n) => Some n | _ => None end) 0%N h)
    (latest (fun e => match e with Did (SkSetInfluencesCount n) => Some n | _ => None end) 0%N h)
    (latest (fun e => match e with Did (SkSetJointMatrices m) => Some (Some m) | Did SkClearJointMatrices => Some None | _ => None end) None h)
    (latest (fun e => match e with Did (SkSetJointItMatrices m) => Some (Some m) | Did SkClearJointItMatrices => Some None | _ => None end) None h)
    (latest (fun e => match e with Did (SkSetJointIndices m) => Some (Some m) | Did SkClearJointIndices => Some None | _ => None end) None h)
    (latest (fun e => match e with Did (SkSetJointWeights m) => Some (Some m) | Did SkClearJointWeights => Some None | _ => None end) None h)
    (latest (fun e => match e with Did (SkSetInPositions m) => Some (Some m) | Did SkClearInPositions => Some None | _ => None end) None h)
    (latest (fun e => match e with Did (SkSetInNormals m) => Some (Some m) | Did SkClearInNormals => Some None | _ => None end) None h)
    (latest (fun e => match e with Did (SkSetInTangents m) => Some (Some m) | Did SkClearInTangents => Some None | _ => None end) None h)
    (mk_souts
      (latest (fun e => match e with
                        | Did (SkSetOutPositions m) => Some (Some m) | Did SkClearOutPositions => Some None
                        | Got (SkRan _ o) => Some (so_positions o) | _ => None end) None h)
      (latest (fun e => match e with
                        | Did (SkSetOutNormals m) => Some (Some m) | Did SkClearOutNormals => Some None
                        | Got (SkRan _ o) => Some (so_normals o) | _ => None end) None h)
      (latest (fun e => match e with
                        | Did (SkSetOutTangents m) => Some (Some m) | Did SkClearOutTangents => Some None
                        | Got (SkRan _ o) => Some (so_tangents o) | _ => None end) None h)).

(** By default: the axis is z, the pole vector y, nothing is twisted, softening and weight are 1; the
    corrections are the identity rotation and nothing is reached. *)
Definition identity_rotation : V4 f32 := mk4 nzero nzero nzero none_.
Definition two_bone_holds (h : list (event two_bone_call (res unit * ik2_out f32))) : two_bone :=
  (mk_ik2_job
    (latest (fun e => match e with Did (I2SetTarget v) => Some v | _ => None end) (mk4 nzero nzero nzero nzero) h)
    (latest (fun e => match e with Did (I2SetMidAxis v) => Some v | _ => None end) (mk4 nzero nzero none_ nzero) h)
    (latest (fun e => match e with Did (I2SetPoleVector v) => Some v | _ => None end) (mk4 nzero none_ nzero nzero) h)
    (latest (fun e => match e with Did (I2SetTwistAngle v) => Some v | _ => None end) nzero h)
    (latest (fun e => match e with Did (I2SetSoften v) => Some v | _ => None end) none_ h)
    (latest (fun e => match e with Did (I2SetWeight v) => Some v | _ => None end) none_ h)
    (latest (fun e => match e with Did (I2SetStartJoint v) => Some v | _ => None end) mat_identity h)
    (latest (fun e => match e with Did (I2SetMidJoint v) => Some v | _ => None end) mat_identity h)
    (latest (fun e => match e with Did (I2SetEndJoint v) => Some v | _ => None end) mat_identity h),
   mk_ik2_out
    (latest (fun e => match e with Did I2ClearStartCorrection | Did I2ClearOuts => Some identity_rotation | Got r => Some (o_start (snd r)) | _ => None end) identity_rotation h)
    (latest (fun e => match e with Did I2ClearMidCorrection | Did I2ClearOuts => Some identity_rotation | Got r => Some (o_mid (snd r)) | _ => None end) identity_rotation h)
    (latest (fun e => match e with Did I2ClearReached | Did I2ClearOuts => Some false | Got r => Some (o_reached (snd r)) | _ => None end) false h)).

(** By default: forward is x, up and the pole vector are y, no offset, no twist, the weight is 1. *)
Definition aim_holds (h : list (event aim_call (res unit * aim_out f32))) : aiming :=
  (mk_aim_job
    (latest (fun e => match e with Did (AiSetTarget v) => Some v | _ => None end) (mk4 nzero nzero nzero nzero) h)
    (latest (fun e => match e with Did (AiSetForward v) => Some v | _ => None end) (mk4 none_ nzero nzero nzero) h)
    (latest (fun e => match e with Did (AiSetOffset v) => Some v | _ => None end) (mk4 nzero nzero nzero nzero) h)
    (latest (fun e => match e with Did (AiSetUp v) => Some v | _ => None end) (mk4 nzero none_ nzero nzero) h)
    (latest (fun e => match e with Did (AiSetPoleVector v) => Some v | _ => None end) (mk4 nzero none_ nzero nzero) h)
    (latest (fun e => match e with Did (AiSetTwistAngle v) => Some v | _ => None end) nzero h)
    (latest (fun e => match e with Did (AiSetWeight v) => Some v | _ => None end) none_ h)
    (latest (fun e => match e with Did (AiSetJoint v) => Some v | _ => None end) mat_identity h),
   mk_aim_out
    (latest (fun e => match e with Did AiClearCorrection | Did AiClearOuts => Some identity_rotation | Got r => Some (ao_corr (snd r)) | _ => None end) identity_rotation h)
    (latest (fun e => match e with Did AiClearReached | Did AiClearOuts => Some false | Got r => Some (ao_reached (snd r)) | _ => None end) false h)).

Definition motion_holds (zero : transform f32) (h : list (event motion_call motion_result)) : motion_job :=
  mk_motion_job
    (latest (fun e => match e with Did (MoLayersMut v) => Some v | _ => None end) [] h)
    (latest (fun e => match e with Did (MoSetOutput t) => Some t | Did MoClearOutput => Some zero | Got (MoRan t) => Some t | _ => None end) zero h).

Definition track_holds {V} (zero : V) (h : list (event (@track_call V) (@track_result V))) : @track_job V :=
  mk_track_job
    (latest (fun e => match e with Did (TkSetTrack t) => Some (Some t) | Did TkClearTrack => Some None | _ => None end) None h)
    (latest (fun e => match e with Did (TkSetRatio v) => Some v | _ => None end) nzero h)
    (latest (fun e => match e with Did TkClearResult | Did TkClearOuts => Some zero | Got (TkRan v) => Some v | _ => None end) zero h).

Definition trigger_holds (h : list (event trigger_call trigger_result)) : trigger_job :=
  mk_trigger_job
    (latest (fun e => match e with Did (TgSetTrack t) => Some (Some t) | Did TgClearTrack => Some None | _ => None end) None h)
    (latest (fun e => match e with Did (TgSetFrom v) => Some v | _ => None end) nzero h)
    (latest (fun e => match e with Did (TgSetTo v) => Some v | _ => None end) nzero h)
    (latest (fun e => match e with Did (TgSetThreshold v) => Some v | _ => None end) nzero h).

(** ** What a call returns: the job functions, applied to the fields of the object
    A call that panics returns nothing. *)
Inductive sampling_says (outside : nat -> N) (j : sampling_job) : context_ask -> sampling_result -> Prop :=
| sampling_took : sampling_says outside j TakeContext (SaTook (sa_context j))
| sampling_valid : sampling_says outside j CtxValidate (SaValid (validate (sa_animation j) (sa_context j) (sa_output j)))
| sampling_ran c o :
    run float3_simd_decompress quat_simd_decompress outside (sa_animation j) (sa_context j) (sa_ratio j) (sa_output j) = Ok (c, o) ->
    sampling_says outside j CtxRun (SaRan c o)
| sampling_failed e :
    run float3_simd_decompress quat_simd_decompress outside (sa_animation j) (sa_context j) (sa_ratio j) (sa_output j) = Err e ->
    sampling_says outside j CtxRun (SaFailed e).

(** A blend that fails may have written its context and output, unless a field is missing. *)
Inductive blending_says (j : bjob f32) : context_ask -> blending_result -> Prop :=
| blending_took : blending_says j TakeContext (BlTook (bj_context j))
| blending_valid : blending_says j CtxValidate (BlValid (blend_validate j))
| blending_ran s : blend_run j = BOk s -> blending_says j CtxRun (BlRan (Ok tt) (Some s))
| blending_failed e s :
    blend_run j = BErr e s -> bj_skeleton j <> None -> bj_context j <> None -> bj_output j <> None ->
    blending_says j CtxRun (BlRan (Err e) (Some s))
| blending_unset e s :
    blend_run j = BErr e s -> bj_skeleton j = None \/ bj_context j = None \/ bj_output j = None ->
    blending_says j CtxRun (BlRan (Err e) None).

Inductive ltm_says (checks : bool) (j : ltm_job f32) : plain_ask -> ltm_result -> Prop :=
| ltm_valid : ltm_says checks j Validate (LtValid (ltm_validate j))
| ltm_ran o : ltm_run checks j = Ok o -> ltm_says checks j Run (LtRan o)
| ltm_failed e : ltm_run checks j = Err e -> ltm_says checks j Run (LtFailed e).

Inductive skinning_says (checks : bool) (j : sjob f32) : plain_ask -> skinning_result -> Prop :=
| skinning_valid b : skin_validate checks j = Ok b -> skinning_says checks j Validate (SkValid b)
| skinning_ran o : skin_run checks j = SOk o -> skinning_says checks j Run (SkRan (Ok tt) o)
| skinning_failed e o : skin_run checks j = SErr e o -> skinning_says checks j Run (SkRan (Err e) o).

Definition two_bone_says (j : two_bone) (q : run_ask) (r : res unit * ik2_out f32) : Prop := ik2_run (fst j) (snd j) = Some r.
Definition aim_says (j : aiming) (q : run_ask) (r : res unit * aim_out f32) : Prop := aim_run (fst j) (snd j) = Some r.

Inductive motion_says (j : motion_job) : plain_ask -> motion_result -> Prop :=
| motion_valid : motion_says j Validate (MoValid true)
| motion_ran : motion_says j Run (MoRan (motion_run (mo_layers j) (mo_output j))).

Inductive track_says {V} (lerp : V -> V -> f32 -> V) (zero : V) (j : @track_job V) : plain_ask -> @track_result V -> Prop :=
| track_valid t : tk_track j = Some t -> track_says lerp zero j Validate (TkValid true)
| track_invalid : tk_track j = None -> track_says lerp zero j Validate (TkValid false)
| track_ran t v : tk_track j = Some t -> sample_track lerp zero t (tk_ratio j) = Ok v -> track_says lerp zero j Run (TkRan v)
| track_failed t e : tk_track j = Some t -> sample_track lerp zero t (tk_ratio j) = Err e -> track_says lerp zero j Run (TkFailed e)
| track_unset : tk_track j = None -> track_says lerp zero j Run (TkFailed InvalidJob).

(** The iterator goes over the track from [from] to [to] with the threshold the job holds. *)
Inductive trigger_says (j : trigger_job) : plain_ask -> trigger_result -> Prop :=
| trigger_valid t : tg_track j = Some t -> trigger_says j Validate (TgValid true)
| trigger_invalid : tg_track j = None -> trigger_says j Validate (TgValid false)
| trigger_ran t job :
    tg_track j = Some t -> j_track job = t -> j_from job = tg_from j -> j_to job = tg_to j -> j_threshold job = tg_threshold j ->
    trigger_says j Run (TgIter job (iter_new job))
| trigger_unset : tg_track j = None -> trigger_says j Run (TgFailed InvalidJob).
