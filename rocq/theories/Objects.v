(** The job objects: their fields, default values, setters, and calls in any order.

    Simplified: shared objects and buffers are values, as in SamplingJobRef and the other "Ref" types;
    what sharing adds is in Buffers.v and Threads.v.  A getter is a field of the record.  [layers_mut] and
    [additive_layers_mut] return the vector itself; a call stands for the vector the user leaves in it.
    The fields of the IK jobs are Vec3A and Mat4 values, converted without change (math.rs 954-984,
    610-619). *)
From Verif Require Import Base Num NumF32 Math Keys Skeleton Sampling Blending Skinning Motion Tracks Ik.
Local Open Scope res_scope.

(** Not code of its own: the calls of the jobs below.  A call that only changes fields, or one that also returns something. *)
Inductive op (C Q : Type) := Call (c : C) | Ask (q : Q).
Arguments Call {C Q}. Arguments Ask {C Q}.
(** What happened: a call, or a call with its result. *)
Inductive event (C R : Type) := Did (c : C) | Got (r : R).
Arguments Did {C R}. Arguments Got {C R}.

Section Machine.
  Context {J C Q R : Type} (apply : C -> J -> J) (ask : Q -> J -> option R) (write : R -> J -> J).
  (** [None]: the call panics (or is undefined behaviour), the history ends there. *)
  Fixpoint exec (j : J) (ops : list (op C Q)) : option (J * list (event C R)) :=
    match ops with
    | [] => Some (j, [])
    | Call c :: ops =>
        match exec (apply c j) ops with Some (j', ev) => Some (j', Did c :: ev) | None => None end
    | Ask q :: ops =>
        match ask q j with
        | Some r => match exec (write r j) ops with Some (j', ev) => Some (j', Got r :: ev) | None => None end
        | None => None
        end
    end.
End Machine.

(** ** SamplingJob *)
Notation anim_t := (animation f32 key key).
Notation pose_t := (list (transform (V4 f32))).
(** sampling_job.rs 960-971 *)
Record sampling_job := mk_sampling_job {
  sa_animation : option anim_t; sa_context : option (context f32); sa_ratio : f32; sa_output : option pose_t }.
(** 982-989 *)
Definition sampling_default : sampling_job := mk_sampling_job None None nzero None.
Inductive sampling_call :=
| SaSetAnimation (a : anim_t) | SaClearAnimation | SaSetContext (c : context f32) | SaClearContext
| SaSetRatio (r : f32) | SaSetOutput (o : pose_t) | SaClearOutput.
(** 1006-1014, 1024-1032, 1055-1057, 1073-1081 *)
Definition sampling_apply (c : sampling_call) (j : sampling_job) : sampling_job :=
  let '(mk_sampling_job an cx ra ou) := j in
  match c with
  | SaSetAnimation a => mk_sampling_job (Some a) cx ra ou
  | SaClearAnimation => mk_sampling_job None cx ra ou
  | SaSetContext c => mk_sampling_job an (Some c) ra ou
  | SaClearContext => mk_sampling_job an None ra ou
  | SaSetRatio r => mk_sampling_job an cx (set_ratio r) ou
  | SaSetOutput o => mk_sampling_job an cx ra (Some o)
  | SaClearOutput => mk_sampling_job an cx ra None
  end.
(** 1036-1038 [take_context], 1084-1095 [validate], 1099-1133 [run] *)
Inductive context_ask := TakeContext | CtxValidate | CtxRun.
Inductive sampling_result :=
| SaTook (c : option (context f32)) | SaValid (b : bool) | SaFailed (e : ozz_error) | SaRan (c : context f32) (o : pose_t).
Definition sampling_ask (outside : nat -> N) (q : context_ask) (j : sampling_job) : option sampling_result :=
  match q with
  | TakeContext => Some (SaTook (sa_context j))
  | CtxValidate => Some (SaValid (validate (sa_animation j) (sa_context j) (sa_output j)))
  | CtxRun =>
      match run float3_simd_decompress quat_simd_decompress outside (sa_animation j) (sa_context j) (sa_ratio j) (sa_output j) with
      | Ok (c, o) => Some (SaRan c o)
      | Err e => Some (SaFailed e)
      | Panic => None
      end
  end.
(** 1037: [Option::take]; the run works on the context and the output in place. *)
Definition sampling_write (r : sampling_result) (j : sampling_job) : sampling_job :=
  let '(mk_sampling_job an cx ra ou) := j in
  match r with
  | SaTook _ => mk_sampling_job an None ra ou
  | SaRan c o => mk_sampling_job an (Some c) ra (Some o)
  | _ => j
  end.

(** ** BlendingJob *)
(** blending_job.rs 40-62: the constructors of a layer *)
Definition layer_new (t : pose_t) : layer f32 := mk_layer t nzero [].
Definition layer_with_weight (t : pose_t) (w : f32) : layer f32 := mk_layer t w [].
Definition layer_with_joint_weights (t : pose_t) (ws : list (V4 f32)) : layer f32 := mk_layer t nzero ws.
(** 79-98: the constructors of a context *)
Definition bctx_default : bctx f32 := mk_bctx 0 0 nzero [].
Definition bctx_new (soa_joints : nat) : bctx f32 := mk_bctx 0 0 nzero (repeat (splat nzero) soa_joints).
Inductive blending_call :=
| BlSetSkeleton (s : skeleton f32) | BlClearSkeleton | BlSetContext (c : bctx f32) | BlClearContext
| BlSetThreshold (t : f32) | BlLayersMut (l : list (layer f32)) | BlAdditiveLayersMut (l : list (layer f32))
| BlSetOutput (o : pose_t) | BlClearOutput.
(** 173-181, 191-199, 219-221, 233-235, 247-249, 261-269 *)
Definition blending_apply (c : blending_call) (j : bjob f32) : bjob f32 :=
  let '(mk_bjob sk cx th la ad ou) := j in
  match c with
  | BlSetSkeleton s => mk_bjob (Some s) cx th la ad ou
  | BlClearSkeleton => mk_bjob None cx th la ad ou
  | BlSetContext c => mk_bjob sk (Some c) th la ad ou
  | BlClearContext => mk_bjob sk None th la ad ou
  | BlSetThreshold t => mk_bjob sk cx t la ad ou
  | BlLayersMut l => mk_bjob sk cx th l ad ou
  | BlAdditiveLayersMut l => mk_bjob sk cx th la l ou
  | BlSetOutput o => mk_bjob sk cx th la ad (Some o)
  | BlClearOutput => mk_bjob sk cx th la ad None
  end.
(** 203-205 [take_context], 272-298 [validate], 302-325 [run]; [BlRan]: the result and, unless a field is
    missing, the context and the output it leaves. *)
Inductive blending_result :=
| BlTook (c : option (bctx f32)) | BlValid (b : bool) | BlRan (r : res unit) (left : option (bctx f32 * pose_t)).
Definition blending_ask (q : context_ask) (j : bjob f32) : option blending_result :=
  match q with
  | TakeContext => Some (BlTook (bj_context j))
  | CtxValidate => Some (BlValid (blend_validate j))
  | CtxRun =>
      let whole := match bj_skeleton j, bj_context j, bj_output j with Some _, Some _, Some _ => true | _, _, _ => false end in
      match blend_run j with
      | BOk s => Some (BlRan (Ok tt) (Some s))
      | BErr e s => Some (BlRan (Err e) (if whole then Some s else None))
      | BPanic => None
      end
  end.
Definition blending_write (r : blending_result) (j : bjob f32) : bjob f32 :=
  let '(mk_bjob sk cx th la ad ou) := j in
  match r with
  | BlTook _ => mk_bjob sk None th la ad ou
  | BlRan _ (Some (c, o)) => mk_bjob sk (Some c) th la ad (Some o)
  | _ => j
  end.

(** ** LocalToModelJob *)
(** base.rs 122-143 [OzzIndex]: usize, i32 or i16; [i32] is a cast. *)
Inductive index := IxUsize (n : N) | IxI32 (z : Z) | IxI16 (z : Z).
Definition index_i32 (i : index) : Z :=
  match i with IxUsize n => as_i32 (Z.of_N n) | IxI32 z => z | IxI16 z => z end.
Inductive ltm_call :=
| LtSetSkeleton (s : skeleton f32) | LtClearSkeleton | LtSetInput (i : pose_t) | LtClearInput | LtSetRoot (m : mat4 f32)
| LtSetFrom (i : index) | LtSetTo (i : index) | LtSetFromExcluded (b : bool) | LtSetOutput (o : list (mat4 f32)) | LtClearOutput.
(** local_to_model_job.rs 82-90, 102-110, 123-125, 143-145, 161-163, 181-183, 195-203 *)
Definition ltm_apply (c : ltm_call) (j : ltm_job f32) : ltm_job f32 :=
  let '(mk_ltm sk inp ro fr to ex ou) := j in
  match c with
  | LtSetSkeleton s => mk_ltm (Some s) inp ro fr to ex ou
  | LtClearSkeleton => mk_ltm None inp ro fr to ex ou
  | LtSetInput i => mk_ltm sk (Some i) ro fr to ex ou
  | LtClearInput => mk_ltm sk None ro fr to ex ou
  | LtSetRoot m => mk_ltm sk inp m fr to ex ou
  | LtSetFrom i => mk_ltm sk inp ro (index_i32 i) to ex ou
  | LtSetTo i => mk_ltm sk inp ro fr (index_i32 i) ex ou
  | LtSetFromExcluded b => mk_ltm sk inp ro fr to b ou
  | LtSetOutput o => mk_ltm sk inp ro fr to ex (Some o)
  | LtClearOutput => mk_ltm sk inp ro fr to ex None
  end.
(** 206-217 [validate], 221-257 [run] *)
Inductive plain_ask := Validate | Run.
Inductive ltm_result := LtValid (b : bool) | LtFailed (e : ozz_error) | LtRan (o : list (mat4 f32)).
Definition ltm_ask (checks : bool) (q : plain_ask) (j : ltm_job f32) : option ltm_result :=
  match q with
  | Validate => Some (LtValid (ltm_validate j))
  | Run => match ltm_run checks j with Ok o => Some (LtRan o) | Err e => Some (LtFailed e) | Panic => None end
  end.
Definition ltm_write (r : ltm_result) (j : ltm_job f32) : ltm_job f32 :=
  let '(mk_ltm sk inp ro fr to ex ou) := j in
  match r with LtRan o => mk_ltm sk inp ro fr to ex (Some o) | _ => j end.

(** ** SkinningJob *)
(** skinning_job.rs 71-91 *)
Definition skinning_default : sjob f32 := mk_sjob 0 0 None None None None None None None (mk_souts None None None).
Notation v3s := (list (vec3 f32)).
Inductive skinning_call :=
| SkSetVertexCount (n : N) | SkSetInfluencesCount (n : N)
| SkSetJointMatrices (m : list (mat4 f32)) | SkClearJointMatrices
| SkSetJointItMatrices (m : list (mat4 f32)) | SkClearJointItMatrices
| SkSetJointIndices (i : list N) | SkClearJointIndices | SkSetJointWeights (w : list f32) | SkClearJointWeights
| SkSetInPositions (v : v3s) | SkClearInPositions | SkSetInNormals (v : v3s) | SkClearInNormals
| SkSetInTangents (v : v3s) | SkClearInTangents | SkSetOutPositions (v : v3s) | SkClearOutPositions
| SkSetOutNormals (v : v3s) | SkClearOutNormals | SkSetOutTangents (v : v3s) | SkClearOutTangents.
(** 111-113, 130-132, 144-152, 165-173, 183-191, 209-217, 229-237, 249-257, 269-277, 289-297, 309-317, 329-337 *)
Definition skinning_apply (c : skinning_call) (j : sjob f32) : sjob f32 :=
  let '(mk_sjob vc ic jm it ji jw ip im ig (mk_souts op on ot)) := j in
  match c with
  | SkSetVertexCount n => mk_sjob n ic jm it ji jw ip im ig (mk_souts op on ot)
  | SkSetInfluencesCount n => mk_sjob vc n jm it ji jw ip im ig (mk_souts op on ot)
  | SkSetJointMatrices m => mk_sjob vc ic (Some m) it ji jw ip im ig (mk_souts op on ot)
  | SkClearJointMatrices => mk_sjob vc ic None it ji jw ip im ig (mk_souts op on ot)
  | SkSetJointItMatrices m => mk_sjob vc ic jm (Some m) ji jw ip im ig (mk_souts op on ot)
  | SkClearJointItMatrices => mk_sjob vc ic jm None ji jw ip im ig (mk_souts op on ot)
  | SkSetJointIndices i => mk_sjob vc ic jm it (Some i) jw ip im ig (mk_souts op on ot)
  | SkClearJointIndices => mk_sjob vc ic jm it None jw ip im ig (mk_souts op on ot)
  | SkSetJointWeights w => mk_sjob vc ic jm it ji (Some w) ip im ig (mk_souts op on ot)
  | SkClearJointWeights => mk_sjob vc ic jm it ji None ip im ig (mk_souts op on ot)
  | SkSetInPositions v => mk_sjob vc ic jm it ji jw (Some v) im ig (mk_souts op on ot)
  | SkClearInPositions => mk_sjob vc ic jm it ji jw None im ig (mk_souts op on ot)
  | SkSetInNormals v => mk_sjob vc ic jm it ji jw ip (Some v) ig (mk_souts op on ot)
  | SkClearInNormals => mk_sjob vc ic jm it ji jw ip None ig (mk_souts op on ot)
  | SkSetInTangents v => mk_sjob vc ic jm it ji jw ip im (Some v) (mk_souts op on ot)
  | SkClearInTangents => mk_sjob vc ic jm it ji jw ip im None (mk_souts op on ot)
  | SkSetOutPositions v => mk_sjob vc ic jm it ji jw ip im ig (mk_souts (Some v) on ot)
  | SkClearOutPositions => mk_sjob vc ic jm it ji jw ip im ig (mk_souts None on ot)
  | SkSetOutNormals v => mk_sjob vc ic jm it ji jw ip im ig (mk_souts op (Some v) ot)
  | SkClearOutNormals => mk_sjob vc ic jm it ji jw ip im ig (mk_souts op None ot)
  | SkSetOutTangents v => mk_sjob vc ic jm it ji jw ip im ig (mk_souts op on (Some v))
  | SkClearOutTangents => mk_sjob vc ic jm it ji jw ip im ig (mk_souts op on None)
  end.
(** 340-371 [validate], 531-575 [run] *)
Inductive skinning_result := SkValid (b : bool) | SkRan (r : res unit) (o : souts f32).
Definition skinning_ask (checks : bool) (q : plain_ask) (j : sjob f32) : option skinning_result :=
  match q with
  | Validate => match skin_validate checks j with Ok b => Some (SkValid b) | _ => None end
  | Run => match skin_run checks j with SOk o => Some (SkRan (Ok tt) o) | SErr e o => Some (SkRan (Err e) o) | SPanic => None end
  end.
Definition skinning_write (r : skinning_result) (j : sjob f32) : sjob f32 :=
  let '(mk_sjob vc ic jm it ji jw ip im ig _) := j in
  match r with SkRan _ o => mk_sjob vc ic jm it ji jw ip im ig o | _ => j end.

(** ** IKTwoBoneJob *)
Notation v4f := (V4 f32).
Definition two_bone := (ik2_job f32 * ik2_out f32)%type.
(** ik_two_bone_job.rs 79-94 *)
Definition two_bone_default : two_bone := (ik2_default, ik2_out_default).
Inductive two_bone_call :=
| I2SetTarget (v : v4f) | I2SetMidAxis (v : v4f) | I2SetPoleVector (v : v4f) | I2SetTwistAngle (x : f32) | I2SetSoften (x : f32)
| I2SetWeight (x : f32) | I2SetStartJoint (m : mat4 f32) | I2SetMidJoint (m : mat4 f32) | I2SetEndJoint (m : mat4 f32)
| I2ClearStartCorrection | I2ClearMidCorrection | I2ClearReached | I2ClearOuts.
(** 108-110, 128-130, 147-149, 161-163, 178-180, 193-195, 208-210, 223-225, 238-240, 254-256, 270-272, 287-297 *)
Definition two_bone_apply (c : two_bone_call) (j : two_bone) : two_bone :=
  let '(mk_ik2_job ta ax po tw so we st mi en, mk_ik2_out cs cm re) := j in
  match c with
  | I2SetTarget v => (mk_ik2_job v ax po tw so we st mi en, mk_ik2_out cs cm re)
  | I2SetMidAxis v => (mk_ik2_job ta v po tw so we st mi en, mk_ik2_out cs cm re)
  | I2SetPoleVector v => (mk_ik2_job ta ax v tw so we st mi en, mk_ik2_out cs cm re)
  | I2SetTwistAngle x => (mk_ik2_job ta ax po x so we st mi en, mk_ik2_out cs cm re)
  | I2SetSoften x => (mk_ik2_job ta ax po tw x we st mi en, mk_ik2_out cs cm re)
  | I2SetWeight x => (mk_ik2_job ta ax po tw so x st mi en, mk_ik2_out cs cm re)
  | I2SetStartJoint m => (mk_ik2_job ta ax po tw so we m mi en, mk_ik2_out cs cm re)
  | I2SetMidJoint m => (mk_ik2_job ta ax po tw so we st m en, mk_ik2_out cs cm re)
  | I2SetEndJoint m => (mk_ik2_job ta ax po tw so we st mi m, mk_ik2_out cs cm re)
  | I2ClearStartCorrection => (mk_ik2_job ta ax po tw so we st mi en, mk_ik2_out QUAT_UNIT cm re)
  | I2ClearMidCorrection => (mk_ik2_job ta ax po tw so we st mi en, mk_ik2_out cs QUAT_UNIT re)
  | I2ClearReached => (mk_ik2_job ta ax po tw so we st mi en, mk_ik2_out cs cm false)
  | I2ClearOuts => (mk_ik2_job ta ax po tw so we st mi en, mk_ik2_out QUAT_UNIT QUAT_UNIT false)
  end.
(** 307-327 [run]; [validate] is private *)
Inductive run_ask := RunIt.
Definition two_bone_ask (q : run_ask) (j : two_bone) : option (res unit * ik2_out f32) := ik2_run (fst j) (snd j).
Definition two_bone_write (r : res unit * ik2_out f32) (j : two_bone) : two_bone := (fst j, snd r).

(** ** IKAimJob *)
Definition aiming := (aim_job f32 * aim_out f32)%type.
(** ik_aim_job.rs 41-55 *)
Definition aiming_default : aiming := (aim_default, aim_out_default).
Inductive aim_call :=
| AiSetTarget (v : v4f) | AiSetForward (v : v4f) | AiSetOffset (v : v4f) | AiSetUp (v : v4f) | AiSetPoleVector (v : v4f)
| AiSetTwistAngle (x : f32) | AiSetWeight (x : f32) | AiSetJoint (m : mat4 f32)
| AiClearCorrection | AiClearReached | AiClearOuts.
(** 69-71, 85-87, 99-101, 114-116, 132-134, 146-148, 161-163, 175-177, 190-192, 206-215 *)
Definition aim_apply (c : aim_call) (j : aiming) : aiming :=
  let '(mk_aim_job ta fo of up po tw we jo, mk_aim_out co re) := j in
  match c with
  | AiSetTarget v => (mk_aim_job v fo of up po tw we jo, mk_aim_out co re)
  | AiSetForward v => (mk_aim_job ta v of up po tw we jo, mk_aim_out co re)
  | AiSetOffset v => (mk_aim_job ta fo v up po tw we jo, mk_aim_out co re)
  | AiSetUp v => (mk_aim_job ta fo of v po tw we jo, mk_aim_out co re)
  | AiSetPoleVector v => (mk_aim_job ta fo of up v tw we jo, mk_aim_out co re)
  | AiSetTwistAngle x => (mk_aim_job ta fo of up po x we jo, mk_aim_out co re)
  | AiSetWeight x => (mk_aim_job ta fo of up po tw x jo, mk_aim_out co re)
  | AiSetJoint m => (mk_aim_job ta fo of up po tw we m, mk_aim_out co re)
  | AiClearCorrection => (mk_aim_job ta fo of up po tw we jo, mk_aim_out QUAT_UNIT re)
  | AiClearReached => (mk_aim_job ta fo of up po tw we jo, mk_aim_out co false)
  | AiClearOuts => (mk_aim_job ta fo of up po tw we jo, mk_aim_out QUAT_UNIT false)
  end.
(** 225-293 [run] *)
Definition aim_ask (q : run_ask) (j : aiming) : option (res unit * aim_out f32) := aim_run (fst j) (snd j).
Definition aim_write (r : res unit * aim_out f32) (j : aiming) : aiming := (fst j, snd r).

(** ** MotionBlendingJob: motion_blending_job.rs 31-35; [zero] is Transform3A::default(), which glam_ext
    defines. *)
Record motion_job := mk_motion_job { mo_layers : list (mlayer f32); mo_output : transform f32 }.
Definition motion_default (zero : transform f32) : motion_job := mk_motion_job [] zero.
Inductive motion_call := MoLayersMut (l : list (mlayer f32)) | MoSetOutput (t : transform f32) | MoClearOutput.
(** 51-53, 65-73 *)
Definition motion_apply (zero : transform f32) (c : motion_call) (j : motion_job) : motion_job :=
  match c with
  | MoLayersMut l => mk_motion_job l (mo_output j)
  | MoSetOutput t => mk_motion_job (mo_layers j) t
  | MoClearOutput => mk_motion_job (mo_layers j) zero
  end.
(** 76-78, 82-130 *)
Inductive motion_result := MoValid (b : bool) | MoRan (t : transform f32).
Definition motion_ask (q : plain_ask) (j : motion_job) : option motion_result :=
  match q with Validate => Some (MoValid true) | Run => Some (MoRan (motion_run (mo_layers j) (mo_output j))) end.
Definition motion_write (r : motion_result) (j : motion_job) : motion_job :=
  match r with MoRan t => mk_motion_job (mo_layers j) t | _ => j end.

(** ** TrackSamplingJob: track_sampling_job.rs 18-26, for any value type *)
Section TrackSampling.
  Context {V : Type} (lerp : V -> V -> f32 -> V) (zero : V).
  Record track_job := mk_track_job { tk_track : option (ftrack f32 V); tk_ratio : f32; tk_result : V }.
  (** 36-42 *)
  Definition track_default : track_job := mk_track_job None nzero zero.
  Inductive track_call := TkSetTrack (t : ftrack f32 V) | TkClearTrack | TkSetRatio (r : f32) | TkClearResult | TkClearOuts.
  (** 60-68, 82-84, 94-102 *)
  Definition track_apply (c : track_call) (j : track_job) : track_job :=
    let '(mk_track_job tr ra re) := j in
    match c with
    | TkSetTrack t => mk_track_job (Some t) ra re
    | TkClearTrack => mk_track_job None ra re
    | TkSetRatio r => mk_track_job tr r re
    | TkClearResult => mk_track_job tr ra zero
    | TkClearOuts => mk_track_job tr ra zero
    end.
  (** 106-108 [validate], 112-145 [run] *)
  Inductive track_result := TkValid (b : bool) | TkFailed (e : ozz_error) | TkRan (v : V).
  Definition track_ask (q : plain_ask) (j : track_job) : option track_result :=
    match q with
    | Validate => Some (TkValid (match tk_track j with Some _ => true | None => false end))
    | Run =>
        match tk_track j with
        | None => Some (TkFailed InvalidJob)
        | Some t =>
            match sample_track lerp zero t (tk_ratio j) with
            | Ok v => Some (TkRan v)
            | Err e => Some (TkFailed e)
            | Panic => None
            end
        end
    end.
  Definition track_write (r : track_result) (j : track_job) : track_job :=
    let '(mk_track_job tr ra re) := j in
    match r with TkRan v => mk_track_job tr ra v | _ => j end.
End TrackSampling.

(** ** TrackTriggeringJob: track_triggering_job.rs 43-51 *)
Record trigger_job := mk_trigger_job { tg_track : option (ftrack f32 f32); tg_from : f32; tg_to : f32; tg_threshold : f32 }.
(** 61-68 *)
Definition trigger_default : trigger_job := mk_trigger_job None nzero nzero nzero.
Inductive trigger_call :=
| TgSetTrack (t : ftrack f32 f32) | TgClearTrack | TgSetFrom (x : f32) | TgSetTo (x : f32) | TgSetThreshold (x : f32).
(** 85-93, 112-114, 133-135, 151-153 *)
Definition trigger_apply (c : trigger_call) (j : trigger_job) : trigger_job :=
  let '(mk_trigger_job tr fr to th) := j in
  match c with
  | TgSetTrack t => mk_trigger_job (Some t) fr to th
  | TgClearTrack => mk_trigger_job None fr to th
  | TgSetFrom x => mk_trigger_job tr x to th
  | TgSetTo x => mk_trigger_job tr fr x th
  | TgSetThreshold x => mk_trigger_job tr fr to x
  end.
(** 157-159 [validate], 165-170 [run]: an iterator over the job as it is *)
Inductive trigger_result := TgValid (b : bool) | TgFailed (e : ozz_error) | TgIter (over : tjob f32) (start : option (f32 * Z)).
Definition trigger_ask (q : plain_ask) (j : trigger_job) : option trigger_result :=
  match q with
  | Validate => Some (TgValid (match tg_track j with Some _ => true | None => false end))
  | Run =>
      match tg_track j with
      | None => Some (TgFailed InvalidJob)
      | Some t => let job := mk_tjob t (tg_from j) (tg_to j) (tg_threshold j) in Some (TgIter job (iter_new job))
      end
  end.
Definition trigger_write (r : trigger_result) (j : trigger_job) : trigger_job := j.
