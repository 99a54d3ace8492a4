(** What a frame shows, without contexts, buffers or history: C73. *)
From Verif Require Import Base Num NumF32 Math Keys Skeleton SkeletonSpec Blending Sampling SamplingSpec SamplingHist.
From Verif Require Import SamplingProps Player.

(** The pose of one layer: every track of the animation, sampled at the clamped ratio. *)
Definition layer_pose (i : layer_input) (pose : list soaf) : Prop :=
  length pose = num_soa (in_anim i) /\
  forall k l, k < num_soa (in_anim i) -> l < 4 ->
    option_map (fun x => lane_tr x l) (nth_error pose k)
    = Some (sample_track float3_lane quat_decompress (in_anim i) key0 key0 (set_ratio (in_ratio i)) (4 * k + l)).

(** The layers a frame sets, normal or additive, in order: the pose just sampled, its weight and joint weights. *)
Definition set_layers (additive : bool) (ins : list layer_input) (poses : list (list soaf)) : list (layer f32) :=
  flat_map (fun x => if Bool.eqb (in_additive (fst x)) additive
                     then [mk_layer (snd x) (in_weight (fst x)) (in_joint_weights (fst x))] else []) (combine ins poses).
(** The pose a brand new blending job would make of them. *)
Definition blended_pose (sk : skeleton f32) (fr : frame) (poses : list (list soaf)) (pose : list soaf) : Prop :=
  exists c, blend_run (mk_bjob (Some sk) (Some (mk_bctx 0 0 nzero [])) (fr_threshold fr)
                         (set_layers false (fr_layers fr) poses) (set_layers true (fr_layers fr) poses) (Some (sk_rest sk))) = BOk (c, pose).

(** The model-space matrices: the product along the chain of parents of each joint. *)
Definition model_matrices (sk : skeleton f32) (fr : frame) (pose : list soaf) (models : list (mat4 f32)) : Prop :=
  length models = num_joints sk /\
  forall i c, chain (sk_parents sk) i c ->
    nth_error models i = Some (fold_left mat_mul (map (local_matrix pose) c) (fr_root fr)).

Definition shows (sk : skeleton f32) (fr : frame) (models : list (mat4 f32)) : Prop :=
  exists poses pose, Forall2 layer_pose (fr_layers fr) poses /\ blended_pose sk fr poses pose /\ model_matrices sk fr pose models.

(** ** Conditions *)
(** A skeleton as loaded, small enough for the default range of LocalToModelJob (C21). *)
Definition skeleton_ok (sk : skeleton f32) : Prop :=
  parents_first (sk_parents sk) /\ length (sk_rest sk) = num_soa_joints sk /\ num_joints sk <= 1025.
(** A player of [n] layers as just created: fresh contexts, buffers of the skeleton's size. *)
Definition new_player (sk : skeleton f32) (n : nat) (p : player) : Prop :=
  length (pl_layers p) = n /\
  Forall (fun l => fresh (fst l) /\ cx_max_soa (fst l) = num_soa_joints sk /\ length (snd l) = num_soa_joints sk) (pl_layers p) /\
  length (pl_blended p) = num_soa_joints sk /\ length (pl_models p) = num_joints sk.
(** Animations that may be played at all: well formed, at distinct non-null addresses, not smaller
    than the skeleton (C03). *)
Definition animations (sk : skeleton f32) (lib : list animf) : Prop :=
  library (num_soa_joints sk) lib /\ forall a, In a lib -> an_id a <> 0%N.
(** Any frame that uses them, valid or not. *)
Definition uses (lib : list animf) (fr : frame) : Prop := Forall (fun i => In (in_anim i) lib) (fr_layers fr).
(** A valid frame for [n] layers: animations of the skeleton's size, joint weights empty or one per
    joint, a positive threshold. *)
Definition valid_frame (sk : skeleton f32) (n : nat) (fr : frame) : Prop :=
  length (fr_layers fr) = n /\ nlt nzero (fr_threshold fr) = true /\
  Forall (fun i => num_soa (in_anim i) = num_soa_joints sk /\
                   (in_joint_weights i = [] \/ num_soa_joints sk <= length (in_joint_weights i))) (fr_layers fr).
