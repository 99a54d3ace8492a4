{
 "claims": [
  {
   "property": "C01",
   "status": "proved",
   "theorems": [
    "C01_sampling_history_independent",
    "C01_sampling_history_independent_generic",
    "C01_sample_pair_brackets"
   ],
   "note": "On binary32 with the modelled decoders, and for every ordered number type and lane-wise decoder."
  },
  {
   "property": "C02",
   "status": "proved",
   "theorems": [
    "C02_sampling_no_panic",
    "C01_sampling_history_independent"
   ],
   "note": ""
  },
  {
   "property": "C03",
   "status": "partial",
   "theorems": [
    "C03_oversized_context_refuted",
    "C03_oversized_context_pose_refuted",
    "C03_same_groups_partial"
   ],
   "note": "False of the code: with a context of more SoA tracks than the animation a validated run can panic or silently give another pose; proved for every max_tracks that rounds up to the same number of SoA tracks."
  },
  {
   "property": "C04",
   "status": "partial",
   "theorems": [
    "C04_switch_resets",
    "C04_same_address_refuted"
   ],
   "note": "Proved for animations at different addresses; refuted for two animations that occupy the same address one after the other."
  },
  {
   "property": "C05",
   "status": "proved",
   "theorems": [
    "C05_set_ratio_clamps"
   ],
   "note": ""
  },
  {
   "property": "C06",
   "status": "proved",
   "theorems": [
    "C06_gv4_round_trip",
    "C06_gv4_round_trip_u32"
   ],
   "note": "Every width assignment, every trailing data, every memory content after the buffer."
  },
  {
   "property": "C07",
   "status": "proved",
   "theorems": [
    "C07_gv4_ignores_outside"
   ],
   "note": "Covers values, rest and panics."
  },
  {
   "property": "C08",
   "status": "partial",
   "theorems": [
    "C08_gv4_in_bounds_refuted",
    "C08_gv4_in_bounds_partial"
   ],
   "note": "The full statement is refuted: load() reads up to 3 bytes past the slice. The partial theorem bounds the overrun by 3 bytes and shows it is 0 when at least 3 bytes follow the groups."
  },
  {
   "property": "C09",
   "status": "proved",
   "theorems": [
    "C09_unsigned",
    "C09_signed",
    "C09_primitives",
    "C09_composites"
   ],
   "note": ""
  },
  {
   "property": "C10",
   "status": "proved",
   "theorems": [
    "C10_animation_round_trip",
    "C10_only_encodings"
   ],
   "note": ""
  },
  {
   "property": "C100",
   "status": "proved",
   "theorems": [
    "C100_played_crossfade_does_not_jump"
   ],
   "note": ""
  },
  {
   "property": "C11",
   "status": "proved",
   "theorems": [
    "C11_skeleton_round_trip",
    "C11_only_encodings"
   ],
   "note": ""
  },
  {
   "property": "C12",
   "status": "proved",
   "theorems": [
    "C12_track_round_trip",
    "C12_only_encodings"
   ],
   "note": ""
  },
  {
   "property": "C13",
   "status": "proved",
   "theorems": [
    "C13_truncated_valid",
    "C13_truncated_any"
   ],
   "note": "Both for valid files and for every stream that loads."
  },
  {
   "property": "C14",
   "status": "proved",
   "theorems": [
    "C14_header_required",
    "C14_wrong_tag",
    "C14_wrong_version"
   ],
   "note": ""
  },
  {
   "property": "C15",
   "status": "partial",
   "theorems": [
    "C15_meta_agrees",
    "C15_nonempty_loads",
    "C15_empty_refuted"
   ],
   "note": "First half proved; second half is false of the code for the empty skeleton (refuted with a witness), proved for non-empty ones."
  },
  {
   "property": "C16",
   "status": "proved",
   "theorems": [
    "C16_bijection",
    "C16_last_owner"
   ],
   "note": ""
  },
  {
   "property": "C17",
   "status": "partial",
   "theorems": [
    "C17_half_simd_scalar_partial",
    "C17_half_simd_scalar_refuted",
    "C17_half_exact",
    "C17_float3_simd_scalar"
   ],
   "note": "Refuted for 0x7BFF and 0xFBFF, proved for all other halves."
  },
  {
   "property": "C18",
   "status": "proved",
   "theorems": [
    "C18_quat_simd_scalar"
   ],
   "note": ""
  },
  {
   "property": "C19",
   "status": "proved",
   "theorems": [
    "C19_unpack_pack",
    "C19_pack_unpack"
   ],
   "note": ""
  },
  {
   "property": "C20",
   "status": "proved",
   "theorems": [
    "C20_decoded_unit"
   ],
   "note": "binary32, every 48-bit key: components finite and within 2^-21 of their exact value, sign of the restored component, squared norm within 2^-20 of 1"
  },
  {
   "property": "C21",
   "status": "proved",
   "theorems": [
    "C21_model_matrix_is_chain_product",
    "C21_every_joint_has_a_chain",
    "C21_default_range_refuted"
   ],
   "note": "Bit for bit on every number type.  With the default `to` (1024) it needs at most 1025 joints; the failure beyond is the refuted theorem."
  },
  {
   "property": "C22",
   "status": "proved",
   "theorems": [
    "C22_exact_subtree_update"
   ],
   "note": ""
  },
  {
   "property": "C23",
   "status": "proved",
   "theorems": [
    "C23_incremental_equals_full"
   ],
   "note": ""
  },
  {
   "property": "C24",
   "status": "partial",
   "theorems": [
    "C24_to_i32_max_refuted",
    "C24_to_at_or_above_last_partial"
   ],
   "note": "False at i32::MAX (refuted in both overflow modes), proved for all other values."
  },
  {
   "property": "C25",
   "status": "proved",
   "theorems": [
    "C25_iter_depth_first_subtree",
    "C25_iter_depth_first_all",
    "C25_iter_depth_first_reverse",
    "C25_is_leaf",
    "C25_is_leaf_at_num_joints_refuted",
    "C25_iter_many_joints_refuted"
   ],
   "note": "The refuted theorems are about the documented limits (is_leaf(num_joints)) and more than 32768 joints."
  },
  {
   "property": "C26",
   "status": "proved",
   "theorems": [
    "C26_to_aos_exact"
   ],
   "note": "polymorphic in the element type, hence bit for bit"
  },
  {
   "property": "C27",
   "status": "proved",
   "theorems": [
    "C27_affine",
    "C27_transform_point"
   ],
   "note": "real arithmetic, every lane"
  },
  {
   "property": "C28",
   "status": "proved",
   "theorems": [
    "C28_mul",
    "C28_invert"
   ],
   "note": "real arithmetic; determinant by Laplace expansion"
  },
  {
   "property": "C29",
   "status": "proved",
   "theorems": [
    "C29_stale_buffers"
   ],
   "note": "binary32, any previous context and output contents; the outcome and the written range agree, the rest of the output is unchanged"
  },
  {
   "property": "C30",
   "status": "partial",
   "theorems": [
    "C30_valid_runs_partial",
    "C30_valid_job_refuted"
   ],
   "note": "the claim is false: a valid job without effective layer and with an output longer than the rest pose panics (copy_from_slice); the partial theorem gives the exact outcome of every valid job"
  },
  {
   "property": "C31",
   "status": "partial",
   "theorems": [
    "C31_untouched_partial",
    "C31_untouched_refuted"
   ],
   "note": "the claim is false: an invalid later layer is detected after earlier layers were written; proved for every rejection before the first blended layer"
  },
  {
   "property": "C32",
   "status": "proved",
   "theorems": [
    "C32_weighted_mean",
    "C32_rotation",
    "C32_weights_scale",
    "C32_layer_order"
   ],
   "note": "real arithmetic; any number of layers and joints, with per-joint weights"
  },
  {
   "property": "C33",
   "status": "proved",
   "theorems": [
    "C33_rest_pose",
    "C33_nan_weight_refuted"
   ],
   "note": "binary32, bit exact for translation and scale; NaN weights are shown not to be skipped"
  },
  {
   "property": "C34",
   "status": "proved",
   "theorems": [
    "C34_additive_cancels"
   ],
   "note": "real arithmetic, both orders, anywhere in the list of additive layers"
  },
  {
   "property": "C35",
   "status": "proved",
   "theorems": [
    "C35_unit_rotations"
   ],
   "note": "real arithmetic; non-zero layer rotations suffice, the weighted sum cannot vanish"
  },
  {
   "property": "C36",
   "status": "proved",
   "theorems": [
    "C36_linear_blend"
   ],
   "note": "real arithmetic, every variant and influence count; sizes whose product stays below 2^64"
  },
  {
   "property": "C37",
   "status": "proved",
   "theorems": [
    "C37_partition_of_unity"
   ],
   "note": "real arithmetic"
  },
  {
   "property": "C38",
   "status": "partial",
   "theorems": [
    "C38_agree_partial",
    "C38_valid_job_runs",
    "C38_run_panics_refuted",
    "C38_rejected_runs_refuted",
    "C38_overflow_refuted",
    "C38_partial_write_refuted"
   ],
   "note": "the claim is false: run panics on unset matrices with two or more influences, and accepts tangents without normals and empty matrices that validate rejects; the partial theorem gives the exact relation"
  },
  {
   "property": "C39",
   "status": "proved",
   "theorems": [
    "C39_sampling",
    "C39_unset",
    "C39_at_key",
    "C39_bounded",
    "C39_late_first_key_refuted"
   ],
   "note": "binary32, every ratio including NaN and infinities, any value type; a track whose first key is after 0 divides 0 by 0 (refuted)"
  },
  {
   "property": "C40",
   "status": "proved",
   "theorems": [
    "C40_forward",
    "C40_backward",
    "C40_empty_window",
    "C40_listing_unique",
    "C40_times_sorted",
    "C40_crossing_value",
    "C40_sound_binary32",
    "C40_overflow_binary32_refuted",
    "C40_order_binary32_refuted"
   ],
   "note": "exact in real arithmetic; in binary32 every yielded edge straddles the threshold inside the window, but overflow can lose an edge and rounding can swap the times of two"
  },
  {
   "property": "C41",
   "status": "proved",
   "theorems": [
    "C41_frame_by_frame",
    "C41_binary32_refuted"
   ],
   "note": "real arithmetic; in binary32 a key rounding to the loop end loses an edge between two frames"
  },
  {
   "property": "C42",
   "status": "proved",
   "theorems": [
    "C42_backward_mirrors",
    "C42_binary32_refuted"
   ],
   "note": "real arithmetic; in binary32 two keys of equal rounded time break the mirror"
  },
  {
   "property": "C43",
   "status": "proved",
   "theorems": [
    "C43_edges_alternate"
   ],
   "note": "real arithmetic, forward and backward"
  },
  {
   "property": "C44",
   "status": "partial",
   "theorems": [
    "C44_terminates_partial",
    "C44_terminates_real",
    "C44_hang_refuted",
    "C44_backward_hang_refuted"
   ],
   "note": "the claim is false from 2^24 on, where the loop counter stops moving; proved for windows within (-2^24, 2^24], which is sharp on both sides"
  },
  {
   "property": "C45",
   "status": "proved",
   "theorems": [
    "C45_no_weight",
    "C45_translation",
    "C45_unit_rotation",
    "C45_scale_invariant",
    "C45_ignores",
    "C45_single",
    "C45_sign_invariant"
   ],
   "note": "real arithmetic; sign_invariant excludes the layers orthogonal to what precedes them, where the sign is a choice"
  },
  {
   "property": "C46",
   "status": "partial",
   "theorems": [
    "C46_from_vectors_partial",
    "C46_short_vectors_refuted",
    "C46_near_opposite_refuted"
   ],
   "note": "real arithmetic; the full claim is false for short vectors and for almost opposite vectors (both refuted); proved exactly outside, with an error bound for almost opposite vectors"
  },
  {
   "property": "C47",
   "status": "proved",
   "theorems": [
    "C47_hamilton",
    "C47_soa_agrees",
    "C47_assoc_norm",
    "C47_composes"
   ],
   "note": "real arithmetic"
  },
  {
   "property": "C48",
   "status": "proved",
   "theorems": [
    "C48_two_bone",
    "C48_aim",
    "C48_aim_weightless",
    "C48_aim_weightless_f32",
    "C48_aim_far_refuted"
   ],
   "note": "any arithmetic; the refuted theorem shows the proviso of the aim job is needed"
  },
  {
   "property": "C49",
   "status": "proved",
   "theorems": [
    "C49_two_bone",
    "C49_aim",
    "C49_aim_full_weight",
    "C49_two_bone_full_weight",
    "C49_degenerate_pole_refuted"
   ],
   "note": "real arithmetic; at weight >= 1 with exact sine, cosine and arc cosine; the refuted theorem is the binary32 NaN in the excluded configuration"
  },
  {
   "property": "C50",
   "status": "proved",
   "theorems": [
    "C50_aims",
    "C50_unreachable",
    "C50_reached"
   ],
   "note": "real arithmetic; a non-zero twist is taken with exact sine and cosine"
  },
  {
   "property": "C51",
   "status": "proved",
   "theorems": [
    "C51_clamp_or_max",
    "C51_clamp_or_min",
    "C51_simd_agrees"
   ],
   "note": "binary32, bit for bit up to the sign of zero"
  },
  {
   "property": "C52",
   "status": "partial",
   "theorems": [
    "C52_sin_odd_cos_even",
    "C52_asin_odd",
    "C52_asin_saturates",
    "C52_zero",
    "C52_sin_cos_defined_partial",
    "C52_sin_cos_defined_refuted"
   ],
   "note": "binary32; symmetry for every non-zero non-NaN lane; definedness is false beyond about 2^31.65 (undefined behaviour), proved up to 2^31"
  },
  {
   "property": "C53",
   "status": "proved",
   "theorems": [
    "C53_animation",
    "C53_skeleton",
    "C53_context",
    "C53_independent",
    "C53_empty_refuted",
    "C53_out_of_memory_refuted",
    "C53_wasm32_refuted",
    "C53_wasm32_context_refuted"
   ],
   "note": "64-bit targets, successful allocation of a non-empty object; the refuted theorems show zero-size and failed allocations and 32-bit wrap-around break it"
  },
  {
   "property": "C54",
   "status": "proved",
   "theorems": [
    "C54_animation",
    "C54_animation_loaded",
    "C54_animation_raw_faithful",
    "C54_skeleton",
    "C54_skeleton_loaded",
    "C54_track",
    "C54_context",
    "C54_json_nan_refuted",
    "C54_context_huge_refuted",
    "C54_context_order_refuted",
    "C54_msgpack_refuted",
    "C54_bincode_refuted",
    "C54_bincode_context_refuted"
   ],
   "note": "raw form, rkyv and JSON; the refuted theorems list where it fails: non-finite floats in JSON, 2^32 tracks in rkyv, reordered context documents, MessagePack quaternions, bincode"
  },
  {
   "property": "C55",
   "status": "proved",
   "theorems": [
    "C55_sampling_run_iff_validate",
    "C55_ltm_run_iff_validate"
   ],
   "note": ""
  },
  {
   "property": "C56",
   "status": "proved",
   "theorems": [
    "C56_borrows_released",
    "C56_locks_unchanged",
    "C56_blend_distinct",
    "C56_ltm_distinct",
    "C56_sampling_distinct",
    "C56_skin_distinct",
    "C56_blend_alias_fails",
    "C56_blend_cell_alias_panics",
    "C56_blend_lock_alias",
    "C56_skin_alias_fails",
    "C56_skin_cell_alias_panics",
    "C56_skin_lock_alias_blocks",
    "C56_accesses_guarded",
    "C56_blend_validate",
    "C56_ltm_validate",
    "C56_skin_validate",
    "C56_validated_jobs_run_refuted"
   ],
   "note": "any scalar type; jobs as programs over cells and locks; the buffers of LocalToModelJob have different element types and cannot alias, SamplingJob has a single buffer; the refuted theorem shows that validate accepts aliased jobs"
  },
  {
   "property": "C57",
   "status": "proved",
   "theorems": [
    "C57_loading_never_panics"
   ],
   "note": "Allocation failure of Vec::with_capacity is not modelled."
  },
  {
   "property": "C58",
   "status": "proved",
   "theorems": [
    "C58_strings_are_text"
   ],
   "note": ""
  },
  {
   "property": "C59",
   "status": "proved",
   "theorems": [
    "C59_aim_up"
   ],
   "note": "real arithmetic"
  },
  {
   "property": "C60",
   "status": "proved",
   "theorems": [
    "C60_two_bone"
   ],
   "note": "real arithmetic, exact trigonometry in place of the crate's polynomials"
  },
  {
   "property": "C61",
   "status": "proved",
   "theorems": [
    "C61_pole"
   ],
   "note": "real arithmetic, exact trigonometry; the nearly opposite configurations are excluded as in C60"
  },
  {
   "property": "C62",
   "status": "proved",
   "theorems": [
    "C62_two_bone",
    "C62_aim"
   ],
   "note": "any arithmetic"
  },
  {
   "property": "C63",
   "status": "proved",
   "theorems": [
    "C63_two_bone_defined",
    "C63_aim_defined",
    "C63_huge_twist_refuted"
   ],
   "note": "binary32; the refuted theorem shows that a bound on the twist is needed"
  },
  {
   "property": "C64",
   "status": "proved",
   "theorems": [
    "C64_job",
    "C64_softening"
   ],
   "note": "real arithmetic; reach is the distance D of C60_two_bone"
  },
  {
   "property": "C65",
   "status": "partial",
   "theorems": [
    "C65_consistent",
    "C65_mismatch_refuted",
    "C65_uninitialised_refuted",
    "C65_track_refuted"
   ],
   "note": "accepted animations, skeletons and contexts are consistent; the code panics on inconsistent documents, exposes uninitialised memory and accepts inconsistent tracks, so the absence of panics is refuted"
  },
  {
   "property": "C66",
   "status": "proved",
   "theorems": [
    "C66_torn_outputs_poisoned",
    "C66_blend_panic_poisons",
    "C66_ltm_panic_poisons",
    "C66_sampling_panic_poisons",
    "C66_blend_rejects_poisoned",
    "C66_ltm_rejects_poisoned",
    "C66_sampling_rejects_poisoned",
    "C66_skin_rejects_poisoned",
    "C66_blend_poisoned_output",
    "C66_blend_validate_poisoned",
    "C66_ltm_validate_poisoned",
    "C66_skin_validate_poisoned",
    "C66_cells_not_poisoned_refuted"
   ],
   "note": "any scalar type; the refuted theorem shows that cells (Rc<RefCell>) give no such protection"
  },
  {
   "property": "C67",
   "status": "proved",
   "theorems": [
    "C67_no_data_race"
   ],
   "note": "any scalar type, any number of threads and any schedule"
  },
  {
   "property": "C68",
   "status": "proved",
   "theorems": [
    "C68_serialisable",
    "C68_blending_refuted"
   ],
   "note": "any scalar type; up to 10^8 threads (beyond 2^30 readers RwLock panics); the refuted theorem shows why blending needs its layers not to be written"
  },
  {
   "property": "C69",
   "status": "proved",
   "theorems": [
    "C69_no_deadlock",
    "C69_no_endless_execution",
    "C69_all_jobs_complete",
    "C69_one_outcome_each",
    "C69_sampling_ltm",
    "C69_crossing_blends_refuted"
   ],
   "note": "any scalar type; the refuted theorem is the deadlock of two crossing blends"
  },
  {
   "property": "C70",
   "status": "proved",
   "theorems": [
    "C70_torn_output_unused"
   ],
   "note": "any scalar type; see C66 for the error that later jobs return"
  },
  {
   "property": "C71",
   "status": "proved",
   "theorems": [
    "C71_follows_keys",
    "C71_monotone_between_keys",
    "C71_short_track_refuted",
    "C71_equal_times_refuted"
   ],
   "note": "on binary32, including rounding; the two refuted theorems show that tracks that end before ratio 1, or whose two last keys have the same time, need to be excluded"
  },
  {
   "property": "C72",
   "status": "proved",
   "theorems": [
    "C72_rotations_follow_keys",
    "C72_opposite_keys_refuted"
   ],
   "note": "on binary32, including rounding; the refuted theorem shows that neighbouring keys in opposite hemispheres need to be excluded: sampling does not take the shorter arc"
  },
  {
   "property": "C73",
   "status": "proved",
   "theorems": [
    "C73_frames_stand_alone",
    "C73_same_frame_same_matrices"
   ],
   "note": "single precision, bit for bit; animations as in C01 and of the skeleton's size (C03), skeletons of at most 1025 joints (C21)"
  },
  {
   "property": "C74",
   "status": "proved",
   "theorems": [
    "C74_blended_unit",
    "C74_tiny_weights_refuted",
    "C74_huge_weights_refuted"
   ],
   "note": "single precision, including rounding; any number of layers, without additive layers; the refuted theorems show why weights need a range"
  },
  {
   "property": "C75",
   "status": "proved",
   "theorems": [
    "C75_blended_mean",
    "C75_layer_order"
   ],
   "note": "single precision, including rounding; up to 4096 layers, without additive layers; translation and scale (rotations: C74)"
  },
  {
   "property": "C76",
   "status": "proved",
   "theorems": [
    "C76_on_curve",
    "C76_monotone"
   ],
   "note": "single precision, including rounding; float tracks (the lerp of the vector and quaternion tracks is glam's, whose source is not in the repository)"
  },
  {
   "property": "C77",
   "status": "proved",
   "theorems": [
    "C77_playback_sound"
   ],
   "note": "single precision, including rounding; composes C71 to C74; without additive layers"
  },
  {
   "property": "C78",
   "status": "proved",
   "theorems": [
    "C78_rigid_models",
    "C78_axes_orthonormal"
   ],
   "note": "single precision, including rounding; every joint of the chain rigid up to e (no scaling); conditions on sizes and range as in C21"
  },
  {
   "property": "C79",
   "status": "proved",
   "theorems": [
    "C79_in_range"
   ],
   "note": "single precision, including rounding; up to 4096 layers, without additive layers"
  },
  {
   "property": "C80",
   "status": "proved",
   "theorems": [
    "C80_playback_rigid"
   ],
   "note": "single precision, including rounding; composes C71, C73, C74, C78 and C79; without additive layers"
  },
  {
   "property": "C81",
   "status": "proved",
   "theorems": [
    "C81_sampling",
    "C81_blending",
    "C81_local_to_model",
    "C81_skinning",
    "C81_two_bone",
    "C81_aim",
    "C81_motion",
    "C81_track_sampling",
    "C81_track_triggering"
   ],
   "note": "job objects as values; sharing of buffers is in C56 and C66-C70"
  },
  {
   "property": "C82",
   "status": "proved",
   "theorems": [
    "C82_unweighted_layer",
    "C82_weighted_layer"
   ],
   "note": "also means that joint weights given to with_joint_weights do nothing until the weight is set"
  },
  {
   "property": "C83",
   "status": "partial",
   "theorems": [
    "C83_index_partial",
    "C83_usize_max_refuted"
   ],
   "note": "true for i32, i16 and usize below 2^31; false above: set_to(usize::MAX) is -1 and the run updates nothing"
  },
  {
   "property": "C84",
   "status": "proved",
   "theorems": [
    "C84_single_precision"
   ],
   "note": "single precision, including rounding; refines C36; up to 4096 influences, inputs bounded by 2^40"
  },
  {
   "property": "C85",
   "status": "proved",
   "theorems": [
    "C85_additive_layers",
    "C85_rotation",
    "C85_translation",
    "C85_scale",
    "C85_subtract_zero_scale_refuted"
   ],
   "note": "real formula for all layers; single precision including rounding in the stated ranges; C85_subtract_zero_scale_refuted shows that subtracting a zero scale gives infinity"
  },
  {
   "property": "C86",
   "status": "proved",
   "theorems": [
    "C86_additive_sound",
    "C86_additive_rigid"
   ],
   "note": "extends C77 and C80 to frames with additive layers"
  },
  {
   "property": "C87",
   "status": "proved",
   "theorems": [
    "C87_sin_cos",
    "C87_asin",
    "C87_acos",
    "C87_axis_angle",
    "C87_large_refuted"
   ],
   "note": "the bound on the angle is necessary: C87_large_refuted"
  },
  {
   "property": "C88",
   "status": "proved",
   "theorems": [
    "C88_unit_rotation",
    "C88_no_weight",
    "C88_translation",
    "C88_mean_rotation",
    "C88_translation_refuted"
   ],
   "note": "the condition on the directions is necessary: C88_translation_refuted; glam itself is not in the repository, so its dot product and normalisation are modelled in the three orders and two forms its builds use"
  },
  {
   "property": "C89",
   "status": "proved",
   "theorems": [
    "C89_vector",
    "C89_rotation"
   ],
   "note": "glam itself is not in the repository: its lerp is modelled in both forms it has used; a vector is the list of its components"
  },
  {
   "property": "C90",
   "status": "proved",
   "theorems": [
    "C90_unit",
    "C90_aims",
    "C90_weight"
   ],
   "note": "the bound on the pointing error is 0.3 % when the aimed ray is almost opposite the target, because the code switches to a half turn there"
  },
  {
   "property": "C91",
   "status": "proved",
   "theorems": [
    "C91_last_write",
    "C91_independent",
    "C91_values",
    "C91_positive_w",
    "C91_constants"
   ],
   "note": "and_num, or_num and xor_num are modelled only with the masks the jobs use; MIN, MAX, NAN and the infinities are not modelled"
  },
  {
   "property": "C92",
   "status": "proved",
   "theorems": [
    "C92_unit",
    "C92_reaches",
    "C92_on_target",
    "C92_reached",
    "C92_weight"
   ],
   "note": "for jobs whose target needs no softening; the softened target is treated over the reals by C60 and C64"
  },
  {
   "property": "C93",
   "status": "proved",
   "theorems": [
    "C93_scaled_models",
    "C93_points",
    "C93_playback"
   ],
   "note": ""
  },
  {
   "property": "C94",
   "status": "proved",
   "theorems": [
    "C94_sampling",
    "C94_blending",
    "C94_local_to_model",
    "C94_ik",
    "C94_other_jobs",
    "C94_playback",
    "C94_minus_zero_ratio_refuted",
    "C94_minus_zero_weight_refuted"
   ],
   "note": "The condition on -0.0 is necessary: the two refuted theorems."
  },
  {
   "property": "C95",
   "status": "proved",
   "theorems": [
    "C95_loaded_on_curves",
    "C95_every_animation_has_a_file",
    "C95_from_files"
   ],
   "note": ""
  },
  {
   "property": "C96",
   "status": "proved",
   "theorems": [
    "C96_float",
    "C96_vector",
    "C96_rotation",
    "C96_every_track_has_a_file"
   ],
   "note": ""
  },
  {
   "property": "C97",
   "status": "proved",
   "theorems": [
    "C97_no_stretch",
    "C97_normals_keep_their_length"
   ],
   "note": "C80 shows that the model-space matrices of played animations without scales are of this kind."
  },
  {
   "property": "C98",
   "status": "proved",
   "theorems": [
    "C98_no_jumps",
    "C98_track_does_not_jump",
    "C98_vector_track_does_not_jump",
    "C98_rotation_track_does_not_jump"
   ],
   "note": ""
  },
  {
   "property": "C99",
   "status": "proved",
   "theorems": [
    "C99_crossfade_does_not_jump",
    "C99_rotation_jumps_refuted"
   ],
   "note": "The property covers translations and scales. Rotations do jump where the nearer of q and -q changes: C99_rotation_jumps_refuted."
  }
 ]
}