# Formal model of ozz-animation-rs in Rocq (Coq 8.16.1)

The code under study is `/repo/src` (rust).  Nothing is compiled or run: the model is a
hand translation, function by function, and every definition cites the file and the lines it
models.  `properties.jsonl` lists the properties, `MANIFEST.json` maps them to theorems.

## 1. Shape of the model

* **Numbers.**  All floating-point code is written once, over a record of operations
  `Num F` (`theories/Num.v`): `+ - * / sqrt abs floor < <= ==`, exact dyadic literals, etc.
  Two instances are used.
  * `f32num`: IEEE-754 binary32 with round-to-nearest-even, built on Flocq's
    `BinarySingleNaN.binary_float 24 128` (one NaN; payloads are not modelled).
    Bit-level code (`f16_to_f32`, sign masks, quaternion keys) works on this instance through an
    explicit bits <-> float conversion.
  * `Rnum`: the real numbers of the standard library.  Properties that are only meaningful in
    exact arithmetic (normalised means, unit quaternions, matrix inverse...) are stated on this
    instance: *the same Gallina text* is instantiated, there is no second model.
  * Properties of structure (which elements are read, written, combined in which order) are
    proved for **every** `Num`, hence for binary32.
* **Integers.**  Indices and lengths are `nat` or `Z`; fixed-width types are `N`/`Z` with explicit
  `mod 2^k` where overflow matters (i32 `to + 1`, u32/u16 narrowing, shifts).
* **Panics.**  `Base.v` defines `res A := Ok a | Err e | Panic`.  Assertions, out-of-bounds
  indexing, slice-length mismatches, `unwrap` on `None` and (debug-mode) integer overflow are
  `Panic`.  Release-mode wrap is modelled separately where a property mentions it.
* **Loops** are structural recursion, or recursion on fuel with an explicit `OutOfFuel`/`None`
  outcome which theorems exclude.
* **Mutation** returns the new buffer.  Partial writes before an error are kept: jobs return
  `res * buffer`.
* **SIMD** `f32x4` is a 4-record; operations are lane-wise; shuffles are explicit.

## 2. Trusted base

* Coq's kernel (8.16.1), `vm_compute`.
* The hand translation (this is the main risk; every definition carries a citation).
* Axioms: theorems about binary32 or R depend on the standard library's axioms for the reals
  (`ClassicalDedekindReals.sig_forall_dec`, `ClassicalDedekindReals.sig_not_dec`,
  `FunctionalExtensionality.functional_extensionality_dep`, and `Classical_Prop.classic` where
  Flocq/Reals use it).  Section 5 lists what `Print Assumptions` reports for each theorem.
  No axiom is added by this development.
* Modelled of the environment, and trusted to be so: IEEE-754 arithmetic of f32 and of the SIMD
  lanes; glam's formulas as quoted next to their uses; `String::from_utf8`; `BiHashMap::insert`;
  the allocator as "a fresh block of the requested size and alignment" (Layout.v); rkyv as
  field-by-field copies and serde as the sequence of calls of the implementations, read back by
  JSON, MessagePack and bincode trees (Serial.v: the JSON text itself, its printing and parsing,
  is not modelled); `RefCell` and `RwLock` as a reader count, a writer flag and a poison flag
  (Buffers.v), and threads as interleaved operations on a sequentially consistent memory, where a
  thread waits for a lock until it is free (Threads.v).
* The model's `f32::min/max` return the first operand on zeros of opposite sign; Platform.v runs
  every job with each of the other choices Rust allows, and C94 shows what depends on it.
* Not modelled: NaN payloads and the sign of a NaN, failure of `Vec` allocations, file system access (a file is its bytes), the wasm and
  nodejs shims, `Debug`/`Display` output, `ozz_rs`'s examples and test helpers.

## 3. Plan per property

| id | model | proof |
|----|-------|-------|
| C01 | sampling context (entries/next/outdated/values) and run as a state machine over a list of operations | refinement: the state is a function of `next`, `next` is a function of the ratio; induction over the history |
| C02 | same, panics explicit | same invariant |
| C03 | same with `max_tracks` larger | expected false: `initialize_cache` uses the context's size; `_refuted` with a witness |
| C04 | animation identity = address (a number) | proved when ids differ; `_refuted` when an address is reused |
| C05 | `set_ratio` on binary32 | case analysis on floats, plus composition with C01 |
| C06 | decoder + independent encoder spec | induction over groups, bit lemmas |
| C07 | memory oracle for bytes after the buffer | masking lemma |
| C08 | same oracle, set of addresses read | expected false: `_refuted` |
| C09-C12 | byte-level reader; writer as specification | round trip by composition of per-field round trips |
| C13 | reader on prefixes | "reader reads exactly n bytes and fails on less" combinator lemma |
| C14, C15 | reader | inversion; C15's second half expected false for the empty skeleton |
| C16 | bidirectional map as used (insert evicts both sides) | invariant over the insertion list |
| C17 | both conversions on bits | complete enumeration of u16 (finite domain); expected false at 0x7BFF |
| C18-C20 | key decoding on binary32 / R | lane lemmas, bit lemmas, real algebra |
| C21-C25 | local-to-model and skeleton traversals | induction on joints; depth-first order as a forest flattening |
| C26 | shuffles | computation on symbolic lanes |
| C27, C28 | matrices over R | `ring`/`field` |
| C29-C35 | blending job | loop invariants for every `Num`; real algebra |
| C36-C38 | skinning job | loop invariants; case analysis of the 25 branches |
| C39 | track sampling | search lemma; binary32 comparisons |
| C40-C44 | trigger iterator | declarative list of crossings; C44 expected false above 2^24 |
| C45-C50 | motion blending, quaternions, IK | real algebra; structural part for every `Num` |
| C51, C52 | clamps and trig | float case analysis; C52 definedness expected false (to_int_unchecked) |
| C53 | layout arithmetic | linear arithmetic modulo alignment |
| C54 | raw forms, rkyv archives, the serde calls as a tree with JSON, MessagePack and bincode readings (Serial.v) | field-by-field round trip; every file that loads is an encoding (ArchiveCanon.v) |
| C55 | validate/run of the jobs | case analysis |
| C56 | the jobs as programs (acquire, drop, load, store) over a memory of cells and locks | induction on programs: guards are counted by the lock state; simulation of the jobs on contents |
| C66 | the same, with poisoning of locks by unwinding | induction on programs whose exclusive guards last until they leave |
| C67-C70 | threads that run the programs of C56 one operation at a time, under any schedule (Threads.v) | invariant: the lock state counts the guards of all threads; C68: simulation by whole jobs in commit order; C69: the thread that asks for the highest lock, and a well-founded measure |
| C71, C72 | the binary32 result of the sampling of C01, read as real numbers (PoseSpec.v) | relative error of each rounding (Flocq), monotonicity of rounding for the interval and for C71_monotone_between_keys; norm bound of the normalised interpolation from the hemisphere condition |
| C73 | the loop of tests/blend.rs over the models of the three jobs (Player.v) | invariant of the player (context invariant of C01, buffer sizes), composition of C01, C29 and C21; the specification determines the matrices |
| C74, C75 | the binary32 result of the job of C29, one joint at a time (BlendLane.v), read as real numbers (BlendF32Spec.v) | invariant of the accumulated rotation (its norm never falls far below that of the largest term, thanks to the sign flip, whatever the rounding of the dot product), absorption of small terms for any number of layers; forward error analysis over the list of layers for the mean |
| C76 | the sampling of a float track on binary32 (Tracks.v), against the piecewise linear curve through its keys in the reals (TrackCurveSpec.v) | the key search of C39 gives the segment; forward error of the ratio and of the lerp; monotonicity of each rounded operation |
| C77 | the playback loop of C73 (Player.v) with sound inputs (PlaybackSpec.v) | composition of C73, C71, C72 and C74: each layer's sampled pose is usable at every joint, so the blended pose is sound |
| C78 | the binary32 matrices of C21, against the composition of rigid motions in the reals (RigidSpec.v) | forward error of the affine matrix and of one matrix product, one row at a time (a row times a rotation keeps its length); induction along the chain; rows of a rotation are cross products of the others |
| C79 | the blending of C75 | the weighted mean of C75 lies in the convex hull of its inputs, plus C75's error bound |
| C80 | the playback loop of C77 (Player.v) with unscaled animations (RigidPlaySpec.v) | C73 reduces to one frame; sampled scales and translations are in range by C71, blended ones by C79, rotations are unit by C74; then the chain induction of C78 |
| C81 | the job objects as state machines: every setter, clear, take, validate and run of the nine jobs (Objects.v); buffers as values | for each field ObjectsSpec.v lists the calls that write it; one generic induction over the calls, with an equivalence between execution and the specification |
| C82 | the layer constructors (Objects.v), `blend_run` (Blending.v) | a layer of weight 0 is skipped at any position: induction over the layers before it |
| C83 | `OzzIndex` (Objects.v), `ltm_run` (Skeleton.v) | arithmetic of the cast; `set_to(usize::MAX)` refutes the full claim |
| C84 | `skin_run` of C36 (Skinning.v) at single precision; formula of SkinningSpec.v on the real values (SkinF32Spec.v) | invariant of the influence loop: error proportional to the number of terms and to the sum of weights; then rounding of the four-term product |
| C85 | `blend_run` of C31-C35 (Blending.v) over the reals and at single precision; the exact effect of a layer in AdditiveSpec.v | reals: the column loop is a fold of one step per layer, equal to the formula; single precision: error invariant of the fold, by the triangle inequality for the quaternion norm (QuatNorm.v) |
| C86 | the player of C73 (Player.v) with additive layers; conditions in AdditivePlaySpec.v | the frame without its additive layers is a frame of C77 and C80; C85 bounds what each additive layer adds to its pose; then C78 |
| C87 | the scalar functions (TrigModel.v) over the model of math.rs | polynomials checked against Taylor bounds over intervals (PolyBound.v, TrigReal.v), error of every rounding (ApxF32.v, TrigF32.v), Cody-Waite reduction exact in its first two steps |
| C88 | motion blending over binary32 with the order of glam's sums as a parameter (MotionGlam.v) | invariant of the accumulators against the exact sums, kept layer by layer (MotionF32Proofs.v), then the error of the final normalisation (MotionF32Finish.v) |
| C89 | the sampling of vector and rotation tracks on binary32, with glam's two forms of lerp as a parameter (TrackValues.v), against straight lines and normalised interpolation in the reals (TrackValuesSpec.v) | the key search of C39 gives the segment; forward error of the share, of each form of lerp, of the dot product that picks the sign, and of the normalisation (TrackValuesProofs.v) |
| C90 | the whole aim job on binary32, from the matrix inverse to the weighted correction (Ik.v at the floats), against the job read as real numbers: joint space, forward ray, fraction of a rotation (AimF32Spec.v) | forward error of every step: matrix inverse by cofactors (MatInvF32.v, PolyErr.v), offset ray, rotation between two vectors, pole plane, twist, weighting (AimF32.v, AimParts.v, AimSteps.v, AimF32Proofs.v) |
| C91 | the public constructors, accessors and constants of the SoA types with their panics (Soa.v), the operators of Math.v at four lanes | induction on the history of writes; case analysis on the index; field arithmetic against MathSpec.v |
| C92 | the whole two bone job on binary32 (Ik.v at the floats), against the job read as real numbers: where the joints and the target are, how far the bones reach, what the two corrections do to the end joint (TwoBoneSpec.v, IkSpec.v) | forward error of every step: inverses of similarity matrices (MatSimF32.v), positions and lengths (TwoBonePlaces.v), softening decision (TwoBoneSoft.v), cosine rule, arc cosine and sign of the bend (TwoBoneCos.v, TwoBoneMid.v, TwoBoneAngle.v, TwoBoneBend.v), start joint rotation (TwoBoneParts.v, TwoBoneStart.v, TwoBoneCore.v) |
| C93 | LocalToModelJob on binary32 for poses with scales (Skeleton.v at the floats) and the player of C73 (Player.v), against maps of space that scale, turn and move (ScaleSpec.v) | forward error of one product with a scaled rotation, row by row (ScaleRow.v), induction down the chain of parents with the size carried along (ScaleProps.v); the pose's bounds from the keys by C71, C74 and C79 (ScalePlayProps.v) |
| C94 | a platform is a choice of `min`, `max`, surrounding bytes and overflow checks (Platform.v); every job and the player of C73 run on it; platforms allowed by Rust's documentation of `min` and `max` (PlatformSpec.v). NaN payloads and the sign of NaNs are not modelled, byte order is C09 | `min` and `max` agree except on opposite zeros; differences and sums of squares are never -0; the remaining ties leave a zero that is added to something and vanishes (PlatformProofs.v) |
| C95 | file content as in C10 and C11, its bit patterns read as the values that sampling and the player of C73 use (Loaded.v); authored curves and what it means to store them (AuthorSpec.v). ozz's exporter is not in this crate: AuthorBuild.v lays out one file for every authored animation only to show that files exist, and the theorem holds for every file that stores the curves | C10 and C11 for loading; C71 and C72 for sampling; a merge order of the keys by the time of the previous key of their track, with well-formedness by induction over it (AuthorBuild.v, AuthorProofs.v, AuthorFile.v) |
| C96 | track content as in C12, its bit patterns read as the values TrackSamplingJob uses (Loaded.v); knots and what it means to store them (KnotSpec.v); glam's lerp in all the forms of C89 | C12 for loading, C76 and C89 for sampling, carried over from arrays to knots; a file packed for every list of knots (KnotProps.v) |
| C97 | the skinning job of C36 in single precision, no new model; rotations as in C79, weights that are not negative, distances and lengths as real numbers (SkinRigidSpec.v) | C84 gives each vertex near the blend of its images; the difference of two blends is the blend of the turned difference, and the length of a blend is at most the blend of the lengths (SkinRigidProps.v) |
| C98 | as C95, no new model; speeds of authored tracks and how far two poses may be apart (SmoothSpec.v) | C95 puts both poses on the authored curves; a curve of pieces that join is as steep as its pieces, by induction over the knots; normalising a rotation stretches distances by at most 3/2 (SmoothProps.v); tracks likewise from C96, with the ratio clamped to the knots (SmoothTrackProps.v, SmoothRotProps.v) |
| C99 | the blending job of C29 in single precision, no new model; how layers and weights change (FadeSpec.v). Rotations are not covered: the flip to the nearer of q and -q is not continuous | C75 for both runs; the exact mean is Lipschitz in the weights, because the weight of the rest pose falls exactly as the total rises up to the threshold (FadeProps.v) |
| C100 | the player of C73, no new model; how two frames may differ (PlayFadeSpec.v). Translations and scales of the blended pose (rotations: see C99) | C73's invariant makes both frames drawn from poses that stand alone; C98 bounds how far each layer moves, C99 how far the blend does (PlayFadeProps.v) |
| C57, C58 | byte-level reader | totality by structural recursion on the stream; UTF-8 automaton against an encoder |
| C65 | the same deserialisers on any document | inversion of the readers; counterexamples for the panics |
| C59-C61, C64 | both IK jobs over R; for the two bone job the sine, cosine and arc cosine are parameters, instantiated exactly | joint-space algebra, law of cosines, half-plane decomposition |
| C62 | both IK jobs, any `Num` | congruence modulo the fourth lane |
| C63 | both IK jobs in binary32 | magnitude bounds through the polynomials |

Nothing in the list is inexpressible in a model; properties that turn out false of the code are
kept, with a `_refuted` theorem giving the witness and a positive theorem under the weakest
hypothesis found.

## 4. Findings

Where the faithful model violates a property, the theorem `..._refuted` proves it with a witness.

| where | finding | theorem |
|-------|---------|---------|
| sampling, context | `validate` accepts a context for more tracks than the animation has (as documented), but unless the counts of SoA tracks agree the run panics or, worse, gives a wrong pose without an error | `C03_oversized_context_refuted`, `C03_oversized_context_pose_refuted` |
| sampling, context | the context recognises its animation by address only: a second animation at the same address is sampled with stale cursors and panics | `C04_same_address_refuted` |
| sampling, GV4 | `load` reads up to 3 bytes past the end of the iframe buffer (safe function, out-of-bounds read) | `C08_gv4_in_bounds_refuted` |
| keys | the SIMD half decoder gives NaN for 0x7BFF/0xFBFF (65504), the scalar one is right | `C17_half_simd_scalar_refuted` |
| skeleton archive | `from_archive` reads the length of the name block even with 0 joints: a skeleton without joints, as ozz writes it, does not load, although `read_meta` accepts it | `C15_empty_refuted` |
| local-to-model | the default `to` is 1024: joints 1025 and up keep stale matrices | `C21_default_range_refuted` |
| local-to-model | `to = i32::MAX` panics (debug) or updates nothing (release) | `C24_to_i32_max_refuted` |
| skeleton | `is_leaf(num_joints)` is documented as in range and panics; traversal of more than 32768 joints passes wrapped indices | `C25_is_leaf_at_num_joints_refuted`, `C25_iter_many_joints_refuted` |
| blending | a valid job without effective layer and with an output longer than the rest pose panics in `copy_from_slice` | `C30_valid_job_refuted` |
| blending | a bad later layer is reported after earlier ones were written | `C31_untouched_refuted` |
| blending | a NaN weight is not skipped and spreads | `C33_nan_weight_refuted` |
| blending | weights and threshold below about 2^-64, or weights above 2^64, are accepted and give infinite or zero rotations | `C74_tiny_weights_refuted`, `C74_huge_weights_refuted` |
| blending | subtracting an additive layer whose scale is zero divides by zero: Ok with an infinite scale | `C85_subtract_zero_scale_refuted` |
| blending | `BlendingLayer::with_joint_weights` leaves the weight at 0, so the layer does nothing | `C82_unweighted_layer` |
| skeleton | `set_to` and `set_from` cast a `usize` to `i32`: `set_to(usize::MAX)` updates nothing | `C83_usize_max_refuted` |
| skinning | `run` unwraps unset matrices with two or more influences (panic) | `C38_run_panics_refuted` |
| skinning | `run` accepts tangents without normals, and empty matrices, which `validate` rejects | `C38_rejected_runs_refuted` |
| skinning | sizes whose product wraps: validated in release, then panic; panic in `validate` in debug | `C38_overflow_refuted` |
| skinning | an out-of-range joint index is reported after earlier vertices were written | `C38_partial_write_refuted` |
| tracks | a first key after ratio 0 makes 0/0 | `C39_late_first_key_refuted` |
| tracks | binary32: overflow of the difference of two keys loses an edge; rounding swaps edges, loses edges at frame boundaries and breaks the mirror of backward playback | `C40_overflow_binary32_refuted`, `C40_order_binary32_refuted`, `C41_binary32_refuted`, `C42_binary32_refuted` |
| tracks | from 2^24 (or down to -2^24) on the iterator never ends | `C44_hang_refuted`, `C44_backward_hang_refuted` |
| math | `quat_from_vectors` leaves short vectors unrotated and misses almost opposite ones | `C46_short_vectors_refuted`, `C46_near_opposite_refuted` |
| math | sine and cosine convert with `to_int_unchecked`: undefined behaviour for NaN, infinities and beyond about 2^31.65; two bone and aim IK reach it through a huge twist | `C52_sin_cos_defined_refuted`, `C63_huge_twist_refuted` |
| math | sine and cosine of large angles leave [-1, 1]: the sine of 2^28 is about -26, the cosine of 3*2^26 above 300000 | `C87_large_refuted` |
| math | arcsine of NaN is pi/2 and arccosine of NaN is 0 | (noted in MathProps.v) |
| IK | aim: a target 2^70 away gives NaN at weight 0 | `C48_aim_far_refuted` |
| IK | two bone: a target on the pole line gives a NaN start correction | `C49_degenerate_pole_refuted` |
| layouts | zero-size and failed allocations are not detected (undefined behaviour); on wasm32 the size computation wraps and the arrays leave the block | `C53_empty_refuted`, `C53_out_of_memory_refuted`, `C53_wasm32_refuted`, `C53_wasm32_context_refuted` |
| serde | non-finite floats do not survive JSON; contexts of 2^32 tracks do not survive rkyv; context documents with reordered keys, MessagePack and bincode do not round trip | `C54_json_nan_refuted`, `C54_context_huge_refuted`, `C54_context_order_refuted`, `C54_msgpack_refuted`, `C54_bincode_refuted`, `C54_bincode_context_refuted` |
| serde | inconsistent documents panic; a document with only `max_tracks` exposes uninitialised memory; tracks are not checked | `C65_mismatch_refuted`, `C65_uninitialised_refuted`, `C65_track_refuted` |
| buffers | `validate` accepts a job whose output is one of its inputs: run panics (cells) or waits for itself for ever (locks) | `C56_validated_jobs_run_refuted` |
| buffers | after a panic, a half-written `Rc<RefCell>` output is used as if nothing happened (locks are poisoned) | `C66_cells_not_poisoned_refuted` |
| sampling | a track whose last key is before ratio 1 is extrapolated; two last keys at one time give NaN; neighbouring rotation keys q and -q give NaN half way (the loader checks none of this) | `C71_short_track_refuted`, `C71_equal_times_refuted`, `C72_opposite_keys_refuted` |
| motion blending | two motions in nearly opposite directions: the exact blend has the mean length, the job returns no motion (the length of the sum of directions underflows to 0) | `C88_translation_refuted` |
| blending | rotations can pop: when a layer's rotation moves by 2^-19 across the point where it is as near as its negative, the blended rotation jumps by half a turn | `C99_rotation_jumps_refuted` |
| threads | a blend can mix the old content of one layer with the new content of another, written meanwhile | `C68_blending_refuted` |
| threads | two blends that read each other's output deadlock | `C69_crossing_blends_refuted` |
| platforms | `set_ratio(-0.0)` and joint weights of -0.0 go through `max` with 0.0, whose result Rust leaves open: the sign of a zero in the ratio or in the pose depends on the machine | `C94_minus_zero_ratio_refuted`, `C94_minus_zero_weight_refuted` |

Seen in the code, outside the properties: `SamplingContext::new` leaves the contents of its arrays
uninitialised and `Clone`, `PartialEq` and the accessors read them; `ArchivedSamplingContext` checks
only a 16-byte alignment; the name block length of a skeleton archive is read and never checked.

## 5. Print Assumptions per theorem

Generated from the compiled theories; nothing else is assumed by any theorem of MANIFEST.json.

**Closed under the global context**

`C01_sampling_history_independent_generic`, `C01_sample_pair_brackets`, `C06_gv4_round_trip`, `C06_gv4_round_trip_u32`, `C07_gv4_ignores_outside`, `C08_gv4_in_bounds_refuted`, `C08_gv4_in_bounds_partial`, `C09_unsigned`, `C09_signed`, `C09_primitives`, `C09_composites`, `C10_animation_round_trip`, `C10_only_encodings`, `C11_skeleton_round_trip`, `C11_only_encodings`, `C12_track_round_trip`, `C12_only_encodings`, `C13_truncated_valid`, `C13_truncated_any`, `C14_header_required`, `C14_wrong_tag`, `C14_wrong_version`, `C15_meta_agrees`, `C15_nonempty_loads`, `C15_empty_refuted`, `C16_bijection`, `C16_last_owner`, `C19_unpack_pack`, `C19_pack_unpack`, `C21_model_matrix_is_chain_product`, `C21_every_joint_has_a_chain`, `C22_exact_subtree_update`, `C23_incremental_equals_full`, `C24_to_i32_max_refuted`, `C24_to_at_or_above_last_partial`, `C25_iter_depth_first_subtree`, `C25_iter_depth_first_all`, `C25_iter_depth_first_reverse`, `C25_is_leaf`, `C25_is_leaf_at_num_joints_refuted`, `C25_iter_many_joints_refuted`, `C26_to_aos_exact`, `C38_agree_partial`, `C38_valid_job_runs`, `C48_two_bone`, `C48_aim`, `C53_animation`, `C53_skeleton`, `C53_context`, `C53_independent`, `C53_empty_refuted`, `C53_out_of_memory_refuted`, `C53_wasm32_refuted`, `C53_wasm32_context_refuted`, `C54_animation`, `C54_animation_loaded`, `C54_animation_raw_faithful`, `C54_skeleton`, `C54_skeleton_loaded`, `C54_track`, `C54_context`, `C54_json_nan_refuted`, `C54_context_huge_refuted`, `C54_context_order_refuted`, `C54_msgpack_refuted`, `C54_bincode_refuted`, `C54_bincode_context_refuted`, `C55_sampling_run_iff_validate`, `C55_ltm_run_iff_validate`, `C56_borrows_released`, `C56_locks_unchanged`, `C56_blend_distinct`, `C56_ltm_distinct`, `C56_sampling_distinct`, `C56_skin_distinct`, `C56_blend_alias_fails`, `C56_blend_cell_alias_panics`, `C56_blend_lock_alias`, `C56_skin_alias_fails`, `C56_skin_cell_alias_panics`, `C56_skin_lock_alias_blocks`, `C56_accesses_guarded`, `C56_blend_validate`, `C56_ltm_validate`, `C56_skin_validate`, `C57_loading_never_panics`, `C58_strings_are_text`, `C62_two_bone`, `C62_aim`, `C65_consistent`, `C65_mismatch_refuted`, `C65_uninitialised_refuted`, `C65_track_refuted`, `C66_torn_outputs_poisoned`, `C66_blend_panic_poisons`, `C66_ltm_panic_poisons`, `C66_sampling_panic_poisons`, `C66_blend_rejects_poisoned`, `C66_ltm_rejects_poisoned`, `C66_sampling_rejects_poisoned`, `C66_skin_rejects_poisoned`, `C66_blend_poisoned_output`, `C66_blend_validate_poisoned`, `C66_ltm_validate_poisoned`, `C66_skin_validate_poisoned`, `C67_no_data_race`, `C68_serialisable`, `C69_no_deadlock`, `C69_no_endless_execution`, `C69_all_jobs_complete`, `C69_one_outcome_each`, `C69_sampling_ltm`, `C70_torn_output_unused`, `C83_index_partial`, `C91_last_write`, `C91_independent`.

**`ClassicalDedekindReals.sig_forall_dec`, `FunctionalExtensionality.functional_extensionality_dep`**

`C40_listing_unique`, `C40_times_sorted`, `C64_softening`.

**`ClassicalDedekindReals.sig_forall_dec`, `ClassicalDedekindReals.sig_not_dec`, `FunctionalExtensionality.functional_extensionality_dep`**

`C27_affine`, `C27_transform_point`, `C28_mul`, `C28_invert`, `C32_weighted_mean`, `C32_rotation`, `C32_weights_scale`, `C32_layer_order`, `C34_additive_cancels`, `C35_unit_rotations`, `C36_linear_blend`, `C37_partition_of_unity`, `C39_at_key`, `C39_bounded`, `C40_forward`, `C40_backward`, `C40_empty_window`, `C40_crossing_value`, `C41_frame_by_frame`, `C42_backward_mirrors`, `C43_edges_alternate`, `C44_terminates_real`, `C45_no_weight`, `C45_translation`, `C45_unit_rotation`, `C45_scale_invariant`, `C45_ignores`, `C45_single`, `C45_sign_invariant`, `C46_from_vectors_partial`, `C46_short_vectors_refuted`, `C46_near_opposite_refuted`, `C47_hamilton`, `C47_soa_agrees`, `C47_assoc_norm`, `C47_composes`, `C48_aim_weightless`, `C49_two_bone`, `C49_aim`, `C49_aim_full_weight`, `C50_aims`, `C50_unreachable`, `C50_reached`, `C59_aim_up`, `C78_axes_orthonormal`, `C85_additive_layers`, `C91_values`, `C91_positive_w`, `C91_constants`, `C93_points`.

**`ClassicalDedekindReals.sig_forall_dec`, `ClassicalDedekindReals.sig_not_dec`, `Classical_Prop.classic`, `FunctionalExtensionality.functional_extensionality_dep`**

`C01_sampling_history_independent`, `C02_sampling_no_panic`, `C01_sampling_history_independent`, `C03_oversized_context_refuted`, `C03_oversized_context_pose_refuted`, `C03_same_groups_partial`, `C04_switch_resets`, `C04_same_address_refuted`, `C05_set_ratio_clamps`, `C100_played_crossfade_does_not_jump`, `C17_half_simd_scalar_partial`, `C17_half_simd_scalar_refuted`, `C17_half_exact`, `C17_float3_simd_scalar`, `C18_quat_simd_scalar`, `C20_decoded_unit`, `C21_default_range_refuted`, `C29_stale_buffers`, `C30_valid_runs_partial`, `C30_valid_job_refuted`, `C31_untouched_partial`, `C31_untouched_refuted`, `C33_rest_pose`, `C33_nan_weight_refuted`, `C38_run_panics_refuted`, `C38_rejected_runs_refuted`, `C38_overflow_refuted`, `C38_partial_write_refuted`, `C39_sampling`, `C39_unset`, `C39_late_first_key_refuted`, `C40_sound_binary32`, `C40_overflow_binary32_refuted`, `C40_order_binary32_refuted`, `C41_binary32_refuted`, `C42_binary32_refuted`, `C44_terminates_partial`, `C44_hang_refuted`, `C44_backward_hang_refuted`, `C48_aim_weightless_f32`, `C48_aim_far_refuted`, `C49_two_bone_full_weight`, `C49_degenerate_pole_refuted`, `C51_clamp_or_max`, `C51_clamp_or_min`, `C51_simd_agrees`, `C52_sin_odd_cos_even`, `C52_asin_odd`, `C52_asin_saturates`, `C52_zero`, `C52_sin_cos_defined_partial`, `C52_sin_cos_defined_refuted`, `C56_validated_jobs_run_refuted`, `C60_two_bone`, `C61_pole`, `C63_two_bone_defined`, `C63_aim_defined`, `C63_huge_twist_refuted`, `C64_job`, `C66_cells_not_poisoned_refuted`, `C68_blending_refuted`, `C69_crossing_blends_refuted`, `C71_follows_keys`, `C71_monotone_between_keys`, `C71_short_track_refuted`, `C71_equal_times_refuted`, `C72_rotations_follow_keys`, `C72_opposite_keys_refuted`, `C73_frames_stand_alone`, `C73_same_frame_same_matrices`, `C74_blended_unit`, `C74_tiny_weights_refuted`, `C74_huge_weights_refuted`, `C75_blended_mean`, `C75_layer_order`, `C76_on_curve`, `C76_monotone`, `C77_playback_sound`, `C78_rigid_models`, `C79_in_range`, `C80_playback_rigid`, `C81_sampling`, `C81_blending`, `C81_local_to_model`, `C81_skinning`, `C81_two_bone`, `C81_aim`, `C81_motion`, `C81_track_sampling`, `C81_track_triggering`, `C82_unweighted_layer`, `C82_weighted_layer`, `C83_usize_max_refuted`, `C84_single_precision`, `C85_rotation`, `C85_translation`, `C85_scale`, `C85_subtract_zero_scale_refuted`, `C86_additive_sound`, `C86_additive_rigid`, `C87_sin_cos`, `C87_asin`, `C87_acos`, `C87_axis_angle`, `C87_large_refuted`, `C88_unit_rotation`, `C88_no_weight`, `C88_translation`, `C88_mean_rotation`, `C88_translation_refuted`, `C89_vector`, `C89_rotation`, `C90_unit`, `C90_aims`, `C90_weight`, `C92_unit`, `C92_reaches`, `C92_on_target`, `C92_reached`, `C92_weight`, `C93_scaled_models`, `C93_playback`, `C94_sampling`, `C94_blending`, `C94_local_to_model`, `C94_ik`, `C94_other_jobs`, `C94_playback`, `C94_minus_zero_ratio_refuted`, `C94_minus_zero_weight_refuted`, `C95_loaded_on_curves`, `C95_every_animation_has_a_file`, `C95_from_files`, `C96_float`, `C96_vector`, `C96_rotation`, `C96_every_track_has_a_file`, `C97_no_stretch`, `C97_normals_keep_their_length`, `C98_no_jumps`, `C98_track_does_not_jump`, `C98_vector_track_does_not_jump`, `C98_rotation_track_does_not_jump`, `C99_crossfade_does_not_jump`, `C99_rotation_jumps_refuted`.
