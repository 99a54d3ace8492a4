{"id": "C01", "title": "Sampling is history independent", "statement": "Running a SamplingJob at ratio r on a well-formed animation, with a context sized for that animation, returns Ok and fills every output SoA transform with exactly the value a context-free sampler gives: for every track and channel, take the pair of consecutive keys (L,R) of that track with L.ratio <= r < R.ratio (or the last pair when r is past the last key) and interpolate between them at (r-L)/(R-L). The result does not depend on the ratios sampled before, nor on the direction or size of the jump.", "quantifier": "every well-formed animation (any number of tracks, keys, iframes), every finite history of runs at arbitrary ratios, clears and animation switches on one context, every final ratio", "why_tests_cant": "The cache has three ways of moving (forward, rewind, jump through iframes) and its state depends on the whole history; tests only replay a handful of ratio sequences on a handful of clips.", "anchors": ["src/sampling_job.rs: SamplingJob::run, step_context, update_cache, initialize_cache, track_forward, track_backward, decompress_float3, decompress_quat, interpolates"]}
{"id": "C02", "title": "Sampling never panics on a well-formed animation", "statement": "For a well-formed animation and a context sized for it, no assertion, index or subtraction inside SamplingJob::run can fail, whatever was sampled before; the number of key steps is bounded by the number of keys.", "quantifier": "every well-formed animation, every reachable context state, every ratio", "why_tests_cant": "There are eleven assertions and dozens of index operations guarding an invariant that is only implicit in the code.", "anchors": ["src/sampling_job.rs: update_cache, track_forward, track_backward, decompress_float3, decompress_quat"]}
{"id": "C03", "title": "A context larger than the animation is usable", "statement": "SamplingContext::new(max_tracks) documents max_tracks as the maximum number of tracks it can handle, and SamplingJob::validate accepts any context with at least as many SoA tracks as the animation; so sampling with a larger context gives the same output as with an exactly sized one.", "quantifier": "every well-formed animation, every context capacity at least the number of tracks, every ratio", "why_tests_cant": "Unit tests always build the context from the animation's own track count.", "anchors": ["src/sampling_job.rs: SamplingContext::new, initialize_cache, outdate_cache, decompress_float3"]}
{"id": "C04", "title": "Switching the animation of a context resets it", "statement": "When a context that was used with animation A is used with a different animation B, the output is that of sampling B with a fresh context.", "quantifier": "every pair of well-formed animations, every history on A", "why_tests_cant": "Tests use one animation per context, or animations at different addresses; identity is the address of the Animation value.", "anchors": ["src/sampling_job.rs: step_context, SamplingContext::from_animation"]}
{"id": "C05", "title": "Sampling ratio is clamped", "statement": "After SamplingJob::set_ratio(x) the job's ratio is in [0,1]: x itself when it is in range, 0 below, 1 above, and 1 for NaN; sampling out of range equals sampling at the nearest end.", "quantifier": "every f32 bit pattern x", "why_tests_cant": "2^32 inputs including NaN, infinities and signed zeros.", "anchors": ["src/sampling_job.rs: set_ratio", "src/math.rs: f32_clamp_or_max"]}
{"id": "C06", "title": "Group-varint iframe decoding inverts the encoder", "statement": "Decoding a GV4 (group varint, 4 values per group) stream yields the encoded key indices, consumes exactly the bytes of the groups, and leaves the remaining bytes.", "quantifier": "every list of u32 whose length is a multiple of 4, every suffix of trailing bytes", "why_tests_cant": "Byte widths 1..4 mix freely in each group (256 prefix bytes) and values range over u32.", "anchors": ["src/sampling_job.rs: decode_gv4, decode_gv4_stream"]}
{"id": "C07", "title": "GV4 decoding result never depends on bytes outside the buffer", "statement": "The decoder loads 4 bytes for each value even near the end of the buffer; the bytes it reads past the end never influence the decoded values nor the returned rest.", "quantifier": "every buffer, every content of the memory after the buffer", "why_tests_cant": "What lies after the buffer is not under a test's control.", "anchors": ["src/sampling_job.rs: decode_gv4 (load)"]}
{"id": "C08", "title": "GV4 decoding stays inside its buffer", "statement": "Decoding a GV4 stream only reads bytes of the buffer passed to it (safe function, no out-of-bounds read).", "quantifier": "every buffer and output length accepted by the assertions", "why_tests_cant": "An out-of-bounds read of up to three bytes does not change the result, so assertions on the result cannot see it.", "anchors": ["src/sampling_job.rs: decode_gv4 (load)"]}
{"id": "C09", "title": "Archive reading is independent of endianness", "statement": "Reading a primitive (u8..u64, i8..i64, f32, f64) or a composite of them from an archive yields the value that was written, for a file written big-endian or little-endian and on a big-endian or little-endian machine.", "quantifier": "every value of every primitive type, every composite, both file byte orders, both native byte orders", "why_tests_cant": "CI runs on one native byte order with files of one byte order.", "anchors": ["src/archive.rs: Archive::new, primitive_reader", "src/endian.rs"]}
{"id": "C10", "title": "Animation archive round trip", "statement": "For every animation content, the archive written in the ozz format (either byte order) is read back by Animation::from_archive as exactly that content, consuming exactly the file; key ratios stored on 1 byte when there are at most 255 timepoints and 2 bytes otherwise come back identical.", "quantifier": "every animation content whose counts fit u32, every byte order, every trailing data", "why_tests_cant": "Tests read two or three fixed files; the u8/u16 ratio switch at 255/256 time points is not sampled.", "anchors": ["src/animation.rs: Animation::read_meta, Animation::from_archive"]}
{"id": "C11", "title": "Skeleton archive round trip", "statement": "For every skeleton content with at least one joint, the archive written in the ozz format is read back by Skeleton::from_archive with the same parents, rest poses and joint names.", "quantifier": "every joint count from 1 to 32767, every list of distinct NUL-free UTF-8 names, every parent table, every rest pose bit pattern, both byte orders", "why_tests_cant": "Tests read fixed files.", "anchors": ["src/skeleton.rs: Skeleton::read_meta, Skeleton::from_archive, Skeleton::new"]}
{"id": "C12", "title": "Track archive round trip", "statement": "For every track content (float, float2, float3, float4, quaternion), the archive written in the ozz format is read back by Track::from_archive as the same track.", "quantifier": "every key count, ratios, values, step bits, NUL-free UTF-8 name, byte order", "why_tests_cant": "Tests read fixed files.", "anchors": ["src/track.rs: Track::from_archive"]}
{"id": "C13", "title": "A truncated or failing file never loads", "statement": "If the byte stream ends before the complete object has been read, loading an animation, skeleton or track returns an IO error (never Ok, never a partially filled object); no proper prefix of a valid file loads.", "quantifier": "every valid file of each kind, every truncation point", "why_tests_cant": "There is one truncation point per byte of the file.", "anchors": ["src/archive.rs: primitive_reader, read_vec, read_slice", "src/animation.rs: from_archive", "src/skeleton.rs: from_archive", "src/track.rs: from_archive"]}
{"id": "C14", "title": "Only the right tag and version load", "statement": "If loading an animation, skeleton or track returns Ok, the stream starts with the endian byte, the NUL terminated tag of that object kind and its version number in the file's byte order; a wrong tag gives InvalidTag and a wrong version InvalidVersion.", "quantifier": "every byte stream", "why_tests_cant": "Arbitrary byte streams.", "anchors": ["src/animation.rs: read_meta", "src/skeleton.rs: read_meta", "src/track.rs: from_archive"]}
{"id": "C15", "title": "Skeleton meta and skeleton agree", "statement": "Skeleton::read_meta (with joints) and Skeleton::from_archive agree on the same stream: whenever from_archive succeeds read_meta succeeds with the same joint count and parents, and an archive of an empty skeleton that read_meta accepts in full also loads.", "quantifier": "every byte stream", "why_tests_cant": "Arbitrary byte streams; the empty skeleton is not in the test resources.", "anchors": ["src/skeleton.rs: read_meta, from_archive"]}
{"id": "C16", "title": "Joint names form a bijection", "statement": "joint_by_name(n) = Some(i) if and only if name_by_joint(i) = Some(n); with distinct names every joint keeps its name, and with duplicate names the last joint owns it.", "quantifier": "every list of names, including duplicates", "why_tests_cant": "Arbitrary name lists; the bidirectional map silently evicts on either side.", "anchors": ["src/skeleton.rs: Skeleton::from_archive, joint_by_name, name_by_joint"]}
{"id": "C17", "title": "Half float decoding: SIMD and scalar agree", "statement": "Float3Key::simd_decompress and Float3Key::decompress give the same f32 for every half-float bit pattern, and that value is the IEEE binary16 value.", "quantifier": "every u16 in every lane", "why_tests_cant": "Tests check a few values.", "anchors": ["src/math.rs: f16_to_f32, simd_f16_to_f32", "src/animation.rs: Float3Key"]}
{"id": "C18", "title": "Quaternion key decoding: SIMD and scalar agree", "statement": "QuaternionKey::simd_decompress gives in each lane exactly what QuaternionKey::decompress gives for that key, and lanes do not influence each other.", "quantifier": "every combination of four 48-bit keys", "why_tests_cant": "2^192 inputs.", "anchors": ["src/animation.rs: QuaternionKey::decompress, simd_decompress, unpack"]}
{"id": "C19", "title": "Quaternion key unpacking inverts packing", "statement": "The 48-bit key layout (2 bits largest index, 1 bit sign, three 15-bit components) unpacks to exactly the packed fields, and every key is the packing of its fields.", "quantifier": "every 48-bit key", "why_tests_cant": "2^48 keys.", "anchors": ["src/animation.rs: QuaternionKey::unpack"]}
{"id": "C20", "title": "Decoded rotations are unit quaternions", "statement": "Decoding a compressed rotation key never gives NaN or infinity; the three stored components come out in order, within 2^-21 of the exact value they encode and at most 0.7071069 in magnitude; the restored component carries the stored sign; the squared norm is at least 1 - 2^-20, and at most 1 + 2^-20 whenever the three stored components have squared norm at most 1 (binary32 rounding included).", "quantifier": "every 48-bit key", "why_tests_cant": "2^48 keys and irrational values.", "anchors": ["src/animation.rs: QuaternionKey::decompress"]}
{"id": "C21", "title": "Local to model is the product along the parent chain", "statement": "After LocalToModelJob::run with the default range, the model matrix of every joint is root * L(a1) * ... * L(j) multiplied left to right along its chain of ancestors, where L(i) is the affine matrix of joint i's local transform; elements of the output beyond the number of joints are unchanged.", "quantifier": "every skeleton whose joints are stored parents first, every pose, every root, any joint count (also not a multiple of 4)", "why_tests_cant": "All hierarchies of all sizes.", "anchors": ["src/local_to_model_job.rs: run", "src/math.rs: SoaMat4::from_affine, to_aos"]}
{"id": "C22", "title": "Partial local to model updates exactly the requested subtree", "statement": "With from/to/from_excluded set, run rewrites exactly the joints of from's subtree (without from itself if excluded) whose index is at most to, in terms of the (unchanged) parents' model matrices; every other output matrix is unchanged.", "quantifier": "every depth-first skeleton, every from, to, from_excluded", "why_tests_cant": "Tests enumerate ranges on one 6-joint skeleton.", "anchors": ["src/local_to_model_job.rs: run, set_from, set_to, set_from_excluded"]}
{"id": "C23", "title": "Incremental local to model equals full recomputation", "statement": "If output holds the model matrices of a pose and the locals of joints inside one subtree change, running from that subtree's root gives the same output as a full run.", "quantifier": "every depth-first skeleton, pose, subtree and change", "why_tests_cant": "All hierarchies and changes.", "anchors": ["src/local_to_model_job.rs: run"]}
{"id": "C24", "title": "The 'to' bound of local to model accepts every index", "statement": "set_to(n) with any n at or above the last joint updates up to the last joint.", "quantifier": "every i32 n >= number of joints - 1", "why_tests_cant": "Boundary values of i32 are not exercised.", "anchors": ["src/local_to_model_job.rs: run, set_to"]}
{"id": "C25", "title": "Depth-first iteration visits exactly the subtree", "statement": "iter_depth_first(from) calls the closure once per joint of from's subtree in increasing order (parents before children), with its parent; a negative from visits the whole skeleton; iter_depth_first_reverse visits all joints, children before parents; is_leaf(j) holds iff no joint has parent j.", "quantifier": "every skeleton in depth-first order, every starting joint", "why_tests_cant": "All trees.", "anchors": ["src/skeleton.rs: iter_depth_first, iter_depth_first_reverse, is_leaf"]}
{"id": "C26", "title": "SoA to AoS matrix transposition is exact", "statement": "SoaMat4::to_aos yields four matrices whose element (row r, column c) of matrix k is lane k of the SoA element (r,c), bit for bit.", "quantifier": "every content of the SoA matrix", "why_tests_cant": "Arbitrary bit patterns; the shuffle masks are easy to get subtly wrong for one lane.", "anchors": ["src/math.rs: SoaMat4::to_aos"]}
{"id": "C27", "title": "Affine matrix of a transform", "statement": "In real arithmetic, the matrix built from translation, unit quaternion and scale maps a point p to translation + q (scale*p) q^-1, in every lane.", "quantifier": "every transform", "why_tests_cant": "Continuum of inputs.", "anchors": ["src/math.rs: SoaMat4::from_affine, AosMat4::transform_point", "src/math.rs: quat_transform_vector"]}
{"id": "C28", "title": "Matrix inversion is exact in real arithmetic", "statement": "AosMat4::invert returns the two-sided inverse for every matrix with non-zero determinant and the zero matrix otherwise.", "quantifier": "every 4x4 real matrix", "why_tests_cant": "Continuum of inputs; the cofactor expansion has 200 terms.", "anchors": ["src/math.rs: AosMat4::invert, AosMat4::mul"]}
{"id": "C29", "title": "Blending result is independent of stale buffers", "statement": "BlendingJob::run's result for the rest-pose range depends only on the layers, rest pose and threshold: not on the previous contents of the output buffer nor of the job's context (accumulated weights of earlier runs); elements of the output past the number of SoA joints are unchanged.", "quantifier": "every job, every previous content", "why_tests_cant": "The job keeps per-joint accumulators between runs that are only sometimes reset.", "anchors": ["src/blending_job.rs: BlendingContext, blend_layers, blend_rest_pose, normalize"]}
{"id": "C30", "title": "Valid blending jobs do not panic", "statement": "If BlendingJob::validate returns true then run returns Ok (no panic, no InvalidJob).", "quantifier": "every job configuration", "why_tests_cant": "All combinations of buffer sizes, layers and weights.", "anchors": ["src/blending_job.rs: validate, run, blend_rest_pose"]}
{"id": "C31", "title": "A rejected blending job leaves the output untouched", "statement": "run is documented to validate the job before any operation: if it returns InvalidJob the output buffer is unchanged.", "quantifier": "every invalid job configuration", "why_tests_cant": "Tests only look at the returned error.", "anchors": ["src/blending_job.rs: run, blend_layers, add_layers"]}
{"id": "C32", "title": "Blending is a normalised weighted mean", "statement": "In real arithmetic, for non-additive layers, each joint's translation and scale is the weighted mean of the layers with positive weight (weight times per-joint weight), completed with the rest pose with weight threshold - sum (scaled by threshold) when the joint's sum is below the threshold; scaling all weights by k>0 above the threshold does not change the result, and the order of layers does not matter for translation and scale.", "quantifier": "every number of layers, joints, weights and per-joint weights", "why_tests_cant": "Continuum of weights, any number of layers.", "anchors": ["src/blending_job.rs: run, blend_layers, blend_rest_pose, normalize, blend_1st_pass, blend_n_pass"]}
{"id": "C33", "title": "No effective layer gives the rest pose", "statement": "If every layer's weight is zero or negative (or there are no layers) the output's translation and scale are those of the rest pose and rotations are the normalised rest-pose rotations.", "quantifier": "every valid job with an output of exactly the rest pose's size and only layer weights <= 0 (a NaN weight is not skipped: see C33_nan_weight_refuted)", "why_tests_cant": "All weights, including NaN and infinities, all sizes.", "anchors": ["src/blending_job.rs: blend_rest_pose"]}
{"id": "C34", "title": "Additive and subtractive layers cancel", "statement": "In real arithmetic, adding an additive layer with weight w and then subtracting the same layer with weight -w leaves the pose unchanged.", "quantifier": "every pose, additive layer with unit rotations and non-degenerate scale, weight in (0,1], per-joint weights", "why_tests_cant": "Continuum of inputs.", "anchors": ["src/blending_job.rs: add_layers, blend_add_pass, blend_sub_pass"]}
{"id": "C35", "title": "Blended rotations are unit", "statement": "In real arithmetic every blended rotation is a unit quaternion unless the weighted sum of the layers' rotations vanishes.", "quantifier": "every number of layers and weights", "why_tests_cant": "Continuum of inputs.", "anchors": ["src/blending_job.rs: normalize", "src/math.rs: SoaQuat::normalize"]}
{"id": "C36", "title": "Skinning equals the linear blend formula", "statement": "SkinningJob::run writes for each vertex the influence-weighted combination of its joint matrices applied to the vertex (with the last weight restored as 1 - sum of the others), for positions, normals and tangents, the latter two through the inverse-transpose matrices when given; other output elements are unchanged. The same formula holds for 1, 2, 3, 4 and n influences.", "quantifier": "every vertex count, influence count >= 1, index and weight buffers", "why_tests_cant": "25 specialised code paths generated by macros.", "anchors": ["src/skinning_job.rs: run, skinning_1, skinning_impl, unpack_buf"]}
{"id": "C37", "title": "Skinning weights sum to one", "statement": "In real arithmetic, if all joints of a vertex carry the same matrix, the skinned vertex is the vertex transformed by that matrix, whatever the weights.", "quantifier": "every influence count, weights, matrices", "why_tests_cant": "Continuum of inputs.", "anchors": ["src/skinning_job.rs: skinning_impl"]}
{"id": "C38", "title": "Skinning run and validate agree", "statement": "SkinningJob::run returns InvalidJob exactly when validate is false, and never panics.", "quantifier": "every combination of set and unset buffers and sizes", "why_tests_cant": "2^10 combinations of optional buffers times sizes.", "anchors": ["src/skinning_job.rs: validate, run, skinning_impl"]}
{"id": "C39", "title": "Track sampling interpolates the bracketing keys", "statement": "For a track starting at ratio 0 with increasing ratios, TrackSamplingJob returns the first value at or before 0, the last value at or after the last key, the left key's value on step keys, and otherwise the interpolation of the two bracketing keys at (r-l)/(h-l); an empty track returns the default.", "quantifier": "every track and every f32 ratio (including NaN)", "why_tests_cant": "All key layouts and ratios.", "anchors": ["src/track_sampling_job.rs: run"]}
{"id": "C40", "title": "Trigger edges are exactly the threshold crossings", "statement": "TrackTriggeringJob's iterator yields, in playback order, exactly the crossings of the threshold whose ratio lies between from and to, once per loop of the track.", "quantifier": "every float track with increasing ratios in [0,1], every threshold, every from < to or from > to (any number of loops)", "why_tests_cant": "All key layouts, loops and window bounds.", "anchors": ["src/track_triggering_job.rs: run, detect_edge, next"]}
{"id": "C41", "title": "Playing frame by frame neither loses nor repeats an edge", "statement": "The concatenation of the edges of consecutive windows [t0,t1], [t1,t2], ..., equals the edges of [t0,tn].", "quantifier": "every track, threshold and every increasing sequence of times", "why_tests_cant": "Every schedule of frame times, including frames that end exactly on an edge or on a loop end.", "anchors": ["src/track_triggering_job.rs: next"]}
{"id": "C42", "title": "Backward playback mirrors forward playback", "statement": "The edges from b to a (b > a) are those from a to b in reverse order with rising and falling exchanged.", "quantifier": "every track, threshold, a < b", "why_tests_cant": "All key layouts and windows.", "anchors": ["src/track_triggering_job.rs: next, detect_edge"]}
{"id": "C43", "title": "Edges alternate", "statement": "Successive edges returned over a window alternate between rising and falling.", "quantifier": "every track, threshold and window", "why_tests_cant": "All key layouts and windows.", "anchors": ["src/track_triggering_job.rs: next, detect_edge"]}
{"id": "C44", "title": "The trigger iterator terminates", "statement": "For finite from and to, iterating a TrackTriggeringJob ends after finitely many steps.", "quantifier": "every pair of finite f32", "why_tests_cant": "A hang is not reachable from small test values.", "anchors": ["src/track_triggering_job.rs: next"]}
{"id": "C45", "title": "Motion blending", "statement": "In real arithmetic: with no positive weight the output is the identity transform; a single positive layer returns its own delta; the scale is always 1; scaling all weights by k>0 changes nothing; the output rotation is unit; the output translation has the weighted mean of the layers' lengths along the weighted mean direction.", "quantifier": "every list of layers and weights", "why_tests_cant": "Continuum of inputs, any number of layers.", "anchors": ["src/motion_blending_job.rs: run"]}
{"id": "C46", "title": "Rotation between vectors", "statement": "In real arithmetic quat_from_vectors(a,b) is a unit quaternion that rotates a onto the direction of b, including opposite vectors.", "quantifier": "every pair of non-zero vectors", "why_tests_cant": "Continuum of inputs with a degenerate branch.", "anchors": ["src/math.rs: quat_from_vectors, quat_transform_vector"]}
{"id": "C47", "title": "Quaternion product composes rotations", "statement": "In real arithmetic quat_mul is the Hamilton product (and equals SoaQuat::mul lane-wise), it is associative, multiplies norms, and transforming by a product is transforming successively.", "quantifier": "every pair of quaternions", "why_tests_cant": "Continuum of inputs; hand-shuffled SIMD code.", "anchors": ["src/math.rs: quat_mul, SoaQuat::mul, quat_transform_vector"]}
{"id": "C48", "title": "IK jobs: invalid or weightless runs", "statement": "IKTwoBoneJob/IKAimJob: an invalid job returns InvalidJob and leaves the previous corrections untouched; with weight <= 0 the corrections are identity quaternions (aim job: provided the correction at weight 1 does not overflow); two-bone 'reached' requires weight >= 1.", "quantifier": "every job configuration and every f32 weight", "why_tests_cant": "All f32 weights and vectors.", "anchors": ["src/ik_two_bone_job.rs: run", "src/ik_aim_job.rs: run"]}
{"id": "C49", "title": "IK corrections are unit quaternions on the short arc", "statement": "In real arithmetic the corrections are unit quaternions with non-negative real part: always when computed with weight < 1, and at weight >= 1 outside of degenerate configurations (two bone: target at the start joint or on the pole line).", "quantifier": "every IK configuration", "why_tests_cant": "Continuum of inputs.", "anchors": ["src/ik_two_bone_job.rs: weight_output", "src/ik_aim_job.rs: run"]}
{"id": "C50", "title": "Aim IK aims at the target", "statement": "In real arithmetic, when reached is true and the weight is 1, the corrected forward axis through the offset passes through the target, whatever the twist: exactly, except that when the aiming point was almost opposite to the target (where the rotation is taken to be a half turn) it passes within 0.15% of the target distance. reached is true exactly when some point of the forward axis through the offset is as far from the joint as the target; otherwise the correction is the identity.", "quantifier": "every reachable configuration", "why_tests_cant": "Continuum of inputs.", "anchors": ["src/ik_aim_job.rs: run, compute_offsetted_forward"]}
{"id": "C51", "title": "Clamping helpers", "statement": "f32_clamp_or_max / f32_clamp_or_min return a value in [min,max], the input when in range, and max (resp. min) for NaN; SIMD versions agree lane-wise.", "quantifier": "every f32 input and every min <= max", "why_tests_cant": "2^96 inputs.", "anchors": ["src/math.rs: f32_clamp_or_max, f32_clamp_or_min, fx4_clamp_or_max, fx4_clamp_or_min"]}
{"id": "C52", "title": "Trigonometric symmetries and domain", "statement": "The SIMD sine is odd, cosine even, arcsine odd and saturating outside [-1,1], bit for bit; and the functions are defined for every f32 input.", "quantifier": "every f32", "why_tests_cant": "2^32 inputs.", "anchors": ["src/math.rs: fx4_sin_cos, fx4_asin, fx4_acos"]}
{"id": "C53", "title": "Animation buffer layout is sound", "statement": "The single allocation behind an Animation (and Skeleton, and SamplingContext) is carved into disjoint, in-bounds and correctly aligned arrays covering exactly the allocated size, so safe accessors never alias or overrun; the constructor's final assertion never fails.", "quantifier": "every combination of counts", "why_tests_cant": "All counts; misalignment only shows for some.", "anchors": ["src/animation.rs: Animation::new", "src/skeleton.rs: Skeleton::new", "src/sampling_job.rs: SamplingContext::new"]}
{"id": "C54", "title": "Raw conversion round trip", "statement": "Converting an animation (skeleton, sampling context) to its serialisable form and back gives an equal object.", "quantifier": "every animation, skeleton and context", "why_tests_cant": "All contents.", "anchors": ["src/animation.rs: from_raw, to_raw", "src/skeleton.rs: from_raw, to_raw", "src/sampling_job.rs: rkyv, serde"]}
{"id": "C55", "title": "Sampling validate and run agree", "statement": "For SamplingJob and LocalToModelJob, run returns InvalidJob exactly when validate is false, and then changes nothing.", "quantifier": "every job configuration", "why_tests_cant": "All combinations of set and unset parameters and sizes.", "anchors": ["src/sampling_job.rs: validate, run", "src/local_to_model_job.rs: validate, run"]}
{"id": "C56", "title": "Shared buffers never alias unsafely", "statement": "With Rc<RefCell<Vec>> buffers, running a job whose output buffer is also one of its inputs is detected (panic of the cell), never a silent concurrent mutation; with distinct buffers no borrow fails and all borrows are released when run returns, on every path.", "quantifier": "every assignment of buffers to job parameters", "why_tests_cant": "All aliasing patterns.", "anchors": ["src/base.rs: OzzBuf, OzzMutBuf", "src/blending_job.rs: run", "src/local_to_model_job.rs: run", "src/skinning_job.rs: run"]}
{"id": "C57", "title": "Loading arbitrary bytes never panics", "statement": "Reading an animation, a skeleton, a track or their meta data from any byte stream returns Ok or an error, never a panic (for tracks, as long as the stream holds less than 16 GiB of key ratios).", "quantifier": "every byte stream, both machine byte orders, every stream error", "why_tests_cant": "Fuzzing samples byte streams; the claim is about all of them, including every corrupt length field and every truncation.", "anchors": ["src/archive.rs", "src/animation.rs Animation::from_archive", "src/skeleton.rs Skeleton::from_archive", "src/track.rs Track::from_archive"]}
{"id": "C58", "title": "Strings in archives are exactly the UTF-8 texts", "statement": "A NUL-terminated byte sequence in an archive is read as a String if and only if it is the UTF-8 encoding of Unicode scalar values, and then unchanged; otherwise a Utf8 error is returned.", "quantifier": "every NUL-free byte sequence followed by any bytes", "why_tests_cant": "The accepted set is infinite and its boundary (overlong forms, surrogates, truncated sequences) has many cases.", "anchors": ["src/archive.rs ArchiveRead for String", "src/base.rs OzzError::Utf8"]}
{"id": "C59", "title": "Aim IK turns the up axis towards the pole vector", "statement": "In real arithmetic, when reached, at weight 1 and zero twist, the corrected up axis lies strictly in the half plane bounded by the joint-target line that contains the pole vector (unless up or pole is along that line).", "quantifier": "every reachable configuration, every invertible joint matrix", "why_tests_cant": "Continuum of inputs.", "anchors": ["src/ik_aim_job.rs: run"]}
{"id": "C60", "title": "Two bone IK brings the end joint to the target", "statement": "In real arithmetic with exact trigonometry, applying the mid then the start correction puts the end joint on the ray from the start joint to the target, at the softened target distance clamped to what the bones allow (exactly, or within 0.15% of that distance when the bent chain pointed almost opposite to the target); 'reached' is true exactly when the target is within the unsoftened range, and then the end joint is on the target.", "quantifier": "every chain placed by translations, rotations and uniform scales, every target not at the start joint nor on the pole line, every soften and twist, weight >= 1", "why_tests_cant": "Continuum of chains and targets.", "anchors": ["src/ik_two_bone_job.rs: run, soften_target, compute_mid_joint, compute_start_joint"]}
{"id": "C61", "title": "The pole vector chooses the bending side", "statement": "In real arithmetic with exact trigonometry and zero twist, after a two bone IK correction the mid joint lies in the half plane bounded by the start-target line that contains the pole vector.", "quantifier": "as C60", "why_tests_cant": "Continuum of inputs.", "anchors": ["src/ik_two_bone_job.rs: compute_start_joint"]}
{"id": "C62", "title": "The hidden lane of Vec3A never matters", "statement": "Two IK jobs whose Vec3A parameters agree on x, y and z (and whose other parameters are equal) give identical results, bit for bit, whatever the fourth lanes hold.", "quantifier": "every arithmetic (binary32 included), every job, every content of the hidden lanes", "why_tests_cant": "The hidden lane is usually zero in tests; the claim is about all its contents.", "anchors": ["src/ik_two_bone_job.rs", "src/ik_aim_job.rs", "src/math.rs: fx4_from_vec3a, vec3_cross, quat_from_axis_angle"]}
{"id": "C63", "title": "IK jobs never invoke undefined behaviour", "statement": "Running an IK job whose twist angle is finite and at most 2^31 in absolute value never converts an out-of-range float with to_int_unchecked, whatever the other parameters hold (NaN and infinities included).", "quantifier": "every f32 job with a tame twist angle", "why_tests_cant": "All f32 parameters, including NaN.", "anchors": ["src/ik_two_bone_job.rs: run", "src/ik_aim_job.rs: run", "src/math.rs: fx4_sin_cos, fx4_acos"]}
{"id": "C64", "title": "Softening is monotone, without jumps, and keeps the chain bent", "statement": "In real arithmetic the distance at which two bone IK places the end joint equals the target distance inside the soften range, never decreases when the target moves away, grows at most 4/3 as fast as the target distance, and with soften < 1 stays strictly below the chain length.", "quantifier": "every pair of bone lengths, every soften >= 0, every pair of target distances", "why_tests_cant": "Continuum of inputs; a jump could sit anywhere.", "anchors": ["src/ik_two_bone_job.rs: soften_target"]}
{"id": "C65", "title": "Deserialisation answers every document", "statement": "Deserialising an animation, skeleton, track or sampling context from any JSON document either reports an error or gives an object whose arrays have the lengths its counts announce and whose contents come from the document.", "quantifier": "every JSON document", "why_tests_cant": "Unbounded set of documents, including hostile ones.", "anchors": ["src/animation.rs: Deserialize, from_raw", "src/skeleton.rs: Deserialize, from_raw", "src/sampling_job.rs: SamplingContextVisitor", "src/track.rs: Track"]}
{"id": "C66", "title": "A half-written output behind a lock is never used", "statement": "With Arc<RwLock<Vec>> buffers, a job that panics after it has begun to write a buffer leaves that buffer's lock poisoned, and no job succeeds that reads or writes a buffer whose lock is poisoned: it returns the LockPoison error instead.", "quantifier": "every job, every assignment of buffers, every point at which the job panics, every later job", "why_tests_cant": "The panic can come at any element of any pass and the later job can be any job using the buffer in any role.", "anchors": ["src/base.rs: OzzBuf, OzzMutBuf for Arc<RwLock<Vec<T>>>", "src/blending_job.rs: run", "src/local_to_model_job.rs: run", "src/sampling_job.rs: run", "src/skinning_job.rs: run"]}
{"id": "C67", "title": "Concurrent jobs never race on a buffer", "statement": "When several threads run sampling, blending, local-to-model and skinning jobs (and their validations) on buffers they share in the ways Rust's types allow, there is never a moment at which two of them are about to access the same buffer and one of them to write it.", "quantifier": "every number of threads, every list of jobs per thread (each may depend on the outcomes before it), every sharing of buffers, every interleaving of their operations", "why_tests_cant": "The number of interleavings is unbounded and a race may need one particular one.", "anchors": ["src/base.rs: OzzBuf, OzzMutBuf for Arc<RwLock<Vec<T>>>", "src/blending_job.rs: run, validate", "src/local_to_model_job.rs: run, validate", "src/sampling_job.rs: run", "src/skinning_job.rs: run, validate"]}
{"id": "C68", "title": "Concurrent jobs take effect one at a time", "statement": "Whatever the interleaving, once all threads are finished every job has returned, and every buffer and lock contains, what they would if the same jobs had been run one after the other in some order. This is so for sampling, local-to-model and skinning jobs, and for blending jobs whose layers no job writes; a blending job lets go of one layer before it borrows the next and can see another thread's work half done.", "quantifier": "every number of threads, every list of jobs per thread, every sharing of buffers, every interleaving", "why_tests_cant": "Unbounded interleavings; a violation shows only as a plausible but mixed pose.", "anchors": ["src/base.rs: OzzBuf, OzzMutBuf for Arc<RwLock<Vec<T>>>", "src/blending_job.rs: run, validate", "src/local_to_model_job.rs: run, validate", "src/sampling_job.rs: run", "src/skinning_job.rs: run, validate"]}
{"id": "C69", "title": "Jobs that borrow in one order do not deadlock", "statement": "If there is an order of the shared buffers such that every job borrows them in that order (output, then layers for blending; input, then output for local-to-model; skinning in the order of its fields), then at every point of every execution all threads are finished or one can go on, even if locks prefer waiting writers; no execution goes on for ever; and all jobs can be completed. Sampling and local-to-model jobs alone need no such order. Without it two blending jobs that read each other's output can wait for each other for ever.", "quantifier": "every number of threads, every list of jobs per thread, every sharing of buffers, every interleaving", "why_tests_cant": "A deadlock needs a particular interleaving; its absence is a statement about all of them.", "anchors": ["src/base.rs: OzzBuf, OzzMutBuf for Arc<RwLock<Vec<T>>>", "src/blending_job.rs: run, validate", "src/local_to_model_job.rs: run, validate", "src/sampling_job.rs: run", "src/skinning_job.rs: run, validate"]}
{"id": "C70", "title": "A half-written output is never used by another thread", "statement": "From the moment a job begins to unwind from a panic while it holds a lock for writing, no thread ever reads or writes that buffer again, in any continuation, and the lock ends up poisoned.", "quantifier": "every number of threads, every list of jobs per thread, every sharing of buffers, every interleaving before and after the panic", "why_tests_cant": "The other threads can be at any point, including waiting for that lock, when the panic happens.", "anchors": ["src/base.rs: OzzBuf, OzzMutBuf for Arc<RwLock<Vec<T>>>", "src/blending_job.rs: run, validate", "src/local_to_model_job.rs: run, validate", "src/sampling_job.rs: run", "src/skinning_job.rs: run, validate"]}
{"id": "C71", "title": "Sampled translations and scales follow their keys", "statement": "Sampling an animation, whose keys are finite and whose tracks reach ratio 1, at any ratio in [0, 1] yields, for every track, finite translation and scale coordinates that: lie on the straight line between the two neighbouring keys around the ratio up to 2^-19 of the larger key value; do not leave the interval of these two values by more than 2^-22 of it; are exactly the key value at the time of a key. Between two keys each coordinate moves one way only as the ratio grows. This holds in single precision, including rounding, and whatever the context sampled before.", "quantifier": "every well-formed animation whose tracks end at ratio 1 with finite half-float keys, every ratio in [0, 1], every history of the context, every pair of ratios between two keys", "why_tests_cant": "Rounding errors depend on every key time, key value and ratio; overshoot or a backward step shows up only for particular triples.", "anchors": ["src/sampling_job.rs: SamplingJob::run, update_cache, interpolates", "src/animation.rs: Float3Key::simd_decompress", "src/math.rs: SoaVec3::lerp, simd_f16_to_f32"]}
{"id": "C72", "title": "Sampled rotations are unit quaternions that follow their keys", "statement": "If the rotation keys are quaternions as the builder writes them, and neighbouring keys of a track are in the same hemisphere, sampling at any ratio in [0, 1] yields for every track a finite rotation whose squared norm is 1 within 2^-19 and whose components are, within 2^-17, those of the normalised linear interpolation of the two neighbouring keys around the ratio. This holds in single precision, including rounding, and whatever the context sampled before.", "quantifier": "every well-formed animation whose tracks end at ratio 1, every set of rotation keys in one hemisphere, every ratio in [0, 1], every history of the context", "why_tests_cant": "The normalisation divides by a computed length whose error depends on every pair of keys and every ratio; the bound must hold for all of them.", "anchors": ["src/sampling_job.rs: SamplingJob::run, update_cache, interpolates", "src/animation.rs: QuaternionKey::simd_decompress", "src/math.rs: SoaQuat::nlerp"]}
{"id": "C73", "title": "A frame depends only on its own inputs", "statement": "A playback loop that keeps its sampling, blending and local-to-model jobs from frame to frame draws, for a valid frame, model-space matrices that are a function of that frame's animations, ratios, weights, threshold and root alone: each layer is the sample of its animation at the clamped ratio, the blended pose is what a brand new blending job makes of them, and each joint's matrix is the product of the local matrices along its chain of parents. Frames played before, including rejected ones, never show, and no frame panics.", "quantifier": "every number of layers, every history of frames (any animations of a library, any ratios including NaN, any weights, joint weights and thresholds, valid or rejected), every valid frame, every initial content of contexts and buffers", "why_tests_cant": "Contexts, accumulators and output buffers are reused; a stale value may show only after a particular sequence of frames.", "anchors": ["src/sampling_job.rs: SamplingJob::run, SamplingContext", "src/blending_job.rs: BlendingJob::run, BlendingContext", "src/local_to_model_job.rs: LocalToModelJob::run", "tests/blend.rs: run_blend"]}
{"id": "C74", "title": "Blended rotations stay unit in single precision", "statement": "Blending any number of layers (none additive) whose weights are not positive or between 2^-15 and 2^10, with a threshold between 2^-20 and 2^20, yields finite translations and scales and a finite rotation whose squared norm is 1 within 2^-19, at every joint where the layers of positive weight and the rest pose are finite with rotations within 1/1024 of unit. Opposite hemispheres, cancelling rotations, masks, weights that sum to nothing and garbage in layers of weight zero do not matter.", "quantifier": "every skeleton, number of layers, weights, joint weights and threshold in range, all usable transforms, every previous content of the context and output", "why_tests_cant": "The normalisation divides by the length of a rounded sum; that it stays away from zero must hold for every set of layers, including those that nearly cancel.", "anchors": ["src/blending_job.rs: BlendingJob::run, blend_layers, blend_rest_pose, normalize", "src/math.rs: SoaQuat::normalize"]}
{"id": "C75", "title": "Single-precision blending is the weighted mean, with an error bound", "statement": "Each blended translation and scale component equals the weighted mean of the layers, completed by the rest pose up to the threshold (C32), within (n + 4) 2^-22 times the largest magnitude among the blended components (plus 2^-100), where n is the number of layers, at most 4096. In particular the order of the layers matters no more than twice that.", "quantifier": "every skeleton, up to 4096 layers, weights, joint weights and threshold in the range of C74, all finite components up to 2^40", "why_tests_cant": "Rounding errors accumulate over the layers in ways that depend on all values; the bound is over all of them.", "anchors": ["src/blending_job.rs: BlendingJob::run, blend_layers, blend_rest_pose, normalize"]}
{"id": "C76", "title": "Float tracks sampled in single precision lie on their curve", "statement": "For a float track as exported (times increasing from 0 to at most 1, finite values up to 2^100), sampling at any finite ratio succeeds. Between two keys the result of a linear key is within m 2^-20 + 2^-149 of the straight line between its two values, where m is the larger magnitude, stays between the two values within m 2^-22, equals the key's value exactly at the key's time, and is monotone in the ratio. A step key keeps its value exactly. Before the start and from the last key on, the result is exactly the first or last value.", "quantifier": "every float track of any number of keys, every finite ratio, including negative ones and ones above 1, every pair of ratios for monotonicity", "why_tests_cant": "The ratio between two keys and the interpolation round, and cancellation depends on all four numbers; the bound is over all of them.", "anchors": ["src/track.rs: Track, TrackValue::lerp for f32", "src/track_sampling_job.rs: TrackSamplingJob::run"]}
{"id": "C77", "title": "Playback draws sound poses, whatever was played before", "statement": "A playback loop (one sampling job per layer, a blending job and a local-to-model job, kept from frame to frame as in tests/blend.rs) never panics, and a valid frame whose positively weighted layers play exported animations at any ratio, with weights, joint weights, threshold and rest pose in the range of C74 and no additive layers, succeeds and draws the matrices of a pose that is finite and has unit rotations within 2^-19 at every joint. Earlier frames may have been rejected, additive, or full of NaN weights.", "quantifier": "every skeleton of at most 1025 joints, every set of well-formed animations, number of layers, history of frames, previous content of buffers and contexts, and every sound frame, including ratios that are NaN or out of range", "why_tests_cant": "It composes sampling, blending and model-space conversion over every history, every key and every weight.", "anchors": ["tests/blend.rs", "src/sampling_job.rs: SamplingJob::set_ratio, run", "src/blending_job.rs: BlendingJob::run", "src/local_to_model_job.rs: LocalToModelJob::run"]}
{"id": "C78", "title": "Model-space matrices of unscaled poses stay rigid, down any chain", "statement": "If every local transform on the chain of a joint is finite with a rotation and scales within e of unit and a bone no longer than L, and the root matrix is a rigid motion within e, then the joint's model-space matrix is finite, its bottom row is exactly (0,0,0,1), and it is the exact composition of the joints' rigid motions up to 16 d e in each entry of the rotation and 10 d^2 e L in the position, where d is the length of the chain plus one; so its axes stay unit and orthogonal within 128 d e. Drift grows linearly, not exponentially.", "quantifier": "every skeleton and pose, every chain of any length with d e at most 1/128 (d up to 4096 for the e = 2^-19 of C74), every e from 2^-20, every L between 2^-60 and 2^60, every nearly rigid root matrix, every selected range and previous output", "why_tests_cant": "Rounding errors of every matrix on the chain accumulate; the bound is over all poses and all chains.", "anchors": ["src/local_to_model_job.rs: LocalToModelJob::run", "src/math.rs: SoaMat4::from_affine, AosMat4::mul"]}
{"id": "C79", "title": "Blending stays within the range of what it blends", "statement": "In single precision, each translation or scale coordinate of a blended pose lies between the least and the greatest of the corresponding coordinates of the rest pose and of the positively weighted layers, up to d = (n+4) 2^-22 M + 2^-100, where n is the number of layers and M the larger magnitude of the two ends. So blending poses whose scales are all 1 keeps scales at 1, and bones do not grow.", "quantifier": "every skeleton, context, threshold, list of up to 4096 usable layers (weights and transforms as in C74), previous output, joint, coordinate and range", "why_tests_cant": "Rounding accumulates over the layers and the final normalisation; the bound is over all weights and values.", "anchors": ["src/blending_job.rs: BlendingJob::run"]}
{"id": "C80", "title": "Playing unscaled animations draws rigid matrices", "statement": "When the animations with positive weight have all scale keys equal to 1 and translation keys of at most L per coordinate, and so does the rest pose, every valid frame of the playback loop of C77 draws, for every joint, a finite matrix that is an exact rigid motion up to 16 d e in each entry of the rotation and 20 d^2 e L in the position, where d is the joint's depth plus one and e = max(2^-19, (n+6) 2^-22) for n layers, whatever was played before and at any ratio.", "quantifier": "every skeleton of at most 1025 joints, every set of well-formed animations, number of layers up to 4096, history of frames, previous content of buffers, frame as in C77, joint with d e at most 1/128, L between 2^-50 and 65536, nearly rigid root matrix", "why_tests_cant": "It composes key decoding, sampling, blending and model-space conversion with their rounding over every history, key, weight and ratio.", "anchors": ["tests/blend.rs", "src/sampling_job.rs: SamplingJob::run", "src/blending_job.rs: BlendingJob::run", "src/local_to_model_job.rs: LocalToModelJob::run"]}
{"id": "C81", "title": "A job does what its latest settings say", "statement": "For each of the nine jobs, after any sequence of constructor, setter, clear, take, validate and run calls, every field holds what the last call that writes it wrote (or its documented default), and every validate, take and run returns what it returns on exactly these values. Inputs are never changed by a run; outputs and contexts change only by run, set, clear or take; a setter never changes another field.", "quantifier": "every sequence of calls of any length on each job, in any order, including failing runs, every argument", "why_tests_cant": "There are 85 setters and clears; the property ranges over all their interleavings and arguments.", "anchors": ["src/sampling_job.rs: SamplingJob", "src/blending_job.rs: BlendingJob", "src/local_to_model_job.rs: LocalToModelJob", "src/skinning_job.rs: SkinningJob", "src/ik_two_bone_job.rs: IKTwoBoneJob", "src/ik_aim_job.rs: IKAimJob", "src/motion_blending_job.rs: MotionBlendingJob", "src/track_sampling_job.rs: TrackSamplingJob", "src/track_triggering_job.rs: TrackTriggeringJob"]}
{"id": "C82", "title": "A layer without a weight has no effect", "statement": "A layer made by BlendingLayer::new or BlendingLayer::with_joint_weights, whose weight was not set afterwards, changes neither the result, the output nor the context of a blending run, wherever it stands among the layers or the additive layers, provided its buffers are long enough; this holds whatever joint weights it was given. A layer made by BlendingLayer::with_weight runs as any layer of that pose and weight without joint weights.", "quantifier": "every skeleton, pose, joint weights, other layers, position among them, context, threshold and previous output", "why_tests_cant": "It ranges over all layer lists, positions and contents.", "anchors": ["src/blending_job.rs: BlendingLayer::new, BlendingLayer::with_joint_weights, BlendingLayer::with_weight, BlendingJob::run"]}
{"id": "C83", "title": "Index arguments of any type mean the index", "statement": "LocalToModelJob::set_from and set_to accept usize, i32 and i16; the range updated is the one the given number denotes.", "quantifier": "every usize, i32 and i16 argument, skeleton, input and output", "why_tests_cant": "The failing arguments are far from those tests use, and conversions of 2^64 values cannot be enumerated.", "anchors": ["src/base.rs: OzzIndex", "src/local_to_model_job.rs: LocalToModelJob::set_from, LocalToModelJob::set_to"]}
{"id": "C84", "title": "Skinned vertices follow the linear blend formula in single precision", "statement": "A successful SkinningJob::run on finite inputs writes, for every vertex, finite coordinates within n*2^-19*B*(3P+1) of the exact weighted sum of the joint matrices applied to the position (n*2^-19*B*3P for normals and tangents), where n is the number of influences per vertex, B bounds the matrix entries used and P the input coordinates; the last weight is one minus the sum of the stored ones; vertices beyond the count are unchanged.", "quantifier": "every job in single precision with up to 4096 influences per vertex, any number of vertices, any bounds B and P between 2^-40 and 2^40, stored weights whose absolute values sum to at most 2", "why_tests_cant": "It bounds the rounding error over all matrices, weights, vertices and influence counts.", "anchors": ["src/skinning_job.rs: SkinningJob::run, skinning_1!, skinning_impl!, mat4_col_mul"]}
{"id": "C85", "title": "Additive layers add, turn and scale by their weighted transforms", "statement": "A BlendingJob with additive layers returns, at every joint, what the same job without them returns, changed by each additive layer in order: the weighted translation is added, the pose is rotated by the normalised interpolation from the identity to the layer's rotation, each scale component is multiplied by 1 + w(s - 1); a negative layer weight applies the inverses. In single precision n layers change the squared length of the rotation by at most n*2^-18 and leave it within n*2^-17 of the exact composition; translations are within (n+3)*2^-23 of the sum of magnitudes (+2^-90), scales within n*2^-18 relative.", "quantifier": "every job, pose, joint and list of additive layers; in single precision up to 2048 layers (64 for scales) of weight at most 4 in absolute value, joint weights at most 1, transforms up to 2^40 with near-unit rotations, scale factors between 1/2 and 2", "why_tests_cant": "It bounds the result for all layers, weights, masks and poses, including accumulated rounding.", "anchors": ["src/blending_job.rs: BlendingJob::run, blend_add_pass, blend_sub_pass, additive blending loop", "src/math.rs: SoaQuat::normalize, SoaQuat::mul"]}
{"id": "C86", "title": "Playback with additive layers draws sound poses and rigid matrices", "statement": "The playback loop of C77 also accepts additive layers of weight between -1 and 1 (subtracted when negative): a valid frame whose other layers are as in C77 and whose additive layers play exported animations with scale keys between 5/8 and 15/8, joint weights at most 1, succeeds and draws the matrices of a finite pose whose rotations are unit within 2^-19 + a*2^-18 for a additive layers; when no animation scales, every matrix is a rigid motion up to 16 d e in the rotation and 40 d^2 e (a+1) L in the position, with d and L as in C80 and e = max(2^-19,(n+6)2^-22) + a 2^-17. Neither depends on what was played before.", "quantifier": "every skeleton of at most 1025 joints, set of well-formed animations, number of layers up to 4096 of which up to 32 additive, history of frames, previous content of buffers, ratio (NaN included), weights and masks in the stated ranges", "why_tests_cant": "It composes key decoding, sampling, blending, additive blending and model-space conversion with their rounding over every history, key, weight and ratio.", "anchors": ["tests/additive.rs", "tests/blend.rs", "src/sampling_job.rs: SamplingJob::run", "src/blending_job.rs: BlendingJob::run", "src/local_to_model_job.rs: LocalToModelJob::run"]}
{"id": "C87", "title": "Sine, cosine, arcsine, arccosine and the rotation about an axis are accurate", "statement": "In single precision the sine and cosine of every finite angle of magnitude at most 8192 are defined, lie in [-1, 1] and are within 2^-23 of the exact ones; the arcsine and arccosine of every number that is not a NaN are within 2^-22 and 2^-21 of the exact ones of that number clamped to [-1, 1]; the rotation of an angle of magnitude at most 16384 about an axis with lanes of magnitude at most 1.01 is within 2^-22 of the exact quaternion in every component. (For larger angles it is false: the sine of 2^28 is below -20.)", "quantifier": "every single-precision argument in the stated ranges, infinities included for the inverse functions", "why_tests_cant": "There are about 10^9 arguments per function and 10^38 axis and angle pairs, and the reference is a real function that no test computes exactly.", "anchors": ["src/math.rs: fx4_sin_cos, f32_sin_cos, f32_sin, f32_cos, fx4_asin, f32_asin, fx4_acos, f32_acos, quat_from_axis_angle"]}
{"id": "C88", "title": "Motion blending is accurate in single precision, whatever order glam adds in", "statement": "Blending up to 4096 motions whose weights are zero or below, or between 2^-20 and 2^20, whose translations are zero or of length between 2^-20 and 2^40 and whose rotations are unit quaternions to within a hundredth: the result has a finite rotation of unit length to within 2^-19 and scale 1, and is the identity if no weight is positive. If the weighted directions do not cancel, the translation is finite, its length is the weighted mean of the lengths up to a relative error of (n+8)/2^21, and it is the mean length along the mean direction up to (n+8)/2^20 divided by the length of the mean direction. If the dot product of any two rotations is at least 1/4, the rotation is the normalised weighted sum up to (n+8)/2^20. This holds whichever order glam adds the four products of a dot product in and whether it divides by a length or multiplies by its reciprocal. (If the directions cancel it is false: the job can return no motion where the exact result has the mean length.)", "quantifier": "every list of at most 4096 layers in the stated ranges, every order of additions and both ways to normalise", "why_tests_cant": "The bound is for every list of layers; rounding errors accumulate with the number of layers, and the order of additions depends on the target and the features glam is built with.", "anchors": ["src/motion_blending_job.rs: MotionBlendingJob::run"]}
{"id": "C89", "title": "Vector and rotation tracks are sampled on their curves in single precision, whichever form of glam's lerp is built", "statement": "Take a track of vectors (any number of finite components up to 2^100) or of rotations (unit quaternions to within a hundredth) with times that increase from 0 to at most 1, and a finite ratio. Sampling returns a value. Outside the keys it is the nearest key's value; after a step key it is that key's value. Between two other keys each component of a vector is on the straight line between the components of the keys within 2^-20 of the larger of the two, leaves their interval by at most 2^-22 of it, and at the time of a key is exactly the key's. A rotation is a unit quaternion to within 2^-19 and within 2^-17 of the exact normalised interpolation the shorter way round. This holds for both forms of interpolation glam has used, for all its orders of adding the products of a dot product, for both ways to normalise and for both answers at a dot product of zero.", "quantifier": "every such track, every finite ratio, every form of glam's lerp and normalisation", "why_tests_cant": "Tracks and ratios are unbounded inputs, rounding depends on both, and the form of the interpolation depends on the glam version and target.", "anchors": ["src/track_sampling_job.rs: TrackSamplingJob::run", "src/track.rs: TrackValue for Vec2, Vec3, Vec4, Quat: lerp"]}
{"id": "C90", "title": "The aim job points the joint at the target in single precision", "statement": "Take an aim job whose joint matrix is finite, affine and not flattened, whose target is not on the joint, whose forward axis is a unit vector to within k and whose offset is at most half way to the target. Every run answers success and reports the target reached. The correction is finite and has unit length to within 2^-17, whatever the weight. With a weight of one or more, the correction turns a point of the ray that starts at the offset and runs along the forward axis onto the target: within 0.3 % of the distance always, within 0.002 % when the ray's point is not more than 120 degrees away from the target, plus 3 k of the distance and the error of taking the target into the joint's space. With a weight below one, the correction is that fraction of the full one by normalised interpolation from the identity, within 2^-18; a negative weight gives none of it.", "quantifier": "every such joint matrix, target, forward axis, offset, up vector, pole vector, twist angle and weight", "why_tests_cant": "All inputs are unbounded sets of floats, and the job inverts a matrix, divides by lengths and turns on comparisons between rounded values.", "anchors": ["src/ik_aim_job.rs: IKAimJob::run", "src/ik_aim_job.rs: IKAimJob::compute_offsetted_forward", "src/math.rs: quat_from_vectors, quat_from_axis_angle, quat_from_cos_angle, quat_positive_w, quat_mul"]}
{"id": "C91", "title": "A structure-of-arrays value is four independent values", "statement": "After any history of set_transform and splat_transform on a SoaTransform, transform(i) returns the last value written at index i, and no other write changes it; a write at an index of four or more panics and nothing else does. Every operator of SoaVec3 and SoaQuat works index by index, bit for bit: the value at an index of the result is computed from the values at that index only. In real arithmetic these operators are negation, sum, difference, product with a number, linear interpolation, conjugate, Hamilton's product, dot product, normalisation and normalised interpolation; positive_w keeps a rotation and makes its scalar part non-negative. The constants are the axes, zero, one and the identities at every index.", "quantifier": "every history of writes, every operand of every operator, every index", "why_tests_cant": "Histories and operands are unbounded, and a slip in one of four lanes shows only for values that differ between lanes.", "anchors": ["src/math.rs: SoaVec3, SoaQuat, SoaTransform: splat, splat_vec3, splat_quat, splat_transform, vec3, quat, transform, set_vec3, set_quat, set_transform, neg, add, sub, mul, mul_num, lerp, nlerp, normalize, dot, conjugate, positive_w"]}
{"id": "C92", "title": "The two bone job brings the end joint onto the target in single precision", "statement": "Take a two bone job on a chain that is visibly bent, whose joint matrices are scaled rotations up to single precision, whose bones differ in length by at most a factor of four and are large against the single precision of the coordinates, whose mid axis is a unit vector perpendicular to the bones up to that precision e, whose target is not close to the start joint, whose pole vector is not along the target and whose softening is off for that target. Every run with a weight above zero answers success. Both corrections are finite, the start joint's is a unit quaternion to within 2^-17 and the mid joint's to within e/8. With a weight of one or more, applying the mid joint's correction and then the start joint's puts the end joint on the target, or on the point of the line to it that the bones can reach: within 0.28 % of the distance always, within 0.002 % when the folded chain need not be turned more than 120 degrees about the start joint, plus a multiple of e that grows as the chain is straighter. The job reports the target reached when it is clearly within the softened reach and the weight is at least one, and not reached when it is clearly outside or the weight is below one. With a weight between zero and one each correction is that fraction of the full one by normalised interpolation from the identity, within 2^-18.", "quantifier": "every such pair of joint matrices, end joint, target, mid axis, pole vector, twist angle, softening and weight", "why_tests_cant": "All inputs are unbounded sets of floats. The job inverts two matrices, takes an arc cosine of a rounded quotient and turns on comparisons between rounded values, so an error bound has to follow every rounding.", "anchors": ["src/ik_two_bone_job.rs: IKTwoBoneJob::run", "src/ik_two_bone_job.rs: IKConstantSetup::new", "src/ik_two_bone_job.rs: IKTwoBoneJob::soften_target, compute_mid_joint, compute_start_joint, weight_output", "src/math.rs: quat_from_vectors, quat_from_axis_angle, fx4_acos"]}
{"id": "C93", "title": "Model-space matrices of poses with scales are the product of the joints' motions in single precision", "statement": "Take a pose whose joints have finite translations, unit rotations up to e (at least 2^-20) and any scales, zero and negative ones included, as long as the sizes in model space stay between 2^-60 and 2^60. The matrix LocalToModelJob writes for a joint is the affine map that scales, turns and moves by each joint of its chain in turn below the root: for a chain of d-1 joints every entry of the axes is within 16 d e times the joint's size in model space, every coordinate of the position within 10 d^2 e times the longest bone in model space, and the last row is exactly 0 0 0 1. A point near the joint is mapped where the chain of motions puts it, within the matching bound. So a player that samples and blends any animations with scale keys of at most 'size' and translation keys of at most 'len' draws, after any history, finite matrices that are these chains of motions of the blended pose.", "quantifier": "every skeleton, pose with scales, root, range covering the skeleton, joint, chain depth, animation, player history and frame", "why_tests_cant": "Poses and skeletons are unbounded, non-uniform scales make errors grow along the chain at a rate set by the product of the scales, and the bound has to follow every rounding of every product.", "anchors": ["src/local_to_model_job.rs: LocalToModelJob::run", "src/math.rs: SoaMat4::from_affine, AosMat4::mul", "src/math.rs: SoaTransform", "src/sampling_job.rs: SamplingJob::run", "src/blending_job.rs: BlendingJob::run"]}
{"id": "C94", "title": "The same inputs give the same bits on every platform", "statement": "Two machines that run the same jobs on the same inputs get the same results, bit for bit. They may differ in which zero min and max return when given zeros of opposite signs (Rust leaves it open, x86_64 and aarch64 differ), in the bytes that happen to lie around an animation's buffers in memory, and in whether integer overflow is checked. Whatever these choices, sampling gives the same ratio, context and pose or the same error, blending the same pose, the model-space job the same matrices, the two IK jobs the same corrections, skinning the same vertices, and motion blending, user tracks and triggers the same values; so two lock-step machines given the same frames from the same state go through the same outcomes, poses and matrices. The exceptions are inputs of -0.0: a ratio of -0.0 handed to SamplingJob::set_ratio, or a joint weight of -0.0, can leave a zero of either sign in the result. The IK jobs have no exception; the model-space job needs a range that does not end at i32::MAX, and skinning a number of weights that fits a usize.", "quantifier": "every pair of platforms, every job, input, context, animation and skeleton, every starting state and every list of frames", "why_tests_cant": "A test runs on one machine at a time and compares a few recorded poses; the claim is about all inputs on machines that are not there, and the differences hide in ties of zeros that ordinary data rarely reach.", "anchors": ["README.md: cross-platform deterministic", "src/sampling_job.rs: SamplingJob::set_ratio, SamplingJob::run, initialize_cache", "src/animation.rs: QuaternionKey::simd_decompress", "src/blending_job.rs: blend_layers, blend_rest_pose, add_layers", "src/ik_two_bone_job.rs: IKTwoBoneJob::run", "src/ik_aim_job.rs: IKAimJob::run", "src/local_to_model_job.rs: LocalToModelJob::run", "src/skinning_job.rs: SkinningJob::run", "src/math.rs: f32_clamp_or_max, fx4_clamp_or_min, fx4_sign"]}
{"id": "C95", "title": "What was authored is what is drawn, through the file", "statement": "An author sets keys (translations, rotations, scales) on the joints at some times from 0 to 1. Every such authored animation has a file, and any file that stores these keys, written in either byte order, loads on a machine of either byte order. Sampled at any ratio of [0, 1], after whatever the context sampled before, what was loaded puts every joint on its authored curves: translation and scale on the straight line between the two neighbouring keys to within 2^-19 of the larger one and exactly at the key at a key's own time, rotation on the normalised interpolation of the neighbouring keys to within 2^-17. With a skeleton file of at most 1025 joints and any number of animation files, every valid frame is drawn whatever was played before, from layer poses that lie on the curves each file stores.", "quantifier": "every authored animation, file content, byte order of file and machine, skeleton, history, ratio and frame", "why_tests_cant": "Tests load a handful of exported files and compare a few poses; here key order, previous-key offsets, key-frame snapshots, time point indices, byte order, cache history and decompression must all fit together for every animation and at every ratio.", "anchors": ["src/animation.rs: Animation::from_archive, KeyframesCtrl, Float3Key, QuaternionKey", "src/skeleton.rs: Skeleton::from_archive", "src/archive.rs: Archive", "src/sampling_job.rs: SamplingJob::run, SamplingContext", "src/blending_job.rs: BlendingJob::run", "src/local_to_model_job.rs: LocalToModelJob::run"]}
{"id": "C96", "title": "User tracks from the file to the sampled value", "statement": "An author sets knots of a user track (numbers, vectors of two, three or four components, or rotations) at increasing times from 0 to at most 1, each either held until the next or interpolated. Every such list of knots has a track file, and any file that stores the knots, written in either byte order, loads on a machine of either byte order. Sampling the loaded track at any finite ratio gives a value on the knots: the first knot's before the start, the last knot's from the last knot on, a held knot's value until the next knot, and between two others the straight line within 2^-20 of the larger value (exactly the knot's value at its time), or for rotations the normalised interpolation the shorter way round within 2^-17.", "quantifier": "every list of knots, value kind, file content that stores it, byte order of file and machine, and finite ratio", "why_tests_cant": "Tests sample a few tracks at a few ratios; the step bits, the search for the key, the byte order and the rounding must fit together for every track and ratio.", "anchors": ["src/track.rs: Track::from_archive, TrackValue::lerp, TrackValue::from_archive", "src/track_sampling_job.rs: TrackSamplingJob::run", "src/archive.rs: Archive"]}
{"id": "C97", "title": "A skin moved by rigid joints does not stretch", "statement": "When every matrix a skin uses turns space by a rotation, up to a in each entry, and the weights are not negative, two vertices that hang on the same joints with the same weights are, after skinning, at most (1 + 4a) times as far apart as before, plus rounding; with one joint per vertex they are also at least (1 - 4a) times as far apart, so that the part of the skin on one joint moves as a solid. Normals in the same way get no longer than (1 + 4a) times their length, and with one joint per vertex no shorter than (1 - 4a) times it. Rounding is proportional to the number of influences, the size of the matrices and of the coordinates, and bounded explicitly.", "quantifier": "every skinning job with finite bounded inputs, every pair of vertices bound alike, every number of vertices and of influences up to 4096", "why_tests_cant": "Tests compare a few skinned vertices with expected numbers; that no pair of vertices is torn apart must hold for every mesh, pose and set of weights.", "anchors": ["src/skinning_job.rs: SkinningJob::run"]}
{"id": "C98", "title": "Playback does not jump", "statement": "Sampling an animation loaded from its file at two ratios gives poses that are close when the ratios are close: if an authored track changes by at most L per unit of time between its neighbouring keys, every sampled coordinate differs between the two poses by at most L times the distance of the ratios, plus 2^-18 of the largest value; the components of a rotation by at most 3/2 L times it, plus 2^-16. This holds across keys, forward and backward, and when the two samples come from different contexts with different histories. User tracks of numbers, vectors and rotations without held knots, loaded from their files, do not jump either, at any finite ratios (rotations: knots of unit length, neighbours less than half a turn apart). In particular seeking, looping contexts or a changed cache never make a joint pop.", "quantifier": "every authored animation and file that stores it, pair of ratios of [0, 1], pair of contexts and histories, joint and speed", "why_tests_cant": "Tests sample at fixed ratios; a pop appears only between two ratios around a key, in one decoder group, or after one history of seeking.", "anchors": ["src/sampling_job.rs: SamplingJob::run, SamplingContext", "src/animation.rs: Animation::from_archive"]}
{"id": "C99", "title": "A crossfade does not jump", "statement": "Blend the same list of layers twice with changed weights and slightly moved layer poses, for instance in two consecutive frames of a crossfade. If component x of a joint's translation or scale is at most M in every layer that counts, and no layer moves it by more than d, the blended component moves by at most d + 2 M times the sum of the weight changes divided by the threshold, plus rounding. This holds when a layer starts or stops counting, when the total weight falls below or rises above the threshold at which the rest pose fades in, and for per-joint weights.", "quantifier": "every skeleton, pair of weight settings, up to 4096 layers, joint, threshold, and stale context and output", "why_tests_cant": "Tests blend at fixed weights; a pop shows only between two weights, at the threshold or where a weight reaches zero.", "anchors": ["src/blending_job.rs: BlendingJob::run, BlendingJob::blend_rest_pose, BlendingJob::normalize"]}
{"id": "C100", "title": "A crossfade played from frame to frame does not jump", "statement": "Play animations with a sampling job per layer and a blending job, as in the examples. Draw two frames in which every layer plays the same animation at ratios at most d apart, with changed weights; the frames may be consecutive, or drawn by two players with different histories. Then for every joint each component of the blended translation and scale differs by at most L d, where L is the speed of the authored tracks, plus 2.002 M times the sum of the weight changes divided by the threshold, plus rounding, where M bounds the authored values and the rest pose. Both frames are drawn without an error or a panic.", "quantifier": "every skeleton, library of animations, pair of players, histories of frames (valid or not), pair of frames, joint, component and speed", "why_tests_cant": "Tests compare fixed frames; a pop depends on the history of the contexts, on keys between the two ratios and on weights crossing zero or the threshold.", "anchors": ["src/sampling_job.rs: SamplingJob::run", "src/blending_job.rs: BlendingJob::run", "tests/blend.rs"]}
