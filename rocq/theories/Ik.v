(** Model of IKTwoBoneJob (ik_two_bone_job.rs) and IKAimJob (ik_aim_job.rs).

    Both jobs are modelled lane by lane, including the lanes whose content the code ignores.
    [None] stands for undefined behaviour: [quat_from_axis_angle] converts floats to integers with
    [to_int_unchecked] (math.rs 1082), see Math.v. *)
From Verif Require Import Base Num Math.
Local Open Scope num_scope.

Section Ik.
  Context {F : Type} {NF : Num F}.
  Notation V := (V4 F).

  (** ik_two_bone_job.rs 442, ik_aim_job.rs 271: std::simd [simd_clamp], comparisons and selects, a NaN value stays NaN. *)
  Definition simd_clamp (v mn mx : V) : V :=
    let x := select4 (lt4 v mn) mn v in select4 (lt4 mx x) mx x.

  (** ik_two_bone_job.rs 307, ik_aim_job.rs 225: the result of a job, [Ok(())] or an error, and the output fields after the call. *)
  Definition outcome (O : Type) := option (res unit * O).

  (** ** Two bone job *)
  (** ik_two_bone_job.rs 61-76: the parameters and the outputs *)
  Record ik2_job := mk_ik2_job
    { i2_target : V; i2_mid_axis : V; i2_pole : V; i2_twist : F; i2_soften : F; i2_weight : F;
      i2_start : mat4 F; i2_mid : mat4 F; i2_end : mat4 F }.
  Record ik2_out := mk_ik2_out { o_start : V; o_mid : V; o_reached : bool }.

  (** 78-95 [default] *)
  Definition ik2_default : ik2_job :=
    mk_ik2_job nzero (mk4 nzero nzero none_ nzero) (mk4 nzero none_ nzero nzero) nzero none_ none_
               mat_identity mat_identity mat_identity.
  Definition ik2_out_default : ik2_out := mk_ik2_out QUAT_UNIT QUAT_UNIT false.

  (** 13-21, 24-47 [IKConstantSetup::new] *)
  Record setup := mk_setup
    { s_inv_start : mat4 F; s_start_mid_ms : V; s_mid_end_ms : V; s_start_mid_ss : V;
      s_start_mid_len2 : V; s_mid_end_len2 : V; s_start_end_len2 : V }.
  Definition ik2_setup (j : ik2_job) : setup :=
    let inv_start := mat_invert (i2_start j) in
    let inv_mid := mat_invert (i2_mid j) in
    let start_ms := transform_point inv_mid (l3 (i2_start j)) in
    let end_ms := transform_point inv_mid (l3 (i2_end j)) in
    let mid_ss := transform_point inv_start (l3 (i2_mid j)) in
    let end_ss := transform_point inv_start (l3 (i2_end j)) in
    let mid_end_ss := end_ss - mid_ss in
    mk_setup inv_start (- start_ms) end_ms mid_ss
             (vec3_length2_s mid_ss) (vec3_length2_s mid_end_ss) (vec3_length2_s end_ss).

  (** 301-303 *)
  Definition ik2_validate (j : ik2_job) : bool := vec3_is_normalized (i2_mid_axis j).

  (** 329-372 [soften_target]; bit i of [comp_mask] is lane i of [gt]. *)
  Definition ik2_soften (j : ik2_job) (s : setup) : bool * V * V :=
    let orig := transform_point (s_inv_start s) (i2_target j) in
    let orig_len2 := vec3_length2_s orig in
    let lengths := nsqrt (set_z (set_y (s_start_mid_len2 s) (s_mid_end_len2 s)) orig_len2) in
    let start_mid_len := lengths in
    let mid_end_len := splat_y lengths in
    let orig_len := splat_z lengths in
    let diff_abs := nabs (start_mid_len - mid_end_len) in
    let chain_len := start_mid_len + mid_end_len in
    let da := chain_len * fx4_clamp_or_min (mk4 (i2_soften j) nzero nzero nzero) nzero none_ in
    let ds := chain_len - da in
    let left := set_w orig_len ds in
    let right := set_z da diff_abs in
    let gt := lt4 right left in
    let '(t, t_len2) :=
      if l0 gt && l1 gt && l3 gt then
        let alpha := (orig_len - da) * nrecip ds in
        let op := set_y nthree (alpha + nthree) in
        let op2 := op * op in
        let op4 := op2 * op2 in
        let ratio := op4 * nrecip (splat_y op4) in
        let len := da + ds - ds * ratio in
        (orig * splat_x (len * nrecip orig_len), len * len)
      else (orig, orig_len2) in
    (l2 gt && negb (l0 gt), t, t_len2).

  (** The two trigonometric functions the job calls are parameters, so that the geometry can be
      stated for exact ones too; the program uses [fx4_acos] and [quat_from_axis_angle]. *)
  Section Trig.
    Context (acos4 : V -> V) (axis_angle : V -> V -> option V).

    (** 374-392 [compute_mid_joint] *)
    Definition ik2_mid_rot (j : ik2_job) (s : setup) (t_len2 : V) : option V :=
      let sum_len2 := s_start_mid_len2 s + s_mid_end_len2 s in
      let half_rlen := splat_x (nhalf * nrecip (nsqrt (s_start_mid_len2 s * s_mid_end_len2 s))) in
      let cos_unclamped := (splat_x sum_len2 - set_y t_len2 (s_start_end_len2 s)) * half_rlen in
      let cos := fx4_clamp_or_min cos_unclamped nmone none_ in
      let corrected := acos4 cos in
      let bent_side_ref := vec3_cross (s_start_mid_ms s) (i2_mid_axis j) in
      let bent_side_flip := fx4_sign (vec3_dot_s bent_side_ref (s_mid_end_ms s)) in
      let initial := flip4 bent_side_flip (splat_y corrected) in
      let diff := corrected - initial in
      axis_angle (i2_mid_axis j) diff.

    (** 394-453 [compute_start_joint] *)
    Definition ik2_start_rot (j : ik2_job) (s : setup) (mid_rot t t_len2 : V) : option V :=
      let pole_ss := transform_vector (s_inv_start s) (i2_pole j) in
      let mid_end_final := transform_vector (s_inv_start s)
                             (transform_vector (i2_mid j) (quat_transform_vector mid_rot (s_mid_end_ms s))) in
      let start_end_final := s_start_mid_ss s + mid_end_final in
      let end_to_target := quat_from_vectors start_end_final t in
      if nlt nzero (l0 t_len2) then
        let ref_normal := vec3_cross t pole_ss in
        let ref_normal_len2 := vec3_length2_s ref_normal in
        let mid_axis_ss := transform_vector (s_inv_start s) (transform_vector (i2_mid j) (i2_mid_axis j)) in
        let joint_normal := quat_transform_vector end_to_target mid_axis_ss in
        let joint_normal_len2 := vec3_length2_s joint_normal in
        let rsqrts := nrecip (nsqrt (set_z (set_y t_len2 ref_normal_len2) joint_normal_len2)) in
        let cos := vec3_dot_s (ref_normal * splat_y rsqrts) (joint_normal * splat_z rsqrts) in
        let axis := t * splat_x rsqrts in
        let axis_flip := fx4_sign (splat_x (vec3_dot_s joint_normal pole_ss)) in
        let flipped := flip4 axis_flip axis in
        let rotate_plane := quat_from_cos_angle flipped (simd_clamp cos nmone none_) in
        if negb (neq (i2_twist j) nzero) then
          match axis_angle axis (splat (i2_twist j)) with
          | Some twist => Some (quat_mul (quat_mul twist rotate_plane) end_to_target)
          | None => None
          end
        else Some (quat_mul rotate_plane end_to_target)
      else Some end_to_target.

    (** 455-480 [weight_output] *)
    Definition ik2_weight_output (j : ik2_job) (start_rot mid_rot : V) : V * V :=
      let start_fu := quat_positive_w start_rot in
      let mid_fu := quat_positive_w mid_rot in
      if nlt (i2_weight j) none_ then
        let w := nmax (splat (i2_weight j)) nzero in
        let start_lerp := fx4_lerp QUAT_UNIT start_fu w in
        let mid_lerp := fx4_lerp QUAT_UNIT mid_fu w in
        let rsqrts := nrecip (nsqrt (mk4 (reduce_sum (start_lerp * start_lerp)) (reduce_sum (mid_lerp * mid_lerp)) nzero nzero)) in
        (start_lerp * splat_x rsqrts, mid_lerp * splat_y rsqrts)
      else (start_fu, mid_fu).

    (** 307-327 [run] *)
    Definition ik2_run_with (j : ik2_job) (o : ik2_out) : outcome ik2_out :=
      if negb (ik2_validate j) then Some (Err InvalidJob, o)
      else if nle (i2_weight j) nzero then Some (Ok tt, mk_ik2_out QUAT_UNIT QUAT_UNIT false)
      else
        let s := ik2_setup j in
        let '(lreached, t, t_len2) := ik2_soften j s in
        let reached := lreached && nle none_ (i2_weight j) in
        match ik2_mid_rot j s t_len2 with
        | None => None
        | Some mid_rot =>
          match ik2_start_rot j s mid_rot t t_len2 with
          | None => None
          | Some start_rot =>
            let '(sc, mc) := ik2_weight_output j start_rot mid_rot in
            Some (Ok tt, mk_ik2_out sc mc reached)
          end
        end.
  End Trig.

  (** ik_two_bone_job.rs 307-327: the job as it runs. *)
  Definition ik2_run : ik2_job -> ik2_out -> outcome ik2_out := ik2_run_with fx4_acos quat_from_axis_angle.

  (** ** Aim job *)
  (** ik_aim_job.rs 25-38 *)
  Record aim_job := mk_aim_job
    { am_target : V; am_forward : V; am_offset : V; am_up : V; am_pole : V; am_twist : F; am_weight : F; am_joint : mat4 F }.
  Record aim_out := mk_aim_out { ao_corr : V; ao_reached : bool }.

  (** 40-56 [default] *)
  Definition aim_default : aim_job :=
    mk_aim_job nzero (mk4 none_ nzero nzero nzero) nzero (mk4 nzero none_ nzero nzero) (mk4 nzero none_ nzero nzero)
               nzero none_ mat_identity.
  Definition aim_out_default : aim_out := mk_aim_out QUAT_UNIT false.

  (** 219-221 *)
  Definition aim_validate (j : aim_job) : bool := vec3_is_normalized (am_forward j).

  (** 295-305 [compute_offsetted_forward] *)
  Definition offsetted_forward (forward offset target : V) : option V :=
    let ao := vec3_dot_s forward offset in
    let ac2 := vec3_length2_s offset - ao * ao in
    let r2 := vec3_length2_s target in
    if nlt (l0 r2) (l0 ac2) then None
    else
      let ai := nsqrt (r2 - ac2) in
      Some (offset + forward * splat_x (ai - ao)).

  (** 244-283: the full correction, before weighting *)
  Definition aim_twisted (axis_angle : V -> V -> option V) (j : aim_job) (inv_joint : mat4 F) (t off_forward : V) : option V :=
    let t_len2 := vec3_length2_s t in
    let to_target := quat_from_vectors off_forward t in
    let corrected_up := quat_transform_vector to_target (am_up j) in
    let pole := transform_vector inv_joint (am_pole j) in
    let ref_normal := vec3_cross pole t in
    let normal := vec3_cross corrected_up t in
    let ref_normal_len2 := vec3_length2_s ref_normal in
    let normal_len2 := vec3_length2_s normal in
    let denoms := set_z (set_y t_len2 normal_len2) ref_normal_len2 in
    let '(axis, rotate_plane) :=
      if negb (neq (l0 denoms) nzero) && negb (neq (l1 denoms) nzero) && negb (neq (l2 denoms) nzero) then
        let rsqrts := nrecip (nsqrt denoms) in
        let axis := t * splat_x rsqrts in
        let cos := vec3_dot_s (normal * splat_y rsqrts) (ref_normal * splat_z rsqrts) in
        let axis_flip := fx4_sign (splat_x (vec3_dot_s ref_normal corrected_up)) in
        (axis, quat_from_cos_angle (flip4 axis_flip axis) (simd_clamp cos nmone none_))
      else (t * splat_x (nrecip (nsqrt denoms)), QUAT_UNIT) in
    if negb (neq (am_twist j) nzero) then
      match axis_angle axis (splat (am_twist j)) with
      | Some twist => Some (quat_mul (quat_mul twist rotate_plane) to_target)
      | None => None
      end
    else Some (quat_mul rotate_plane to_target).

  (** 285-291 *)
  Definition aim_weighted (weight : F) (twisted : V) : V :=
    let fu := quat_positive_w twisted in
    if nlt weight none_ then quat_normalize (fx4_lerp QUAT_UNIT fu (nmax (splat weight) nzero)) else fu.

  (** 225-293 [run] *)
  Definition aim_run_with (axis_angle : V -> V -> option V) (j : aim_job) (o : aim_out) : outcome aim_out :=
    if negb (aim_validate j) then Some (Err InvalidJob, o)
    else
      let inv_joint := mat_invert (am_joint j) in
      let t := transform_point inv_joint (am_target j) in
      let t_len2 := vec3_length2_s t in
      match offsetted_forward (am_forward j) (am_offset j) t with
      | None => Some (Ok tt, mk_aim_out QUAT_UNIT false)
      | Some of =>
        if neq (l0 t_len2) nzero then Some (Ok tt, mk_aim_out QUAT_UNIT true)
        else
          match aim_twisted axis_angle j inv_joint t of with
          | Some twisted => Some (Ok tt, mk_aim_out (aim_weighted (am_weight j) twisted) true)
          | None => None
          end
      end.
  Definition aim_run : aim_job -> aim_out -> outcome aim_out := aim_run_with quat_from_axis_angle.
End Ik.
Arguments ik2_job F : clear implicits.
Arguments ik2_out F : clear implicits.
Arguments aim_job F : clear implicits.
Arguments aim_out F : clear implicits.
Arguments setup F : clear implicits.
