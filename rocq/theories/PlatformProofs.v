(** Proofs for C94 (PlatformProps.v). *)
From Coq Require Import Reals Lra FunctionalExtensionality.
From Flocq Require Import IEEE754.BinarySingleNaN Core Plus_error.
From Verif Require Import Base Num NumF32 Math Keys Skeleton Gv4 Gv4Spec Gv4Proofs Blending Sampling Ik
  Skinning Motion Tracks Player Platform PlatformSpec.

(** ** Functions that do not use [min] and [max] *)
Section Generic.
  Context {F : Type} (N : Num F) (mn mx : F -> F -> F).
  Ltac same := intros; cbv beta iota delta; reflexivity.
  Ltac leaves := cbv beta iota delta [num_with arith_with num_arith V4_arith nadd nsub nmul ndiv nneg nabs nsqrt
    ntrunc nmin nmax nlit nlt nle neq nto_i32 nzero none_ ntwo nthree nhalf nmone nrecip lt4 le4 eq4 flip flip4 keep keep4
    fx4_sign]; reflexivity.
  Notation W := (num_with N mn mx).

  Lemma forward_with : @forward F W = @forward F N.
  Proof. reflexivity. Qed.
  Lemma rewind_with : @rewind F W = @rewind F N.
  Proof. reflexivity. Qed.
  Lemma pick_iframe_with : @pick_iframe F W = @pick_iframe F N.
  Proof. reflexivity. Qed.
  Lemma update_cache_with out V : @update_cache F W out V = @update_cache F N out V.
  Proof. unfold update_cache. rewrite forward_with, rewind_with, pick_iframe_with. reflexivity. Qed.
  Lemma interpolate_one_with : @interpolate_one F W = @interpolate_one F N.
  Proof. same. Qed.
  Lemma interpolates_with : @interpolates F W = @interpolates F N.
  Proof. unfold interpolates. rewrite interpolate_one_with. reflexivity. Qed.
  Lemma run_with {K3 KQ} (dec3 : K3 -> K3 -> K3 -> K3 -> vec3 (V4 F)) (decq : KQ -> KQ -> KQ -> KQ -> quat (V4 F)) out :
    @run F W K3 KQ dec3 decq out = @run F N K3 KQ dec3 decq out.
  Proof. unfold run. rewrite !update_cache_with, interpolates_with. reflexivity. Qed.

  Lemma from_affine_with : @from_affine (V4 F) (@V4_arith F (@num_arith F W)) = @from_affine (V4 F) (@V4_arith F (@num_arith F N)).
  Proof. same. Qed.
  Lemma mat_mul_with : @mat_mul F W = @mat_mul F N.
  Proof. same. Qed.
  Lemma blend_1st_pass_with : @blend_1st_pass F W = @blend_1st_pass F N.
  Proof. same. Qed.
  Lemma blend_n_pass_with : @blend_n_pass F W = @blend_n_pass F N.
  Proof. same. Qed.
  Lemma q_mul_with : @q_mul (V4 F) (@V4_arith F (@num_arith F W)) = @q_mul (V4 F) (@V4_arith F (@num_arith F N)).
  Proof. same. Qed.
  Lemma q_normalize_with : @q_normalize (V4 F) (@V4_arith F (@num_arith F W)) = @q_normalize (V4 F) (@V4_arith F (@num_arith F N)).
  Proof. same. Qed.
  Lemma q_conjugate_with : @q_conjugate (V4 F) (@V4_arith F (@num_arith F W)) = @q_conjugate (V4 F) (@V4_arith F (@num_arith F N)).
  Proof. same. Qed.
  Lemma interp_quat_with : @interp_quat F W = @interp_quat F N.
  Proof. same. Qed.
  Lemma blend_add_pass_with : @blend_add_pass F W = @blend_add_pass F N.
  Proof. unfold blend_add_pass. rewrite ?q_mul_with, ?q_normalize_with, ?interp_quat_with. leaves. Qed.
  Lemma blend_sub_pass_with : @blend_sub_pass F W = @blend_sub_pass F N.
  Proof. unfold blend_sub_pass. rewrite ?q_mul_with, ?q_normalize_with, ?q_conjugate_with, ?interp_quat_with. leaves. Qed.
  Lemma normalize_with : @normalize F W = @normalize F N.
  Proof. same. Qed.
  Lemma sin_cos_with : @quat_from_axis_angle F W = @quat_from_axis_angle F N.
  Proof. same. Qed.
  Lemma transform_vector_with : @transform_vector F W = @transform_vector F N.
  Proof. same. Qed.
  Lemma transform_point_with : @transform_point F W = @transform_point F N.
  Proof. same. Qed.
  Lemma mat_invert_with : @mat_invert F W = @mat_invert F N.
  Proof. same. Qed.
  Lemma quat_transform_vector_with : @quat_transform_vector F W = @quat_transform_vector F N.
  Proof. same. Qed.
  Lemma quat_from_vectors_with : @quat_from_vectors F W = @quat_from_vectors F N.
  Proof. same. Qed.
  Lemma quat_from_cos_angle_with : @quat_from_cos_angle F W = @quat_from_cos_angle F N.
  Proof. same. Qed.
  Lemma quat_mul_with : @quat_mul F W = @quat_mul F N.
  Proof. same. Qed.
  Lemma vec3_cross_with : @vec3_cross F W = @vec3_cross F N.
  Proof. same. Qed.
  Lemma vec3_dot_s_with : @vec3_dot_s F W = @vec3_dot_s F N.
  Proof. same. Qed.
  Lemma vec3_length2_s_with : @vec3_length2_s F W = @vec3_length2_s F N.
  Proof. same. Qed.
  Lemma simd_clamp_with : @simd_clamp F W = @simd_clamp F N.
  Proof. same. Qed.
  Lemma setup_with : @ik2_setup F W = @ik2_setup F N.
  Proof. unfold ik2_setup. rewrite ?transform_point_with, ?mat_invert_with, ?vec3_length2_s_with. leaves. Qed.
  Lemma start_rot_with ax : @ik2_start_rot F W ax = @ik2_start_rot F N ax.
  Proof. unfold ik2_start_rot. rewrite ?transform_vector_with, ?quat_transform_vector_with, ?quat_from_vectors_with, ?vec3_cross_with, ?vec3_length2_s_with, ?vec3_dot_s_with, ?simd_clamp_with, ?quat_from_cos_angle_with, ?quat_mul_with. leaves. Qed.
  Lemma twisted_with ax : @aim_twisted F W ax = @aim_twisted F N ax.
  Proof. unfold aim_twisted. rewrite ?transform_vector_with, ?quat_transform_vector_with, ?quat_from_vectors_with, ?vec3_cross_with, ?vec3_length2_s_with, ?vec3_dot_s_with, ?simd_clamp_with, ?quat_from_cos_angle_with, ?quat_mul_with. leaves. Qed.

  (** The passes of the blending job with what they do with [max] as an argument. *)
  Notation soa := (transform (V4 F)).
  Definition layer_pass_gen (wa : nat -> res (V4 F)) (n : nat) (l : layer F) (first : bool) (s : list (V4 F) * list soa)
      : res (list (V4 F) * list soa) :=
    for_range n 0 (fun idx s =>
      let* weight := wa idx in
      let* acc := get (fst s) idx in
      let* accs := set (fst s) idx (if first then weight else nadd acc weight) in
      let* t := get (ly_transform l) idx in
      let* o := get (snd s) idx in
      let* out := set (snd s) idx (if first then @blend_1st_pass F N t weight else @blend_n_pass F N t weight o) in
      Ok (accs, out)) s.
  Lemma layer_pass_gen_eq n l first s :
    @layer_pass F W n l first s = layer_pass_gen (@weight_at F W (ly_weight l) l) n l first s.
  Proof. unfold layer_pass, layer_pass_gen. rewrite blend_1st_pass_with, blend_n_pass_with. leaves. Qed.
  Definition additive_pass_gen (wa : nat -> res (V4 F)) (n : nat) (l : layer F) (sub : bool) (out : list soa) : res (list soa) :=
    for_range n 0 (fun idx out =>
      let* weight := wa idx in
      let* t := get (ly_transform l) idx in
      let* o := get out idx in
      let one_minus_weight := nsub none_ weight in
      set out idx (if sub then @blend_sub_pass F N t weight one_minus_weight o
                   else @blend_add_pass F N t weight one_minus_weight o)) out.
  Lemma additive_pass_gen_eq n l w sub out :
    @additive_pass F W n l w sub out = additive_pass_gen (@weight_at F W w l) n l sub out.
  Proof. unfold additive_pass, additive_pass_gen. rewrite blend_sub_pass_with, blend_add_pass_with. leaves. Qed.
  Definition rest_pass_gen (bpw bpm : V4 F -> V4 F) (rest : list soa) (s : list (V4 F) * list soa) :=
    for_range (length rest) 0 (fun idx s =>
        let* acc := get (fst s) idx in
        let bp_weight := bpw acc in
        let* accs := set (fst s) idx (bpm acc) in
        let* r := get rest idx in
        let* o := get (snd s) idx in
        let* out := set (snd s) idx (@blend_n_pass F N r bp_weight o) in
        Ok (accs, out)) s.
  Definition rest_pose_gen (bpw bpm : V4 F -> V4 F) (rest : list soa) (threshold : F) (s : bctx F * list soa) : res (bctx F * list soa) :=
    let c := fst s in let out := snd s in
    if (bc_partial c =? 0)%nat then
      let bp_weight := nsub threshold (bc_weight c) in
      if nlt nzero bp_weight then
        if (bc_passes c =? 0)%nat then
          let* out := copy_from_slice out rest in
          Ok (mk_bctx (bc_passes c) (bc_partial c) none_ (bc_weights c), out)
        else
          let* out := for_range (length rest) 0 (fun idx out =>
            let* r := get rest idx in
            let* o := get out idx in
            set out idx (@blend_n_pass F N r (splat bp_weight) o)) out in
          Ok (mk_bctx (bc_passes c) (bc_partial c) threshold (bc_weights c), out)
      else Ok s
    else
      let* (accs, out) := rest_pass_gen bpw bpm rest (bc_weights c, out) in
      Ok (mk_bctx (bc_passes c) (bc_partial c) (bc_weight c) accs, out).
  Lemma rest_pose_gen_eq rest thr s :
    @blend_rest_pose F W rest thr s =
    rest_pose_gen (fun acc => zip4 mx (nsub (splat thr) acc) (splat (nlit 0 0))) (fun acc => zip4 mx (splat thr) acc) rest thr s.
  Proof. unfold blend_rest_pose, rest_pose_gen, rest_pass_gen. rewrite blend_n_pass_with. leaves. Qed.

  Definition blend_run_gen bl br (nm : list soa -> bctx F * list soa -> res (list soa)) al (j : bjob F) : bres F :=
    match bj_skeleton j, bj_context j, bj_output j with
    | Some sk, Some ctx, Some output =>
        let n := num_soa_joints sk in
        if negb (nlt nzero (bj_threshold j) && (n <=? length output)%nat) then BErr InvalidJob (ctx, output)
        else
          let accs := if (length (bc_weights ctx) <? n)%nat then resize (bc_weights ctx) n nzero
                      else bc_weights ctx in
          match bl n (bj_layers j) (mk_bctx 0 0 nzero accs, output) with
          | BOk s =>
              match br (sk_rest sk) (bj_threshold j) s with
              | Ok s =>
                  match nm (sk_rest sk) s with
                  | Ok out => al n (length (sk_rest sk)) (bj_additive j) (fst s, out)
                  | Err e => BErr e s
                  | Panic => BPanic
                  end
              | Err e => BErr e s
              | Panic => BPanic
              end
          | r => r
          end
    | _, ctx, output =>
        BErr InvalidJob
          (match ctx with Some c => c | None => mk_bctx 0 0 nzero [] end,
           match output with Some o => o | None => [] end)
    end.
  Lemma blend_run_gen_eq j :
    @blend_run F W j = blend_run_gen (@blend_layers F W) (@blend_rest_pose F W) (@normalize F W) (@add_layers F W) j.
  Proof. unfold blend_run, blend_run_gen. leaves. Qed.

  Lemma ltm_inner_with : @ltm_inner F W = @ltm_inner F N.
  Proof. unfold ltm_inner. rewrite mat_mul_with. reflexivity. Qed.
  Lemma ltm_outer_with : @ltm_outer F W = @ltm_outer F N.
  Proof. unfold ltm_outer. rewrite ltm_inner_with, from_affine_with. reflexivity. Qed.
  Lemma ltm_run_with : @ltm_run F W = @ltm_run F N.
  Proof. unfold ltm_run. rewrite ltm_outer_with. reflexivity. Qed.
  Lemma write_vertex_with : @write_vertex F W = @write_vertex F N.
  Proof.
    unfold write_vertex. replace (@transform_point3 F W) with (@transform_point3 F N) by (symmetry; same).
    replace (@transform_vector3 F W) with (@transform_vector3 F N) by (symmetry; same). reflexivity.
  Qed.
  Lemma vertices_with : @vertices F W = @vertices F N.
  Proof. unfold vertices. rewrite write_vertex_with. reflexivity. Qed.
  Lemma lookup2_with : @lookup2 F W = @lookup2 F N.
  Proof. same. Qed.
  Lemma mat_add_with : @mat_add F W = @mat_add F N.
  Proof. same. Qed.
  Lemma vertex_n_with : @vertex_n F W = @vertex_n F N.
  Proof. unfold vertex_n. rewrite lookup2_with, mat_add_with. leaves. Qed.
  Lemma skin_run_with : @skin_run F W = @skin_run F N.
  Proof. unfold skin_run, skinning_1, skinning_impl. rewrite vertices_with, vertex_n_with. reflexivity. Qed.
  Lemma motion_run_with : @motion_run F W = @motion_run F N.
  Proof. same. Qed.
  Lemma sample_run_with {V} : @sample_run F W V = @sample_run F N V.
  Proof. same. Qed.
  Lemma collect_with : @collect F W = @collect F N.
  Proof. same. Qed.
  Lemma iter_new_with : @iter_new F W = @iter_new F N.
  Proof. same. Qed.

  (** The two bone job with its clamped numbers as arguments. *)
  Definition soften_core (chain da orig orig_len2 orig_len diff_abs : V4 F) : bool * V4 F * V4 F :=
    let ds := nsub chain da in
    let left := set_w orig_len ds in
    let right := set_z da diff_abs in
    let gt := lt4 right left in
    let '(t, t_len2) :=
      if l0 gt && l1 gt && l3 gt then
        let alpha := nmul (nsub orig_len da) (nrecip ds) in
        let op := set_y nthree (nadd alpha nthree) in
        let op2 := nmul op op in
        let op4 := nmul op2 op2 in
        let ratio := nmul op4 (nrecip (splat_y op4)) in
        let len := nsub (nadd da ds) (nmul ds ratio) in
        (nmul orig (splat_x (nmul len (nrecip orig_len))), nmul len len)
      else (orig, orig_len2) in
    (l2 gt && negb (l0 gt), t, t_len2).
  Definition soften_gen (cl : V4 F) (j : ik2_job F) (s : setup F) : bool * V4 F * V4 F :=
    let orig := @transform_point F N (s_inv_start s) (i2_target j) in
    let orig_len2 := @vec3_length2_s F N orig in
    let lengths := nsqrt (set_z (set_y (s_start_mid_len2 s) (s_mid_end_len2 s)) orig_len2) in
    let chain := nadd lengths (splat_y lengths) in
    soften_core chain (nmul chain cl) orig orig_len2 (splat_z lengths) (nabs (nsub lengths (splat_y lengths))).
  Lemma soften_gen_eq j s :
    @ik2_soften F W j s =
    soften_gen (zip4 mn (zip4 mx (mk4 (i2_soften j) (nlit 0 0) (nlit 0 0) (nlit 0 0)) (splat (nlit 0 0))) (splat (nlit 1 0))) j s.
  Proof.
    unfold ik2_soften, soften_gen, soften_core. rewrite transform_point_with, vec3_length2_s_with.
    unfold fx4_clamp_or_min. leaves.
  Qed.
  Definition mid_gen (acos4 : V4 F -> V4 F) (ax : V4 F -> V4 F -> option (V4 F)) (cl : V4 F -> V4 F)
      (j : ik2_job F) (s : setup F) (t_len2 : V4 F) : option (V4 F) :=
    let sum_len2 := nadd (s_start_mid_len2 s) (s_mid_end_len2 s) in
    let half_rlen := splat_x (nmul nhalf (nrecip (nsqrt (nmul (s_start_mid_len2 s) (s_mid_end_len2 s))))) in
    let cos_unclamped := nmul (nsub (splat_x sum_len2) (set_y t_len2 (s_start_end_len2 s))) half_rlen in
    let cos := cl cos_unclamped in
    let corrected := acos4 cos in
    let bent_side_ref := @vec3_cross F N (s_start_mid_ms s) (i2_mid_axis j) in
    let bent_side_flip := fx4_sign (@vec3_dot_s F N bent_side_ref (s_mid_end_ms s)) in
    let initial := flip4 bent_side_flip (splat_y corrected) in
    let diff := nsub corrected initial in
    ax (i2_mid_axis j) diff.
  Lemma mid_gen_eq ac ax j s t :
    @ik2_mid_rot F W ac ax j s t =
    mid_gen ac ax (fun v => zip4 mn (zip4 mx v (splat (nlit (-1) 0))) (splat (nlit 1 0))) j s t.
  Proof. unfold ik2_mid_rot, mid_gen. rewrite vec3_cross_with, vec3_dot_s_with. unfold fx4_clamp_or_min. leaves. Qed.
  Definition asin_gen (m1 : F -> F) (v : F) : F :=
    let N1 := nlit 5659049 (-27) in
    let N2 := nlit 12982243 (-29) in
    let N3 := nlit 12205767 (-28) in
    let N4 := nlit 5030011 (-26) in
    let N5 := nlit 2796217 (-24) in
    let FRAC_PI_2 := nlit 13176795 (-23) in
    let asin_sign := nlt v nzero in
    let a := m1 (nabs v) in
    let z1 := nmul a a in
    let x1 := a in
    let z2 := nmul nhalf (nsub none_ a) in
    let x2 := nsqrt z2 in
    let greater := nlt nhalf a in
    let z := if greater then z2 else z1 in
    let x := if greater then x2 else x1 in
    let z := nadd (nmul (nmul (nadd (nmul (nadd (nmul (nadd (nmul (nadd (nmul N1 z) N2) z) N3) z) N4) z) N5) z) x) x in
    let z := if greater then nsub FRAC_PI_2 (nadd z z) else z in
    flip asin_sign z.
  Lemma acos_gen_eq v : @fx4_acos F W v = nsub (nlit 13176795 (-23)) (map4 (asin_gen (fun x => mn x (nlit 1 0))) v).
  Proof. unfold fx4_acos, fx4_asin. unfold asin_lane, asin_gen. leaves. Qed.
  Definition lerp_gen (w q : V4 F) : V4 F := nadd (nmul w (nsub q QUAT_UNIT)) QUAT_UNIT.
  Definition weight_gen (mw : V4 F) (j : ik2_job F) (start_rot mid_rot : V4 F) : V4 F * V4 F :=
      let start_fu := @quat_positive_w F N start_rot in
      let mid_fu := @quat_positive_w F N mid_rot in
      if nlt (i2_weight j) none_ then
        let start_lerp := lerp_gen mw start_fu in
        let mid_lerp := lerp_gen mw mid_fu in
        let rsqrts := nrecip (nsqrt (mk4 (reduce_sum (nmul start_lerp start_lerp)) (reduce_sum (nmul mid_lerp mid_lerp)) nzero nzero)) in
        (nmul start_lerp (splat_x rsqrts), nmul mid_lerp (splat_y rsqrts))
      else (start_fu, mid_fu).
  Lemma positive_w_with : @quat_positive_w F W = @quat_positive_w F N.
  Proof. same. Qed.
  Lemma weight_gen_eq j a b :
    @ik2_weight_output F W j a b = weight_gen (zip4 mx (splat (i2_weight j)) (splat (nlit 0 0))) j a b.
  Proof. unfold ik2_weight_output, weight_gen, lerp_gen, fx4_lerp. rewrite positive_w_with. leaves. Qed.
  Definition aim_weighted_gen (mw : V4 F) (weight : F) (twisted : V4 F) : V4 F :=
    let fu := @quat_positive_w F N twisted in
    if nlt weight none_ then @quat_normalize F N (lerp_gen mw fu) else fu.
  Lemma quat_normalize_with : @quat_normalize F W = @quat_normalize F N.
  Proof. same. Qed.
  Lemma aim_weighted_gen_eq w t : @aim_weighted F W w t = aim_weighted_gen (zip4 mx (splat w) (splat (nlit 0 0))) w t.
  Proof. unfold aim_weighted, aim_weighted_gen, lerp_gen, fx4_lerp. rewrite positive_w_with, quat_normalize_with. leaves. Qed.
  Lemma offsetted_with : @offsetted_forward F W = @offsetted_forward F N.
  Proof. same. Qed.

  Definition ik2_run_gen (soft : ik2_job F -> setup F -> bool * V4 F * V4 F) mid wout (j : ik2_job F) (o : ik2_out F) :=
      if negb (@ik2_validate F N j) then Some (Err InvalidJob, o)
      else if nle (i2_weight j) nzero then Some (Ok tt, mk_ik2_out QUAT_UNIT QUAT_UNIT false)
      else
        let s := @ik2_setup F N j in
        let '(lreached, t, t_len2) := soft j s in
        let reached := lreached && nle none_ (i2_weight j) in
        match mid j s t_len2 with
        | None => None
        | Some mid_rot =>
          match @ik2_start_rot F N (@quat_from_axis_angle F N) j s mid_rot t t_len2 with
          | None => None
          | Some start_rot =>
            let '(sc, mc) := wout j start_rot mid_rot in
            Some (Ok tt, mk_ik2_out sc mc reached)
          end
        end.
  Lemma validate_with : @ik2_validate F W = @ik2_validate F N.
  Proof. same. Qed.
  Lemma ik2_run_gen_eq j o :
    @ik2_run F W j o =
    ik2_run_gen (@ik2_soften F W) (@ik2_mid_rot F W (@fx4_acos F W) (@quat_from_axis_angle F N)) (@ik2_weight_output F W) j o.
  Proof.
    unfold ik2_run, ik2_run_with, ik2_run_gen. rewrite validate_with, setup_with, sin_cos_with, start_rot_with. leaves.
  Qed.
  Definition aim_run_gen wtd (j : aim_job F) (o : aim_out F) :=
    if negb (@aim_validate F N j) then Some (Err InvalidJob, o)
    else
      let inv_joint := @mat_invert F N (am_joint j) in
      let t := @transform_point F N inv_joint (am_target j) in
      let t_len2 := @vec3_length2_s F N t in
      match @offsetted_forward F N (am_forward j) (am_offset j) t with
      | None => Some (Ok tt, mk_aim_out QUAT_UNIT false)
      | Some of =>
        if neq (l0 t_len2) nzero then Some (Ok tt, mk_aim_out QUAT_UNIT true)
        else
          match @aim_twisted F N (@quat_from_axis_angle F N) j inv_joint t of with
          | Some twisted => Some (Ok tt, mk_aim_out (wtd (am_weight j) twisted) true)
          | None => None
          end
      end.
  Lemma aim_validate_with : @aim_validate F W = @aim_validate F N.
  Proof. same. Qed.
  Lemma aim_run_gen_eq j o : @aim_run F W j o = aim_run_gen (@aim_weighted F W) j o.
  Proof.
    unfold aim_run, aim_run_with, aim_run_gen.
    rewrite aim_validate_with, mat_invert_with, transform_point_with, vec3_length2_s_with, offsetted_with, sin_cos_with, twisted_with.
    leaves.
  Qed.
End Generic.

(** ** [min] and [max] of a platform *)
Definition opposite (x y : f32) : Prop := exists s, x = B754_zero s /\ y = B754_zero (negb s).

Lemma cmp_cases (x y : f32) : is_nan x = false -> is_nan y = false ->
  Bltb x y = true \/ Bltb y x = true \/ Beqb x y = true.
Proof.
  intros Hx Hy. unfold Bltb, Beqb, SpecFloat.SFltb, SpecFloat.SFeqb. fold (Bcompare x y). fold (Bcompare y x).
  rewrite (Bcompare_swap _ _ x y).
  destruct x as [s|s| |s m e B], y as [s'|s'| |s' m' e' B']; try discriminate;
    match goal with |- context [Bcompare ?a ?b] => destruct (Bcompare a b) as [[]|] eqn:E end; auto;
    exfalso; revert E; clear; unfold Bcompare; simpl;
    repeat match goal with |- context [match ?b with _ => _ end] => destruct b end; discriminate.
Qed.
Lemma beq_cases (x y : f32) : Beqb x y = true -> x = y \/ opposite x y.
Proof.
  intros H.
  destruct x as [s|s| |s m e B], y as [s'|s'| |s' m' e' B']; try discriminate H;
    try (destruct s; discriminate H); try (destruct s'; discriminate H).
  - destruct (Bool.bool_dec s s') as [->|N]; [left; reflexivity|]. right. exists s.
    split; [reflexivity|]. destruct s, s'; try reflexivity; exfalso; apply N; reflexivity.
  - destruct s, s'; try discriminate H; left; reflexivity.
  - left. apply B2R_inj; try reflexivity.
    rewrite Beqb_correct in H by reflexivity. revert H. case Req_bool_spec; [auto|discriminate].
Qed.
Lemma blt_le (x y : f32) : Bltb x y = true -> Bleb x y = true /\ Bleb y x = false.
Proof.
  unfold Bltb, Bleb, SpecFloat.SFltb, SpecFloat.SFleb. fold (Bcompare x y). fold (Bcompare y x).
  rewrite (Bcompare_swap _ _ x y). destruct (Bcompare x y) as [[]|]; try discriminate. split; reflexivity.
Qed.
Lemma beq_le (x y : f32) : Beqb x y = true -> Bleb x y = true /\ Bleb y x = true.
Proof.
  unfold Beqb, Bleb, SpecFloat.SFeqb, SpecFloat.SFleb. fold (Bcompare x y). fold (Bcompare y x).
  rewrite (Bcompare_swap _ _ x y). destruct (Bcompare x y) as [[]|]; try discriminate. split; reflexivity.
Qed.

Lemma max_agree mx x y : max_ok mx -> ~ opposite x y -> mx x y = f32_max x y.
Proof.
  intros H O. destruct (H x y) as (A & B & C & D & E). unfold f32_max.
  destruct (is_nan x) eqn:Nx; [auto|]. destruct (is_nan y) eqn:Ny; [auto|].
  destruct (cmp_cases x y Nx Ny) as [L|[L|L]].
  - rewrite (proj2 (blt_le _ _ L)). auto.
  - rewrite (proj1 (blt_le _ _ L)). auto.
  - rewrite (proj2 (beq_le _ _ L)). destruct (beq_cases _ _ L) as [->|X]; [|contradiction].
    destruct (E L); assumption.
Qed.
Lemma min_agree mn x y : min_ok mn -> ~ opposite x y -> mn x y = f32_min x y.
Proof.
  intros H O. destruct (H x y) as (A & B & C & D & E). unfold f32_min.
  destruct (is_nan x) eqn:Nx; [auto|]. destruct (is_nan y) eqn:Ny; [auto|].
  destruct (cmp_cases x y Nx Ny) as [L|[L|L]].
  - rewrite (proj1 (blt_le _ _ L)). auto.
  - rewrite (proj2 (blt_le _ _ L)). auto.
  - rewrite (proj1 (beq_le _ _ L)). destruct (beq_cases _ _ L) as [->|X]; [|contradiction].
    destruct (E L); assumption.
Qed.
(** The choices of the model are allowed. *)
Lemma f32_max_ok : max_ok f32_max.
Proof.
  intros x y. unfold f32_max. repeat split; intros H.
  - rewrite H. reflexivity.
  - rewrite H. destruct (is_nan x) eqn:Nx; [|reflexivity]. destruct x, y; try discriminate; reflexivity.
  - destruct x as [| | |], y as [| | |]; try discriminate H; simpl is_nan; rewrite (proj2 (blt_le _ _ H)); reflexivity.
  - destruct x as [| | |], y as [| | |]; try discriminate H; simpl is_nan; rewrite (proj1 (blt_le _ _ H)); reflexivity.
  - destruct (is_nan x); auto. destruct (is_nan y); auto. destruct (Bleb y x); auto.
Qed.
Lemma f32_min_ok : min_ok f32_min.
Proof.
  intros x y. unfold f32_min. repeat split; intros H.
  - rewrite H. reflexivity.
  - rewrite H. destruct (is_nan x) eqn:Nx; [|reflexivity]. destruct x, y; try discriminate; reflexivity.
  - destruct x as [| | |], y as [| | |]; try discriminate H; simpl is_nan; rewrite (proj1 (blt_le _ _ H)); reflexivity.
  - destruct x as [| | |], y as [| | |]; try discriminate H; simpl is_nan; rewrite (proj2 (blt_le _ _ H)); reflexivity.
  - destruct (is_nan x); auto. destruct (is_nan y); auto. destruct (Bleb x y); auto.
Qed.

Lemma opp_l x y : ~ (exists s, x = B754_zero s) -> ~ opposite x y.
Proof. intros H (s & E & _). apply H. exists s. exact E. Qed.
Lemma opp_r x y : ~ (exists s, y = B754_zero s) -> ~ opposite x y.
Proof. intros H (s & _ & E). apply H. eexists. exact E. Qed.
(** Neither operand -0.0. *)
Lemma opp_plus x y : x <> minus_zero -> y <> minus_zero -> ~ opposite x y.
Proof. intros Hx Hy (s & E & E'). destruct s; simpl in E'; [apply Hx|apply Hy]; assumption. Qed.
Lemma zero_val : (nzero : f32) = B754_zero false.
Proof. reflexivity. Qed.
Lemma zero_plain : (nzero : f32) <> minus_zero.
Proof. rewrite zero_val. discriminate. Qed.
Lemma one_nz : ~ exists s, (none_ : f32) = B754_zero s.
Proof. intros (s & E). assert (H : is_finite_strict (none_ : f32) = true) by (vm_compute; reflexivity). rewrite E in H. discriminate. Qed.
Lemma mone_nz : ~ exists s, (nmone : f32) = B754_zero s.
Proof. intros (s & E). assert (H : is_finite_strict (nmone : f32) = true) by (vm_compute; reflexivity). rewrite E in H. discriminate. Qed.

(** [x - y] is -0.0 only if [x] is. *)
Lemma minus_plain (x y : f32) : x <> minus_zero -> nsub x y <> minus_zero.
Proof.
  intros H E. change (nsub x y) with (Bminus mode_NE x y) in E.
  destruct (is_finite x) eqn:Fx; [destruct (is_finite y) eqn:Fy|].
  - pose proof (Bminus_correct 24 128 _ _ mode_NE x y Fx Fy) as C. rewrite E in C.
    destruct (Rlt_bool _ _); [|destruct C as [C _]; discriminate C].
    destruct C as (V & _ & S). simpl in V, S.
    assert (Z0 : (B2R x - B2R y = 0)%R).
    { symmetry in V.
      assert (D : (B2R x - B2R y)%R = 0%R \/ (B2R x - B2R y)%R <> 0%R) by (destruct (Req_dec (B2R x - B2R y) 0); auto).
      destruct D as [D|D]; [exact D|]. exfalso.
      refine (round_plus_neq_0 radix2 (SpecFloat.fexp 24 128) (round_mode mode_NE) (B2R x) (Ropp (B2R y)) _ _ D V).
      - apply generic_format_B2R.
      - apply generic_format_opp, generic_format_B2R. }
    rewrite Z0 in S. rewrite Rcompare_Eq in S by reflexivity.
    destruct (Bsign x) eqn:Sx, (Bsign y) eqn:Sy; simpl in S; try discriminate S.
    (* x negative, y positive, equal: both zero *)
    assert (Vx : B2R x = 0%R).
    { destruct x as [|s| |s m e B]; try discriminate Fx; [reflexivity|]. destruct y as [sy|s'| |s' m' e' B']; try discriminate Fy.
      - simpl in Z0. exfalso. simpl in Sx. subst s.
        assert (F2R (Float radix2 (Z.neg m) e) < 0)%R by (apply F2R_lt_0; reflexivity). simpl in Z0. lra.
      - exfalso. simpl in Sx, Sy. subst. simpl in Z0.
        assert (F2R (Float radix2 (Z.neg m) e) < 0)%R by (apply F2R_lt_0; reflexivity).
        assert (0 < F2R (Float radix2 (Z.pos m') e'))%R by (apply F2R_gt_0; reflexivity). lra. }
    apply H. destruct x as [s|s| |s m e B]; try discriminate Fx.
    + simpl in Sx. rewrite Sx. reflexivity.
    + exfalso. simpl in Sx. subst s. simpl in Vx.
      assert (F2R (Float radix2 (Z.neg m) e) < 0)%R by (apply F2R_lt_0; reflexivity). lra.
  - destruct x as [sx| | |sx mx ex Bx], y as [|[]| |]; try discriminate Fx; try discriminate Fy; discriminate E.
  - destruct x as [|[]| |], y as [|[]| |]; try discriminate Fx; discriminate E.
Qed.

(** ** Zeros of either sign in sums *)
Lemma neg_le0 (x : f32) : is_finite x = true -> Bsign x = true -> x = minus_zero \/ (B2R x < 0)%R.
Proof.
  intros F S. destruct x as [s|s| |s m e B]; try discriminate F; simpl in S; rewrite S.
  - left. reflexivity.
  - right. apply F2R_lt_0. reflexivity.
Qed.
Lemma add_plain (x y : f32) : x <> minus_zero -> nadd x y <> minus_zero.
Proof.
  intros H E. change (nadd x y) with (Bplus mode_NE x y) in E.
  destruct (is_finite x) eqn:Fx; [destruct (is_finite y) eqn:Fy|].
  - pose proof (Bplus_correct 24 128 _ _ mode_NE x y Fx Fy) as C. rewrite E in C.
    destruct (Rlt_bool _ _); [|destruct C as [C _]; discriminate C].
    destruct C as (V & _ & S). simpl in V, S.
    assert (Z0 : (B2R x + B2R y = 0)%R).
    { symmetry in V. destruct (Req_dec (B2R x + B2R y) 0) as [D|D]; [exact D|]. exfalso.
      refine (round_plus_neq_0 radix2 (SpecFloat.fexp 24 128) (round_mode mode_NE) (B2R x) (B2R y) _ _ D V);
        apply generic_format_B2R. }
    rewrite Z0 in S. rewrite Rcompare_Eq in S by reflexivity.
    destruct (Bsign x) eqn:Sx, (Bsign y) eqn:Sy; simpl in S; try discriminate S.
    destruct (neg_le0 x Fx Sx) as [X|X]; [exact (H X)|].
    destruct (neg_le0 y Fy Sy) as [->|Y]; [simpl in Z0|]; lra.
  - destruct x as [sx| | |sx mx ex Bx], y as [|[]| |]; try discriminate Fx; try discriminate Fy; discriminate E.
  - destruct x as [|[]| |], y as [|[]| |]; try discriminate Fx; discriminate E.
Qed.
Lemma sq_plain (x : f32) : nmul x x <> minus_zero.
Proof.
  intros E. change (nmul x x) with (Bmult mode_NE x x) in E.
  pose proof (Bmult_correct 24 128 _ _ mode_NE x x) as C. rewrite E in C.
  destruct (Rlt_bool _ _).
  - destruct C as (_ & _ & S). simpl in S. specialize (S eq_refl). destruct (Bsign x); discriminate S.
  - discriminate C.
Qed.
Lemma sqrt_plain (x : f32) : x <> minus_zero -> nsqrt x <> minus_zero.
Proof.
  intros H E. change (nsqrt x) with (Bsqrt mode_NE x) in E.
  destruct x as [s|s| |s m e B].
  - destruct s; [apply H; reflexivity|discriminate E].
  - destruct s; discriminate E.
  - discriminate E.
  - destruct s; [discriminate E|].
    pose proof (Bsqrt_correct 24 128 _ _ mode_NE (B754_finite false m e B)) as (_ & _ & S).
    rewrite E in S. specialize (S eq_refl). discriminate S.
Qed.
Lemma zsub (o : f32) s s' : o <> minus_zero -> nsub o (B754_zero s : f32) = nsub o (B754_zero s').
Proof.
  intros H. destruct o as [t| | |]; try (destruct s, s'; reflexivity).
  destruct t; [exfalso; apply H; reflexivity|]. destruct s, s'; reflexivity.
Qed.
Lemma zadd (d : f32) s s' : d <> minus_zero -> nadd (B754_zero s : f32) d = nadd (B754_zero s') d.
Proof.
  intros H. destruct d as [t| | |]; try (destruct s, s'; reflexivity).
  destruct t; [exfalso; apply H; reflexivity|]. destruct s, s'; reflexivity.
Qed.
Definition same_or_zeros (x y : f32) : Prop := x = y \/ exists s s', x = B754_zero s /\ y = B754_zero s'.
Lemma zmul_r (c x y : f32) : same_or_zeros x y -> same_or_zeros (nmul c x) (nmul c y).
Proof.
  intros [->|(s & s' & -> & ->)]; [left; reflexivity|].
  destruct c as [t|t| |t m e B]; try (left; reflexivity); right; eexists _, _; split; reflexivity.
Qed.
Lemma zmul_l (c x y : f32) : same_or_zeros x y -> same_or_zeros (nmul x c) (nmul y c).
Proof.
  intros [->|(s & s' & -> & ->)]; [left; reflexivity|].
  destruct c as [t|t| |t m e B]; try (left; reflexivity); right; eexists _, _; split; reflexivity.
Qed.
Lemma soz_sub (o x y : f32) : o <> minus_zero -> same_or_zeros x y -> nsub o x = nsub o y.
Proof. intros H [->|(s & s' & -> & ->)]; [reflexivity|]. apply zsub. exact H. Qed.
Lemma soz_add (d x y : f32) : d <> minus_zero -> same_or_zeros x y -> nadd x d = nadd y d.
Proof. intros H [->|(s & s' & -> & ->)]; [reflexivity|]. apply zadd. exact H. Qed.
Lemma soz_lt (x y z : f32) : same_or_zeros x y -> nlt x z = nlt y z.
Proof. intros [->|(s & s' & -> & ->)]; [reflexivity|]. destruct z as [|[]| |[]]; reflexivity. Qed.
(** Two platforms' [max] of the same numbers. *)
Lemma max_soz mx x y : max_ok mx -> same_or_zeros (mx x y) (f32_max x y).
Proof.
  intros H.
  assert (D : opposite x y \/ ~ opposite x y).
  { destruct x as [s| | |], y as [s'| | |]; try (right; intros (t & E1 & E2); discriminate).
    destruct (Bool.bool_dec s s') as [->|Ne].
    - right. intros (t & E1 & E2). inversion E1; subst. inversion E2. destruct t; discriminate.
    - left. exists s. split; [reflexivity|]. destruct s, s'; try reflexivity; exfalso; apply Ne; reflexivity. }
  destruct D as [(s & -> & ->)|D]; [|left; apply max_agree; assumption].
  right. destruct (H (B754_zero s) (B754_zero (negb s))) as (_ & _ & _ & _ & E).
  assert (Q : f32_max (B754_zero s) (B754_zero (negb s)) = B754_zero s) by (destruct s; reflexivity).
  rewrite Q. destruct E as [E|E]; [reflexivity|..]; rewrite E; eexists _, _; split; reflexivity.
Qed.
Lemma mk4_eq0 {A} (x y b c d : A) : x = y -> mk4 x b c d = mk4 y b c d.
Proof. intros ->. reflexivity. Qed.
Local Notation A4 := (@V4_arith f32 (@num_arith f32 f32num)).
Lemma soften_core_soz (chain da da' orig ol2 ol diff : V4 f32) :
  l0 chain <> minus_zero -> l0 ol <> minus_zero -> same_or_zeros (l0 da) (l0 da') ->
  l1 da = l1 da' -> l2 da = l2 da' -> l3 da = l3 da' ->
  soften_core f32num chain da orig ol2 ol diff = soften_core f32num chain da' orig ol2 ol diff.
Proof.
  destruct chain as [c0 c1 c2 c3], da as [a0 a1 a2 a3], da' as [b0 b1 b2 b3], ol as [o0 o1 o2 o3].
  cbn [l0 l1 l2 l3]. intros Hc Ho Hz <- <- <-.
  assert (E1 : @nsub _ A4 (mk4 c0 c1 c2 c3) (mk4 a0 a1 a2 a3) = @nsub _ A4 (mk4 c0 c1 c2 c3) (mk4 b0 a1 a2 a3)).
  { cbn [nsub V4_arith zip4 l0 l1 l2 l3]. unfold zip4. cbn [l0 l1 l2 l3]. apply mk4_eq0. exact (soz_sub c0 a0 b0 Hc Hz). }
  assert (E2 : @nsub _ A4 (mk4 o0 o1 o2 o3) (mk4 a0 a1 a2 a3) = @nsub _ A4 (mk4 o0 o1 o2 o3) (mk4 b0 a1 a2 a3)).
  { cbn [nsub V4_arith zip4 l0 l1 l2 l3]. unfold zip4. cbn [l0 l1 l2 l3]. apply mk4_eq0. exact (soz_sub o0 a0 b0 Ho Hz). }
  assert (E3 : @nadd _ A4 (mk4 a0 a1 a2 a3) (@nsub _ A4 (mk4 c0 c1 c2 c3) (mk4 b0 a1 a2 a3)) =
               @nadd _ A4 (mk4 b0 a1 a2 a3) (@nsub _ A4 (mk4 c0 c1 c2 c3) (mk4 b0 a1 a2 a3))).
  { cbn [nsub nadd V4_arith]. unfold zip4. cbn [l0 l1 l2 l3].
    apply mk4_eq0. exact (soz_add (nsub c0 b0) a0 b0 (minus_plain _ _ Hc) Hz). }
  assert (E4 : forall left : V4 f32, lt4 (set_z (mk4 a0 a1 a2 a3) diff) left = lt4 (set_z (mk4 b0 a1 a2 a3) diff) left).
  { intros left. unfold lt4, zip4, set_z, swz2. cbn [l0 l1 l2 l3]. 
    change (lane2 (mk4 a0 a1 a2 a3) diff 0) with a0. change (lane2 (mk4 b0 a1 a2 a3) diff 0) with b0.
    apply mk4_eq0. exact (soz_lt a0 b0 _ Hz). }
  unfold soften_core. rewrite E1, E2, E4.
  destruct (l0 _ && l1 _ && l3 _); [|reflexivity]. cbv zeta. rewrite E3. reflexivity.
Qed.

(** ** Decompression of rotations *)
Definition dec_body (g : V4 f32 -> V4 f32) (k0 k1 k2 k3 : key) : quat (V4 f32) :=
  let '(largest0, sign0, value0) := Keys.unpack k0 in
  let '(largest1, sign1, value1) := Keys.unpack k1 in
  let '(largest2, sign2, value2) := Keys.unpack k2 in
  let '(largest3, sign3, value3) := Keys.unpack k3 in
  let m0 := MAPPING largest0 in
  let m1 := MAPPING largest1 in
  let m2 := MAPPING largest2 in
  let m3 := MAPPING largest3 in
  let cmp_key j :=
    mk4 (f32_of_u32 (vec3_at value0 (lane m0 j))) (f32_of_u32 (vec3_at value1 (lane m1 j)))
        (f32_of_u32 (vec3_at value2 (lane m2 j))) (f32_of_u32 (vec3_at value3 (lane m3 j))) in
  let cpnt := build4 (fun j => nadd (nmul (splat SCALE) (cmp_key j)) (splat OFFSET)) in
  let cpnt := clear_at cpnt (N.to_nat largest0) 0 in
  let cpnt := clear_at cpnt (N.to_nat largest1) 1 in
  let cpnt := clear_at cpnt (N.to_nat largest2) 2 in
  let cpnt := clear_at cpnt (N.to_nat largest3) 3 in
  let dot := nadd (nadd (nadd (nmul (l0 cpnt) (l0 cpnt)) (nmul (l1 cpnt) (l1 cpnt)))
                        (nmul (l2 cpnt) (l2 cpnt))) (nmul (l3 cpnt) (l3 cpnt)) in
  let ww0 := g dot in
  let w0 := nsqrt ww0 in
  let sign := mk4 (N.shiftl sign0 31) (N.shiftl sign1 31) (N.shiftl sign2 31) (N.shiftl sign3 31) in
  let restored := zip4 or_bits w0 sign in
  let cpnt := or_at cpnt restored (N.to_nat largest0) 0 in
  let cpnt := or_at cpnt restored (N.to_nat largest1) 1 in
  let cpnt := or_at cpnt restored (N.to_nat largest2) 2 in
  let cpnt := or_at cpnt restored (N.to_nat largest3) 3 in
  Q4 (l0 cpnt) (l1 cpnt) (l2 cpnt) (l3 cpnt).

Lemma dec_body_eq mx k0 k1 k2 k3 :
  quat_simd_decompress_with mx k0 k1 k2 k3 = dec_body (fun dot => zip4 mx nzero (nsub none_ dot)) k0 k1 k2 k3.
Proof. reflexivity. Qed.
Lemma ww0_on mx : max_ok mx ->
  (fun dot : V4 f32 => zip4 mx nzero (nsub none_ dot)) = (fun dot => zip4 f32_max nzero (nsub none_ dot)).
Proof.
  intros H. apply functional_extensionality. intros [a b c d].
  assert (E : forall x : f32, mx nzero (nsub none_ x) = f32_max nzero (nsub none_ x)).
  { intros x. apply max_agree; [exact H|]. apply opp_plus; [exact zero_plain|]. apply minus_plain.
    intros E. apply one_nz. exists true. exact E. }
  change (mk4 (mx nzero (nsub none_ a)) (mx nzero (nsub none_ b)) (mx nzero (nsub none_ c)) (mx nzero (nsub none_ d)) =
          mk4 (f32_max nzero (nsub none_ a)) (f32_max nzero (nsub none_ b)) (f32_max nzero (nsub none_ c)) (f32_max nzero (nsub none_ d))).
  rewrite !E. reflexivity.
Qed.
Lemma dec_on mx : max_ok mx -> quat_simd_decompress_with mx = quat_simd_decompress.
Proof.
  intros H. do 4 (apply functional_extensionality; intro). unfold quat_simd_decompress.
  rewrite !dec_body_eq, (ww0_on mx H). reflexivity.
Qed.

(** ** Bytes around the buffers *)
Lemma init_indep (k : ctrl f32) o o' iframe entries :
  Forall (fun b => (b < 256)%N) (k_ientries k) -> (forall j, (o j < 256)%N) -> (forall j, (o' j < 256)%N) ->
  initialize_cache o k iframe entries = initialize_cache o' k iframe entries.
Proof.
  intros B Ho Ho'. destruct iframe as [|i]; [reflexivity|]. simpl.
  destruct (get (k_idesc k) (i * 2)) as [off| |]; simpl; [|reflexivity..].
  destruct (slice_from (k_ientries k) (N.to_nat off)) as [buf| |] eqn:E; simpl; [|reflexivity..].
  assert (Bb : bytes buf).
  { apply slice_from_Ok in E. destruct E as [_ ->].
    apply Forall_forall. intros x Hx. rewrite Forall_forall in B. apply B.
    rewrite <- (firstn_skipn (N.to_nat off) (k_ientries k)). apply in_or_app. right. exact Hx. }
  rewrite (decode_gv4_stream_indep o o' _ buf Bb Ho Ho'). reflexivity.
Qed.
Lemma update_indep {V} (c : chan f32 V) n ns (k : ctrl f32) tp r pr o o' :
  Forall (fun b => (b < 256)%N) (k_ientries k) -> (forall j, (o j < 256)%N) -> (forall j, (o' j < 256)%N) ->
  update_cache o c n ns k tp r pr = update_cache o' c n ns k tp r pr.
Proof.
  intros B Ho Ho'. unfold update_cache. destruct (assert_ _); simpl; [|reflexivity..].
  destruct (assert_ _); simpl; [|reflexivity..].
  destruct (pick_iframe _ _ _ _); [|reflexivity]. rewrite (init_indep k o o' _ _ B Ho Ho'). reflexivity.
Qed.
Lemma run_indep {K3 KQ} (d3 : K3 -> K3 -> K3 -> K3 -> vec3 (V4 f32)) (dq : KQ -> KQ -> KQ -> KQ -> quat (V4 f32))
    o o' (a : animation f32 K3 KQ) c r out :
  (Forall (fun b => (b < 256)%N) (k_ientries (an_t a)) /\ Forall (fun b => (b < 256)%N) (k_ientries (an_r a)) /\
   Forall (fun b => (b < 256)%N) (k_ientries (an_s a))) -> (forall j, (o j < 256)%N) -> (forall j, (o' j < 256)%N) ->
  run d3 dq o (Some a) c r out = run d3 dq o' (Some a) c r out.
Proof.
  intros (Bt & Br & Bs) Ho Ho'. unfold run. cbn [Base.ok_or bind].
  destruct c as [c|]; cbn [Base.ok_or bind]; [|reflexivity]. destruct out as [out|]; cbn [Base.ok_or bind]; [|reflexivity].
  destruct ((num_soa a <=? cx_max_soa c)%nat && (num_soa a <=? length out)%nat); cbn [negb]; [|reflexivity].
  destruct (num_soa a =? 0)%nat; [reflexivity|].
  destruct (step_context c a r) as [c1 pr].
  rewrite (update_indep (cx_t c1) _ _ _ _ _ _ o o' Bt Ho Ho'). destruct (update_cache o' (cx_t c1) _ _ _ _ _ _); cbn [bind]; [|reflexivity..].
  destruct (decompress _ _ _ _ _); cbn [bind]; [|reflexivity..].
  rewrite (update_indep (cx_r c1) _ _ _ _ _ _ o o' Br Ho Ho'). destruct (update_cache o' (cx_r c1) _ _ _ _ _ _); cbn [bind]; [|reflexivity..].
  destruct (decompress _ _ _ _ _); cbn [bind]; [|reflexivity..].
  rewrite (update_indep (cx_s c1) _ _ _ _ _ _ o o' Bs Ho Ho'). reflexivity.
Qed.

(** ** Sampling *)
Section OnPlatform.
  Variable P : platform.
  Hypothesis HP : platform_ok P.

  Let Hmin : min_ok (p_min P) := proj1 HP.
  Let Hmax : max_ok (p_max P) := proj1 (proj2 HP).
  Let Hout : forall j, (p_outside P j < 256)%N := proj2 (proj2 HP).

  Lemma set_ratio_ok x : x <> minus_zero -> set_ratio_on P x = set_ratio x.
  Proof using HP.
    intros H. change (p_max P (p_min P x none_) nzero = f32_max (f32_min x none_) nzero).
    rewrite (min_agree _ x none_ Hmin (opp_r _ _ one_nz)).
    apply max_agree; [exact Hmax|]. apply opp_plus; [|exact zero_plain].
    unfold f32_min. destruct (is_nan x); [intros E; apply one_nz; exists true; exact E|].
    match goal with |- (if ?b then _ else _) <> _ => destruct b end; [exact H|].
    match goal with |- (if ?b then _ else _) <> _ => destruct b end; [exact H|].
    intros E. apply one_nz. exists true. exact E.
  Qed.
  Lemma run_ok_on a oc r oo : byte_buffers a ->
    run_on P (Some a) oc r oo = run float3_simd_decompress quat_simd_decompress (fun _ => 0%N) (Some a) oc r oo.
  Proof using HP.
    intros B. unfold run_on, on. rewrite run_with, (dec_on _ Hmax).
    apply run_indep; [exact B|exact Hout|]. intros j. reflexivity.
  Qed.
  Lemma run_none_on oc r oo :
    run_on P None oc r oo = run float3_simd_decompress quat_simd_decompress (fun _ => 0%N) None oc r oo.
  Proof using. reflexivity. Qed.

  (** ** Blending *)
  Lemma for_range_ext {S} (f g : nat -> S -> res S) : (forall i s, f i s = g i s) ->
    forall n k s, for_range n k f s = for_range n k g s.
  Proof using. intros H. induction n as [|n IH]; intros k s; simpl; [reflexivity|]. rewrite H. destruct (g k s); simpl; auto. Qed.

  Lemma get_forall {A} (Q : A -> Prop) l i x : Forall Q l -> get l i = Ok x -> Q x.
  Proof using.
    intros H E. unfold get in E. destruct (nth_error l i) eqn:N; [|discriminate E].
    inversion E; subst. rewrite Forall_forall in H. apply H. eapply nth_error_In; exact N.
  Qed.
  Lemma nmax_lane x : x <> minus_zero -> p_max P x nzero = f32_max x nzero.
  Proof using HP. intros H. apply max_agree; [exact Hmax|]. apply opp_plus; [exact H|exact zero_plain]. Qed.
  Lemma nmax_on (v : V4 f32) : no_minus_zero v ->
    zip4 (p_max P) v (splat (nlit 0 0)) = zip4 f32_max v (splat (nlit 0 0)).
  Proof using HP.
    intros (A & B & C & D). destruct v as [a b c d]. unfold zip4, splat. cbn [l0 l1 l2 l3] in *.
    f_equal; apply nmax_lane; assumption.
  Qed.
  Lemma weight_at_on w l i : plain_layer l -> @weight_at f32 (on P) w l i = @weight_at f32 f32num w l i.
  Proof using HP.
    intros H. unfold weight_at, plain_layer in *. destruct (ly_joint_weights l) as [|x ws]; [reflexivity|].
    destruct (get (x :: ws) i) as [jw| |] eqn:E; cbn [bind]; [|reflexivity..].
    pose proof (get_forall _ _ _ _ H E) as Hj. f_equal.
    change (zip4 nmul (splat w) (zip4 (p_max P) jw (splat (nlit 0 0))) = zip4 nmul (splat w) (zip4 f32_max jw (splat (nlit 0 0)))).
    rewrite (nmax_on jw Hj). reflexivity.
  Qed.

  Lemma layer_pass_on n l first s : plain_layer l -> @layer_pass f32 (on P) n l first s = layer_pass n l first s.
  Proof using HP.
    intros H. unfold on. rewrite layer_pass_gen_eq.
    change (layer_pass n l first s) with (layer_pass_gen f32num (@weight_at f32 f32num (ly_weight l) l) n l first s).
    unfold layer_pass_gen. apply for_range_ext. intros i st.
    change (num_with f32num (p_min P) (p_max P)) with (on P). rewrite (weight_at_on _ _ _ H). reflexivity.
  Qed.
  Lemma additive_pass_on n l w sub out : plain_layer l -> @additive_pass f32 (on P) n l w sub out = additive_pass n l w sub out.
  Proof using HP.
    intros H. unfold on. rewrite additive_pass_gen_eq.
    change (additive_pass n l w sub out) with (additive_pass_gen f32num (@weight_at f32 f32num w l) n l sub out).
    unfold additive_pass_gen. apply for_range_ext. intros i st.
    change (num_with f32num (p_min P) (p_max P)) with (on P). rewrite (weight_at_on _ _ _ H). reflexivity.
  Qed.
  Lemma thr_nz (thr : f32) : nlt nzero thr = true -> ~ exists s, thr = B754_zero s.
  Proof using. intros H (s & E). rewrite E in H. destruct s; discriminate H. Qed.
  Lemma rest_pose_on rest thr s : nlt nzero thr = true -> @blend_rest_pose f32 (on P) rest thr s = blend_rest_pose rest thr s.
  Proof using HP.
    intros H. apply thr_nz in H. unfold on. rewrite rest_pose_gen_eq.
    change (blend_rest_pose rest thr s) with
      (rest_pose_gen f32num (fun acc => zip4 f32_max (nsub (splat thr) acc) (splat (nlit 0 0)))
                            (fun acc => zip4 f32_max (splat thr) acc) rest thr s).
    replace (fun acc : V4 f32 => zip4 (p_max P) (nsub (splat thr) acc) (splat (nlit 0 0)))
      with (fun acc : V4 f32 => zip4 f32_max (nsub (splat thr) acc) (splat (nlit 0 0))).
    replace (fun acc : V4 f32 => zip4 (p_max P) (splat thr) acc)
      with (fun acc : V4 f32 => zip4 f32_max (splat thr) acc); [reflexivity|..].
    - apply functional_extensionality. intros [a b c d]. unfold zip4, splat. cbn [l0 l1 l2 l3].
      f_equal; symmetry; apply max_agree; try exact Hmax; apply opp_l; exact H.
    - apply functional_extensionality. intros [a b c d]. symmetry. apply nmax_on.
      assert (T : thr <> minus_zero) by (intros E; apply H; exists true; exact E).
      unfold no_minus_zero. cbn [l0 l1 l2 l3 nsub V4_arith zip4 splat].
      repeat split; apply minus_plain; exact T.
  Qed.

  Lemma blend_layers_on n ls s : Forall plain_layer ls -> @blend_layers f32 (on P) n ls s = blend_layers n ls s.
  Proof using HP.
    revert s. induction ls as [|l ls IH]; intros s H; [reflexivity|].
    inversion H as [|? ? Hl Hls]; subst. cbn [blend_layers].
    destruct (layer_ok n l); cbn [negb]; [|reflexivity].
    change (@nle f32 (on P) (ly_weight l) nzero) with (nle (ly_weight l) nzero).
    destruct (nle (ly_weight l) nzero); [apply IH; exact Hls|].
    rewrite (layer_pass_on _ _ _ _ Hl). destruct (layer_pass _ _ _ _) as [[accs out]| |]; [|reflexivity..].
    apply IH. exact Hls.
  Qed.
  Lemma add_layers_on n m ls s : Forall plain_layer ls -> @add_layers f32 (on P) n m ls s = add_layers n m ls s.
  Proof using HP.
    revert s. induction ls as [|l ls IH]; intros s H; [reflexivity|].
    inversion H as [|? ? Hl Hls]; subst. cbn [add_layers].
    destruct (layer_ok n l); cbn [negb]; [|reflexivity].
    rewrite !(additive_pass_on _ _ _ _ _ Hl).
    change (@nlt f32 (on P)) with (@nlt f32 f32num).
    change (@nneg f32 (@num_arith f32 (on P))) with (@nneg f32 (@num_arith f32 f32num)).
    change (@nzero f32 (@num_arith f32 (on P))) with (@nzero f32 (@num_arith f32 f32num)).
    match goal with |- match ?x with _ => _ end = _ => destruct x as [out| |] end; [|reflexivity..].
    apply IH. exact Hls.
  Qed.
  Lemma blend_run_on j : plain_job j -> blend_on P j = blend_run j.
  Proof using HP.
    intros (Hl & Ha). unfold blend_on, on. rewrite blend_run_gen_eq, normalize_with.
    change (num_with f32num (p_min P) (p_max P)) with (on P).
    change (blend_run j) with (blend_run_gen f32num (@blend_layers f32 f32num) (@blend_rest_pose f32 f32num)
      (@normalize f32 f32num) (@add_layers f32 f32num) j).
    unfold blend_run_gen.
    destruct (bj_skeleton j) as [sk|]; [|reflexivity]. destruct (bj_context j) as [ctx|]; [|reflexivity].
    destruct (bj_output j) as [output|]; [|reflexivity].
    destruct (nlt nzero (bj_threshold j)) eqn:T; cbn [andb negb]; [|reflexivity].
    match goal with |- (if negb ?b then _ else _) = _ => destruct b; cbn [negb]; [|reflexivity] end.
    rewrite (blend_layers_on _ _ _ Hl).
    match goal with |- context [blend_layers ?a ?b ?c] => destruct (blend_layers a b c) as [s|e s|] end; [|reflexivity..].
    rewrite (rest_pose_on _ _ _ T). destruct (blend_rest_pose _ _ _) as [s'| |]; [|reflexivity..].
    destruct (normalize _ _) as [out| |]; [|reflexivity..].
    apply add_layers_on. exact Ha.
  Qed.

  (** ** Model-space matrices *)
  Lemma ltm_on_checks b j : (lj_to j < 2147483647)%Z -> (lj_from j < 2147483647)%Z ->
    (-2147483648 <= lj_to j)%Z -> (-2147483648 <= lj_from j)%Z ->
    ltm_run (F:=f32) b j = ltm_run true j.
  Proof using.
    intros H1 H2 H3 H4. unfold ltm_run.
    destruct (lj_skeleton j); cbn [Base.ok_or bind]; [|reflexivity].
    destruct (lj_input j); cbn [Base.ok_or bind]; [|reflexivity].
    destruct (lj_output j); cbn [Base.ok_or bind]; [|reflexivity].
    match goal with |- (if ?b then _ else _) = _ => destruct b; [reflexivity|] end.
    assert (E : forall x y, (-2147483648 <= x + y < 2147483648)%Z -> i32_add b x y = i32_add true x y).
    { intros x y R. unfold i32_add. replace ((-2147483648 <=? x + y) && (x + y <=? 2147483647))%Z with true by lia. reflexivity. }
    rewrite !E by (destruct (lj_from_excluded j); lia). reflexivity.
  Qed.

  Lemma ltm_run_on j : (-2147483648 <= lj_to j < 2147483647)%Z -> (-2147483648 <= lj_from j < 2147483647)%Z ->
    ltm_on P j = ltm_run true j.
  Proof using. intros H1 H2. unfold ltm_on, on. rewrite ltm_run_with. apply ltm_on_checks; lia. Qed.

  (** ** Inverse kinematics *)
  Local Notation lit := (@nlit f32 (@num_arith f32 f32num)).
  Lemma clamp_cos_on :
    (fun v : V4 f32 => zip4 (p_min P) (zip4 (p_max P) v (splat (lit (-1) 0))) (splat (lit 1 0))) =
    (fun v : V4 f32 => zip4 f32_min (zip4 f32_max v (splat (lit (-1) 0))) (splat (lit 1 0))).
  Proof using HP.
    apply functional_extensionality. intros [a b c d]. unfold zip4, splat. cbn [l0 l1 l2 l3].
    assert (E : forall x : f32, p_min P (p_max P x (lit (-1) 0)) (lit 1 0) = f32_min (f32_max x (lit (-1) 0)) (lit 1 0)).
    { intros x. rewrite (max_agree _ x (lit (-1) 0) Hmax (opp_r _ _ mone_nz)). apply min_agree; [exact Hmin|apply opp_r, one_nz]. }
    rewrite !E. reflexivity.
  Qed.
  Lemma asin_on : (fun x : f32 => p_min P x (lit 1 0)) = (fun x : f32 => f32_min x (lit 1 0)).
  Proof using HP. apply functional_extensionality. intros x. apply min_agree; [exact Hmin|apply opp_r, one_nz]. Qed.
  Lemma acos_on v : @fx4_acos f32 (on P) v = @fx4_acos f32 f32num v.
  Proof using HP.
    unfold on. rewrite acos_gen_eq, asin_on.
    change (@fx4_acos f32 f32num v) with (@fx4_acos f32 (num_with f32num f32_min f32_max) v). rewrite acos_gen_eq. reflexivity.
  Qed.
  Lemma lerp_soz (w w' q : V4 f32) : (forall i, (i < 4)%nat -> same_or_zeros (lane w i) (lane w' i)) ->
    lerp_gen f32num w q = lerp_gen f32num w' q.
  Proof using HP.
    intros H. apply V4_ext. intros i Hi. unfold lerp_gen.
    change (nadd (nmul w (nsub q QUAT_UNIT)) QUAT_UNIT) with (zip4 nadd (zip4 nmul w (nsub q QUAT_UNIT)) QUAT_UNIT).
    change (nadd (nmul w' (nsub q QUAT_UNIT)) QUAT_UNIT) with (zip4 nadd (zip4 nmul w' (nsub q QUAT_UNIT)) QUAT_UNIT).
    rewrite !lane_zip4. apply soz_add.
    - destruct i as [|[|[|[|i]]]]; try lia; cbn [lane QUAT_UNIT l0 l1 l2 l3]; try exact zero_plain.
      intros E. apply one_nz. exists true. exact E.
    - apply zmul_l, H. exact Hi.
  Qed.
  Lemma weight_soz w i : (i < 4)%nat ->
    same_or_zeros (lane (zip4 (p_max P) (splat w) (splat (lit 0 0))) i) (lane (zip4 f32_max (splat w) (splat (lit 0 0))) i).
  Proof using HP. intros _. rewrite !lane_zip4. apply max_soz. exact Hmax. Qed.
  Lemma aim_weighted_on w t : @aim_weighted f32 (on P) w t = @aim_weighted f32 f32num w t.
  Proof using HP.
    unfold on. rewrite aim_weighted_gen_eq.
    change (@aim_weighted f32 f32num w t) with (@aim_weighted f32 (num_with f32num f32_min f32_max) w t). rewrite aim_weighted_gen_eq.
    unfold aim_weighted_gen. rewrite (lerp_soz _ _ _ (weight_soz w)). reflexivity.
  Qed.
  Lemma aim_run_on j o : aim_on P j o = aim_run j o.
  Proof using HP.
    unfold aim_on, on. rewrite aim_run_gen_eq.
    change (aim_run j o) with (@aim_run f32 (num_with f32num f32_min f32_max) j o). rewrite aim_run_gen_eq.
    replace (@aim_weighted f32 (num_with f32num (p_min P) (p_max P))) with (@aim_weighted f32 f32num); [reflexivity|].
    apply functional_extensionality. intros w. apply functional_extensionality. intros t. symmetry. apply aim_weighted_on.
  Qed.
  Lemma weight_output_on j a b : @ik2_weight_output f32 (on P) j a b = @ik2_weight_output f32 f32num j a b.
  Proof using HP.
    unfold on. rewrite weight_gen_eq.
    change (@ik2_weight_output f32 f32num j a b) with (@ik2_weight_output f32 (num_with f32num f32_min f32_max) j a b).
    rewrite weight_gen_eq. unfold weight_gen. rewrite !(lerp_soz _ _ _ (weight_soz (i2_weight j))). reflexivity.
  Qed.
  Lemma mid_on j s t :
    @ik2_mid_rot f32 (on P) (@fx4_acos f32 (on P)) quat_from_axis_angle j s t = ik2_mid_rot fx4_acos quat_from_axis_angle j s t.
  Proof using HP.
    replace (@fx4_acos f32 (on P)) with (@fx4_acos f32 f32num)
      by (apply functional_extensionality; intros v; symmetry; apply acos_on).
    unfold on. rewrite mid_gen_eq, clamp_cos_on.
    change (@ik2_mid_rot f32 f32num) with (@ik2_mid_rot f32 (num_with f32num f32_min f32_max)). rewrite mid_gen_eq. reflexivity.
  Qed.
  Lemma len2_plain (v : V4 f32) : l0 (vec3_length2_s v) <> minus_zero.
  Proof using.
    destruct v as [a b c d].
    change (nadd (nadd (nmul a a) (nmul b b)) (nmul c c) <> minus_zero).
    apply add_plain, add_plain, sq_plain.
  Qed.
  Lemma zlane : p_min P (p_max P (lit 0 0) (lit 0 0)) (lit 1 0) = f32_min (f32_max (lit 0 0) (lit 0 0)) (lit 1 0).
  Proof using HP.
    rewrite (max_agree _ (lit 0 0) (lit 0 0) Hmax (opp_plus _ _ zero_plain zero_plain)).
    apply min_agree; [exact Hmin|apply opp_r, one_nz].
  Qed.
  Lemma lengths_l0 (a b c : V4 f32) : let l := nsqrt (set_z (set_y a b) c) in
    l0 (nadd l (splat_y l)) = nadd (nsqrt (l0 a)) (nsqrt (l0 b)) /\ l0 (splat_z l) = nsqrt (l0 c).
  Proof using. destruct a, b, c. split; reflexivity. Qed.
  Lemma soften_gen_on j s : l0 (s_start_mid_len2 s) <> minus_zero ->
    @ik2_soften f32 (on P) j s = ik2_soften j s.
  Proof using HP.
    intros Hs. unfold on. rewrite soften_gen_eq.
    change (@ik2_soften f32 f32num) with (@ik2_soften f32 (num_with f32num f32_min f32_max)). rewrite soften_gen_eq.
    unfold soften_gen. set (orig := transform_point _ _). set (len2 := vec3_length2_s orig).
    assert (Ho : l0 len2 <> minus_zero) by apply len2_plain. clearbody orig. clearbody len2.
    pose proof (lengths_l0 (s_start_mid_len2 s) (s_mid_end_len2 s) len2) as [L1 L2].
    apply soften_core_soz.
    - intros E. apply (add_plain _ (nsqrt (l0 (s_mid_end_len2 s))) (sqrt_plain _ Hs)). rewrite <- E. symmetry. exact L1.
    - intros E. apply (sqrt_plain _ Ho). rewrite <- E. symmetry. exact L2.
    - set (c := nadd _ _). clearbody c. destruct c as [c0 c1 c2 c3]. apply (zmul_r c0).
      change (same_or_zeros (p_min P (p_max P (i2_soften j) (lit 0 0)) (lit 1 0)) (f32_min (f32_max (i2_soften j) (lit 0 0)) (lit 1 0))).
      rewrite (min_agree _ _ (lit 1 0) Hmin (opp_r _ _ one_nz)).
      destruct (max_soz (p_max P) (i2_soften j) (lit 0 0) Hmax) as [->|(t & t' & E & E')]; [left; reflexivity|].
      rewrite E, E'. right. destruct t, t'; eexists _, _; split; reflexivity.
    - set (c := nadd _ _). clearbody c. destruct c as [c0 c1 c2 c3]. apply (f_equal (nmul c1)), zlane.
    - set (c := nadd _ _). clearbody c. destruct c as [c0 c1 c2 c3]. apply (f_equal (nmul c2)), zlane.
    - set (c := nadd _ _). clearbody c. destruct c as [c0 c1 c2 c3]. apply (f_equal (nmul c3)), zlane.
  Qed.
  Lemma soften_on j : @ik2_soften f32 (on P) j (ik2_setup j) = ik2_soften j (ik2_setup j).
  Proof using HP. apply soften_gen_on. unfold ik2_setup. cbn [s_start_mid_len2]. apply len2_plain. Qed.
  Lemma ik2_run_on j o : ik2_on P j o = ik2_run j o.
  Proof using HP.
    unfold ik2_on, on. rewrite ik2_run_gen_eq.
    change (ik2_run j o) with (@ik2_run f32 (num_with f32num f32_min f32_max) j o). rewrite ik2_run_gen_eq.
    unfold ik2_run_gen. change (num_with f32num (p_min P) (p_max P)) with (on P).
    change (num_with f32num f32_min f32_max) with f32num.
    destruct (ik2_validate j); cbn [negb]; [|reflexivity].
    destruct (nle (i2_weight j) nzero); [reflexivity|].
    rewrite soften_on. destruct (ik2_soften j (ik2_setup j)) as [[lr t] t_len2].
    rewrite mid_on. destruct (ik2_mid_rot _ _ j _ _) as [mid|]; [|reflexivity].
    destruct (ik2_start_rot _ j _ _ _ _) as [start|]; [|reflexivity].
    rewrite weight_output_on. reflexivity.
  Qed.

  (** ** Playback *)
  Variable sk : skeleton f32.
  Lemma sample_layers_ok ls ins : Forall plain_input ins ->
    sample_layers_on P ls ins = sample_layers (fun _ => 0%N) ls ins.
  Proof using HP.
    revert ins. induction ls as [|[c o] ls IH]; intros ins H; [reflexivity|].
    destruct ins as [|i ins]; [reflexivity|]. inversion H as [|? ? (B & R & J) Hr]; subst.
    cbn [sample_layers_on sample_layers]. rewrite (set_ratio_ok _ R), (run_ok_on _ _ _ _ B), (IH _ Hr). reflexivity.
  Qed.
  Lemma blend_inputs_plain b poses ins : Forall plain_input ins -> Forall plain_layer (blend_inputs b poses ins).
  Proof using.
    intros H. unfold blend_inputs. apply Forall_forall. intros l Hl.
    apply in_map_iff in Hl. destruct Hl as ([pose i] & <- & Hi). apply filter_In in Hi. destruct Hi as [Hi _].
    apply in_combine_r in Hi. rewrite Forall_forall in H. destruct (H _ Hi) as (_ & _ & J). exact J.
  Qed.
  Lemma play_ok p fr : plain_frame fr -> play_on P sk p fr = play (fun _ => 0%N) sk p fr.
  Proof using HP.
    intros H. unfold play_on, play. rewrite (sample_layers_ok _ _ H).
    destruct (sample_layers _ _ _) as [[[|e] ls]|]; [|reflexivity..].
    rewrite blend_run_on by (split; apply blend_inputs_plain; exact H).
    destruct (blend_run _) as [[c o]|e [c o]|]; [|reflexivity..].
    rewrite ltm_run_on by (cbn; unfold SKELETON_NO_PARENT, SKELETON_MAX_JOINTS; lia). reflexivity.
  Qed.
End OnPlatform.

Lemma play_all_same P P' sk frs : platform_ok P -> platform_ok P' -> Forall plain_frame frs ->
  forall p, play_all_on P sk p frs = play_all_on P' sk p frs.
Proof.
  intros HP HP'. induction frs as [|fr frs IH]; intros H p; [reflexivity|].
  inversion H as [|? ? Hf Hr]; subst. cbn [play_all_on].
  rewrite (play_ok P HP sk p fr Hf), (play_ok P' HP' sk p fr Hf).
  destruct (play _ sk p fr) as [[r q]|]; [|reflexivity]. rewrite (IH Hr q). reflexivity.
Qed.

(** ** Skinning in debug and release builds *)
Lemma umul_checks b x y : (x * y < 18446744073709551616)%N -> umul b x y = umul true x y.
Proof. intros H. unfold umul. destruct (N.ltb_spec (x * y) 18446744073709551616); [reflexivity|lia]. Qed.
Lemma vertices_ext {F} {NF : Num F} k pos nrm tan (v v' : nat -> res (mat4 F * mat4 F)) count : forall i o,
  (forall a, (i <= a < i + count)%nat -> v a = v' a) ->
  vertices count i v k pos nrm tan o = vertices count i v' k pos nrm tan o.
Proof.
  induction count as [|count IH]; intros i o H; [reflexivity|]. cbn [vertices].
  rewrite (H i) by lia. destruct (v' i); [|reflexivity..]. destruct (write_vertex _ _ _ _ _ _ _); [|reflexivity..].
  apply IH. intros idx Hidx. apply H. lia.
Qed.
Lemma skinning_impl_checks {F} {NF : Num F} b n it k (j : sjob F) : (1 <= n)%N ->
  (sj_vertex_count j * n < 18446744073709551616)%N -> skinning_impl b n it k j = skinning_impl true n it k j.
Proof.
  intros Hn H. unfold skinning_impl.
  assert (H' : (sj_vertex_count j * (n - 1) < 18446744073709551616)%N) by nia.
  rewrite (umul_checks b _ _ H), (umul_checks b _ _ H'). apply (f_equal (finish j)).
  destruct (sj_matrices j) as [ms|]; cbn [bind]; [|reflexivity].
  match goal with |- bind ?x _ = _ => destruct x as [its| |] end; cbn [bind]; [|reflexivity..].
  destruct (umul true _ n) as [si| |]; cbn [bind]; [|reflexivity..].
  destruct (Skinning.unpack _ si) as [indices| |]; cbn [bind]; [|reflexivity..].
  destruct (umul true _ (n - 1)) as [sw| |]; cbn [bind]; [|reflexivity..].
  destruct (Skinning.unpack _ sw) as [weights| |]; cbn [bind]; [|reflexivity..].
  destruct (unpack_pnt k j) as [[[p nn] t]| |]; cbn [bind]; [|reflexivity..].
  match goal with |- Ok ?x = Ok ?y => enough (EE : x = y) by (rewrite EE; reflexivity) end.
  apply vertices_ext. intros a Ha. unfold vertex_n.
  rewrite (umul_checks b (N.of_nat a) (n - 1)) by nia. rewrite (umul_checks b (N.of_nat a) n) by nia. reflexivity.
Qed.
Lemma skin_run_checks {F} {NF : Num F} b (j : sjob F) :
  (sj_vertex_count j * sj_influences j < 18446744073709551616)%N -> skin_run b j = skin_run true j.
Proof.
  intros H. unfold skin_run. destruct (N.eqb_spec (sj_influences j) 0); [reflexivity|].
  set (e := (if is_some (sj_normals j) then 1 + (if is_some (sj_tangents j) then 1 else 0) + (if is_some (sj_it_matrices j) then 2 else 0) else 0)%N).
  assert (He : (e < 5)%N) by (unfold e; destruct (sj_normals j), (sj_tangents j), (sj_it_matrices j); reflexivity).
  assert (E : skin_branch j = (N.min (sj_influences j - 1) 4 * 5 + e)%N) by reflexivity.
  assert (C : (sj_influences j = 1 \/ sj_influences j = 2 \/ sj_influences j = 3 \/ sj_influences j = 4 \/ 4 < sj_influences j)%N) by lia.
  assert (Ce : (e = 0 \/ e = 1 \/ e = 2 \/ e = 3 \/ e = 4)%N) by lia. clearbody e.
  destruct C as [C|[C|[C|[C|C]]]].
  5: replace (N.min (sj_influences j - 1) 4) with 4%N in E by lia.
  1-4: rewrite C in E.
  all: destruct Ce as [->|[->|[->|[->| ->]]]]; cbn in E; rewrite E; try reflexivity;
    apply skinning_impl_checks; rewrite ?C in H; try lia; exact H.
Qed.
