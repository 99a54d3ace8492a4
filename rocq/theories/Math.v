(** Model of src/math.rs: SoA vectors, quaternions, transforms, matrices and the scalar helpers.

    [SoaVec3], [SoaQuat], [SoaTransform] and [SoaMat4] are the polymorphic records below
    instantiated at [V4 F] (= f32x4); at [F] itself they are glam's Vec3, Quat, Transform3A.
    A function on them is written once over [Arith A], as in the Rust code where the SoA
    operators act lane by lane. *)
From Verif Require Import Base Num.
Local Open Scope num_scope.

(** math.rs 46-50 [SoaVec3] / glam [Vec3] *)
Record vec3 (A : Type) := V3 { vx : A; vy : A; vz : A }.
Arguments V3 {A} vx vy vz. Arguments vx {A} v. Arguments vy {A} v. Arguments vz {A} v.
(** math.rs 250-256 [SoaQuat] / glam [Quat] *)
Record quat (A : Type) := Q4 { qx : A; qy : A; qz : A; qw : A }.
Arguments Q4 {A} qx qy qz qw.
Arguments qx {A} q. Arguments qy {A} q. Arguments qz {A} q. Arguments qw {A} q.
(** math.rs 491-496 [SoaTransform] / glam_ext [Transform3A] *)
Record transform (A : Type) := TR { tr_t : vec3 A; tr_r : quat A; tr_s : vec3 A }.
Arguments TR {A} tr_t tr_r tr_s.
Arguments tr_t {A} t. Arguments tr_r {A} t. Arguments tr_s {A} t.
(** math.rs 598-600 [AosMat4] (columns of four rows), at [F]; 814-816 [SoaMat4], at [V4 F]:
    element [cols[4*c+r]] of the flat array is row [r] of column [c]. *)
Definition mat4 (A : Type) := V4 (V4 A).

Section Soa.
  Context {A : Type} {AA : Arith A}.

  (** math.rs 77-81 *)
  Definition v3_splat (f : A) : vec3 A := V3 f f f.
  (** math.rs 52-54 ZERO, ONE *)
  Definition v3_zero : vec3 A := v3_splat nzero.
  Definition v3_one : vec3 A := v3_splat none_.
  (** math.rs 105-112 *)
  Definition v3_neg (a : vec3 A) : vec3 A := V3 (- vx a) (- vy a) (- vz a).
  (** math.rs 114-121 *)
  Definition v3_add (a b : vec3 A) : vec3 A := V3 (vx a + vx b) (vy a + vy b) (vz a + vz b).
  (** math.rs 123-130 *)
  Definition v3_sub (a b : vec3 A) : vec3 A := V3 (vx a - vx b) (vy a - vy b) (vz a - vz b).
  (** math.rs 132-139 *)
  Definition v3_mul_num (a : vec3 A) (f : A) : vec3 A := V3 (vx a * f) (vy a * f) (vz a * f).
  (** math.rs 141-148 *)
  Definition v3_lerp (from to : vec3 A) (alpha : A) : vec3 A :=
    V3 ((vx to - vx from) * alpha + vx from)
       ((vy to - vy from) * alpha + vy from)
       ((vz to - vz from) * alpha + vz from).

  (** math.rs 259 ZERO, 260 IDENTITY *)
  Definition q_zero : quat A := Q4 nzero nzero nzero nzero.
  Definition q_identity : quat A := Q4 nzero nzero nzero none_.
  (** math.rs 303-311 *)
  Definition q_conjugate (a : quat A) : quat A := Q4 (- qx a) (- qy a) (- qz a) (qw a).
  (** math.rs 313-321 *)
  Definition q_add (a b : quat A) : quat A :=
    Q4 (qx a + qx b) (qy a + qy b) (qz a + qz b) (qw a + qw b).
  (** math.rs 323-330 *)
  Definition q_mul (a b : quat A) : quat A :=
    Q4 (qw a * qx b + qx a * qw b + qy a * qz b - qz a * qy b)
       (qw a * qy b + qy a * qw b + qz a * qx b - qx a * qz b)
       (qw a * qz b + qz a * qw b + qx a * qy b - qy a * qx b)
       (qw a * qw b - qx a * qx b - qy a * qy b - qz a * qz b).
  (** math.rs 332-340 *)
  Definition q_mul_num (a : quat A) (f : A) : quat A :=
    Q4 (qx a * f) (qy a * f) (qz a * f) (qw a * f).
  (** math.rs 342-352 *)
  Definition q_normalize (a : quat A) : quat A :=
    let len2 := qx a * qx a + qy a * qy a + qz a * qz a + qw a * qw a in
    let inv_len := nrecip (nsqrt len2) in
    Q4 (qx a * inv_len) (qy a * inv_len) (qz a * inv_len) (qw a * inv_len).
  (** math.rs 354-357 *)
  Definition q_dot (a b : quat A) : A :=
    qx a * qx b + qy a * qy b + qz a * qz b + qw a * qw b.
  (** math.rs 359-373 *)
  Definition q_nlerp (a b : quat A) (f : A) : quat A :=
    let lx := (qx b - qx a) * f + qx a in
    let ly := (qy b - qy a) * f + qy a in
    let lz := (qz b - qz a) * f + qz a in
    let lw := (qw b - qw a) * f + qw a in
    let len2 := lx * lx + ly * ly + lz * lz + lw * lw in
    let inv_len := nrecip (nsqrt len2) in
    Q4 (lx * inv_len) (ly * inv_len) (lz * inv_len) (lw * inv_len).

  (** math.rs 512 IDENTITY *)
  Definition tr_identity : transform A := TR v3_zero q_identity v3_one.

  (** math.rs 820-851 [SoaMat4::from_affine] *)
  Definition from_affine (t : vec3 A) (r : quat A) (s : vec3 A) : mat4 A :=
    let xx := qx r * qx r in
    let xy := qx r * qy r in
    let xz := qx r * qz r in
    let xw := qx r * qw r in
    let yy := qy r * qy r in
    let yz := qy r * qz r in
    let yw := qy r * qw r in
    let zz := qz r * qz r in
    let zw := qz r * qw r in
    mk4
      (mk4 (vx s * (none_ - ntwo * (yy + zz))) (vx s * ntwo * (xy + zw))
           (vx s * ntwo * (xz - yw)) nzero)
      (mk4 (vy s * ntwo * (xy - zw)) (vy s * (none_ - ntwo * (xx + zz)))
           (vy s * (ntwo * (yz + xw))) nzero)
      (mk4 (vz s * ntwo * (xz + yw)) (vz s * ntwo * (yz - xw))
           (vz s * (none_ - ntwo * (xx + yy))) nzero)
      (mk4 (vx t) (vy t) (vz t) none_).

  (** math.rs 641-651 [AosMat4::new_translation], 665-674 [identity] *)
  Definition mat_translation (t : vec3 A) : mat4 A :=
    mk4 (mk4 none_ nzero nzero nzero) (mk4 nzero none_ nzero nzero)
        (mk4 nzero nzero none_ nzero) (mk4 (vx t) (vy t) (vz t) none_).
  Definition mat_identity : mat4 A :=
    mk4 (mk4 none_ nzero nzero nzero) (mk4 nzero none_ nzero nzero)
        (mk4 nzero nzero none_ nzero) (mk4 nzero nzero nzero none_).
End Soa.

(** math.rs 92-95 [SoaVec3::vec3], 289-292 [SoaQuat::quat], 537-544 [SoaTransform::transform] *)
Definition lane_v3 {A} (v : vec3 (V4 A)) (i : nat) : vec3 A :=
  V3 (lane (vx v) i) (lane (vy v) i) (lane (vz v) i).
Definition lane_q {A} (q : quat (V4 A)) (i : nat) : quat A :=
  Q4 (lane (qx q) i) (lane (qy q) i) (lane (qz q) i) (lane (qw q) i).
Definition lane_tr {A} (t : transform (V4 A)) (i : nat) : transform A :=
  TR (lane_v3 (tr_t t) i) (lane_q (tr_r t) i) (lane_v3 (tr_s t) i).
Definition lane_mat {A} (m : mat4 (V4 A)) (i : nat) : mat4 A :=
  map4 (fun col => map4 (fun e => lane e i) col) m.
(** math.rs 97-102 [set_vec3], 294-300 [set_quat], 546-551 [set_transform] *)
Definition set_v3 {A} (v : vec3 (V4 A)) (i : nat) (x : vec3 A) : vec3 (V4 A) :=
  V3 (set_lane (vx v) i (vx x)) (set_lane (vy v) i (vy x)) (set_lane (vz v) i (vz x)).
Definition set_q {A} (q : quat (V4 A)) (i : nat) (x : quat A) : quat (V4 A) :=
  Q4 (set_lane (qx q) i (qx x)) (set_lane (qy q) i (qy x))
     (set_lane (qz q) i (qz x)) (set_lane (qw q) i (qw x)).
Definition set_tr {A} (t : transform (V4 A)) (i : nat) (x : transform A) : transform (V4 A) :=
  TR (set_v3 (tr_t t) i (tr_t x)) (set_q (tr_r t) i (tr_r x)) (set_v3 (tr_s t) i (tr_s x)).
(** math.rs 83-90 [splat_vec3], 278-287 [splat_quat], 526-535 [splat_transform] *)
Definition splat_v3 {A} (v : vec3 A) : vec3 (V4 A) := V3 (splat (vx v)) (splat (vy v)) (splat (vz v)).
Definition splat_q {A} (q : quat A) : quat (V4 A) :=
  Q4 (splat (qx q)) (splat (qy q)) (splat (qz q)) (splat (qw q)).
Definition splat_tr {A} (t : transform A) : transform (V4 A) :=
  TR (splat_v3 (tr_t t)) (splat_q (tr_r t)) (splat_v3 (tr_s t)).

(** math.rs 853-893 [SoaMat4::to_aos]: [swz2 .. 0 4 1 5] is LOW, [swz2 .. 2 6 3 7] is HIGH. *)
Definition LOW {A} (a b : V4 A) : V4 A := swz2 a b 0 4 1 5.
Definition HIGH {A} (a b : V4 A) : V4 A := swz2 a b 2 6 3 7.
Definition to_aos {A} (m : mat4 (V4 A)) : V4 (mat4 A) :=
  let '(mk4 (mk4 m0 m1 m2 m3) (mk4 m4 m5 m6 m7) (mk4 m8 m9 m10 m11) (mk4 m12 m13 m14 m15)) := m in
  let tmp0 := LOW m0 m2 in
  let tmp1 := LOW m1 m3 in
  let aos0 := LOW tmp0 tmp1 in
  let aos4 := HIGH tmp0 tmp1 in
  let tmp2 := HIGH m0 m2 in
  let tmp3 := HIGH m1 m3 in
  let aos8 := LOW tmp2 tmp3 in
  let aos12 := HIGH tmp2 tmp3 in
  let tmp4 := LOW m4 m6 in
  let tmp5 := LOW m5 m7 in
  let aos1 := LOW tmp4 tmp5 in
  let aos5 := HIGH tmp4 tmp5 in
  let tmp6 := HIGH m4 m6 in
  let tmp7 := HIGH m5 m7 in
  let aos9 := LOW tmp6 tmp7 in
  let aos13 := HIGH tmp6 tmp7 in
  let tmp8 := LOW m8 m10 in
  let tmp9 := LOW m9 m11 in
  let aos2 := LOW tmp8 tmp9 in
  let aos6 := HIGH tmp8 tmp9 in
  let tmp10 := HIGH m8 m10 in
  let tmp11 := HIGH m9 m11 in
  let aos10 := LOW tmp10 tmp11 in
  let aos14 := HIGH tmp10 tmp11 in
  let tmp12 := LOW m12 m14 in
  let tmp13 := LOW m13 m15 in
  let aos3 := LOW tmp12 tmp13 in
  let aos7 := HIGH tmp12 tmp13 in
  let tmp14 := HIGH m12 m14 in
  let tmp15 := HIGH m13 m15 in
  let aos11 := LOW tmp14 tmp15 in
  let aos15 := HIGH tmp14 tmp15 in
  mk4 (mk4 aos0 aos1 aos2 aos3) (mk4 aos4 aos5 aos6 aos7)
      (mk4 aos8 aos9 aos10 aos11) (mk4 aos12 aos13 aos14 aos15).

Section Aos.
  Context {F : Type} {NF : Num F}.
  Implicit Types (a b p q v : V4 F).

  (** math.rs 677-709 [AosMat4::mul]: one column. *)
  Definition mat_mul_col (m : mat4 F) (o : V4 F) : V4 F :=
    let xxxx := swz o 0 0 0 0 * l0 m in
    let zzzz := swz o 2 2 2 2 * l2 m in
    let a01 := swz o 1 1 1 1 * l1 m + xxxx in
    let a23 := swz o 3 3 3 3 * l3 m + zzzz in
    a01 + a23.
  Definition mat_mul (m o : mat4 F) : mat4 F :=
    mk4 (mat_mul_col m (l0 o)) (mat_mul_col m (l1 o)) (mat_mul_col m (l2 o)) (mat_mul_col m (l3 o)).

  Definition IB1 v : V4 F := swz v 1 0 3 2.
  Definition I4E v : V4 F := swz v 2 3 0 1.

  (** math.rs 1002-1020 [fx4_splat_x] etc. *)
  Definition splat_x v : V4 F := swz v 0 0 0 0.
  Definition splat_y v : V4 F := swz v 1 1 1 1.
  Definition splat_z v : V4 F := swz v 2 2 2 2.
  Definition splat_w v : V4 F := swz v 3 3 3 3.

  (** math.rs 711-790 [AosMat4::invert]: cofactors *)
  Definition mat_minors (m : mat4 F) : V4 F * V4 F * V4 F * V4 F * V4 F :=
    let t0 := swz2 (l0 m) (l1 m) 0 1 4 5 in
    let t1 := swz2 (l2 m) (l3 m) 0 1 4 5 in
    let t2 := swz2 (l0 m) (l1 m) 2 3 6 7 in
    let t3 := swz2 (l2 m) (l3 m) 2 3 6 7 in
    let c0 := swz2 t0 t1 0 2 4 6 in
    let c1 := swz2 t1 t0 1 3 5 7 in
    let c2 := swz2 t2 t3 0 2 4 6 in
    let c3 := swz2 t3 t2 1 3 5 7 in
    let tmp1 := IB1 (c2 * c3) in
    let minor0 := c1 * tmp1 in
    let minor1 := c0 * tmp1 in
    let tmp1 := I4E tmp1 in
    let minor0 := c1 * tmp1 - minor0 in
    let minor1 := c0 * tmp1 - minor1 in
    let minor1 := I4E minor1 in
    let tmp1 := IB1 (c1 * c2) in
    let minor0 := c3 * tmp1 + minor0 in
    let minor3 := c0 * tmp1 in
    let tmp1 := I4E tmp1 in
    let minor0 := minor0 - c3 * tmp1 in
    let minor3 := c0 * tmp1 - minor3 in
    let minor3 := I4E minor3 in
    let tmp1 := I4E c1 * c3 in
    let tmp1 := IB1 tmp1 in
    let tmp2 := I4E c2 in
    let minor0 := tmp2 * tmp1 + minor0 in
    let minor2 := c0 * tmp1 in
    let tmp1 := I4E tmp1 in
    let minor0 := minor0 - tmp2 * tmp1 in
    let minor2 := c0 * tmp1 - minor2 in
    let minor2 := I4E minor2 in
    let tmp1 := IB1 (c0 * c1) in
    let minor2 := c3 * tmp1 + minor2 in
    let minor3 := tmp2 * tmp1 - minor3 in
    let tmp1 := I4E tmp1 in
    let minor2 := c3 * tmp1 - minor2 in
    let minor3 := minor3 - tmp2 * tmp1 in
    let tmp1 := IB1 (c0 * c3) in
    let minor1 := minor1 - tmp2 * tmp1 in
    let minor2 := c1 * tmp1 + minor2 in
    let tmp1 := I4E tmp1 in
    let minor1 := tmp2 * tmp1 + minor1 in
    let minor2 := minor2 - c1 * tmp1 in
    let tmp1 := IB1 (c0 * tmp2) in
    let minor1 := c3 * tmp1 + minor1 in
    let minor3 := minor3 - c1 * tmp1 in
    let tmp1 := I4E tmp1 in
    let minor1 := minor1 - c3 * tmp1 in
    let minor3 := c1 * tmp1 + minor3 in
    let det := c0 * minor0 in
    let det := I4E det + det in
    let det := IB1 det + det in
    (minor0, minor1, minor2, minor3, det).

  (** math.rs 776-790: determinant test, reciprocal, one Newton step. *)
  Definition mat_invert (m : mat4 F) : mat4 F :=
    let '(minor0, minor1, minor2, minor3, det) := mat_minors m in
    let invertible := map4 negb (eq4 det nzero) in
    let tmp1 := keep4 invertible (nrecip det) in
    let det := (tmp1 + tmp1) - det * (tmp1 * tmp1) in
    let det := splat_x det in
    mk4 (det * minor0) (det * minor1) (det * minor2) (det * minor3).

  (** math.rs 792-798 *)
  Definition transform_point (m : mat4 F) p : V4 F :=
    let xxxx := swz p 0 0 0 0 * l0 m in
    let a23 := swz p 2 2 2 2 * l2 m + l3 m in
    let a01 := swz p 1 1 1 1 * l1 m + xxxx in
    a01 + a23.
  (** math.rs 800-806 *)
  Definition transform_vector (m : mat4 F) p : V4 F :=
    let xxxx := swz p 0 0 0 0 * l0 m in
    let zzzz := swz p 1 1 1 1 * l1 m in
    let a21 := swz p 2 2 2 2 * l2 m + xxxx in
    zzzz + a21.

  (** math.rs 405-414 [SoaQuat::positive_w] *)
  Definition q_positive_w (q : quat (V4 F)) : quat (V4 F) :=
    let sign := fx4_sign (qw q) in
    Q4 (flip4 sign (qx q)) (flip4 sign (qy q)) (flip4 sign (qz q)) (flip4 sign (qw q)).
  (** math.rs 395-403 [SoaQuat::xor_num] with a sign mask *)
  Definition q_xor_sign (q : quat (V4 F)) (m : V4 bool) : quat (V4 F) :=
    Q4 (flip4 m (qx q)) (flip4 m (qy q)) (flip4 m (qz q)) (flip4 m (qw q)).

  (** math.rs 987-1000 [fx4_set_y], [fx4_set_z], [fx4_set_w] *)
  Definition set_y a b : V4 F := swz2 a b 0 4 2 3.
  Definition set_z a b : V4 F := swz2 a b 0 1 4 3.
  Definition set_w a b : V4 F := swz2 a b 0 1 2 4.

  (** math.rs 1065-1076 *)
  Definition fx4_clamp_or_max v mn mx : V4 F := nmax (nmin v mx) mn.
  Definition fx4_clamp_or_min v mn mx : V4 F := nmin (nmax v mn) mx.
  (** math.rs 1078-1087 *)
  Definition f32_clamp_or_max (v mn mx : F) : F := nmax (nmin v mx) mn.
  Definition f32_clamp_or_min (v mn mx : F) : F := nmin (nmax v mn) mx.

  (** math.rs 1089-1163 [fx4_sin_cos], one lane (every operation there is lanewise).
      Literals are the binary32 values of the Rust constants.  [quadrant.to_int_unchecked()]
      is undefined behaviour when out of range of i32; [None] stands for it. *)
  Definition sin_cos_lane (v : F) : option (F * F) :=
    let N1 := nlit 201 (-7) in
    let N2 := nlit 2029 (-22) in
    let N3 := nlit 10625385 (-47) in
    let C1 := nlit 6716135 (-38) in
    let C2 := nlit 5964557 (-32) in
    let C3 := nlit 11184805 (-28) in
    let S1 := nlit (-13410809) (-36) in
    let S2 := nlit 4473295 (-29) in
    let S3 := nlit 11184803 (-26) in
    let FRAC_2_PI := nlit 10680707 (-24) in
    let sin_sign := nlt v nzero in
    let x := nabs v in
    let quadrant := ntrunc (FRAC_2_PI * x + nhalf) in
    let x := ((x - quadrant * N1) - quadrant * N2) - quadrant * N3 in
    let x2 := x * x in
    let taylor_cos := ((C1 * x2 - C2) * x2 + C3) * x2 * x2 - nhalf * x2 + none_ in
    let taylor_sin := ((S1 * x2 + S2) * x2 - S3) * x2 * x + x in
    if nle (nlit (-1) 31) quadrant && nlt quadrant (nlit 1 31) then
      let qi := nto_i32 quadrant in
      let bit1 := Z.testbit qi 0 in
      let bit2 := Z.testbit qi 1 in
      let s := if bit1 then taylor_cos else taylor_sin in
      let c := if bit1 then taylor_sin else taylor_cos in
      Some (flip (xorb sin_sign bit2) s, flip (xorb bit1 bit2) c)
    else None.
  Definition fx4_sin_cos v : option (V4 F * V4 F) :=
    match sin_cos_lane (l0 v), sin_cos_lane (l1 v), sin_cos_lane (l2 v), sin_cos_lane (l3 v) with
    | Some a, Some b, Some c, Some d =>
        Some (mk4 (fst a) (fst b) (fst c) (fst d), mk4 (snd a) (snd b) (snd c) (snd d))
    | _, _, _, _ => None
    end.

  (** math.rs 1183-1222 [fx4_asin], one lane *)
  Definition asin_lane (v : F) : F :=
    let N1 := nlit 5659049 (-27) in
    let N2 := nlit 12982243 (-29) in
    let N3 := nlit 12205767 (-28) in
    let N4 := nlit 5030011 (-26) in
    let N5 := nlit 2796217 (-24) in
    let FRAC_PI_2 := nlit 13176795 (-23) in
    let asin_sign := nlt v nzero in
    let a := nmin (nabs v) none_ in
    let z1 := a * a in
    let x1 := a in
    let z2 := nhalf * (none_ - a) in
    let x2 := nsqrt z2 in
    let greater := nlt nhalf a in
    let z := if greater then z2 else z1 in
    let x := if greater then x2 else x1 in
    let z := ((((N1 * z + N2) * z + N3) * z + N4) * z + N5) * z * x + x in
    let z := if greater then FRAC_PI_2 - (z + z) else z in
    flip asin_sign z.
  Definition fx4_asin v : V4 F := map4 asin_lane v.
  (** math.rs 1224-1228 *)
  Definition fx4_acos v : V4 F := nlit 13176795 (-23) - fx4_asin v.

  (** math.rs 1240-1243 *)
  Definition fx4_lerp (from to alpha : V4 F) : V4 F := alpha * (to - from) + from.
  (** math.rs 1245-1251 [vec3_is_normalized]; 1.002f32 and 0.998f32. *)
  Definition vec3_is_normalized v : bool :=
    let len2 := (l0 v * l0 v + l1 v * l1 v + l2 v * l2 v) in
    nlt (nlit 8371831 (-23)) len2 && nlt len2 (nlit 8405385 (-23)).
  (** math.rs 1258-1262 *)
  Definition vec3_dot_s a b : V4 F :=
    let tmp := a * b in tmp + swz tmp 1 1 1 1 + swz tmp 2 2 2 2.
  (** math.rs 1253-1256 *)
  Definition vec3_length2_s v : V4 F := vec3_dot_s v v.
  (** math.rs 1264-1269 *)
  Definition vec3_cross a b : V4 F :=
    let shufa := swz a 1 2 0 3 in
    let shufb := swz b 1 2 0 3 in
    let shufc := a * shufb - b * shufa in
    swz shufc 1 2 0 3.
  (** math.rs 1271-1275 *)
  Definition quat_from_axis_angle (axis angle : V4 F) : option (V4 F) :=
    match fx4_sin_cos (splat_x angle * nhalf) with
    | Some (half_sin, half_cos) => Some (set_w (axis * half_sin) half_cos)
    | None => None
    end.
  (** math.rs 1277-1284 *)
  Definition quat_from_cos_angle (axis cos : V4 F) : V4 F :=
    let half_cos2 := (none_ + cos) * nhalf in
    let half_sin2 := none_ - half_cos2 in
    let half_cossin2 := set_y half_cos2 half_sin2 in
    let half_cossin := nsqrt half_cossin2 in
    let half_sin := splat_y half_cossin in
    set_w (axis * half_sin) half_cossin.
  (** math.rs 1312, 1319: std::simd [reduce_sum], ((x + y) + z) + w (ordered sum). *)
  Definition reduce_sum v : F := (l0 v + l1 v + l2 v + l3 v).
  (** math.rs 1310-1314, 1316-1322 *)
  Definition quat_length2_s q : V4 F := splat (reduce_sum (q * q)).
  Definition quat_normalize q : V4 F :=
    let len2 := reduce_sum (q * q) in
    let inv_len := nrecip (nsqrt (splat len2)) in
    q * inv_len.
  (** math.rs 31-35 *)
  Definition QUAT_UNIT : V4 F := mk4 nzero nzero nzero none_.
  (** math.rs 1289, 1297: 1.0e-6f32 *)
  Definition n1em6 : F := nlit 8796093 (-43).
  (** math.rs 1286-1308 *)
  Definition quat_from_vectors (from to : V4 F) : V4 F :=
    let nn := nsqrt (vec3_length2_s from * vec3_length2_s to) in
    let nnx := l0 nn in
    if nlt nnx n1em6 then QUAT_UNIT
    else
      let real_part := nn + vec3_dot_s from to in
      let q :=
        if nlt (l0 real_part) (n1em6 * nnx)
        then if nlt (nabs (l2 from)) (nabs (l0 from))
             then mk4 (- l1 from) (l0 from) nzero nzero
             else mk4 nzero (- l2 from) (l1 from) nzero
        else set_w (vec3_cross from to) real_part in
      quat_normalize q.
  (** math.rs 1324-1329 *)
  Definition quat_transform_vector q v : V4 F :=
    let cross1 := splat_w q * v + vec3_cross q v in
    let cross2 := vec3_cross q cross1 in
    v + cross2 + cross2.
  (** math.rs 1331-1338 *)
  Definition quat_mul a b : V4 F :=
    let p1 := swz a 3 3 3 2 * swz b 0 1 2 2 in
    let p2 := swz a 0 1 2 0 * swz b 3 3 3 0 in
    let p13 := swz a 1 2 0 1 * swz b 2 0 1 1 + p1 in
    let p24 := p2 - swz a 2 0 1 3 * swz b 1 2 0 3 in
    flip4 (mk4 false false false true) (p13 + p24).
  (** math.rs 1340-1344 *)
  Definition quat_positive_w q : V4 F := flip4 (lt4 (splat_w q) nzero) q.
End Aos.
