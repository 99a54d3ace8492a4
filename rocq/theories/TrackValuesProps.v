(** C89: vector and rotation tracks in single precision. *)
From Coq Require Import Reals Lra Psatz.
From Flocq Require Import IEEE754.BinarySingleNaN Core.
From Verif Require Import Base Num NumF32 NumR F32Facts F32Err InterpF32 NormF32 BlendF32 BlendF32Proofs PoseProofs Math MathSpec BlendingSpec QuatNorm.
From Verif Require Import Tracks TracksSpec TracksProofs TracksProps BlendF32Props TrackCurveProps.
From Verif Require Import Motion MotionGlam MotionF32Spec MotionF32 MotionF32Proofs MotionF32Props TrackValues TrackValuesSpec TrackValuesProofs.
Local Open Scope R_scope.

(** Sampling a track of vectors with [n] components (2, 3 or 4 in the library) at any finite ratio gives
    [n] finite components.  Outside the keys it is the value of the nearest key; after a step key it is
    that key's value; between two other keys each component is on the straight line between theirs within
    2^-20 of the larger of the two, leaves their interval by at most 2^-22 of it, and at the time of
    a key it is exactly that key's. *)
Theorem C89_vector m (n : nat) (d : list f32) (t : ftrack f32 (list f32)) (r : f32) :
  good_keys t -> t_ratios t <> [] -> (forall i v, nth_error (t_values t) i = Some v -> usable_vec n v) -> is_finite r = true ->
  exists x, sample_track (lerp_vec m) d t r = Ok x /\ length x = n /\ (forall c y, nth_error x c = Some y -> is_finite y = true) /\
    (past_keys t (B2R r) x \/
     exists i a b v w, between_keys t (B2R r) i a b v w /\
       (is_step t i = true -> x = v) /\
       (is_step t i = false -> forall c y v' w', nth_error x c = Some y -> nth_error v c = Some v' -> nth_error w c = Some w' ->
         let p := B2R v' in let q := B2R w' in let m := Rmax (Rabs p) (Rabs q) in
         Rabs (B2R y - (p + (q - p) * ((B2R r - a) / (b - a)))) <= m / 2 ^ 20 + / 2 ^ 148 /\
         Rmin p q - m / 2 ^ 22 - / 2 ^ 148 <= B2R y <= Rmax p q + m / 2 ^ 22 + / 2 ^ 148 /\
         (B2R r = a -> B2R y = p))).
Proof.
  intros G N HV Fr. destruct (sample_cases (lerp_vec m) d t r G N Fr) as (x & Ex & Cx). exists x. split; [exact Ex|].
  assert (KV : forall i v, nth_error (t_values t) i = Some v -> length v = n /\ forall c y, nth_error v c = Some y -> is_finite y = true).
  { intros i v E. destruct (HV i v E) as (L & A). split; [exact L|]. intros c y Ey. apply (A c y Ey). }
  assert (TT : 4 * tiny = / 2 ^ 148).
  { unfold tiny. rewrite <- (p2_shift 2 (-150) 4) by (simpl; lra). change (2 + -150)%Z with (- (148))%Z. exact (p2_inv 148 ltac:(lia)). }
  destruct Cx as [P|(i & a & b & v & w & B & S1 & S0)].
  { assert (E : exists i, nth_error (t_values t) i = Some x) by (destruct P as [[_ E]|[_ E]]; eexists; exact E). destruct E as (i & E).
    destruct (KV i x E) as (L & A). split; [exact L|]. split; [exact A|]. left. exact P. }
  pose proof B as (a' & b' & _ & _ & Ev & Ew & _ & _ & _). destruct (HV i v Ev) as (Lv & Av). destruct (HV (S i) w Ew) as (Lw & Aw).
  destruct (is_step t i) eqn:St.
  { rewrite (S1 eq_refl). split; [exact Lv|]. split; [intros c y E; apply (Av c y E)|]. right. exists i, a, b, v, w. split; [exact B|].
    split; [reflexivity|]. intros H. rewrite St in H. discriminate H. }
  destruct (S0 eq_refl) as (k & u & -> & Fk & Hu & Du & U0). destruct (lerp_vec_nth m v w k ltac:(congruence)) as (L & NT).
  assert (K : forall c y, nth_error (lerp_vec m v w k) c = Some y -> exists v' w', nth_error v c = Some v' /\ nth_error w c = Some w' /\
     fin v' (B2R v') /\ fin w' (B2R w') /\ fin y (lerp1_r m (B2R v') (B2R w') u)).
  { intros c y E. apply NT in E. destruct E as (v' & w' & E1 & E2 & ->). exists v', w'. split; [exact E1|]. split; [exact E2|].
    destruct (Av c v' E1) as (Fv & Bv). destruct (Aw c w' E2) as (Fw & Bw). rewrite <- p2_100 in Bv, Bw.
    split; [apply fin_of, Fv|]. split; [apply fin_of, Fw|]. apply lerp1_fin; auto using fin_of. }
  split; [congruence|]. split; [intros c y E; destruct (K c y E) as (v' & w' & _ & _ & _ & _ & Fy); apply Fy|].
  right. exists i, a, b, v, w. split; [exact B|]. split; [intros H; rewrite St in H; discriminate H|]. intros _ c y v' w' E E1 E2 p q mm.
  destruct (K c y E) as (v2 & w2 & E1' & E2' & Fv & Fw & Fy).
  assert (I : forall y z : f32, Some y = Some z -> y = z) by congruence. rewrite E1 in E1'. rewrite E2 in E2'. apply I in E1'. apply I in E2'. subst v2 w2.
  rewrite (proj2 Fy). fold p q. fold p q in Fv, Fw.
  pose proof (lerp1_close m p q u _ (fin_fmt _ _ Fv) (fin_fmt _ _ Fw) Hu Du) as C. pose proof (lerp1_hull m p q u (fin_fmt _ _ Fv) (fin_fmt _ _ Fw) Hu) as Hh.
  cbv zeta in C, Hh. fold mm in C, Hh. rewrite TT in C, Hh. split; [|split].
  - eapply Rle_trans; [exact C|]. apply Rplus_le_compat_r, Req_le. unfold eps. field.
  - replace (4 * eps * mm) with (mm / 2 ^ 22) in Hh by (unfold eps; field). exact Hh.
  - intros H. rewrite (U0 H). apply lerp1_0, (fin_fmt _ _ Fv).
Qed.
Print Assumptions C89_vector.

(** Sampling a track of rotations.  Outside the keys and after a step key it is the key's rotation.
    Between two other keys the result is a unit quaternion within 2^-19, and it is within 2^-17 of the
    exact normalised interpolation between the first rotation and the second, taken with the sign that
    makes the way the shorter one (either sign if they are the same to within 2^-20). *)
Theorem C89_rotation m o z div d (t : ftrack f32 (quat f32)) (r : f32) :
  good_keys t -> t_ratios t <> [] -> (forall i v, nth_error (t_values t) i = Some v -> usable_rot v) -> is_finite r = true ->
  exists x, sample_track (lerp_quat m o z div) d t r = Ok x /\ usable_rot x /\
    (past_keys t (B2R r) x \/
     exists i a b v w, between_keys t (B2R r) i a b v w /\
       (is_step t i = true -> x = v) /\
       (is_step t i = false -> Rabs (norm2 (real4 x) - 1) <= / 2 ^ 19 /\
          exists sg, (sg = 1 \/ sg = -1) /\ - / 2 ^ 20 <= sg * qdot (real4 v) (real4 w) /\
            let e := blend_to (real4 v) (real4 w) sg ((B2R r - a) / (b - a)) in
            0 < qn e /\ qn (qsub (real4 x) (qscale (/ qn e) e)) <= / 2 ^ 17)).
Proof.
  intros G N HV Fr. destruct (sample_cases (lerp_quat m o z div) d t r G N Fr) as (x & Ex & Cx). exists x. split; [exact Ex|].
  destruct Cx as [P|(i & a & b & v & w & B & S1 & S0)].
  { assert (E : exists i, nth_error (t_values t) i = Some x) by (destruct P as [[_ E]|[_ E]]; eexists; exact E). destruct E as (i & E).
    split; [exact (HV i x E)|]. left. exact P. }
  pose proof B as (a' & b' & _ & _ & Ev & Ew & _ & _ & Hr). destruct (HV i v Ev) as (Fv & Nv). destruct (HV (S i) w Ew) as (Fw & Nw).
  destruct (is_step t i) eqn:St.
  { rewrite (S1 eq_refl). split; [split; assumption|]. right. exists i, a, b, v, w. split; [exact B|].
    split; [reflexivity|]. intros H. rewrite St in H. discriminate H. }
  destruct (S0 eq_refl) as (k & u & -> & Fk & Hu & Du & U0).
  assert (RV : forall q, finite4 q -> finq q (real4 q)) by (intros q (F0 & F1 & F2 & F3); repeat split; assumption).
  assert (C : 0 <= (B2R r - a) / (b - a) <= 1).
  { assert (0 < / (b - a)) by (apply Rinv_0_lt_compat; lra). split; [apply Rmult_le_pos; lra|].
    apply Rmult_le_reg_r with (b - a); [lra|]. unfold Rdiv. rewrite Rmult_assoc, Rinv_l by lra. lra. }
  destruct (lerp_quat_err m o z div v w _ _ k u _ (RV v Fv) (RV w Fw) Fk Hu C Du Nv Nw) as (q & sg & Fq & Nq & Sg & Dg & Pe & Ee).
  destruct (finq_real _ _ Fq) as (F4 & ->).
  split. { split; [exact F4|]. destruct (finq_real _ _ Fq) as (_ & ->). eapply Rle_trans; [exact Nq|]. simpl. lra. }
  right. exists i, a, b, v, w. split; [exact B|]. split; [intros H; rewrite St in H; discriminate H|]. intros _. split; [exact Nq|].
  exists sg. split; [exact Sg|]. split; [exact Dg|]. split; assumption.
Qed.
Print Assumptions C89_rotation.

(** ** Concrete cases *)
(** Three keys of two components; the middle one is a step key.  Half of the way to it, and past it. *)
Definition ex_vec : ftrack f32 (list f32) := mk_track 3 [nzero; nhalf; none_] [[none_; ntwo]; [ntwo; f32_lit 8 0]; [none_; none_]] [2%N].
Definition ex_rot : ftrack f32 (quat f32) := mk_track 2 [nzero; none_] [q_identity; Q4 (f32_lit (-39) (-6)) (f32_lit 0 0) (f32_lit 0 0) (f32_lit (-51) (-6))] [0%N].
Definition codes (v : list f32) : list N := map f32_to_bits v.
Lemma vec_keys : good_keys ex_vec.
Proof.
  split; [repeat split; cbn; lia|]. assert (E : forall y z : f32, Some y = Some z -> y = z) by congruence. split; [|split].
  - intros i j a b Hij Ha Hb. destruct i as [|[|[|i]]], j as [|[|[|j]]]; cbn in Ha, Hb; try lia; try (destruct i; discriminate); try (destruct j; discriminate);
      apply E in Ha; apply E in Hb; subst a b; vm_compute; reflexivity.
  - intros a Ha. apply E in Ha. subst a. vm_compute. reflexivity.
  - intros i a Ha. destruct i as [|[|[|i]]]; cbn in Ha; [..|destruct i; discriminate]; apply E in Ha; subst a; vm_compute; reflexivity.
Qed.
Lemma rot_keys : good_keys ex_rot.
Proof.
  split; [repeat split; cbn; lia|]. assert (E : forall y z : f32, Some y = Some z -> y = z) by congruence. split; [|split].
  - intros i j a b Hij Ha Hb. destruct i as [|[|i]], j as [|[|j]]; cbn in Ha, Hb; try lia; try (destruct i; discriminate); try (destruct j; discriminate);
      apply E in Ha; apply E in Hb; subst a b; vm_compute; reflexivity.
  - intros a Ha. apply E in Ha. subst a. vm_compute. reflexivity.
  - intros i a Ha. destruct i as [|[|i]]; cbn in Ha; [..|destruct i; discriminate]; apply E in Ha; subst a; vm_compute; reflexivity.
Qed.
Lemma vec_values i v : nth_error (t_values ex_vec) i = Some v -> usable_vec 2 v.
Proof.
  assert (P : 8 <= 2 ^ 100) by (apply Rle_trans with (2 ^ 3); [simpl; lra|apply Rle_pow; [lra|lia]]).
  assert (K : forall (x : f32) c, fin x c -> 0 <= c <= 8 -> is_finite x = true /\ Rabs (B2R x) <= 2 ^ 100).
  { intros x c (F & E) H. split; [exact F|]. rewrite E, Rabs_pos_eq; lra. }
  assert (K1 := K none_ 1 fin_one ltac:(lra)). assert (K2 := K ntwo 2 fin_two ltac:(lra)).
  assert (K8 : is_finite (f32_lit 8 0) = true /\ Rabs (B2R (f32_lit 8 0)) <= 2 ^ 100).
  { apply (K _ (8 * 1)); [exact (fin_lit 8 0 ltac:(lia) ltac:(lia))|lra]. }
  intros H. assert (I : forall A (y z : A), Some y = Some z -> y = z) by congruence.
  destruct i as [|[|[|i]]]; cbn in H; [..|destruct i; discriminate]; apply I in H; subst v; (split; [reflexivity|]);
    intros [|[|c]] x E; cbn in E; try (destruct c; discriminate); apply I in E; subst x; assumption.
Qed.
Lemma rot_values i v : nth_error (t_values ex_rot) i = Some v -> usable_rot v.
Proof.
  intros H. assert (I : forall A (y z : A), Some y = Some z -> y = z) by congruence.
  unfold ex_rot in H. destruct i as [|[|i]]; cbn [nth_error t_values] in H; [..|destruct i; discriminate]; apply I in H; subst v; (split; [repeat split; reflexivity|]); unfold norm2, real4; cbn [qx qy qz qw q_identity].
  - rewrite (proj2 fin_one), (proj2 fin_zero). apply Rabs_le. lra.
  - rewrite (proj2 (fin_lit 0 0 ltac:(lia) ltac:(lia))), (proj2 (fin_lit (-39) (-6) ltac:(lia) ltac:(lia))), (proj2 (fin_lit (-51) (-6) ltac:(lia) ltac:(lia))). simpl bpow. apply Rabs_le. lra.
Qed.
Definition got {A} (f : A -> list N) (r : res A) : list N := match r with Ok x => f x | _ => [] end.
Definition codes4 (q : quat f32) : list N := codes [qx q; qy q; qz q; qw q].
(** Half of the way to the middle key and past it; half of a turn about x, the shorter way round. *)
Example C89_example :
  good_keys ex_vec /\ (forall i v, nth_error (t_values ex_vec) i = Some v -> usable_vec 2 v) /\
  good_keys ex_rot /\ (forall i v, nth_error (t_values ex_rot) i = Some v -> usable_rot v) /\
  got codes (sample_track (lerp_vec Weighted) [] ex_vec (f32_lit 1 (-2))) = [1069547520; 1084227584]%N /\
  got codes (sample_track (lerp_vec Delta) [] ex_vec (f32_lit 3 (-2))) = [1073741824; 1090519040]%N /\
  got codes4 (sample_track (lerp_quat Delta Pairwise true true) q_identity ex_rot nhalf) = [1050963884; 0; 0; 1064464417]%N /\
  got codes4 (sample_track (lerp_quat Weighted Sequential false false) q_identity ex_rot nhalf) = [1050963884; 0; 0; 1064464418]%N.
Proof.
  split; [exact vec_keys|]. split; [exact vec_values|]. split; [exact rot_keys|]. split; [exact rot_values|]. vm_compute. repeat split.
Qed.
