(** Additive layers, one joint at a time. *)
From Coq Require Import Reals Lra Psatz.
From Verif Require Import Base Num NumR Math MathSpec MathProofs Skeleton Blending BlendingProofs BlendingSpec BlendingReal BlendLane AdditiveSpec.
Local Open Scope R_scope.

Section Lane.
  Context {F : Type} {NF : Num F}.
  Local Open Scope num_scope.
  (** The layer's weight for joint [i], [w] being the absolute layer weight. *)
  Definition ga_w (w : F) (l : layer F) (i : nat) : F :=
    match ly_joint_weights l with
    | [] => w
    | ws => w * nmax (lane (nth (i / 4) ws nzero) (i mod 4)) nzero
    end.
  Definition ga_interp (q : quat F) (w : F) : quat F :=
    let r := g_flip (nlt (qw q) nzero) q in
    Q4 (qx r * w) (qy r * w) (qz r * w) ((qw r - none_) * w + none_).
  Definition ga_add (t : transform F) (w : F) (o : transform F) : transform F :=
    TR (v3_add (tr_t o) (v3_mul_num (tr_t t) w)) (q_mul (tr_r o) (q_normalize (ga_interp (tr_r t) w)))
       (V3 (vx (tr_s o) * ((none_ - w) + vx (tr_s t) * w)) (vy (tr_s o) * ((none_ - w) + vy (tr_s t) * w))
           (vz (tr_s o) * ((none_ - w) + vz (tr_s t) * w))).
  Definition ga_sub (t : transform F) (w : F) (o : transform F) : transform F :=
    TR (v3_sub (tr_t o) (v3_mul_num (tr_t t) w)) (q_mul (tr_r o) (q_conjugate (q_normalize (ga_interp (tr_r t) w))))
       (V3 (vx (tr_s o) * nrecip (vx (tr_s t) * w + (none_ - w))) (vy (tr_s o) * nrecip (vy (tr_s t) * w + (none_ - w)))
           (vz (tr_s o) * nrecip (vz (tr_s t) * w + (none_ - w)))).
  Definition ga_step (i : nat) (o : transform F) (l : layer F) : transform F :=
    if nlt nzero (ly_weight l) then ga_add (joint (ly_transform l) i) (ga_w (ly_weight l) l i) o
    else if nlt (ly_weight l) nzero then ga_sub (joint (ly_transform l) i) (ga_w (- ly_weight l) l i) o
    else o.

  Ltac lanes j := destruct j as [|[|[|[|j]]]]; [..|lia].
  Lemma ga_wat w (l : layer F) i : lane (wat w l (i / 4)) (i mod 4) = ga_w w l i.
  Proof.
    pose proof (Nat.mod_upper_bound i 4 ltac:(lia)) as Hm. unfold wat, ga_w.
    destruct (ly_joint_weights l) as [|a ws]; generalize dependent (i mod 4); intros m Hm; lanes m; reflexivity.
  Qed.
  Lemma gl_add t w o j : (j < 4)%nat -> lane_tr (blend_add_pass t w (none_ - w) o) j = ga_add (lane_tr t j) (lane w j) (lane_tr o j).
  Proof. intros Hj. lanes j; reflexivity. Qed.
  Lemma gl_sub t w o j : (j < 4)%nat -> lane_tr (blend_sub_pass t w (none_ - w) o) j = ga_sub (lane_tr t j) (lane w j) (lane_tr o j).
  Proof. intros Hj. lanes j; reflexivity. Qed.
  Lemma gl_addstep i o (l : layer F) : lane_tr (add_step (i / 4) o l) (i mod 4) = ga_step i (lane_tr o (i mod 4)) l.
  Proof.
    pose proof (Nat.mod_upper_bound i 4 ltac:(lia)) as Hm. unfold add_step, ga_step. cbv zeta.
    destruct (nlt nzero (ly_weight l)); [rewrite gl_add by exact Hm; rewrite ga_wat; reflexivity|].
    destruct (nlt (ly_weight l) nzero); [rewrite gl_sub by exact Hm; rewrite ga_wat; reflexivity|reflexivity].
  Qed.
  Lemma gl_full i sk thr ls adds :
    lane_tr (full_col sk thr ls adds (i / 4)) (i mod 4) = fold_left (ga_step i) adds (lane_tr (full_col sk thr ls [] (i / 4)) (i mod 4)).
  Proof.
    unfold full_col. cbn [fold_left]. generalize (base_col sk thr ls (i / 4)). induction adds as [|l adds IH]; intros o; cbn [fold_left]; [reflexivity|].
    rewrite IH, gl_addstep. reflexivity.
  Qed.
End Lane.

(** ** Real arithmetic *)
Lemma ga_w_R w (l : layer R) i : ga_w w l i = w * mask (ly_joint_weights l) i.
Proof. rewrite <- ga_wat. apply wat_R. Qed.
Lemma interp_R q w : ga_interp q w = qadd (qscale (1 - w) (Q4 0 0 0 1)) (qscale w (nearer q)).
Proof.
  unfold ga_interp, nearer, g_flip, flip. change (@nlt R Rnum) with Rltb. change (@num_arith R Rnum) with Rarith. rewrite nzero_R, none_R.
  destruct (Rltb_spec (qw q) 0) as [L|L], (Rlt_dec (qw q) 0) as [M|M]; try lra; unfold qadd, qscale; cbn; f_equal; ring.
Qed.
Lemma mul_R a b : q_mul a b = hamilton a b.
Proof. apply s_mul_hamilton. Qed.
Lemma ga_step_R i p (l : layer R) : ga_step i p l = added i p l.
Proof.
  unfold ga_step, added, additive_weight. cbv zeta. change (@nlt R Rnum) with Rltb. change (@num_arith R Rnum) with Rarith. rewrite nzero_R.
  destruct (Rltb_spec 0 (ly_weight l)) as [L|L], (Rlt_dec 0 (ly_weight l)) as [M|M]; try lra.
  - rewrite ga_w_R, Rabs_pos_eq by lra. set (w := ly_weight l * _). unfold ga_add. rewrite mul_R, q_normalize_R, interp_R. fold (partial_turn w (tr_r (joint (ly_transform l) i))).
    change (@num_arith R Rnum) with Rarith. rewrite none_R. unfold partial_scale, v3_add, v3_mul_num, plus3, scale3. cbn. f_equal; f_equal; ring.
  - destruct (Rltb_spec (ly_weight l) 0) as [L'|L'], (Rlt_dec (ly_weight l) 0) as [M'|M']; try lra; [|reflexivity].
    rewrite ga_w_R, Rabs_left by lra. change (@nneg R Rarith (ly_weight l)) with (- ly_weight l). set (w := - ly_weight l * _).
    unfold ga_sub. rewrite mul_R, q_normalize_R, interp_R. fold (partial_turn w (tr_r (joint (ly_transform l) i))).
    change (@num_arith R Rnum) with Rarith. rewrite none_R, !nrecip_R. unfold partial_scale, v3_sub, v3_mul_num, minus3, scale3, Rdiv.
    cbn. f_equal; f_equal; try ring; f_equal; f_equal; ring.
Qed.
