(** BlendingJob one joint at a time, over any number type: what each lane of the SoA passes does. *)
From Verif Require Import Base Num Math Skeleton Blending BlendingProofs BlendingSpec.

Section Lane.
  Context {F : Type} {NF : Num F}.
  Local Open Scope num_scope.
  Definition g_1st (t : transform F) (w : F) : transform F :=
    TR (v3_mul_num (tr_t t) w) (q_mul_num (tr_r t) w) (v3_mul_num (tr_s t) w).
  Definition g_flip (b : bool) (q : quat F) : quat F := Q4 (flip b (qx q)) (flip b (qy q)) (flip b (qz q)) (flip b (qw q)).
  Definition g_rot (s q : quat F) (w : F) : quat F := q_add s (q_mul_num (g_flip (nlt (q_dot s q) nzero) q) w).
  Definition g_npass (t : transform F) (w : F) (o : transform F) : transform F :=
    TR (v3_add (tr_t o) (v3_mul_num (tr_t t) w)) (g_rot (tr_r o) (tr_r t) w) (v3_add (tr_s o) (v3_mul_num (tr_s t) w)).
  Definition g_norm (r : F) (t : transform F) : transform F :=
    TR (v3_mul_num (tr_t t) r) (q_normalize (tr_r t)) (v3_mul_num (tr_s t) r).

  Ltac lanes j := destruct j as [|[|[|[|j]]]]; [..|lia].
  Lemma gl_1st t w j : j < 4 -> lane_tr (blend_1st_pass t w) j = g_1st (lane_tr t j) (lane w j).
  Proof. intros Hj. lanes j; reflexivity. Qed.
  Lemma gl_npass t w o j : j < 4 -> lane_tr (blend_n_pass t w o) j = g_npass (lane_tr t j) (lane w j) (lane_tr o j).
  Proof. intros Hj. lanes j; reflexivity. Qed.
  Lemma gl_norm r t j : j < 4 -> lane_tr (normalize_one r t) j = g_norm (lane r j) (lane_tr t j).
  Proof. intros Hj. lanes j; reflexivity. Qed.

  (** The weight of a layer for joint [i], as computed. *)
  Definition gw (l : layer F) (i : nat) : F :=
    match ly_joint_weights l with
    | [] => ly_weight l
    | ws => ly_weight l * nmax (lane (nth (i / 4) ws nzero) (i mod 4)) nzero
    end.
  Lemma gl_wat (l : layer F) i : lane (wat (ly_weight l) l (i / 4)) (i mod 4) = gw l i.
  Proof.
    pose proof (Nat.mod_upper_bound i 4 ltac:(lia)) as Hm. unfold wat, gw.
    destruct (ly_joint_weights l) as [|a ws]; generalize dependent (i mod 4); intros m Hm; lanes m; reflexivity.
  Qed.

  Definition g_step (i : nat) (a : option (F * transform F)) (l : layer F) : option (F * transform F) :=
    if eff l then
      match a with
      | None => Some (gw l i, g_1st (joint (ly_transform l) i) (gw l i))
      | Some (acc, o) => Some (acc + gw l i, g_npass (joint (ly_transform l) i) (gw l i) o)
      end
    else a.
  Definition g_cols (i : nat) (ls : list (layer F)) : option (F * transform F) := fold_left (g_step i) ls None.
  Definition g_rest (thr : F) (ls : list (layer F)) (rest : transform F) (a : option (F * transform F)) : F * transform F :=
    match a with
    | None => (none_, rest)
    | Some (acc, o) =>
        if some_partial ls then (nmax thr acc, g_npass rest (nmax (thr - acc) nzero) o)
        else
          let bp := thr - sumw ls nzero in
          if nlt nzero bp then (thr, g_npass rest bp o) else (sumw ls nzero, o)
    end.
  Definition g_base (sk : skeleton F) (thr : F) (ls : list (layer F)) (i : nat) : transform F :=
    let wo := g_rest thr ls (joint (sk_rest sk) i) (g_cols i ls) in
    g_norm (nrecip (fst wo)) (snd wo).

  Definition g_of (i : nat) (p : V4 F * transform (V4 F)) : F * transform F := (lane (fst p) (i mod 4), lane_tr (snd p) (i mod 4)).
  Lemma gl_step i a l : option_map (g_of i) (col_step (i / 4) a l) = g_step i (option_map (g_of i) a) l.
  Proof.
    pose proof (Nat.mod_upper_bound i 4 ltac:(lia)) as Hm. unfold col_step, g_step.
    destruct (eff l) eqn:E; [|reflexivity]. rewrite <- gl_wat. unfold joint.
    destruct a as [[acc o]|]; cbn [option_map]; unfold g_of; cbn [fst snd]; f_equal.
    - rewrite gl_npass by exact Hm. f_equal. generalize (wat (ly_weight l) l (i / 4)). intros w.
      generalize dependent (i mod 4). intros m Hm. lanes m; reflexivity.
    - rewrite gl_1st by exact Hm. reflexivity.
  Qed.
  Lemma gl_cols i ls : option_map (g_of i) (cols (i / 4) ls None) = g_cols i ls.
  Proof.
    unfold cols, g_cols. change (@None (F * transform F)) with (option_map (g_of i) (@None (V4 F * transform (V4 F)))).
    generalize (@None (V4 F * transform (V4 F))). induction ls as [|l ls IH]; intros a; [reflexivity|].
    cbn [fold_left]. rewrite IH, gl_step. reflexivity.
  Qed.
  Lemma gl_base sk thr ls i : lane_tr (base_col sk thr ls (i / 4)) (i mod 4) = g_base sk thr ls i.
  Proof.
    pose proof (Nat.mod_upper_bound i 4 ltac:(lia)) as Hm. unfold base_col, g_base. rewrite gl_norm by exact Hm.
    rewrite <- gl_cols. unfold rest_col, g_rest, joint. generalize (nth (i / 4) (sk_rest sk) tr_identity). intros rest.
    unfold g_of. generalize dependent (i mod 4). intros m Hm.
    destruct (cols (i / 4) ls None) as [[acc o]|]; cbn [option_map].
    - cbn [fst snd]. destruct (some_partial ls).
      + cbn [fst snd]. f_equal; [lanes m; reflexivity|]. rewrite gl_npass by exact Hm. f_equal. lanes m; reflexivity.
      + cbv zeta. destruct (nlt nzero (thr - sumw ls nzero)); cbn [fst snd].
        * f_equal; [lanes m; reflexivity|]. rewrite gl_npass by exact Hm. f_equal. lanes m; reflexivity.
        * f_equal. lanes m; reflexivity.
    - cbn [fst snd]. f_equal. lanes m; reflexivity.
  Qed.
End Lane.
