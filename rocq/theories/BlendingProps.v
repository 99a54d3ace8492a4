(** Properties of BlendingJob (C29 to C35). *)
From Coq Require Import Reals Lra Psatz Permutation.
From Flocq Require Import IEEE754.BinarySingleNaN Core.
From Verif Require Import Base Num NumR NumF32 F32Facts F32Err Math MathSpec MathProofs Skeleton Blending BlendingProofs
  BlendingSpec BlendingReal.
Local Open Scope R_scope.

(** ** binary32 and real facts used by the job *)
Lemma sub_zero_f32 (t : f32) : nlt nzero t = true -> nlt nzero (nsub t nzero) = true.
Proof. destruct t as [[]|[]| |[] m e H]; intros E; try discriminate; reflexivity. Qed.
Lemma sub_zero_R (t : R) : nlt nzero t = true -> nlt nzero (nsub t nzero) = true.
Proof.
  change (@num_arith R Rnum) with Rarith. rewrite !nzero_R. cbn. rewrite Rminus_0_r. auto.
Qed.
Lemma mul_one_gen (x one : f32) : is_finite one = true -> B2R one = 1 -> Bsign one = false ->
  is_finite x = true -> Bmult mode_NE x one = x.
Proof.
  intros O1 O2 O3 Fx.
  pose proof (Bmult_correct 24 128 _ _ mode_NE x one) as C. rewrite O2, Rmult_1_r in C.
  rewrite round_generic in C; [|apply valid_rnd_N|apply generic_format_B2R].
  pose proof (abs_B2R_lt_emax 24 128 x) as B.
  rewrite Rlt_bool_true in C by exact B. destruct C as (C1 & C2 & C3).
  rewrite Fx, O1 in C2. cbn [andb] in C2.
  assert (NN : is_nan (Bmult mode_NE x one) = false)
    by (destruct (Bmult mode_NE x one); [reflexivity|reflexivity|discriminate|reflexivity]).
  apply B2R_Bsign_inj; auto. rewrite (C3 NN), O3. apply xorb_false_r.
Qed.
Lemma mul_one_f32 (x : f32) : nmul x none_ = x.
Proof.
  destruct x as [s|s| |s m e b] eqn:E.
  - destruct s; apply to_bits_inj; reflexivity.
  - destruct s; apply to_bits_inj; reflexivity.
  - reflexivity.
  - destruct fin_one as [O1 O2]. apply mul_one_gen; auto.
Qed.
Lemma recip_one_f32 : nrecip (none_ : f32) = none_.
Proof. apply to_bits_inj. vm_compute. reflexivity. Qed.

Lemma nth_error_skip {A} n : forall (l : list A) i, nth_error (skipn n l) i = nth_error l (n + i).
Proof. induction n as [|n IH]; intros [|x l] i; cbn; auto. destruct i; reflexivity. Qed.
Lemma nth_first {A} (d : A) n : forall l i, (i < n)%nat -> nth i (firstn n l) d = nth i l d.
Proof. induction n as [|n IH]; intros [|x l] [|i] H; cbn; auto; try lia. apply IH. lia. Qed.

(** ** C29 *)
(** The job succeeds or not, and what it writes, whatever its context and output contained. *)
Section Stale.
  Context {F : Type} {NF : Num F}.
  Hypothesis sub_zero : forall t : F, nlt nzero t = true -> nlt nzero (nsub t nzero) = true.
  Notation dT := (tr_identity : transform (V4 F)).
  Lemma stale sk ctx1 ctx2 thr ls adds out1 out2 c1 o1 :
    rest_sized sk -> length out1 = length out2 ->
    blend_run (mk_bjob (Some sk) (Some ctx1) thr ls adds (Some out1)) = BOk (c1, o1) ->
    exists c2 o2,
      blend_run (mk_bjob (Some sk) (Some ctx2) thr ls adds (Some out2)) = BOk (c2, o2) /\
      firstn (num_soa_joints sk) o1 = firstn (num_soa_joints sk) o2 /\
      skipn (num_soa_joints sk) o1 = skipn (num_soa_joints sk) out1 /\
      skipn (num_soa_joints sk) o2 = skipn (num_soa_joints sk) out2.
  Proof.
    intros Hr Hl H1. pose proof (run_ok_valid _ _ H1) as V1.
    assert (V2 : blend_validate (mk_bjob (Some sk) (Some ctx2) thr ls adds (Some out2)) = true).
    { unfold blend_validate in *. cbn [bj_skeleton bj_context bj_output bj_threshold bj_layers bj_additive] in *.
      rewrite <- Hl. exact V1. }
    assert (D : effective ls \/ length out1 = num_soa_joints sk).
    { destruct (existsb eff ls) eqn:E.
      - left. apply existsb_exists in E. exact E.
      - right. destruct (Nat.eq_dec (length out1) (num_soa_joints sk)) as [e|n]; [exact e|].
        exfalso. rewrite (run_panics sub_zero) in H1; auto; [discriminate|].
        intros (l & I & El). assert (existsb eff ls = true) by (apply existsb_exists; eauto). congruence. }
    destruct (run_ok sub_zero sk ctx1 out1 thr ls adds Hr V1 D) as (c1' & o1' & R1 & L1 & P1 & T1).
    rewrite R1 in H1. inversion H1; subst c1' o1'.
    destruct (run_ok sub_zero sk ctx2 out2 thr ls adds Hr V2) as (c2 & o2 & R2 & L2 & P2 & T2); [rewrite <- Hl; exact D|].
    exists c2, o2. split; [exact R2|].
    assert (Hn : (num_soa_joints sk <= length out1)%nat).
    { unfold blend_validate in V1. cbn [bj_skeleton bj_context bj_output bj_threshold bj_layers bj_additive] in V1.
      apply andb_prop in V1. destruct V1 as [V1 _]. apply andb_prop in V1. destruct V1 as [V1 _].
      apply andb_prop in V1. destruct V1 as [_ V1]. apply Nat.leb_le in V1. exact V1. }
    assert (SK : forall (o out : list (transform (V4 F))) n,
      (forall k, (n <= k)%nat -> nth_error o k = nth_error out k) -> skipn n o = skipn n out).
    { intros o out n H. apply nth_error_ext. intros i. rewrite !nth_error_skip. apply H. lia. }
    repeat split; [|apply SK; exact T1|apply SK; exact T2].
    apply (nth_ext _ _ dT dT); [rewrite !firstn_length; lia|].
    intros i Hi. rewrite firstn_length in Hi. rewrite !nth_first by lia. rewrite P1, P2 by lia. reflexivity.
  Qed.
End Stale.

Theorem C29_stale_buffers :
  forall (sk : skeleton f32) ctx1 ctx2 thr ls adds out1 out2 c1 o1,
    rest_sized sk -> length out1 = length out2 ->
    blend_run (mk_bjob (Some sk) (Some ctx1) thr ls adds (Some out1)) = BOk (c1, o1) ->
    exists c2 o2,
      blend_run (mk_bjob (Some sk) (Some ctx2) thr ls adds (Some out2)) = BOk (c2, o2) /\
      firstn (num_soa_joints sk) o1 = firstn (num_soa_joints sk) o2 /\
      skipn (num_soa_joints sk) o1 = skipn (num_soa_joints sk) out1 /\
      skipn (num_soa_joints sk) o2 = skipn (num_soa_joints sk) out2.
Proof. exact (stale sub_zero_f32). Qed.
Print Assumptions C29_stale_buffers.

(** One joint, two layers (the second masked), a fresh context and an empty-accumulator context,
    different previous outputs. *)
Definition k1 (x : f32) : transform (V4 f32) :=
  TR (V3 (splat x) (splat nzero) (splat nzero)) (Q4 (splat nzero) (splat nzero) (splat nzero) (splat none_))
     (V3 (splat none_) (splat none_) (splat none_)).
Definition one_joint : skeleton f32 := mk_skel [k1 nzero] [(-1)%Z].
Definition two_layers : list (layer f32) :=
  [mk_layer [k1 none_] none_ []; mk_layer [k1 ntwo] nhalf [splat nhalf]].
Definition bits_x (r : bres f32) : option (list N) :=
  match r with BOk (_, o) => Some (map (fun t => f32_to_bits (l0 (vx (tr_t t)))) o) | _ => None end.
Example C29_example :
  rest_sized one_joint /\
  (* (1 * 1 + 0.25 * 2) / 1.25 = 1.2 in both, and the second element of the output is kept *)
  bits_x (blend_run (mk_bjob (Some one_joint) (Some (mk_bctx 0 0 nzero [])) nhalf two_layers []
    (Some [k1 nzero; k1 ntwo]))) = Some [1067030938; 1073741824]%N /\
  bits_x (blend_run (mk_bjob (Some one_joint) (Some (mk_bctx 7 3 ntwo [splat ntwo; splat ntwo])) nhalf two_layers []
    (Some [k1 ntwo; k1 nzero]))) = Some [1067030938; 0]%N.
Proof. vm_compute. repeat split. Qed.

(** ** C30 *)
(** What a job that passes [validate] does: it returns Ok, unless no layer is effective and the
    output is longer than the rest pose, in which case it panics.  Conversely a job that returns
    Ok passes [validate]. *)
Theorem C30_valid_runs_partial :
  (forall (sk : skeleton f32) ctx thr ls adds out,
    rest_sized sk ->
    let j := mk_bjob (Some sk) (Some ctx) thr ls adds (Some out) in
    blend_validate j = true ->
    if existsb (fun l => negb (nle (ly_weight l) nzero)) ls || (length out =? num_soa_joints sk)%nat
    then exists s, blend_run j = BOk s
    else blend_run j = BPanic) /\
  (forall (j : bjob f32) s, blend_run j = BOk s -> blend_validate j = true).
Proof.
  split.
  - intros sk ctx thr ls adds out Hr j V.
    change (existsb (fun l => negb (nle (ly_weight l) nzero)) ls) with (existsb eff ls).
    destruct (existsb eff ls) eqn:E; cbn [orb].
    + apply existsb_exists in E.
      destruct (run_ok sub_zero_f32 sk ctx out thr ls adds Hr V (or_introl E)) as (c' & o' & R & _). eauto.
    + destruct (Nat.eqb_spec (length out) (num_soa_joints sk)) as [e|n].
      * destruct (run_ok sub_zero_f32 sk ctx out thr ls adds Hr V (or_intror e)) as (c' & o' & R & _). eauto.
      * apply (run_panics sub_zero_f32); auto.
        intros (l & I & El). assert (existsb eff ls = true) by (apply existsb_exists; eauto). congruence.
  - intros j s. apply run_ok_valid.
Qed.
Print Assumptions C30_valid_runs_partial.

(** The claim as documented is false: a valid job with no layer and a longer output panics. *)
Theorem C30_valid_job_refuted :
  exists j : bjob f32, blend_validate j = true /\ blend_run j = BPanic.
Proof.
  exists (mk_bjob (Some one_joint) (Some (mk_bctx 0 0 nzero [])) nhalf [] [] (Some [k1 nzero; k1 nzero])).
  split; vm_compute; reflexivity.
Qed.
Print Assumptions C30_valid_job_refuted.

(** ** C31 *)
(** A rejected job (missing field, bad threshold, short output, or a bad layer met before any
    layer was blended) leaves the output as it was. *)
Theorem C31_untouched_partial :
  forall (j : bjob f32) e c o out,
    bj_output j = Some out -> blend_run j = BErr e (c, o) ->
    (bj_skeleton j = None \/ bj_context j = None \/ nlt nzero (bj_threshold j) = false \/
     (exists sk, bj_skeleton j = Some sk /\ (length out < num_soa_joints sk)%nat) \/
     (exists sk pre l post, bj_skeleton j = Some sk /\ bj_layers j = pre ++ l :: post /\
        (forall p, In p pre -> nle (ly_weight p) nzero = true) /\
        ((length (ly_transform l) < num_soa_joints sk)%nat \/
         (ly_joint_weights l <> [] /\ (length (ly_joint_weights l) < num_soa_joints sk)%nat)))) ->
    e = InvalidJob /\ o = out.
Proof.
  intros j e c o out Ho H C. unfold blend_run in H. rewrite Ho in H.
  destruct (bj_skeleton j) as [sk|]; [|inversion H; auto].
  destruct (bj_context j) as [ctx|]; [|inversion H; auto]. cbv zeta in H.
  destruct (nlt nzero (bj_threshold j) && (num_soa_joints sk <=? length out)%nat) eqn:E; cbn [negb] in H;
    [|inversion H; auto].
  apply andb_prop in E. destruct E as [E1 E2]. apply Nat.leb_le in E2.
  destruct C as [C|[C|[C|[(sk' & C1 & C2)|(sk' & pre & l & post & C1 & C2 & C3 & C4)]]]]; try discriminate.
  - pose proof (eq_trans (eq_sym E1) C). discriminate.
  - inversion C1; subst sk'. exfalso; lia.
  - inversion C1; subst sk'. rewrite C2 in H. clear C2 C1.
    assert (B : layer_ok (num_soa_joints sk) l = false).
    { unfold layer_ok. destruct C4 as [C4|[C4 C5]].
      - replace (num_soa_joints sk <=? length (ly_transform l))%nat with false by (symmetry; apply Nat.leb_gt; exact C4).
        reflexivity.
      - destruct (ly_joint_weights l) as [|a t]; [contradiction|].
        replace (num_soa_joints sk <=? length (a :: t))%nat with false by (symmetry; apply Nat.leb_gt; exact C5).
        apply andb_false_r. }
    assert (G : forall pre s, (forall p, In p pre -> nle (ly_weight p) nzero = true) ->
      exists e, blend_layers (num_soa_joints sk) (pre ++ l :: post) s = BErr e s /\ e = InvalidJob).
    { clear - B. induction pre as [|p pre IH]; intros s Hp.
      - cbn [app blend_layers]. rewrite B. cbn [negb]. eauto.
      - cbn [app blend_layers]. destruct (layer_ok (num_soa_joints sk) p); cbn [negb]; [|eauto].
        change (@num_arith f32 f32num) with f32arith. rewrite (Hp p) by (left; reflexivity). apply IH. intros q I. apply Hp. right; exact I. }
    match type of H with context [blend_layers _ _ ?s0] => destruct (G pre s0 C3) as (e' & G1 & G2) end.
    rewrite G1 in H. inversion H; subst. auto.
Qed.
Print Assumptions C31_untouched_partial.
Example C31_example :
  blend_run (mk_bjob (Some one_joint) (Some (mk_bctx 0 0 nzero [])) nhalf [mk_layer [] none_ []] [] (Some [k1 ntwo]))
  = BErr InvalidJob (mk_bctx 0 0 nzero [splat nzero], [k1 ntwo]).
Proof. reflexivity. Qed.

(** The claim as documented is false: a bad second layer is found after the first was written. *)
Theorem C31_untouched_refuted :
  exists (j : bjob f32) e c o out,
    bj_output j = Some out /\ blend_run j = BErr e (c, o) /\ o <> out.
Proof.
  set (j := mk_bjob (Some one_joint) (Some (mk_bctx 0 0 nzero [])) nhalf
              [mk_layer [k1 none_] none_ []; mk_layer [] none_ []] [] (Some [k1 ntwo])).
  destruct (blend_run j) as [|e [c o]|] eqn:E.
  - exfalso. revert E. unfold j. cbn. discriminate.
  - exists j, e, c, o, [k1 ntwo]. split; [reflexivity|]. split; [exact E|].
    assert (B : map (fun t => f32_to_bits (l0 (vx (tr_t t)))) o = [1065353216%N]).
    { transitivity (match blend_run j with BErr _ (_, o) => map (fun t => f32_to_bits (l0 (vx (tr_t t)))) o | _ => [] end).
      - rewrite E. reflexivity.
      - vm_compute. reflexivity. }
    intros ->. revert B. vm_compute. discriminate.
  - exfalso. revert E. unfold j. cbn. discriminate.
Qed.
Print Assumptions C31_untouched_refuted.

(** ** C32 *)
Lemma valid_size {F} {NF : Num F} (sk : skeleton F) ctx thr ls adds out :
  blend_validate (mk_bjob (Some sk) (Some ctx) thr ls adds (Some out)) = true ->
  nlt nzero thr = true /\ (num_soa_joints sk <= length out)%nat.
Proof.
  unfold blend_validate. cbn [bj_skeleton bj_context bj_output bj_threshold bj_layers bj_additive]. intros V1.
  apply andb_prop in V1. destruct V1 as [V1 _]. apply andb_prop in V1. destruct V1 as [V1 _].
  apply andb_prop in V1. destruct V1 as [V0 V1]. apply Nat.leb_le in V1. auto.
Qed.
Lemma thr_pos (thr : R) : nlt nzero thr = true -> 0 < thr.
Proof.
  change (@num_arith R Rnum) with Rarith. rewrite nzero_R. cbn. destruct (Rltb_spec 0 thr); [auto|discriminate].
Qed.
Lemma ok_inv (sk : skeleton R) ctx thr ls adds out c o :
  rest_sized sk -> blend_run (mk_bjob (Some sk) (Some ctx) thr ls adds (Some out)) = BOk (c, o) ->
  0 < thr /\ (num_soa_joints sk <= length out)%nat /\ length o = length out /\
  (forall k, (k < num_soa_joints sk)%nat -> nth k o tr_identity = full_col sk thr ls adds k) /\
  (forall k, (num_soa_joints sk <= k)%nat -> nth_error o k = nth_error out k).
Proof.
  intros Hr H. pose proof (run_ok_valid _ _ H) as V. destruct (valid_size _ _ _ _ _ _ V) as [V1 V2].
  assert (D : effective ls \/ length out = num_soa_joints sk).
  { destruct (existsb eff ls) eqn:E.
    - left. apply existsb_exists in E. exact E.
    - right. destruct (Nat.eq_dec (length out) (num_soa_joints sk)) as [e|n]; [exact e|].
      exfalso. rewrite (run_panics sub_zero_R) in H; auto; [discriminate|].
      intros (l & I & El). assert (existsb eff ls = true) by (apply existsb_exists; eauto). congruence. }
  destruct (run_ok sub_zero_R sk ctx out thr ls adds Hr V D) as (c1 & o1 & R1 & L1 & P1 & T1).
  rewrite R1 in H. inversion H; subst. split; [apply thr_pos, V1|]. auto.
Qed.

(** Translation and scale: the weighted mean, completed with the rest pose. *)
Theorem C32_weighted_mean :
  forall (sk : skeleton R) ctx thr ls out c o,
    rest_sized sk ->
    blend_run (mk_bjob (Some sk) (Some ctx) thr ls [] (Some out)) = BOk (c, o) ->
    forall i comp, (i < 4 * num_soa_joints sk)%nat -> linear_component comp ->
      comp (joint o i) = mean thr ls (sk_rest sk) i comp.
Proof.
  intros sk ctx thr ls out c o Hr H i comp Hi Hc.
  destruct (ok_inv _ _ _ _ _ _ _ _ Hr H) as (Ht & _ & _ & P & _).
  unfold joint. rewrite P by (apply Nat.div_lt_upper_bound; lia).
  unfold full_col. cbn [fold_left]. apply (base_R sk thr ls i Ht), Hc.
Qed.
Print Assumptions C32_weighted_mean.

(** Rotation: the normalised sum of the layers' rotations, each taken in the hemisphere of the sum
    so far. *)
Theorem C32_rotation :
  forall (sk : skeleton R) ctx thr ls out c o,
    rest_sized sk ->
    blend_run (mk_bjob (Some sk) (Some ctx) thr ls [] (Some out)) = BOk (c, o) ->
    forall i, (i < 4 * num_soa_joints sk)%nat ->
      exists s, aligned_sum (terms thr ls (sk_rest sk) i) s /\
                tr_r (joint o i) = qscale (/ sqrt (norm2 s)) s.
Proof.
  intros sk ctx thr ls out c o Hr H i Hi.
  destruct (ok_inv _ _ _ _ _ _ _ _ Hr H) as (Ht & _ & _ & P & _).
  unfold joint. rewrite P by (apply Nat.div_lt_upper_bound; lia).
  unfold full_col. cbn [fold_left]. destruct (base_R sk thr ls i Ht) as (_ & s & A & B).
  exists s. split; [exact A|]. rewrite <- q_normalize_R. exact B.
Qed.
Print Assumptions C32_rotation.

(** Multiplying every weight by k > 0 changes nothing for joints at or above the threshold. *)
Definition scale_layer (k : R) (l : layer R) : layer R :=
  mk_layer (ly_transform l) (k * ly_weight l) (ly_joint_weights l).
Lemma jw_scale k l i : 0 < k -> joint_weight (scale_layer k l) i = k * joint_weight l i.
Proof.
  intros Hk. unfold joint_weight, scale_layer. cbn [ly_weight ly_joint_weights].
  rewrite <- (Rmult_0_r k) at 1. rewrite RmaxRmult by lra. ring.
Qed.
Lemma Rsum_ext {A} (f g : A -> R) l : (forall x, In x l -> f x = g x) -> Rsum f l = Rsum g l.
Proof.
  unfold Rsum. induction l as [|x l IH]; intros H; cbn; [reflexivity|].
  rewrite (H x) by (left; reflexivity). rewrite IH; [reflexivity|]. intros y I. apply H. right; exact I.
Qed.
Lemma Rsum_scale {A} (f : A -> R) k l : Rsum (fun x => k * f x) l = k * Rsum f l.
Proof. unfold Rsum. induction l as [|x l IH]; cbn; [ring|]. rewrite IH. ring. Qed.
Lemma Rsum_map {A B} (f : B -> R) (g : A -> B) l : Rsum f (map g l) = Rsum (fun x => f (g x)) l.
Proof. unfold Rsum. induction l as [|x l IH]; cbn; [reflexivity|]. rewrite IH. reflexivity. Qed.
Lemma Rsum_perm {A} (f : A -> R) l l' : Permutation l l' -> Rsum f l = Rsum f l'.
Proof. unfold Rsum. induction 1; cbn; lra. Qed.

Theorem C32_weights_scale :
  forall (sk : skeleton R) ctx ctx' thr ls out out' c o c' o' k,
    rest_sized sk -> 0 < k ->
    blend_run (mk_bjob (Some sk) (Some ctx) thr ls [] (Some out)) = BOk (c, o) ->
    blend_run (mk_bjob (Some sk) (Some ctx') thr (map (scale_layer k) ls) [] (Some out')) = BOk (c', o') ->
    forall i comp, (i < 4 * num_soa_joints sk)%nat -> linear_component comp ->
      thr <= total ls i -> thr <= k * total ls i ->
      comp (joint o i) = comp (joint o' i).
Proof.
  intros sk ctx ctx' thr ls out out' c o c' o' k Hr Hk H H' i comp Hi Hc T T'.
  destruct (ok_inv _ _ _ _ _ _ _ _ Hr H) as (Ht & _).
  rewrite (C32_weighted_mean _ _ _ _ _ _ _ Hr H i comp Hi Hc).
  rewrite (C32_weighted_mean _ _ _ _ _ _ _ Hr H' i comp Hi Hc).
  assert (E : total (map (scale_layer k) ls) i = k * total ls i).
  { unfold total. rewrite Rsum_map, <- Rsum_scale. apply Rsum_ext. intros l _. apply jw_scale, Hk. }
  unfold mean. rewrite E. rewrite !(Rmax_left 0) by lra. rewrite !(Rmax_right thr) by lra.
  rewrite Rsum_map.
  rewrite (Rsum_ext (fun x => joint_weight (scale_layer k x) i * comp (joint (ly_transform (scale_layer k x)) i))
             (fun l => k * (joint_weight l i * comp (joint (ly_transform l) i))) ls).
  - rewrite Rsum_scale. field. split; nra.
  - intros l _. rewrite jw_scale by exact Hk. cbn [scale_layer ly_transform]. ring.
Qed.
Print Assumptions C32_weights_scale.

(** The order of the layers does not matter for translation and scale. *)
Theorem C32_layer_order :
  forall (sk : skeleton R) ctx ctx' thr ls ls' out out' c o c' o',
    rest_sized sk -> Permutation ls ls' ->
    blend_run (mk_bjob (Some sk) (Some ctx) thr ls [] (Some out)) = BOk (c, o) ->
    blend_run (mk_bjob (Some sk) (Some ctx') thr ls' [] (Some out')) = BOk (c', o') ->
    forall i comp, (i < 4 * num_soa_joints sk)%nat -> linear_component comp ->
      comp (joint o i) = comp (joint o' i).
Proof.
  intros sk ctx ctx' thr ls ls' out out' c o c' o' Hr Hp H H' i comp Hi Hc.
  rewrite (C32_weighted_mean _ _ _ _ _ _ _ Hr H i comp Hi Hc).
  rewrite (C32_weighted_mean _ _ _ _ _ _ _ Hr H' i comp Hi Hc).
  unfold mean, total. rewrite !(Rsum_perm _ _ _ Hp). reflexivity.
Qed.
Print Assumptions C32_layer_order.

(** A concrete real job: two layers of weights 1 and 3 and x-translations 1 and 5 give 4. *)
Definition kR (x : R) : transform (V4 R) :=
  TR (V3 (splat x) (splat 0) (splat 0)) (Q4 (splat 0) (splat 0) (splat 0) (splat 1))
     (V3 (splat 1) (splat 1) (splat 1)).
Definition one_joint_R : skeleton R := mk_skel [kR 0] [(-1)%Z].
Lemma ltb_true x y : x < y -> Rltb x y = true.
Proof. intros H. destruct (Rltb_spec x y); [reflexivity|contradiction]. Qed.
Lemma run_R_example thr ls adds out : 0 < thr -> length out = 1%nat ->
  forallb (layer_ok 1) ls = true -> forallb (layer_ok 1) adds = true ->
  exists c o, blend_run (mk_bjob (Some one_joint_R) (Some (mk_bctx 0 0 0 [])) thr ls adds (Some out)) = BOk (c, o).
Proof.
  intros Ht Lo Hl Ha.
  destruct (run_ok sub_zero_R one_joint_R (mk_bctx 0 0 0 []) out thr ls adds) as (c & o & H & _).
  - reflexivity.
  - unfold blend_validate. cbn [bj_skeleton bj_context bj_output bj_threshold bj_layers bj_additive].
    change (num_soa_joints one_joint_R) with 1%nat. rewrite Hl, Ha, Lo.
    change (@num_arith R Rnum) with Rarith. rewrite nzero_R. change (@nlt R Rnum) with Rltb. rewrite ltb_true by exact Ht.
    reflexivity.
  - right. exact Lo.
  - eauto.
Qed.
Example C32_example :
  exists c o,
    blend_run (mk_bjob (Some one_joint_R) (Some (mk_bctx 0 0 0 [])) (1/10)
      [mk_layer [kR 1] 1 []; mk_layer [kR 5] 3 []] [] (Some [kR 9])) = BOk (c, o) /\
    vx (tr_t (joint o 0)) = 4.
Proof.
  destruct (run_R_example (1/10) [mk_layer [kR 1] 1 []; mk_layer [kR 5] 3 []] [] [kR 9]) as (c & o & H);
    [lra|reflexivity|reflexivity|reflexivity|].
  exists c, o. split; [exact H|].
  rewrite (C32_weighted_mean one_joint_R _ _ _ _ _ _ eq_refl H 0 (fun t => vx (tr_t t)) ltac:(cbn; lia) comp_tx).
  unfold mean, total, Rsum, joint_weight, mask, joint. cbn.
  rewrite !(Rmax_right 0) by lra. rewrite (Rmax_left 0) by lra. rewrite (Rmax_right (1/10)) by lra. lra.
Qed.

(** ** C33 *)
(** No layer of positive weight: the rest pose, bit for bit in translation and scale; rotations go
    through the job's normalisation. *)
Section RestPose.
  Context {F : Type} {NF : Num F}.
  Hypothesis sub_zero : forall t : F, nlt nzero t = true -> nlt nzero (nsub t nzero) = true.
  Hypothesis mul_recip_one : forall x : F, nmul x (nrecip none_) = x.
  Notation dT := (tr_identity : transform (V4 F)).
  Lemma rest_pose (sk : skeleton F) ctx thr ls out :
    rest_sized sk -> length out = num_soa_joints sk ->
    blend_validate (mk_bjob (Some sk) (Some ctx) thr ls [] (Some out)) = true ->
    (forall l, In l ls -> nle (ly_weight l) nzero = true) ->
    exists c o, blend_run (mk_bjob (Some sk) (Some ctx) thr ls [] (Some out)) = BOk (c, o) /\
      length o = length (sk_rest sk) /\
      forall k, (k < length (sk_rest sk))%nat ->
        tr_t (nth k o dT) = tr_t (nth k (sk_rest sk) dT) /\
        tr_s (nth k o dT) = tr_s (nth k (sk_rest sk) dT) /\
        tr_r (nth k o dT) = q_normalize (tr_r (nth k (sk_rest sk) dT)).
  Proof.
    intros Hr Ho V Hw.
    destruct (run_ok sub_zero sk ctx out thr ls [] Hr V (or_intror Ho)) as (c & o & R & L & P & _).
    exists c, o. split; [exact R|]. unfold rest_sized in Hr. split; [congruence|].
    intros k Hk. rewrite P by lia. unfold full_col. cbn [fold_left]. unfold base_col.
    rewrite cols_none.
    - cbn [rest_col fst snd normalize_one tr_t tr_s tr_r].
      assert (M : forall v : vec3 (V4 F), v3_mul_num v (nrecip (splat none_)) = v).
      { assert (M1 : forall a : V4 F, nmul a (nrecip (splat none_)) = a).
        { intros [a b c0 d]. change (mk4 (nmul a (nrecip none_)) (nmul b (nrecip none_)) (nmul c0 (nrecip none_))
            (nmul d (nrecip none_)) = mk4 a b c0 d). rewrite !mul_recip_one. reflexivity. }
        intros [a b c0]. unfold v3_mul_num. cbn [vx vy vz]. rewrite !M1. reflexivity. }
      rewrite !M. repeat split; reflexivity.
    - destruct (filter eff ls) as [|l t] eqn:E; [reflexivity|].
      assert (I : In l (filter eff ls)) by (rewrite E; left; reflexivity).
      apply filter_In in I. destruct I as [I1 I2]. unfold eff in I2. rewrite (Hw l I1) in I2. discriminate.
  Qed.
End RestPose.

Theorem C33_rest_pose :
  forall (sk : skeleton f32) ctx thr ls out,
    rest_sized sk -> length out = num_soa_joints sk ->
    blend_validate (mk_bjob (Some sk) (Some ctx) thr ls [] (Some out)) = true ->
    (forall l, In l ls -> nle (ly_weight l) nzero = true) ->
    exists c o, blend_run (mk_bjob (Some sk) (Some ctx) thr ls [] (Some out)) = BOk (c, o) /\
      length o = length (sk_rest sk) /\
      forall k, (k < length (sk_rest sk))%nat ->
        tr_t (nth k o tr_identity) = tr_t (nth k (sk_rest sk) tr_identity) /\
        tr_s (nth k o tr_identity) = tr_s (nth k (sk_rest sk) tr_identity) /\
        tr_r (nth k o tr_identity) = q_normalize (tr_r (nth k (sk_rest sk) tr_identity)).
Proof.
  apply (rest_pose sub_zero_f32). intros x.
  change (@num_arith f32 f32num) with f32arith. rewrite recip_one_f32. apply mul_one_f32.
Qed.
Print Assumptions C33_rest_pose.
(** A layer of weight -1 and one of weight 0 are ignored. *)
Example C33_example :
  bits_x (blend_run (mk_bjob (Some (mk_skel [k1 ntwo] [(-1)%Z])) (Some (mk_bctx 0 0 nzero [])) nhalf
    [mk_layer [k1 none_] (nneg none_) []; mk_layer [k1 none_] nzero []] [] (Some [k1 nzero]))) = Some [1073741824%N].
Proof. vm_compute. reflexivity. Qed.

(** A NaN weight is not positive either, but the layer is not skipped: the result is NaN. *)
Theorem C33_nan_weight_refuted :
  exists (sk : skeleton f32) ctx thr ls out c o,
    rest_sized sk /\ length out = num_soa_joints sk /\
    (forall l, In l ls -> nlt nzero (ly_weight l) = false) /\
    blend_run (mk_bjob (Some sk) (Some ctx) thr ls [] (Some out)) = BOk (c, o) /\
    l0 (vx (tr_t (nth 0 o tr_identity))) = B754_nan.
Proof.
  set (j := mk_bjob (Some (mk_skel [k1 ntwo] [(-1)%Z])) (Some (mk_bctx 0 0 nzero [])) nhalf
              [mk_layer [k1 none_] (B754_nan : f32) []] [] (Some [k1 nzero])).
  destruct (blend_run j) as [[c o]|e s|] eqn:E.
  - eexists _, _, _, _, _, c, o. split; [|split; [|split; [|split; [exact E|]]]].
    + reflexivity.
    + reflexivity.
    + intros l [<-|[]]. reflexivity.
    + assert (B : bits_x (blend_run j) = Some [2143289344%N]) by (vm_compute; reflexivity).
      rewrite E in B. cbn [bits_x] in B. inversion B as [B']. destruct o as [|t [|]]; try discriminate.
      cbn [nth map] in *. inversion B' as [B'']. apply to_bits_inj. exact B''.
  - exfalso. revert E. unfold j. cbn. discriminate.
  - exfalso. revert E. unfold j. cbn. discriminate.
Qed.
Print Assumptions C33_nan_weight_refuted.

(** ** C34 *)
Lemma v4_ext {A} (a b : V4 A) : (forall m, (m < 4)%nat -> lane a m = lane b m) -> a = b.
Proof.
  intros H. destruct a as [a0 a1 a2 a3], b as [b0 b1 b2 b3].
  pose proof (H 0%nat ltac:(lia)) as H0. pose proof (H 1%nat ltac:(lia)) as H1.
  pose proof (H 2%nat ltac:(lia)) as H2. pose proof (H 3%nat ltac:(lia)) as H3. cbn in *. congruence.
Qed.
Lemma tr_ext {A} (a b : transform (V4 A)) : (forall m, (m < 4)%nat -> lane_tr a m = lane_tr b m) -> a = b.
Proof.
  intros H. destruct a as [[a0 a1 a2] [a3 a4 a5 a6] [a7 a8 a9]], b as [[b0 b1 b2] [b3 b4 b5 b6] [b7 b8 b9]].
  f_equal; f_equal; apply v4_ext; intros m Hm; pose proof (H m Hm) as E; unfold lane_tr, lane_v3, lane_q in E;
    cbn [tr_t tr_r tr_s vx vy vz qx qy qz qw] in E; congruence.
Qed.

Definition negated (l : layer R) : layer R := mk_layer (ly_transform l) (- ly_weight l) (ly_joint_weights l).
(** The factor by which the layer multiplies a scale component [s]: 1 + w (s - 1). *)
Definition scale_factor (w s : R) : R := 1 + w * (s - 1).

Lemma sub_add_lane t w o : unitq (tr_r t) ->
  vx (tr_s t) * w + (1 - w) <> 0 -> vy (tr_s t) * w + (1 - w) <> 0 -> vz (tr_s t) * w + (1 - w) <> 0 ->
  s_add t w (s_sub t w o) = o.
Proof.
  intros U Hx Hy Hz. pose proof (normalize_unit _ (interp_nonzero t w U)) as N.
  unfold s_sub, s_add. cbn [tr_t tr_r tr_s].
  rewrite !s_mul_hamilton. change (q_conjugate (q_normalize (s_interp t w))) with (conj (q_normalize (s_interp t w))).
  set (n := q_normalize (s_interp t w)) in *.
  assert (E : hamilton (hamilton (tr_r o) (conj n)) n = tr_r o).
  { transitivity (qscale (norm2 n) (tr_r o)).
    - destruct (tr_r o), n. unfold qscale, norm2, hamilton, hvec, cross3, dot3, conj. cbn. f_equal; ring.
    - rewrite N. destruct (tr_r o). unfold qscale. cbn. f_equal; ring. }
  rewrite E. destruct o as [[a b c] q [d e f]]. cbn [tr_t tr_r tr_s vx vy vz].
  f_equal.
  - unfold v3_sub, v3_add, v3_mul_num. cbn. f_equal; ring.
  - f_equal; field; lra.
Qed.

Theorem C34_additive_cancels :
  forall (sk : skeleton R) ctx ctx' thr ls A l B out c o two,
    rest_sized sk -> layer_ok (num_soa_joints sk) l = true ->
    0 < ly_weight l ->
    (forall i, (i < 4 * num_soa_joints sk)%nat ->
       let t := joint (ly_transform l) i in
       unitq (tr_r t) /\
       scale_factor (joint_weight l i) (vx (tr_s t)) <> 0 /\
       scale_factor (joint_weight l i) (vy (tr_s t)) <> 0 /\
       scale_factor (joint_weight l i) (vz (tr_s t)) <> 0) ->
    two = [l; negated l] \/ two = [negated l; l] ->
    blend_run (mk_bjob (Some sk) (Some ctx) thr ls (A ++ B) (Some out)) = BOk (c, o) ->
    exists c', blend_run (mk_bjob (Some sk) (Some ctx') thr ls (A ++ two ++ B) (Some out)) = BOk (c', o).
Proof.
  intros sk ctx ctx' thr ls A l B out c o two Hr Hl Hw Ht Htwo H.
  pose proof (run_ok_valid _ _ H) as V.
  assert (Hl' : layer_ok (num_soa_joints sk) (negated l) = true) by exact Hl.
  assert (V2 : blend_validate (mk_bjob (Some sk) (Some ctx') thr ls (A ++ two ++ B) (Some out)) = true).
  { unfold blend_validate in *. cbn [bj_skeleton bj_context bj_output bj_threshold bj_layers bj_additive] in *.
    apply andb_prop in V. destruct V as [V1 V2]. rewrite V1. cbn [andb].
    rewrite !forallb_app in *. apply andb_prop in V2. destruct V2 as [V2 V3]. rewrite V2, V3.
    destruct Htwo as [-> | ->]; cbn [forallb]; rewrite Hl, Hl'; reflexivity. }
  destruct (ok_inv _ _ _ _ _ _ _ _ Hr H) as (Htp & Hn & Lo & P & T).
  assert (D : effective ls \/ length out = num_soa_joints sk).
  { destruct (existsb eff ls) eqn:E.
    - left. apply existsb_exists in E. exact E.
    - right. destruct (Nat.eq_dec (length out) (num_soa_joints sk)) as [e|n]; [exact e|].
      exfalso. rewrite (run_panics sub_zero_R) in H; auto; [discriminate|].
      intros (l' & I & El). assert (existsb eff ls = true) by (apply existsb_exists; eauto). congruence. }
  destruct (run_ok sub_zero_R sk ctx' out thr ls _ Hr V2 D) as (c' & o' & R' & Lo' & P' & T').
  exists c'. rewrite R'. do 2 f_equal.
  apply (nth_ext _ _ tr_identity tr_identity); [congruence|]. intros k Hk.
  destruct (Nat.lt_ge_cases k (num_soa_joints sk)) as [K|K].
  - rewrite P', P by exact K. unfold full_col. rewrite !fold_left_app. f_equal.
    set (b := fold_left (add_step k) A (base_col sk thr ls k)).
    assert (Pw : nlt nzero (ly_weight l) = true).
    { change (@num_arith R Rnum) with Rarith. rewrite nzero_R. apply ltb_true, Hw. }
    assert (Nw : nlt nzero (ly_weight (negated l)) = false /\ nlt (ly_weight (negated l)) nzero = true).
    { cbn [negated ly_weight]. change (@num_arith R Rnum) with Rarith. rewrite nzero_R. change (@nlt R Rnum) with Rltb. split.
      - destruct (Rltb_spec 0 (- ly_weight l)); [lra|reflexivity].
      - apply ltb_true. lra. }
    destruct Nw as [Nw1 Nw2].
    assert (SP : forall o0, add_step k o0 l =
      blend_add_pass (nth k (ly_transform l) tr_identity) (wat (ly_weight l) l k) (nsub none_ (wat (ly_weight l) l k)) o0).
    { intros o0. unfold add_step. change (@num_arith R Rnum) with Rarith in *. rewrite Pw. reflexivity. }
    assert (SN : forall o0, add_step k o0 (negated l) =
      blend_sub_pass (nth k (ly_transform l) tr_identity) (wat (ly_weight l) l k) (nsub none_ (wat (ly_weight l) l k)) o0).
    { intros o0. unfold add_step. change (@num_arith R Rnum) with Rarith in *. rewrite Nw1, Nw2. cbv zeta.
      replace (nneg (ly_weight (negated l))) with (ly_weight l) by (cbn; ring). reflexivity. }
    assert (J : forall m, (m < 4)%nat ->
      lane (wat (ly_weight l) l k) m = joint_weight l (4 * k + m) /\
      lane_tr (nth k (ly_transform l) tr_identity) m = joint (ly_transform l) (4 * k + m) /\ (4 * k + m < 4 * num_soa_joints sk)%nat).
    { intros m Hm.
      assert (E1 : ((4 * k + m) / 4 = k)%nat).
      { rewrite Nat.mul_comm, Nat.div_add_l, Nat.div_small by lia. lia. }
      assert (E2 : ((4 * k + m) mod 4 = m)%nat).
      { rewrite Nat.add_comm, Nat.mul_comm, Nat.mod_add by lia. apply Nat.mod_small. lia. }
      split; [|split; [|lia]].
      - rewrite jw_eff by (rewrite eff_R; apply ltb_true, Hw). rewrite <- wat_R, E1, E2. reflexivity.
      - unfold joint. rewrite E1, E2. reflexivity. }
    apply tr_ext. intros m Hm. destruct (J m Hm) as (J1 & J2 & J3).
    destruct (Ht _ J3) as (U & F1 & F2 & F3). unfold scale_factor in *.
    destruct Htwo as [-> | ->]; cbn [fold_left]; rewrite SP, SN.
    + rewrite lane_sub, lane_add by exact Hm. rewrite J1, J2. apply add_sub; auto; intros Z; [apply F1|apply F2|apply F3]; lra.
    + rewrite lane_add, lane_sub by exact Hm. rewrite J1, J2. apply sub_add_lane; auto; intros Z; [apply F1|apply F2|apply F3]; lra.
  - pose proof (T k K) as E1. pose proof (T' k K) as E2.
    rewrite (nth_error_nth' o' tr_identity) in E2 by lia. rewrite (nth_error_nth' o tr_identity) in E1 by lia. congruence.
Qed.
Print Assumptions C34_additive_cancels.
(** The hypotheses hold for a layer doubling scales with weight 1/2. *)
Example C34_example :
  let l := mk_layer [kR 3] (1/2) [] in
  layer_ok (num_soa_joints one_joint_R) l = true /\ 0 < ly_weight l /\
  (forall i, (i < 4)%nat ->
     unitq (tr_r (joint (ly_transform l) i)) /\ scale_factor (joint_weight l i) (vx (tr_s (joint (ly_transform l) i))) <> 0) /\
  exists c o, blend_run (mk_bjob (Some one_joint_R) (Some (mk_bctx 0 0 0 [])) 1 [] [l; negated l] (Some [kR 9])) = BOk (c, o).
Proof.
  cbv zeta. split; [reflexivity|]. split; [cbn; lra|]. split.
  - intros i Hi. unfold unitq, norm2, scale_factor, joint_weight, mask, joint.
    rewrite Nat.div_small, Nat.mod_small by exact Hi. cbn [ly_transform ly_weight ly_joint_weights nth].
    rewrite Rmax_right by lra.
    destruct i as [|[|[|[|i]]]]; [..|lia]; cbn; split; lra.
  - apply run_R_example; [lra|reflexivity|reflexivity|reflexivity].
Qed.

(** ** C35 *)
(** If the rotations given to the job are not zero quaternions (and those of the additive layers
    are unit quaternions), every rotation it outputs is a unit quaternion: the blended sum cannot
    vanish. *)
Theorem C35_unit_rotations :
  forall (sk : skeleton R) ctx thr ls adds out c o,
    rest_sized sk ->
    blend_run (mk_bjob (Some sk) (Some ctx) thr ls adds (Some out)) = BOk (c, o) ->
    forall i, (i < 4 * num_soa_joints sk)%nat ->
      is_nonzero (tr_r (joint (sk_rest sk) i)) ->
      (forall l, In l ls -> 0 < ly_weight l -> is_nonzero (tr_r (joint (ly_transform l) i))) ->
      (forall l, In l adds -> unitq (tr_r (joint (ly_transform l) i))) ->
      unitq (tr_r (joint o i)).
Proof.
  intros sk ctx thr ls adds out c o Hr H i Hi Nr Nl Na.
  destruct (ok_inv _ _ _ _ _ _ _ _ Hr H) as (Ht & Hn & Lo & P & T).
  pose proof (Nat.mod_upper_bound i 4 ltac:(lia)) as Hm.
  unfold joint. rewrite P by (apply Nat.div_lt_upper_bound; lia). unfold full_col.
  assert (B : unitq (tr_r (lane_tr (base_col sk thr ls (i / 4)) (i mod 4)))).
  { destruct (base_R sk thr ls i Ht) as (_ & s & A & E). rewrite E. apply normalize_unit.
    apply Rgt_not_eq. apply (aligned_pos _ s A).
    - intros w q I. unfold terms in I. apply in_app_or in I. destruct I as [I|[I|[]]].
      + apply in_map_iff in I. destruct I as (l & I1 & I2). inversion I1; subst w q.
        apply filter_In in I2. destruct I2 as [I2 I3]. split; [apply jw_nonneg|]. apply Nl; [exact I2|].
        destruct (Rltb_spec 0 (ly_weight l)); [assumption|discriminate].
      + inversion I; subst w q. split; [apply Rmax_l|exact Nr].
    - destruct (Rlt_le_dec (total ls i) thr) as [L|G].
      + exists (Rmax 0 (thr - total ls i)), (tr_r (joint (sk_rest sk) i)). split.
        * unfold terms. apply in_or_app. right. left. reflexivity.
        * rewrite Rmax_right by lra. lra.
      + assert (Pos : 0 < total ls i) by lra.
        assert (Ex : exists l, In l ls /\ 0 < joint_weight l i).
        { unfold total, Rsum in Pos. clear - Pos. induction ls as [|l ls IH]; cbn in Pos; [lra|].
          destruct (Rlt_le_dec 0 (joint_weight l i)) as [Q|Q].
          - exists l. split; [left; reflexivity|exact Q].
          - pose proof (jw_nonneg l i). destruct IH as (l' & I & Q'); [lra|]. exists l'. split; [right; exact I|exact Q']. }
        destruct Ex as (l & I & Q). exists (joint_weight l i), (tr_r (joint (ly_transform l) i)). split; [|exact Q].
        unfold terms. apply in_or_app. left. apply in_map_iff. exists l. split; [reflexivity|].
        apply filter_In. split; [exact I|].
        destruct (Rltb_spec 0 (ly_weight l)) as [W|W]; [reflexivity|]. exfalso.
        unfold joint_weight in Q. rewrite Rmax_left in Q by lra. lra. }
  clear P H T. revert B. generalize (base_col sk thr ls (i / 4)).
  revert Na. induction adds as [|l adds IH]; intros Na b B; [exact B|].
  cbn [fold_left]. apply IH; [intros l' I; apply Na; right; exact I|].
  assert (U : unitq (tr_r (joint (ly_transform l) i))) by (apply Na; left; reflexivity). unfold joint in U.
  assert (G : forall w, unitq (q_normalize (s_interp (lane_tr (nth (i / 4) (ly_transform l) tr_identity) (i mod 4)) w)))
    by (intros w; apply normalize_unit, interp_nonzero, U).
  unfold add_step. destruct (nlt nzero (ly_weight l)); [|destruct (nlt (ly_weight l) nzero); [|exact B]]; cbv zeta.
  - rewrite lane_add by exact Hm. unfold s_add. cbn [tr_r]. rewrite s_mul_hamilton. unfold unitq.
    rewrite hamilton_norm. rewrite (G _), B. ring.
  - rewrite lane_sub by exact Hm. unfold s_sub. cbn [tr_r]. rewrite s_mul_hamilton. unfold unitq.
    rewrite hamilton_norm. rewrite B.
    match goal with |- context [q_conjugate ?q] => replace (norm2 (q_conjugate q)) with (norm2 q) by (unfold norm2; cbn; ring) end.
    rewrite (G _). ring.
Qed.
Print Assumptions C35_unit_rotations.
(** Two opposite representatives of the identity rotation do not cancel out. *)
Example C35_example :
  let l q := mk_layer [TR (V3 (splat 0) (splat 0) (splat 0)) (Q4 (splat 0) (splat 0) (splat 0) (splat q))
                        (V3 (splat 1) (splat 1) (splat 1))] 1 [] in
  exists c o,
    blend_run (mk_bjob (Some one_joint_R) (Some (mk_bctx 0 0 0 [])) 1 [l 1; l (-1)] [] (Some [kR 9])) = BOk (c, o) /\
    unitq (tr_r (joint o 0)).
Proof.
  cbv zeta.
  destruct (run_R_example 1 [mk_layer [TR (V3 (splat 0) (splat 0) (splat 0)) (Q4 (splat 0) (splat 0) (splat 0) (splat 1))
                        (V3 (splat 1) (splat 1) (splat 1))] 1 [];
                             mk_layer [TR (V3 (splat 0) (splat 0) (splat 0)) (Q4 (splat 0) (splat 0) (splat 0) (splat (-1)))
                        (V3 (splat 1) (splat 1) (splat 1))] 1 []] [] [kR 9]) as (c & o & H);
    [lra|reflexivity|reflexivity|reflexivity|].
  exists c, o. split; [exact H|].
  apply (C35_unit_rotations one_joint_R _ _ _ _ _ _ _ eq_refl H 0 ltac:(cbn; lia)).
  - unfold is_nonzero, norm2, joint. cbn. lra.
  - intros l [<-|[<-|[]]] _; unfold is_nonzero, norm2, joint; cbn; lra.
  - intros l [].
Qed.
