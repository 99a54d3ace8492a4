(** binary32 and R satisfy the order facts used by the sampling proofs. *)
From Coq Require Import Reals Lra.
From Flocq Require Import IEEE754.BinarySingleNaN Core.
From Verif Require Import Base Num NumF32 NumR F32Facts Sampling SamplingSpec.
Local Open Scope R_scope.

Lemma f32_iframe (iv r : f32) :
  nlt nzero iv = true -> nle nzero r = true -> nle r none_ = true ->
  (0 <= nto_i32 (nhalf + r / iv)%num <= nto_i32 (nhalf + none_ / iv)%num)%Z.
Proof.
  intros Hi H0 H1.
  apply Bltb_iff in Hi. destruct Hi as (_ & Ni & Hi). rewrite zero_ext in Hi.
  apply Bleb_iff in H0. destruct H0 as (_ & Nr & H0). rewrite zero_ext in H0.
  apply Bleb_iff in H1. destruct H1 as (_ & _ & H1). rewrite one_ext in H1.
  pose proof BIG_pos as Hb. assert (HB : 2 < BIG) by (rewrite BIG_val; apply IZR_lt; reflexivity).
  assert (Fr : is_finite r = true).
  { destruct r as [|s| |]; try reflexivity; try discriminate. destruct s; simpl ext in *; lra. }
  rewrite ext_finite in H0, H1 by assumption.
  assert (Fh : is_finite (@nhalf f32 _) = true /\ B2R (@nhalf f32 _) = / 2).
  { change (@nhalf f32 _) with (f32_lit 1 (-1)).
    destruct (f32_lit_exact 1 (-1) ltac:(simpl; lia) ltac:(lia)) as [A B]. split; [assumption|].
    rewrite B. simpl. lra. }
  assert (Fo : is_finite (@none_ f32 _) = true /\ B2R (@none_ f32 _) = 1).
  { change (@none_ f32 _) with (f32_lit 1 0).
    destruct (f32_lit_exact 1 0 ltac:(simpl; lia) ltac:(lia)) as [A B]. split; [assumption|].
    rewrite B. simpl. lra. }
  destruct Fh as [Fh Vh]. destruct Fo as [Fo Vo].
  assert (D : exists a b, (r / iv)%num = a /\ (none_ / iv)%num = b /\ is_nan a = false /\ is_nan b = false /\
            0 <= ext a /\ ext a <= ext b).
  { destruct (is_finite iv) eqn:Fi.
    - rewrite ext_finite in Hi by assumption.
      destruct (div_ext r iv Fr Fi H0 Hi) as [Na Ea].
      destruct (div_ext none_ iv Fo Fi ltac:(lra) Hi) as [Nb Eb].
      eexists _, _. do 2 (split; [reflexivity|]). do 2 (split; [assumption|]).
      rewrite Ea, Eb.
      assert (Hinv : 0 < / B2R iv) by (apply Rinv_0_lt_compat; assumption).
      split.
      + apply Rmin_glb; [|lra]. apply rnd32_ge0. unfold Rdiv. apply Rmult_le_pos; lra.
      + apply Rle_min_compat_r. apply rnd32_le. unfold Rdiv.
        apply Rmult_le_compat_r; [lra|]. rewrite Vo. lra.
    - destruct iv as [|s| |]; try discriminate. destruct s; simpl ext in Hi; [lra|].
      destruct r as [sr|sr| |sr mr er br]; try discriminate;
        (eexists _, _; do 2 (split; [reflexivity|]); split; [reflexivity|]; split; [reflexivity|]; simpl; lra). }
  destruct D as (a & b & -> & -> & Na & Nb & H0a & Hab).
  assert (Hhp : 0 < B2R (@nhalf f32 _)) by lra.
  destruct (add_pos_ext nhalf a Fh Hhp Na H0a) as [N1 E1].
  destruct (add_pos_ext nhalf b Fh Hhp Nb ltac:(lra)) as [N2 E2].
  assert (L : 0 <= ext (nhalf + a)%num /\ ext (nhalf + a)%num <= ext (nhalf + b)%num).
  { rewrite E1, E2. destruct (is_finite a) eqn:Fa.
    - rewrite ext_finite in H0a, Hab by assumption. split.
      + apply Rmin_glb; [|lra]. apply rnd32_ge0. lra.
      + destruct (is_finite b) eqn:Fb.
        * rewrite (ext_finite b Fb) in Hab. apply Rle_min_compat_r, rnd32_le. lra.
        * apply Rmin_r.
    - split; [lra|]. destruct (is_finite b) eqn:Fb; [|lra]. exfalso.
      rewrite (ext_finite b Fb) in Hab. pose proof (finite_bound b Fb).
      destruct a as [|s| |]; try discriminate. destruct s; simpl ext in *; lra. }
  destruct L as [L1 L2]. split; [|apply to_i32_le; assumption].
  change 0%Z with (f32_to_i32 nzero). apply to_i32_le; [reflexivity|assumption|]. rewrite zero_ext. exact L1.
Qed.

#[global] Instance f32_ord : OrdNum f32.
Proof.
  constructor.
  - intros a b H. apply Bleb_iff in H. destruct H as (Ha & Hb & H).
    split; apply Bleb_iff; repeat split; auto; lra.
  - intros a b c H1 H2. apply Bleb_iff in H1, H2. apply Bleb_iff. intuition lra.
  - intros a b Ha Hb. apply Bleb_iff in Ha, Hb. simpl nlt; simpl nle.
    rewrite Bltb_ext, Bleb_ext by tauto.
    destruct (Rlt_bool_spec (ext b) (ext a)); destruct (Rle_bool_spec (ext a) (ext b)); auto; lra.
  - exact f32_iframe.
Qed.

Lemma Rtrunc_mono x y : 0 <= x -> x <= y -> (0 <= Rtrunc x <= Rtrunc y)%Z.
Proof.
  intros H0 H. unfold Rtrunc. destruct (Rlt_dec x 0); [lra|]. destruct (Rlt_dec y 0); [lra|].
  destruct (base_Int_part x) as [A1 A2]. destruct (base_Int_part y) as [B1 B2].
  assert (-1 < Int_part x)%Z by (apply lt_IZR; simpl; lra).
  assert (Int_part x < Int_part y + 1)%Z by (apply lt_IZR; rewrite plus_IZR; simpl; lra). lia.
Qed.

#[global] Instance R_ord : OrdNum R.
Proof.
  constructor; cbn [nle nlt Rnum].
  - intros a b _. destruct (Rleb_spec a a), (Rleb_spec b b); auto; lra.
  - intros a b c. destruct (Rleb_spec a b), (Rleb_spec b c), (Rleb_spec a c); auto; lra.
  - intros a b _ _. destruct (Rltb_spec b a), (Rleb_spec a b); auto; lra.
  - intros iv r. change (@num_arith R Rnum) with Rarith. rewrite nzero_R, none_R, nhalf_R. cbn [ndiv nadd Rarith num_arith Rnum nto_i32].
    destruct (Rltb_spec 0 iv) as [Hi|]; [|discriminate].
    destruct (Rleb_spec 0 r) as [H0|]; [|discriminate].
    destruct (Rleb_spec r 1) as [H1|]; [|discriminate]. intros _ _ _.
    assert (Hinv : 0 < / iv) by (apply Rinv_0_lt_compat; assumption).
    assert (0 <= r / iv) by (unfold Rdiv; apply Rmult_le_pos; lra).
    assert (r / iv <= 1 / iv) by (unfold Rdiv; apply Rmult_le_compat_r; lra).
    pose proof (Rtrunc_mono (/ 2 + r / iv) (/ 2 + 1 / iv) ltac:(lra) ltac:(lra)). lia.
Qed.

(** Clamping a binary32 value to [lo, hi], upper bound first. *)
Lemma clamp_facts (x lo hi : f32) :
  is_nan lo = false -> is_nan hi = false -> Bleb lo hi = true ->
  let y := f32_max (f32_min x hi) lo in
  Bleb lo y = true /\ Bleb y hi = true /\
  (Bleb lo x = true -> Bleb x hi = true -> y = x) /\
  (Bltb x lo = true -> y = lo) /\
  (Bltb hi x = true -> y = hi) /\
  (is_nan x = true -> y = hi).
Proof.
  intros Nl Nh Hlh.
  assert (E : f32_max (f32_min x hi) lo =
              let y := if is_nan x then hi else if Bleb x hi then x else hi in if Bleb lo y then y else lo).
  { unfold f32_max, f32_min. rewrite Nl, Nh. cbv zeta.
    destruct (is_nan x) eqn:Nx; [rewrite Nh; reflexivity|].
    destruct (Bleb x hi); rewrite ?Nx, ?Nh; reflexivity. }
  cbv zeta. rewrite E. cbv zeta.
  assert (Rl : Bleb lo lo = true) by (apply Bleb_iff; repeat split; auto; apply Rle_refl).
  assert (Rh : Bleb hi hi = true) by (apply Bleb_iff; repeat split; auto; apply Rle_refl).
  assert (LN : forall u v : f32, Bltb u v = true -> Bleb v u = true -> False).
  { intros u v H1 H2. apply Bltb_iff in H1. apply Bleb_iff in H2.
    destruct H1 as (_ & _ & H1), H2 as (_ & _ & H2). exact (Rlt_irrefl _ (Rlt_le_trans _ _ _ H1 H2)). }
  assert (LL : forall u v : f32, Bltb u v = true -> Bleb u v = true).
  { intros u v H1. apply Bltb_iff in H1. apply Bleb_iff. destruct H1 as (? & ? & H1). repeat split; auto. left; exact H1. }
  assert (TR : forall u v w : f32, Bleb u v = true -> Bleb v w = true -> Bleb u w = true).
  { intros u v w H1 H2. apply Bleb_iff in H1, H2. apply Bleb_iff.
    destruct H1 as (? & ? & H1), H2 as (? & ? & H2). repeat split; auto. exact (Rle_trans _ _ _ H1 H2). }
  destruct (is_nan x) eqn:Nx.
  - rewrite Hlh. repeat split; auto; intros H.
    + intros H2. apply Bleb_iff in H. destruct H as (_ & H & _). congruence.
    + apply Bltb_iff in H. destruct H as (H & _). congruence.
  - destruct (Bleb x hi) eqn:L1.
    + destruct (Bleb lo x) eqn:L0; (repeat split; auto; try discriminate; intros H).
      * exfalso. eauto.
      * exfalso. eauto.
      * exfalso. eauto.
    + rewrite Hlh. repeat split; auto; try discriminate; intros H.
      exfalso. rewrite (TR x lo hi (LL _ _ H) Hlh) in L1. discriminate.
Qed.
