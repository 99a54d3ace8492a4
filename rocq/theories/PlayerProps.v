(** C73: what a frame shows depends on that frame only. *)
From Flocq Require Import IEEE754.BinarySingleNaN.
From Verif Require Import Base Num NumF32 Math Keys Skeleton SkeletonSpec Blending Sampling SamplingSpec SamplingHist SamplingProps.
From Verif Require Import Player PlayerSpec PlayerProofs.

(** Take a new player of [n] layers, and let it play any frames: any animations of [lib], at any
    ratios (NaN and infinities included), with any weights and thresholds; frames that are rejected
    half way (an animation too large, joint weights too short, a bad threshold) included.  Then a
    valid frame is drawn, and shows what PlayerSpec.v says, where no context, buffer or earlier frame
    is mentioned. *)
Theorem C73_frames_stand_alone :
  forall (outside : nat -> N) (sk : skeleton f32) (lib : list animf) (n : nat) (new : player) (history : list frame) (fr : frame),
    (forall j, (outside j < 256)%N) -> skeleton_ok sk -> animations sk lib ->
    new_player sk n new -> Forall (uses lib) history -> uses lib fr -> valid_frame sk n fr ->
    exists p p', play_all outside sk new history = Some p /\ play outside sk p fr = Some (Drawn, p') /\ shows sk fr (pl_models p').
Proof.
  intros outside sk lib n new history fr Ho SK LIB N HH HU HV.
  destruct (play_all_ok outside sk lib n Ho SK LIB history new (new_inv sk lib n new N) HH) as (p & E & I).
  destruct (play_ok outside Ho sk lib SK LIB n p fr I HU) as (r & p' & E' & _ & G).
  destruct (G HV) as [-> S]. exists p, p'. auto.
Qed.
Print Assumptions C73_frames_stand_alone.

(** Two players with different pasts draw the same matrices, bit for bit. *)
Theorem C73_same_frame_same_matrices :
  forall (outside outside' : nat -> N) (sk : skeleton f32) (lib lib' : list animf) (n : nat) (new new' p p' q q' : player)
         (history history' : list frame) (fr : frame),
    (forall j, (outside j < 256)%N) -> (forall j, (outside' j < 256)%N) ->
    skeleton_ok sk -> animations sk lib -> animations sk lib' -> new_player sk n new -> new_player sk n new' ->
    Forall (uses lib) history -> Forall (uses lib') history' -> uses lib fr -> uses lib' fr -> valid_frame sk n fr ->
    play_all outside sk new history = Some p -> play_all outside' sk new' history' = Some p' ->
    play outside sk p fr = Some (Drawn, q) -> play outside' sk p' fr = Some (Drawn, q') ->
    pl_models q = pl_models q'.
Proof.
  intros outside outside' sk lib lib' n new new' p p' q q' history history' fr Ho Ho' SK LIB LIB' N N' H H' U U' V E1 E1' E2 E2'.
  destruct (C73_frames_stand_alone outside sk lib n new history fr Ho SK LIB N H U V) as (a & b & A1 & A2 & A3).
  destruct (C73_frames_stand_alone outside' sk lib' n new' history' fr Ho' SK LIB' N' H' U' V) as (a' & b' & A1' & A2' & A3').
  rewrite E1 in A1. injection A1 as <-. rewrite E2 in A2. injection A2 as <-.
  rewrite E1' in A1'. injection A1' as <-. rewrite E2' in A2'. injection A2' as <-.
  apply (shows_unique sk fr); try assumption.
  destruct V as (_ & _ & V). eapply Forall_impl; [|exact V]. intros i [A _]. exact A.
Qed.
Print Assumptions C73_same_frame_same_matrices.

(** Three joints in a chain; the animation of C01_example in two layers and once more as an additive
    layer. *)
Definition pe_skel : skeleton f32 := mk_skel [TR v3_zero q_identity v3_one] [-1; 0; 1]%Z.
Definition pe_frame (r w : Z) (thr : Z) : frame :=
  mk_frame [mk_input (ex_anim 16) (f32_lit r (-3)) (f32_lit w 0) [] false;
            mk_input (ex_anim 32) (f32_lit 1 (-3)) (f32_lit 1 0) [splat nhalf] false;
            mk_input (ex_anim 16) B754_nan nhalf [] true] (f32_lit thr (-2)) mat_identity.
Definition pe_new (x : f32) : player :=
  mk_player [(ex_ctx 4, [TR (V3 (splat x) (splat x) (splat x)) q_identity v3_one]); (ex_ctx 3, ex_out); (ex_ctx 4, ex_out)]
            (mk_bctx 5 7 x []) ex_out (repeat mat_identity 3).
(** A frame is rejected for its threshold after the layers were sampled. *)
Definition pe_history : list frame := [pe_frame 8 3 1; pe_frame 0 0 0; pe_frame (-9) 1 4].
Definition bits4 (v : V4 f32) : list N := map f32_to_bits [l0 v; l1 v; l2 v; l3 v].
Definition matrix_bits (r : option (outcome * player)) : list (list (list N)) :=
  match r with
  | Some (Drawn, p) => map (fun m => [bits4 (l0 m); bits4 (l1 m); bits4 (l2 m); bits4 (l3 m)]) (pl_models p)
  | _ => []
  end.
Example C73_hypotheses :
  skeleton_ok pe_skel /\ animations pe_skel [ex_anim 16; ex_anim 32] /\
  new_player pe_skel 3 (pe_new nhalf) /\ new_player pe_skel 3 (pe_new B754_nan) /\
  Forall (uses [ex_anim 16; ex_anim 32]) pe_history /\ uses [ex_anim 16; ex_anim 32] (pe_frame 3 2 1) /\
  valid_frame pe_skel 3 (pe_frame 3 2 1).
Proof.
  assert (U : forall r w t, uses [ex_anim 16; ex_anim 32] (pe_frame r w t)).
  { intros r w t. unfold uses, pe_frame. cbn [fr_layers].
    apply Forall_cons; [left; reflexivity|]. apply Forall_cons; [right; left; reflexivity|].
    apply Forall_cons; [left; reflexivity|]. apply Forall_nil. }
  assert (NP : forall x, new_player pe_skel 3 (pe_new x)).
  { intros x. split; [reflexivity|]. split; [|split; reflexivity]. cbn [pl_layers pe_new].
    repeat (apply Forall_cons; [split; [repeat split|split; reflexivity]|]). apply Forall_nil. }
  split; [|split; [|split; [|split; [|split; [|split]]]]]; try apply NP; try apply U.
  - split; [|split; [reflexivity|cbn; lia]]. intros i p H. do 3 (destruct i as [|i]; [injection H as <-; lia|]). destruct i; discriminate.
  - split; [split|].
    + intros a [<-|[<-|[]]]; (split; [vm_compute; reflexivity|apply le_n]).
    + intros a b [<-|[<-|[]]] [<-|[<-|[]]] E; try reflexivity; discriminate E.
    + intros a [<-|[<-|[]]]; discriminate.
  - unfold pe_history. repeat (apply Forall_cons; [apply U|]). apply Forall_nil.
  - split; [reflexivity|]. split; [vm_compute; reflexivity|]. unfold pe_frame. cbn [fr_layers].
    apply Forall_cons; [split; [reflexivity|left; reflexivity]|]. apply Forall_cons; [split; [reflexivity|right; apply le_n]|].
    apply Forall_cons; [split; [reflexivity|left; reflexivity]|]. apply Forall_nil.
Qed.
(** The history really spoils the buffers (its frames show other matrices, one is rejected), and the
    frame shows the same matrices with and without it. *)
Example C73_example :
  let alone := play (fun _ => 0%N) pe_skel (pe_new B754_nan) (pe_frame 3 2 1) in
  match play_all (fun _ => 0%N) pe_skel (pe_new nhalf) pe_history with
  | Some p =>
      matrix_bits (play (fun _ => 0%N) pe_skel p (pe_frame 3 2 1)) = matrix_bits alone /\
      matrix_bits (Some (Drawn, p)) <> matrix_bits alone /\ matrix_bits alone <> [] /\
      match play (fun _ => 0%N) pe_skel p (pe_frame 3 2 0) with Some (Failed InvalidJob, _) => True | _ => False end
  | None => False
  end.
Proof. vm_compute. repeat split; discriminate. Qed.
