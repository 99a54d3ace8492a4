(** C01-C05: sampling. *)
From Coq Require Import Reals.
From Flocq Require Import IEEE754.BinarySingleNaN.
From Verif Require Import Base Num NumF32 NumR F32Facts Math Gv4Spec Keys KeysSpec KeysProofs.
From Verif Require Import Sampling SamplingSpec SamplingCache SamplingProofs SamplingHist SamplingOrd.

(** Sampling on binary32 with the decoders of animation.rs. *)
Notation anim32 := (animation f32 key key).
Notation run32 := (run float3_simd_decompress quat_simd_decompress).
Notation exec32 := (exec float3_simd_decompress quat_simd_decompress).
(** One decoded translation or scale key: three half floats. *)
Definition float3_lane (k : key) : vec3 f32 :=
  V3 (simd_f16_lane (vx k)) (simd_f16_lane (vy k)) (simd_f16_lane (vz k)).
Notation sampled32 := (sampled float3_lane quat_decompress).
Definition key0 : key := V3 0%N 0%N 0%N.

(** C01.  Take any set [lib] of well-formed animations at distinct non-null addresses, none with
    fewer SoA tracks than the context; any new context (its arrays hold anything); any history of
    runs (at any ratios in [0,1], on any of these animations, accepted or rejected), clears and
    clones; any bytes in memory after the compressed iframes.  Then a run at ratio [r] on an
    animation of the context's size succeeds, and its output is the sample of SamplingSpec.v,
    which mentions neither the context nor the history. *)
Theorem C01_sampling_history_independent :
  forall (outside : nat -> N) (lib : list anim32) (c0 : context f32) (history : list (@op f32 key key))
         (a : anim32) (r : f32) (output : list (transform (V4 f32))),
    (forall j, (outside j < 256)%N) ->
    (forall b, In b lib -> an_id b <> 0%N) ->
    library (cx_max_soa c0) lib -> fresh c0 -> Forall (op_ok lib) history ->
    In a lib -> num_soa a = cx_max_soa c0 -> nle nzero r = true -> nle r none_ = true ->
    num_soa a <= length output ->
    exists c c' output',
      exec32 outside c0 history = Ok c /\
      run32 outside (Some a) (Some c) r (Some output) = Ok (c', output') /\
      sampled32 a key0 key0 r output output'.
Proof.
  exact (fun outside lib c0 history a r output Hout Hz =>
    history_sampled float3_simd_decompress quat_simd_decompress outside float3_lane quat_decompress
      (fun k0 k1 k2 k3 l H => KeysProofs.float3_lanes k0 k1 k2 k3 l H) quat_lanes Hout key0 key0 lib c0 history a r output Hz).
Qed.
Print Assumptions C01_sampling_history_independent.

(** C01, for any number type and any key decoders that act lane by lane. *)
Theorem C01_sampling_history_independent_generic :
  forall (F : Type) (NF : Num F) (ON : OrdNum F) (K3 KQ : Type)
         (dec3 : K3 -> K3 -> K3 -> K3 -> vec3 (V4 F)) (decq : KQ -> KQ -> KQ -> KQ -> quat (V4 F))
         (dec3_lane : K3 -> vec3 F) (decq_lane : KQ -> quat F) (d3 : K3) (dq : KQ)
         (outside : nat -> N) (lib : list (animation F K3 KQ)) (c0 : context F) (history : list op)
         (a : animation F K3 KQ) (r : F) (output : list (transform (V4 F))),
    (forall k0 k1 k2 k3 l, l < 4 ->
       lane_v3 (dec3 k0 k1 k2 k3) l = dec3_lane (lane (mk4 k0 k1 k2 k3) l)) ->
    (forall k0 k1 k2 k3 l, l < 4 ->
       lane_q (decq k0 k1 k2 k3) l = decq_lane (lane (mk4 k0 k1 k2 k3) l)) ->
    (forall j, (outside j < 256)%N) ->
    (forall b, In b lib -> an_id b <> 0%N) ->
    library (cx_max_soa c0) lib -> fresh c0 -> Forall (op_ok lib) history ->
    In a lib -> num_soa a = cx_max_soa c0 -> nle nzero r = true -> nle r none_ = true ->
    num_soa a <= length output ->
    exists c c' output',
      exec dec3 decq outside c0 history = Ok c /\
      run dec3 decq outside (Some a) (Some c) r (Some output) = Ok (c', output') /\
      sampled dec3_lane decq_lane a d3 dq r output output'.
Proof.
  exact (fun F NF ON K3 KQ dec3 decq d3l dql d3 dq outside lib c0 history a r output H3 Hq Hout =>
    history_sampled dec3 decq outside d3l dql H3 Hq Hout d3 dq lib c0 history a r output).
Qed.
Print Assumptions C01_sampling_history_independent_generic.

(** C01, what [sample_pair] is: two consecutive keys of the track, the left one at or before the
    ratio, the right one after it unless it is the last key of the track. *)
Theorem C01_sample_pair_brackets :
  forall (F : Type) (NF : Num F) (ON : OrdNum F) (num_tracks ns : nat) (tp : list F) (k : ctrl F) (r : F) (t : nat),
    wf_chan num_tracks ns tp k -> nle nzero r = true -> t < 4 * ns ->
    let p := sample_pair (4 * ns) tp k r t in
    let keys := track_keys (4 * ns) k (length (k_prev k)) t in
    consecutive (fst p) (snd p) keys /\
    nle (time tp k (fst p)) r = true /\
    (nlt r (time tp k (snd p)) = true \/ snd p = last keys 0).
Proof. exact (fun F NF ON nt ns tp k r t W => sample_pair_brackets nt ns tp k W r t). Qed.
Print Assumptions C01_sample_pair_brackets.

(** C02.  In the setting of C01 no operation of the history panics (no assertion, index or
    subtraction fails, and the loops end). *)
Theorem C02_sampling_no_panic :
  forall (outside : nat -> N) (lib : list anim32) (c0 : context f32) (history : list (@op f32 key key)),
    (forall j, (outside j < 256)%N) ->
    (forall b, In b lib -> an_id b <> 0%N) ->
    library (cx_max_soa c0) lib -> fresh c0 -> Forall (op_ok lib) history ->
    exists c, exec32 outside c0 history = Ok c.
Proof.
  exact (fun outside lib c0 history Hout Hz =>
    history_no_panic float3_simd_decompress quat_simd_decompress outside float3_lane quat_decompress
      (fun k0 k1 k2 k3 l H => KeysProofs.float3_lanes k0 k1 k2 k3 l H) quat_lanes Hout key0 key0 lib c0 history Hz).
Qed.
Print Assumptions C02_sampling_no_panic.

(** ** A concrete animation *)
(** Three tracks (one SoA element, one padding lane), eleven keys per channel, one iframe.
    Track 0 has keys 0, 4, 8, 10; track 1 has 1, 5, 9; tracks 2 and 3 have two each. *)
Definition ex_tp : list f32 :=
  [f32_lit 0 0; f32_lit 1 (-2); f32_lit 1 (-1); f32_lit 3 (-2); f32_lit 1 0].
Definition ex_ctrl : ctrl f32 :=
  mk_ctrl [0; 0; 0; 0; 1; 2; 4; 4; 2; 4; 4] [0; 0; 0; 0; 4; 4; 4; 4; 4; 4; 2]
          [0; 8; 5; 6; 7]%N [0; 8]%N (f32_lit 1 0).
(** Half floats 0, 1, 2, 3, 4 ... are 0x0000, 0x3C00, 0x4000, 0x4200, 0x4400 ... *)
Definition ex_k3 : list key :=
  map (fun h => V3 h h h) [0; 0; 0; 0; 15360; 0; 0; 0; 16896; 0; 0]%N.
Definition ex_kq : list key := repeat (pack 3 0 (V3 16384 16384 16384)%N) 11.
Definition ex_anim (id : N) : anim32 := mk_anim id 3 ex_tp ex_ctrl ex_k3 ex_ctrl ex_kq ex_ctrl ex_k3.
Definition ex_interp {V} (v : V) : interp f32 V := mk_interp (splat B754_nan) (splat B754_nan) v v.
Definition ex_chan {V} (ns : nat) (v : V) : chan f32 V :=
  mk_chan (repeat 77 (4 * ns)) (repeat 171%N (div_ceil ns 8)) 0 (repeat (ex_interp v) ns).
Definition nanv : vec3 (V4 f32) := V3 (splat B754_nan) (splat B754_nan) (splat B754_nan).
Definition nanq : quat (V4 f32) := Q4 (splat B754_nan) (splat B754_nan) (splat B754_nan) (splat B754_nan).
Definition ex_ctx (max_tracks : nat) : context f32 :=
  let ns := div_ceil max_tracks 4 in
  context_new max_tracks (ex_chan ns nanv) (ex_chan ns nanq) (ex_chan ns nanv).
Definition ex_out : list (transform (V4 f32)) := [TR nanv nanq nanv].
Definition ex_run a r : @op f32 key key := ORun (Some a) r (Some ex_out).

Example C01_C02_hypotheses :
  library (cx_max_soa (ex_ctx 4)) [ex_anim 16; ex_anim 32] /\ fresh (ex_ctx 4) /\
  Forall (op_ok [ex_anim 16; ex_anim 32])
    [ex_run (ex_anim 16) none_; ex_run (ex_anim 32) nzero; OClear; ex_run (ex_anim 32) nhalf; OCloneWithoutId] /\
  num_soa (ex_anim 16) = cx_max_soa (ex_ctx 4) /\ num_soa (ex_anim 16) <= length ex_out.
Proof.
  split; [|split; [|split]].
  - split.
    + intros a [<-|[<-|[]]]; (split; [vm_compute; reflexivity|apply le_n]).
    + intros a b [<-|[<-|[]]] [<-|[<-|[]]] E; try reflexivity; discriminate.
  - repeat split.
  - repeat (apply Forall_cons); try exact I; try apply Forall_nil;
      (split; [cbn [In]; auto|split; vm_compute; reflexivity]).
  - split; [reflexivity|apply le_n].
Qed.

(** After that history, at ratio 3/8, translation x of track 0 is half way between 1 and 3. *)
Example C01_example :
  match exec32 (fun _ => 0%N) (ex_ctx 4)
          [ex_run (ex_anim 16) none_; ex_run (ex_anim 32) nzero; OClear; ex_run (ex_anim 32) nhalf; OCloneWithoutId] with
  | Ok c =>
      match run32 (fun _ => 0%N) (Some (ex_anim 16)) (Some c) (f32_lit 3 (-3)) (Some ex_out) with
      | Ok (_, [t]) => f32_to_bits (l0 (vx (tr_t t))) = f32_to_bits (f32_lit 2 0)
      | _ => False
      end
  | _ => False
  end.
Proof. vm_compute. reflexivity. Qed.

(** C03 is false: validate accepts a context for 8 tracks with this 3-track animation, and the
    run panics. *)
Theorem C03_oversized_context_refuted :
  exists (a : anim32) (c : context f32) (output : list (transform (V4 f32))),
    wf_animation a = true /\ fresh c /\ num_soa a <= cx_max_soa c /\
    validate (Some a) (Some c) (Some output) = true /\
    run32 (fun _ => 0%N) (Some a) (Some c) nzero (Some output) = Panic.
Proof.
  exists (ex_anim 16), (ex_ctx 8), ex_out.
  split; [vm_compute; reflexivity|]. split; [repeat split|]. split; [apply le_S, le_n|].
  split; vm_compute; reflexivity.
Qed.
Print Assumptions C03_oversized_context_refuted.
(** Nor is a panic the worst: with this animation of four tracks and four keys each, a context for 8
    tracks gives another pose than one for 4 tracks, without any error. *)
Definition ex4_ctrl : ctrl f32 :=
  mk_ctrl [0; 0; 0; 0; 1; 1; 1; 1; 2; 2; 2; 2; 4; 4; 4; 4] [0; 0; 0; 0; 4; 4; 4; 4; 4; 4; 4; 4; 4; 4; 4; 4] [] [] (f32_lit 1 0).
Definition ex4_k3 : list key :=
  map (fun h => V3 h h h) [0; 0; 0; 0; 15360; 15360; 15360; 15360; 15360; 15360; 15360; 15360; 16896; 16896; 16896; 16896]%N.
Definition ex4_kq : list key := repeat (pack 3 0 (V3 16384 16384 16384)%N) 16.
Definition ex4_anim : anim32 := mk_anim 16 4 ex_tp ex4_ctrl ex4_k3 ex4_ctrl ex4_kq ex4_ctrl ex4_k3.
Definition x_of (r : res (context f32 * list (transform (V4 f32)))) : option N :=
  match r with Ok (_, t :: _) => Some (f32_to_bits (l0 (vx (tr_t t)))) | _ => None end.
Theorem C03_oversized_context_pose_refuted :
  exists (a : anim32) (c c8 : context f32) (r : f32) (output : list (transform (V4 f32))) x x8,
    wf_animation a = true /\ fresh c /\ fresh c8 /\ num_soa a = cx_max_soa c /\ num_soa a <= cx_max_soa c8 /\
    validate (Some a) (Some c8) (Some output) = true /\
    x_of (run32 (fun _ => 0%N) (Some a) (Some c) r (Some output)) = Some x /\
    x_of (run32 (fun _ => 0%N) (Some a) (Some c8) r (Some output)) = Some x8 /\ x <> x8.
Proof.
  exists ex4_anim, (ex_ctx 4), (ex_ctx 8), (f32_lit 3 (-2)), ex_out, (f32_to_bits (f32_lit 2 0)), (f32_to_bits (f32_lit 1 0)).
  split; [vm_compute; reflexivity|]. split; [repeat split|]. split; [repeat split|]. split; [reflexivity|]. split; [apply le_S, le_n|].
  split; [vm_compute; reflexivity|]. split; [vm_compute; reflexivity|]. split; [vm_compute; reflexivity|]. vm_compute. discriminate.
Qed.
Print Assumptions C03_oversized_context_pose_refuted.
(** What remains of C03: the number of tracks may be larger within the last group of four. *)
Theorem C03_same_groups_partial :
  forall (outside : nat -> N) (a : anim32) (max_tracks max_tracks' : nat) t r s t' r' s' (ratio : f32) (output : list (transform (V4 f32))),
    let c := context_new max_tracks t r s in
    let c' := context_new max_tracks' t' r' s' in
    (forall j, (outside j < 256)%N) -> wf_animation a = true -> an_id a <> 0%N ->
    num_soa a = div_ceil max_tracks 4 -> num_soa a = div_ceil max_tracks' 4 -> fresh c -> fresh c' ->
    nle nzero ratio = true -> nle ratio none_ = true -> num_soa a <= length output ->
    exists c1 c2 output1 output2,
      run32 outside (Some a) (Some c) ratio (Some output) = Ok (c1, output1) /\
      run32 outside (Some a) (Some c') ratio (Some output) = Ok (c2, output2) /\
      (forall i, option_map (fun t => (lane_tr t 0, lane_tr t 1, lane_tr t 2, lane_tr t 3)) (nth_error output1 i)
               = option_map (fun t => (lane_tr t 0, lane_tr t 1, lane_tr t 2, lane_tr t 3)) (nth_error output2 i)).
Proof.
  intros outside a n n' t r s t' r' s' ratio output c c' Hout Wa Ha Na Nb F0 F1 H0 H1 Hl.
  assert (L : forall c : context f32, cx_max_soa c = num_soa a -> library (cx_max_soa c) [a]).
  { intros x E. rewrite E. split; [intros y [<-|[]]; split; auto|intros y z [<-|[]] [<-|[]] _; reflexivity]. }
  assert (Z : forall x, In x [a] -> an_id x <> 0%N) by (intros x [<-|[]]; assumption).
  destruct (C01_sampling_history_independent outside [a] c [] a ratio output Hout Z (L c (eq_sym Na)) F0 (Forall_nil _)
              (or_introl eq_refl) Na H0 H1 Hl) as (cx & c1 & o1 & E1 & E2 & S1 & S2 & S3).
  destruct (C01_sampling_history_independent outside [a] c' [] a ratio output Hout Z (L c' (eq_sym Nb)) F1 (Forall_nil _)
              (or_introl eq_refl) Nb H0 H1 Hl) as (cx' & c2 & o2 & E3 & E4 & T1 & T2 & T3).
  injection E1 as <-. injection E3 as <-.
  exists c1, c2, o1, o2. repeat (split; [assumption|]).
  intros i. destruct (Nat.lt_ge_cases i (num_soa a)) as [Hi|Hi].
  - pose proof (S2 i 0 Hi ltac:(repeat constructor)) as A0. pose proof (S2 i 1 Hi ltac:(repeat constructor)) as A1.
    pose proof (S2 i 2 Hi ltac:(repeat constructor)) as A2. pose proof (S2 i 3 Hi ltac:(repeat constructor)) as A3.
    pose proof (T2 i 0 Hi ltac:(repeat constructor)) as B0. pose proof (T2 i 1 Hi ltac:(repeat constructor)) as B1.
    pose proof (T2 i 2 Hi ltac:(repeat constructor)) as B2. pose proof (T2 i 3 Hi ltac:(repeat constructor)) as B3.
    destruct (nth_error o1 i), (nth_error o2 i); cbn [option_map] in *; congruence.
  - rewrite S3, T3 by assumption. reflexivity.
Qed.
Print Assumptions C03_same_groups_partial.
Example C03_same_groups_example :
  num_soa (ex_anim 16) = div_ceil 3 4 /\ num_soa (ex_anim 16) = div_ceil 4 4 /\ fresh (ex_ctx 3) /\ fresh (ex_ctx 4) /\
  an_id (ex_anim 16) <> 0%N.
Proof. repeat split. discriminate. Qed.

(** C04.  A context used with [a] gives, on a different animation [b] at another address, what a
    new context gives. *)
Theorem C04_switch_resets :
  forall (outside : nat -> N) (a b : anim32) (c0 c1 : context f32) (history : list (@op f32 key key))
         (r : f32) (output : list (transform (V4 f32))),
    (forall j, (outside j < 256)%N) ->
    wf_animation a = true -> wf_animation b = true -> an_id a <> an_id b ->
    an_id a <> 0%N -> an_id b <> 0%N ->
    num_soa a = cx_max_soa c0 -> num_soa b = cx_max_soa c0 -> cx_max_soa c1 = cx_max_soa c0 ->
    fresh c0 -> fresh c1 -> Forall (op_ok [a]) history ->
    nle nzero r = true -> nle r none_ = true -> num_soa b <= length output ->
    exists c c' c1' output1 output2,
      exec32 outside c0 history = Ok c /\
      run32 outside (Some b) (Some c) r (Some output) = Ok (c', output1) /\
      run32 outside (Some b) (Some c1) r (Some output) = Ok (c1', output2) /\
      (forall i, option_map (fun t => (lane_tr t 0, lane_tr t 1, lane_tr t 2, lane_tr t 3)) (nth_error output1 i)
               = option_map (fun t => (lane_tr t 0, lane_tr t 1, lane_tr t 2, lane_tr t 3)) (nth_error output2 i)).
Proof.
  intros outside a b c0 c1 history r output Hout Wa Wb Hab Ha Hb Na Nb N1 F0 F1 Hh H0 H1 Hl.
  assert (L : forall c : context f32, cx_max_soa c = cx_max_soa c0 -> library (cx_max_soa c) [a; b]).
  { intros c E. rewrite E. split.
    - intros x [<-|[<-|[]]]; split; auto; rewrite ?Na, ?Nb; constructor.
    - intros x y [<-|[<-|[]]] [<-|[<-|[]]] Exy; try reflexivity; congruence. }
  assert (Z : forall x, In x [a; b] -> an_id x <> 0%N) by (intros x [<-|[<-|[]]]; assumption).
  assert (Hh2 : Forall (op_ok [a; b]) history).
  { eapply Forall_impl; [|exact Hh]. intros [[x|] rx ox| | |]; cbn; auto. intros ([->|[]] & ?). auto. }
  destruct (C01_sampling_history_independent outside [a; b] c0 history b r output Hout Z (L c0 eq_refl) F0 Hh2
              (or_intror (or_introl eq_refl)) Nb H0 H1 Hl) as (c & c' & o1 & E1 & E2 & S1 & S2 & S3).
  destruct (C01_sampling_history_independent outside [a; b] c1 [] b r output Hout Z (L c1 N1) F1 (Forall_nil _)
              (or_intror (or_introl eq_refl)) (eq_trans Nb (eq_sym N1)) H0 H1 Hl) as (c1x & c1' & o2 & E3 & E4 & T1 & T2 & T3).
  cbn in E3. injection E3 as <-.
  exists c, c', c1', o1, o2. repeat (split; [assumption|]).
  intros i. destruct (Nat.lt_ge_cases i (num_soa b)) as [Hi|Hi].
  - pose proof (S2 i 0 Hi ltac:(repeat constructor)) as A0. pose proof (S2 i 1 Hi ltac:(repeat constructor)) as A1.
    pose proof (S2 i 2 Hi ltac:(repeat constructor)) as A2. pose proof (S2 i 3 Hi ltac:(repeat constructor)) as A3.
    pose proof (T2 i 0 Hi ltac:(repeat constructor)) as B0. pose proof (T2 i 1 Hi ltac:(repeat constructor)) as B1.
    pose proof (T2 i 2 Hi ltac:(repeat constructor)) as B2. pose proof (T2 i 3 Hi ltac:(repeat constructor)) as B3.
    destruct (nth_error o1 i), (nth_error o2 i); cbn [option_map] in *; congruence.
  - rewrite S3, T3 by assumption. reflexivity.
Qed.
Print Assumptions C04_switch_resets.

(** C04 as a user may expect it, for values rather than addresses, is false: the animation is told
    apart by its address only.  Replace the animation stored at an address by another well-formed
    one with fewer keys: the next run panics. *)
Definition ex_ctrl2 : ctrl f32 :=
  mk_ctrl [0; 0; 0; 0; 4; 4; 4; 4] [0; 0; 0; 0; 4; 4; 4; 4] [] [] (f32_lit 0 0).
Definition ex_anim2 (id : N) : anim32 :=
  mk_anim id 3 ex_tp ex_ctrl2 (firstn 8 ex_k3) ex_ctrl2 (firstn 8 ex_kq) ex_ctrl2 (firstn 8 ex_k3).
Theorem C04_same_address_refuted :
  exists (a b : anim32) (c0 c1 : context f32) (o o1 : list (transform (V4 f32))),
    wf_animation a = true /\ wf_animation b = true /\ a <> b /\ an_id a = an_id b /\ fresh c0 /\
    run32 (fun _ => 0%N) (Some a) (Some c0) none_ (Some o) = Ok (c1, o1) /\
    run32 (fun _ => 0%N) (Some b) (Some c1) none_ (Some o) = Panic.
Proof.
  assert (E : exists c1 o1, run32 (fun _ => 0%N) (Some (ex_anim 16)) (Some (ex_ctx 4)) none_ (Some ex_out) = Ok (c1, o1) /\
              run32 (fun _ => 0%N) (Some (ex_anim2 16)) (Some c1) none_ (Some ex_out) = Panic).
  { destruct (run32 (fun _ => 0%N) (Some (ex_anim 16)) (Some (ex_ctx 4)) none_ (Some ex_out)) as [[c1 o1]|e|] eqn:E.
    - exists c1, o1. split; [reflexivity|].
      assert (match run32 (fun _ => 0%N) (Some (ex_anim 16)) (Some (ex_ctx 4)) none_ (Some ex_out) with
              | Ok (c, _) => match run32 (fun _ => 0%N) (Some (ex_anim2 16)) (Some c) none_ (Some ex_out) with
                             | Panic => true | _ => false end
              | _ => false end = true) as H by (vm_compute; reflexivity).
      rewrite E in H. destruct (run32 _ (Some (ex_anim2 16)) (Some c1) none_ (Some ex_out)); congruence.
    - exfalso. assert (match run32 (fun _ => 0%N) (Some (ex_anim 16)) (Some (ex_ctx 4)) none_ (Some ex_out) with
                       | Ok _ => true | _ => false end = true) as H by (vm_compute; reflexivity).
      rewrite E in H. discriminate.
    - exfalso. assert (match run32 (fun _ => 0%N) (Some (ex_anim 16)) (Some (ex_ctx 4)) none_ (Some ex_out) with
                       | Ok _ => true | _ => false end = true) as H by (vm_compute; reflexivity).
      rewrite E in H. discriminate. }
  destruct E as (c1 & o1 & E1 & E2).
  exists (ex_anim 16), (ex_anim2 16), (ex_ctx 4), c1, ex_out, o1.
  split; [vm_compute; reflexivity|]. split; [vm_compute; reflexivity|].
  split; [intros H; apply (f_equal (fun a => length (an_tkeys a))) in H; discriminate|].
  split; [reflexivity|]. split; [repeat split|]. split; assumption.
Qed.
Print Assumptions C04_same_address_refuted.

(** C05.  [set_ratio] on every binary32 value: the result is always in [0,1]; a value in range is
    kept (as a number), below gives 0, above gives 1, NaN gives 1. *)
Theorem C05_set_ratio_clamps :
  forall x : f32,
    nle nzero (set_ratio x) = true /\ nle (set_ratio x) none_ = true /\
    (nle nzero x = true -> nle x none_ = true -> set_ratio x = x) /\
    (nlt x nzero = true -> set_ratio x = nzero) /\
    (nlt none_ x = true -> set_ratio x = none_) /\
    (is_nan x = true -> set_ratio x = none_).
Proof.
  exact (fun x => clamp_facts x nzero none_ eq_refl eq_refl eq_refl).
Qed.
Print Assumptions C05_set_ratio_clamps.

Example C05_example :
  f32_to_bits (set_ratio (f32_lit 3 (-1))) = f32_to_bits (f32_lit 1 0) /\
  f32_to_bits (set_ratio (B754_infinity true)) = 0%N /\
  f32_to_bits (set_ratio (f32_lit 3 (-2))) = f32_to_bits (f32_lit 3 (-2)).
Proof. repeat split; vm_compute; reflexivity. Qed.

(** C55 for SamplingJob: [run] fails exactly when [validate] is false, with InvalidJob (and then
    returns no new context or output). *)
Theorem C55_sampling_run_iff_validate :
  forall (F : Type) (NF : Num F) (K3 KQ : Type)
         (dec3 : K3 -> K3 -> K3 -> K3 -> vec3 (V4 F)) (decq : KQ -> KQ -> KQ -> KQ -> quat (V4 F))
         (outside : nat -> N) (oa : option (animation F K3 KQ)) (oc : option (context F)) (r : F)
         (oo : option (list (transform (V4 F)))),
    (validate oa oc oo = false -> run dec3 decq outside oa oc r oo = Err InvalidJob) /\
    (validate oa oc oo = true -> forall e, run dec3 decq outside oa oc r oo <> Err e).
Proof.
  exact (fun F NF K3 KQ dec3 decq outside oa oc r oo =>
    run_iff_validate dec3 decq outside oa oc r oo).
Qed.
Print Assumptions C55_sampling_run_iff_validate.
Example C55_sampling_example :
  validate (Some (ex_anim 16)) (Some (ex_ctx 4)) (Some ex_out) = true /\ validate (Some (ex_anim 16)) (Some (ex_ctx 4)) (Some []) = false.
Proof. split; vm_compute; reflexivity. Qed.
