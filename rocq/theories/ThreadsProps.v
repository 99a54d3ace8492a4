(** Properties of jobs that run concurrently on shared buffers (C67-C70). *)
From Verif Require Import Base Num NumF32 Math Skeleton Sampling Blending Skinning Buffers BuffersSpec BuffersProps
  Threads ThreadsSpec ThreadsProofs ThreadsJobs ThreadsSerial.
Local Open Scope num_scope.

Section Props.
Context {F : Type} {NF : Num F} {C : Type}.
Notation script := (script F C).

(** ** C67: No schedule makes two jobs race on a buffer *)
Theorem C67_no_data_race (w : world F) (scs : list script) sched :
  well_typed w scs -> unborrowed w -> ~ race (run_sched sched (initial w scs)).
Proof.
  intros W U. apply (good_no_race (tQ scs) (tD scs) (kinds w) (typed_ok w scs W)).
  apply sched_good, initial_good, U.
Qed.

(** ** C68: Jobs take effect one at a time *)

Lemma two_phase_lets (scs : list script) i j h : may_run scs i j -> two_phase scs j -> lets j h -> read_only scs (fst h).
Proof.
  intros M T L. destruct j; cbn in *; try destruct L.
  - destruct H as [H1 H2]. subst h. apply T, H1.
  - destruct H as [H1 H2]. subst h. apply T, H1.
  - destruct h as [a m]. eapply T, L.
Qed.
(** Whatever the schedule, the outcomes and the memory are those of the same jobs run one after the
    other in some order. *)
Theorem C68_serialisable (w : world F) (scs : list script) sched :
  well_typed w scs -> unborrowed w -> (N.of_nat (10 * length scs) < max_readers KLock)%N ->
  (forall i j, may_run scs i j -> two_phase scs j) ->
  all_finished (run_sched sched (initial w scs)) ->
  exists order, all_finished (run_serially order (initial w scs)) /\
    same_result (run_sched sched (initial w scs)) (run_serially order (initial w scs)).
Proof.
  intros W U B T FI. pose proof (initial_good w scs U) as G.
  assert (LF : forall h, tD scs h -> read_only scs (fst h)).
  { intros h (i & j & M & L). eapply two_phase_lets; eauto. }
  assert (FR : forall i g a m, read_only scs a -> tQ scs i g a m -> m = Sh).
  { intros i g a [] RO (j & M & TK); [reflexivity|]. exfalso. apply (RO i). exists j. split; [exact M|]. eapply takes_uses; exact TK. }
  assert (FW : forall i g a m, tQ scs i g a m -> (length g < 10)%nat).
  { intros i g a m (j & _ & TK). eapply takes_few; exact TK. }
  assert (R0 : rel (kinds w) (read_only scs) (initial w scs) (initial w scs)).
  { eapply rel_start; [exact G| |exact U]. intros th I. unfold initial in I. cbn [s_threads] in I. apply in_map_iff in I.
    destruct I as (sc & <- & _). reflexivity. }
  assert (B' : (N.of_nat (10 * length (s_threads (initial w scs))) < max_readers KLock)%N).
  { unfold initial. cbn [s_threads]. rewrite map_length. exact B. }
  destruct (rel_sched (tQ scs) (tD scs) (kinds w) (read_only scs) (typed_ok w scs W) FW LF FR sched _ _ B' G R0) as [order RL].
  exists order. eapply rel_end with (Q := tQ scs) (D := tD scs); [apply sched_good, G|exact RL|exact FI].
Qed.

(** ** C69: Jobs that borrow in one order do not deadlock *)

(** Some thread can go on, even if locks prefer waiting writers to new readers. *)
Theorem C69_no_deadlock (w : world F) (scs : list script) rank sched :
  well_typed w scs -> unborrowed w ->
  (forall i j, may_run scs i j -> ordered (fun a => lk_kind (w_lock w a)) rank j) ->
  all_finished (run_sched sched (initial w scs)) \/ exists i, ready (run_sched sched (initial w scs)) i.
Proof.
  intros W U O. eapply (progress (tQ scs) (tD scs) (kinds w) (typed_ok w scs W) rank); [|apply sched_good, initial_good, U].
  intros i g a m b m' (j & M & T) I K1 K2. eapply takes_ordered; [exact (O i j M)|exact T|exact I|exact K1|exact K2].
Qed.
(** No execution goes on for ever, whatever the jobs. *)
Theorem C69_no_endless_execution (w : world F) (scs : list script) : ~ endless (initial w scs).
Proof. apply not_endless. Qed.
(** So that, from every point of every execution, all jobs can still be completed. *)
Theorem C69_all_jobs_complete (w : world F) (scs : list script) rank sched :
  well_typed w scs -> unborrowed w ->
  (forall i j, may_run scs i j -> ordered (fun a => lk_kind (w_lock w a)) rank j) ->
  exists sched', all_finished (run_sched sched' (run_sched sched (initial w scs))).
Proof.
  intros W U O. apply (completes (good (tQ scs) (tD scs) (kinds w))).
  - intros i s G. apply sstep_good, G.
  - intros s G. eapply (progress (tQ scs) (tD scs) (kinds w) (typed_ok w scs W) rank); [|exact G].
    intros i g a m b m' (j & M & T) I K1 K2. eapply takes_ordered; [exact (O i j M)|exact T|exact I|exact K1|exact K2].
  - apply sched_good, initial_good, U.
Qed.
(** When all threads are finished, every job has had its outcome. *)
Theorem C69_one_outcome_each (w : world F) (scs : list script) sched :
  all_finished (run_sched sched (initial w scs)) ->
  map (fun th => length (th_log th)) (s_threads (run_sched sched (initial w scs))) = map (@length _) scs.
Proof.
  intros FI. pose proof (sched_jobs sched (initial w scs)) as E.
  assert (E1 : map jobs_of (s_threads (run_sched sched (initial w scs))) =
               map (fun th => length (th_log th)) (s_threads (run_sched sched (initial w scs)))).
  { apply map_ext_in. intros th I. destruct (FI th I) as [A T]. unfold jobs_of. rewrite A, T. cbn. lia. }
  rewrite <- E1, E. unfold initial. cbn [s_threads]. rewrite map_map. apply map_ext. intros sc. unfold jobs_of, start. cbn.
  rewrite map_length. lia.
Qed.
(** Sampling and local-to-model jobs never deadlock, whatever buffers they share. *)
Theorem C69_sampling_ltm (w : world F) (scs : list script) sched :
  well_typed w scs -> unborrowed w ->
  (forall i j, may_run scs i j -> match j with JSample _ _ _ _ | JLtm _ _ | JLtmV _ => True | _ => False end) ->
  all_finished (run_sched sched (initial w scs)) \/ exists i, ready (run_sched sched (initial w scs)) i.
Proof.
  intros W U O. apply (C69_no_deadlock w scs (fun a => match fst a with TSoa => 0 | _ => 1 end)%nat sched W U).
  intros i j M. specialize (O i j M). destruct j; cbn in *; try destruct O; try exact I; intros; lia.
Qed.

(** ** C70: A half-written output behind a lock is never used, by any thread *)
Theorem C70_torn_output_unused (w : world F) (scs : list script) sched i th g a sched' :
  well_typed w scs -> unborrowed w -> lk_kind (w_lock w a) = KLock ->
  nth_error (s_threads (run_sched sched (initial w scs))) i = Some th ->
  th_act th = Leave Panics g -> In (a, Ex) g ->
  let s := run_sched sched' (run_sched sched (initial w scs)) in
  (forall j th' m, nth_error (s_threads s) j = Some th' -> next_access th' <> Some (a, m)) /\
  (all_finished s -> lk_poison (w_lock (s_world s) a) = true).
Proof.
  intros W U K N A I s. pose proof (initial_good w scs U) as G. apply (sched_good _ _ _ sched) in G.
  assert (X : good (tQ scs) (tD scs) (kinds w) s /\ doomed (kinds w) a s).
  { unfold s. apply (sched_inv (fun s => good (tQ scs) (tD scs) (kinds w) s /\ doomed (kinds w) a s)).
    - intros k s0 [G0 D0]. split; [apply sstep_good, G0|]. eapply doomed_step; eassumption.
    - split; [exact G|]. split; [exact K|]. right. exists i, th, g. auto. }
  destruct X as [GS DS]. split.
  - intros j th' m. eapply doomed_unused; [exact (typed_ok w scs W)|exact GS|exact DS].
  - intros FI. destruct DS as [_ [P|(j & x & g' & Nj & Aj & _)]]; [exact P|]. exfalso. apply nth_error_In in Nj.
    destruct (FI x Nj) as [Z _]. rewrite Aj in Z. discriminate.
Qed.
End Props.

Print Assumptions C67_no_data_race.
Print Assumptions C68_serialisable.
Print Assumptions C69_no_deadlock.
Print Assumptions C69_no_endless_execution.
Print Assumptions C69_all_jobs_complete.
Print Assumptions C69_one_outcome_each.
Print Assumptions C69_sampling_ltm.
Print Assumptions C70_torn_output_unused.

(** ** Examples in binary32 *)

(** A sampling job that writes [v], one that fails half way, and a local-to-model job. *)
Definition x_sample (v : f32) (o : nat) : job f32 unit := JSample true true (fun _ => Ok (tt, [x1 v])) (Some o).
Definition x_ltm (i o : nat) : job f32 unit := JLtm true (mk_hljob (Some x_skel) (Some i) mat_identity (-1) 1 false (Some o)).
Definition always (j : job f32 unit) : list (outcome (result f32 unit)) -> job f32 unit := fun _ => j.
Definition first_is (w : world f32) (b : nat) (v : f32) : bool :=
  match w_data w TSoa b with t :: _ => neq (l0 (vx (tr_t t))) v | [] => false end.
Definition done (s : sys f32 (result f32 unit)) : bool :=
  forallb (fun th => match th_act th, th_todo th with Idle, [] => true | _, _ => false end) (s_threads s).
Lemma done_finished s : done s = true -> all_finished s.
Proof.
  unfold done. rewrite forallb_forall. intros H th I. specialize (H th I). unfold finished.
  destruct (th_act th); [|discriminate..]. destruct (th_todo th); [auto|discriminate].
Qed.
Definition codes (s : sys f32 (result f32 unit)) : list (list N) := map (fun th => map code (th_log th)) (s_threads s).
Lemma x_typed (scs : list (script f32 unit)) : well_typed (x_world KLock) scs.
Proof. intros i j a m m' _ _ _. left. reflexivity. Qed.
Lemma x_unborrowed k : unborrowed (x_world k).
Proof. intros a. split; reflexivity. Qed.
Lemma may_run_in scs i (j : job f32 unit) : may_run scs i j -> exists sc f log, In sc scs /\ In f sc /\ j = f log.
Proof. intros (sc & f & log & N & I & E). exists sc, f, log. split; [eapply nth_error_In; exact N|auto]. Qed.

(** Two threads sample into the same buffer and a third one takes it to model space. *)
Definition x_scs : list (script f32 unit) :=
  [[always (x_sample none_ 1)]; [always (x_sample nhalf 1); always (x_ltm 1 0)]; [always (x_ltm 1 0)]].
Definition x_mixed : list nat := flat_map (fun _ => [0; 1; 2; 1; 2]%nat) (repeat tt 60).
Example C67_example :
  let s := run_sched x_mixed (initial (x_world KLock) x_scs) in
  well_typed (x_world KLock) x_scs /\ unborrowed (x_world KLock) /\ done s = true /\ codes s = [[0]; [0; 0]; [0]]%N /\
  (exists n, option_map next_access (nth_error (s_threads (run_sched (firstn n x_mixed) (initial (x_world KLock) x_scs))) 1) =
     Some (Some ((TSoa, 1%nat), Ex))).
Proof.
  split; [apply x_typed|]. split; [apply x_unborrowed|]. split; [vm_compute; reflexivity|]. split; [vm_compute; reflexivity|].
  exists 7%nat. vm_compute. reflexivity.
Qed.
Example C68_example :
  (N.of_nat (10 * length x_scs) < max_readers KLock)%N /\
  (forall i j, may_run x_scs i j -> two_phase x_scs j) /\
  all_finished (run_sched x_mixed (initial (x_world KLock) x_scs)).
Proof.
  split; [reflexivity|]. split; [|apply done_finished; vm_compute; reflexivity].
  intros i j M. apply may_run_in in M. destruct M as (sc & f & log & I & J & ->).
  destruct I as [<-|[<-|[<-|[]]]]; [destruct J as [<-|[]]|destruct J as [<-|[<-|[]]]|destruct J as [<-|[]]]; exact I.
Qed.
(** Two threads blend into the same buffer from layers that nobody writes. *)
Definition x_blends : list (script f32 unit) :=
  [[always (JBlend (x_blend 0 [1; 2]))]; [always (JBlend (x_blend 0 [2; 3; 1])); always (x_ltm 0 0)]].
Example C68_blend_example :
  (forall i j, may_run x_blends i j -> two_phase x_blends j) /\
  all_finished (run_sched x_mixed (initial (x_world KLock) x_blends)) /\
  codes (run_sched x_mixed (initial (x_world KLock) x_blends)) = [[0]; [0; 0]]%N.
Proof.
  split; [|split; [apply done_finished; vm_compute; reflexivity|vm_compute; reflexivity]].
  assert (RO : forall b, (0 < b)%nat -> read_only x_blends (TSoa, b)).
  { intros b B i (j & M & U). apply may_run_in in M. destruct M as (sc & f & log & I & J & ->).
    destruct I as [<-|[<-|[]]]; [destruct J as [<-|[]]|destruct J as [<-|[<-|[]]]]; cbn in U;
      repeat (destruct U as [U|U]; [inversion U; subst; try lia|]); destruct U. }
  intros i j M. apply may_run_in in M. destruct M as (sc & f & log & I & J & ->).
  destruct I as [<-|[<-|[]]]; [destruct J as [<-|[]]|destruct J as [<-|[<-|[]]]]; try exact I;
    intros b Hb; apply RO; cbn in Hb; repeat (destruct Hb as [<-|Hb]; [lia|]); destruct Hb.
Qed.

(** Blending lets go of each layer before it borrows the next one. If another job writes both in
    between, the blend mixes the old content of one with the new content of the other. *)
Definition left_ {R} (i : nat) (s : sys f32 R) : nat :=
  match nth_error (s_threads s) i with Some th => length (th_todo th) | None => 0 end.
Definition all_idle {R} (s : sys f32 R) : Prop := forall j th, nth_error (s_threads s) j = Some th -> th_act th = Idle.
Lemma whole_job_none {R} i (s : sys f32 R) : left_ i s = 0%nat -> whole_job i s = s.
Proof.
  unfold left_, whole_job. destruct (nth_error (s_threads s) i) as [[[] [|f todo] log]|]; cbn; intros H; try reflexivity. discriminate.
Qed.
Lemma whole_job_left {R} i (s : sys f32 R) : all_idle s ->
  all_idle (whole_job i s) /\ forall j, left_ j (whole_job i s) = (left_ j s - if Nat.eq_dec i j then 1 else 0)%nat.
Proof.
  intros A. unfold whole_job. destruct (nth_error (s_threads s) i) as [[a [|f todo] log]|] eqn:N.
  - split; [destruct a; exact A|]. intros j.
    replace (match a with Idle => s | _ => s end) with s by (destruct a; reflexivity).
    destruct (Nat.eq_dec i j) as [<-|]; [unfold left_; rewrite N; cbn; lia|lia].
  - specialize (A i _ N) as A0. cbn in A0. subst a. destruct (exec _ _) as [o w]. split.
    + intros j th Nj. cbn in Nj. apply (nth_upd (fun _ _ _ _ => True)) in Nj. destruct Nj as [(-> & -> & _)|[_ Nj]]; [reflexivity|exact (A j th Nj)].
    + intros j. unfold left_. cbn [s_threads]. destruct (Nat.eq_dec i j) as [<-|E].
      * rewrite nth_error_upd_same by (apply nth_error_Some; congruence). rewrite N. cbn. lia.
      * rewrite nth_error_upd_other by congruence. lia.
  - split; [exact A|]. intros j. destruct (Nat.eq_dec i j) as [<-|]; [unfold left_; rewrite N; cbn; lia|lia].
Qed.
Lemma serial_left {R} o (s : sys f32 R) : all_idle s ->
  all_idle (run_serially o s) /\ forall j, left_ j (run_serially o s) = (left_ j s - count_occ Nat.eq_dec o j)%nat.
Proof.
  revert s. induction o as [|i o IH]; intros s A; cbn [run_serially fold_left count_occ]; [split; [exact A|intros; lia]|].
  destruct (whole_job_left i s A) as [A1 L1]. destruct (IH _ A1) as [A2 L2]. split; [exact A2|]. intros j.
  unfold run_serially in L2. rewrite L2, L1. destruct (Nat.eq_dec i j); lia.
Qed.
Definition three_orders : list (list nat) := [[]; [0]; [1]; [0; 1]; [1; 0]; [1; 1]; [0; 1; 1]; [1; 0; 1]; [1; 1; 0]]%nat.
Lemma serial_three {R} (p q r : list (outcome R) -> prog f32 R) (w : world f32) order :
  let s0 := mk_sys w [mk_thread Idle [p] []; mk_thread Idle [q; r] []] in
  exists o, In o three_orders /\ run_serially order s0 = run_serially o s0.
Proof.
  intros s0. assert (A : all_idle s0) by (intros [|[|[|j]]] th; cbn; intros E; inversion E; reflexivity).
  induction order as [|i l IH] using rev_ind; [exists []; split; [left; reflexivity|reflexivity]|].
  destruct IH as (o & I & E). unfold run_serially at 1. rewrite fold_left_app. cbn [fold_left].
  change (fold_left (fun s i => whole_job i s) l s0) with (run_serially l s0). rewrite E.
  destruct (serial_left o s0 A) as [_ L]. specialize (L i).
  destruct (Nat.eq_dec (left_ i (run_serially o s0)) 0) as [Z|Z].
  - exists o. split; [exact I|]. apply whole_job_none, Z.
  - exists (o ++ [i]). split; [|unfold run_serially; rewrite fold_left_app; reflexivity]. rewrite L in Z. clear L E.
    destruct i as [|[|i]]; [| |cbn in Z; destruct i; cbn in Z; lia];
      repeat (destruct I as [<-|I]; [cbn in Z; try lia; cbn; auto 12|]); destruct I.
Qed.
Definition x_torn_scs : list (script f32 unit) :=
  [[always (JBlend (x_blend 0 [1; 2]))]; [always (x_sample nzero 1); always (x_sample none_ 2)]].
Definition x_torn_sched : list nat := repeat 0%nat 10 ++ repeat 1%nat 40 ++ repeat 0%nat 60.
Theorem C68_blending_refuted :
  exists (w : world f32) (scs : list (script f32 unit)) sched,
    well_typed w scs /\ unborrowed w /\ (N.of_nat (10 * length scs) < max_readers KLock)%N /\
    all_finished (run_sched sched (initial w scs)) /\
    forall order, ~ same_result (run_sched sched (initial w scs)) (run_serially order (initial w scs)).
Proof.
  exists (x_world KLock), x_torn_scs, x_torn_sched. split; [apply x_typed|]. split; [apply x_unborrowed|]. split; [reflexivity|].
  split; [apply done_finished; vm_compute; reflexivity|]. intros order (_ & _ & SD).
  specialize (SD TSoa 0%nat).
  assert (X : first_is (s_world (run_sched x_torn_sched (initial (x_world KLock) x_torn_scs))) 0 (nadd none_ nhalf) = true) by (vm_compute; reflexivity).
  unfold first_is in X. rewrite SD in X.
  destruct (serial_three (fun l => job_prog (always (JBlend (x_blend 0 [1; 2]%nat)) l)) (fun l => job_prog (always (x_sample nzero 1) l))
    (fun l => job_prog (always (x_sample none_ 2) l)) (x_world KLock) order) as (o & I & E).
  change (run_serially order (initial (x_world KLock) x_torn_scs)) with
    (run_serially order (mk_sys (x_world KLock) [mk_thread Idle [fun l => job_prog (always (JBlend (x_blend 0 [1; 2]%nat)) l)] [];
       mk_thread Idle [fun l => job_prog (always (x_sample nzero 1) l); fun l => job_prog (always (x_sample none_ 2) l)] []])) in X.
  rewrite E in X. clear E.
  repeat (destruct I as [<-|I]; [vm_compute in X; discriminate|]). destruct I.
Qed.
Print Assumptions C68_blending_refuted.

(** A thread that waits for a lock. *)
Definition waiting (s : sys f32 (result f32 unit)) (i : nat) : bool :=
  match nth_error (s_threads s) i with
  | Some th => match th_act th, tstep (s_world s) th with Run _ _, None => true | _, _ => false end
  | None => false
  end.
(** Three threads that hand a pose on: sampling, blending and local-to-model, in rank order. *)
Definition x_ranks : list (script f32 unit) :=
  [[always (x_sample none_ 3); always (JBlend (x_blend 2 [3]))]; [always (JBlend (x_blend 1 [2; 3])); always (x_ltm 1 0)]; [always (x_ltm 2 0)]].
Definition x_rank (a : addr) : nat := match a with (TSoa, b) => b | _ => 9 end.
Example C69_example :
  (forall i j, may_run x_ranks i j -> ordered (fun a => lk_kind (w_lock (x_world KLock) a)) x_rank j) /\
  done (run_sched x_mixed (initial (x_world KLock) x_ranks)) = true /\
  codes (run_sched x_mixed (initial (x_world KLock) x_ranks)) = [[0; 0]; [0; 0]; [0]]%N /\
  (exists n, waiting (run_sched (firstn n x_mixed) (initial (x_world KLock) x_ranks)) 1 = true).
Proof.
  split; [|split; [vm_compute; reflexivity|split; [vm_compute; reflexivity|]]].
  - intros i j M. apply may_run_in in M. destruct M as (sc & f & log & I & J & ->).
    destruct I as [<-|[<-|[<-|[]]]]; [destruct J as [<-|[<-|[]]]|destruct J as [<-|[<-|[]]]|destruct J as [<-|[]]]; cbn.
    + exact I.
    + intros o l E [<-|[]] _ _. inversion E; subst. cbn. lia.
    + intros o l E [<-|[<-|[]]] _ _; inversion E; subst; cbn; lia.
    + intros i' o E1 E2 _ _. inversion E1; inversion E2; subst. cbn. lia.
    + intros i' o E1 E2 _ _. inversion E1; inversion E2; subst. cbn. lia.
  - exists 24%nat. vm_compute. reflexivity.
Qed.
(** Two blends that read each other's output wait for each other for ever. *)
Definition x_cross : list (script f32 unit) :=
  [[always (JBlend (x_blend 0 [1]))]; [always (JBlend (x_blend 1 [0]))]].
Theorem C69_crossing_blends_refuted :
  exists (w : world f32) (scs : list (script f32 unit)) sched,
    well_typed w scs /\ unborrowed w /\
    ~ all_finished (run_sched sched (initial w scs)) /\
    forall sched', run_sched sched' (run_sched sched (initial w scs)) = run_sched sched (initial w scs).
Proof.
  exists (x_world KLock), x_cross, (flat_map (fun _ => [0; 1]%nat) (repeat tt 20)).
  split; [apply x_typed|]. split; [apply x_unborrowed|].
  set (s := run_sched _ _).
  assert (W : waiting s 0 = true /\ waiting s 1 = true /\ length (s_threads s) = 2%nat) by (split; [|split]; vm_compute; reflexivity).
  clearbody s. destruct W as (W0 & W1 & L). split.
  - intros A. unfold waiting in W0. destruct (nth_error (s_threads s) 0) as [th|] eqn:N; [|discriminate].
    destruct (A th (nth_error_In _ _ N)) as [Z _]. rewrite Z in W0. discriminate.
  - assert (ST : forall i, sstep i s = s).
    { assert (WS : forall i, waiting s i = true -> sstep i s = s).
      { intros i W. unfold waiting, sstep in *. destruct (nth_error (s_threads s) i) as [th|]; [|discriminate].
        destruct (th_act th); try discriminate. destruct (tstep (s_world s) th) as [[]|]; [discriminate|reflexivity]. }
      intros [|[|i]]; [auto|auto|]. unfold sstep. destruct (nth_error (s_threads s) (S (S i))) eqn:N; [|reflexivity].
      assert (nth_error (s_threads s) (S (S i)) <> None) as Z by congruence. apply nth_error_Some in Z. lia. }
    intros sched. induction sched as [|i l IH]; cbn; [reflexivity|]. unfold run_sched in IH. rewrite ST. exact IH.
Qed.
Print Assumptions C69_crossing_blends_refuted.

(** A job that panics half way, and two that would have read what it wrote. *)
Definition x_panic : list (script f32 unit) :=
  [[always (JBlend x_torn)]; [always (JBlend (x_blend 1 [0])); always (x_ltm 0 0)]].
Definition x_panic_sched : list nat := repeat 0%nat 200 ++ repeat 1%nat 60.
Example C70_example :
  codes (run_sched x_panic_sched (initial (x_world KLock) x_panic)) = [[3]; [1; 1]]%N /\
  done (run_sched x_panic_sched (initial (x_world KLock) x_panic)) = true /\
  (exists n, match nth_error (s_threads (run_sched (firstn n x_panic_sched) (initial (x_world KLock) x_panic))) 0 with
             | Some th => match th_act th with Leave Panics g => existsb (fun h => if hdec ((TSoa, 0%nat), Ex) h then true else false) g | _ => false end
             | None => false
             end = true).
Proof.
  split; [vm_compute; reflexivity|]. split; [vm_compute; reflexivity|]. exists 15%nat. vm_compute. reflexivity.
Qed.
