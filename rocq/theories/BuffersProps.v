(** Properties of shared buffers (C56, C66). *)
From Verif Require Import Base Num NumF32 Math Skeleton Sampling Blending Skinning Buffers BuffersSpec BuffersProofs BuffersAlias
  BuffersSkin BuffersMore.
Local Open Scope num_scope.

Section Props.
Context {F : Type} {NF : Num F}.

(** ** C56: Shared buffers never alias unsafely *)

(** Every borrow is released when the function returns, with a value, an error or a panic; only a
    panic can leave a trace in the cell (a poisoned lock). [p_blend], [p_ltm], [p_sampling],
    [p_skin] and the [validate] functions are such programs. *)
Theorem C56_borrows_released {A} (p : prog F A) w r w' :
  exec p w = (r, w') -> r <> Blocks ->
  forall a, same_borrows (w_lock w a) (w_lock w' a).
Proof. intros E N a. exact (exec_released p w r w' E N a). Qed.
Theorem C56_locks_unchanged {A} (p : prog F A) w r w' :
  exec p w = (r, w') -> r <> Blocks -> r <> Panics ->
  forall a, w_lock w' a = w_lock w a.
Proof. intros E N1 N2 a. apply (exec_locks p w r w' E N1 N2 a). Qed.

(** With distinct buffers no borrow fails: the job does what it does on the contents of its
    buffers, and changes nothing but its outputs. *)
Theorem C56_blend_distinct (w : world F) (j : hbjob F) o r w' :
  hb_output j = Some o -> idle (w_lock w (TSoa, o)) ->
  (forall l, In l (hb_layers j ++ hb_additive j) -> hl_transform l <> o /\ readable (w_lock w (TSoa, hl_transform l))) ->
  exec (p_blend j) w = (r, w') ->
  match blend_run (blend_in w j) with
  | BOk (c, x) => r = Val c /\ w_data w' TSoa o = x
  | BErr e (_, x) => r = Fail e /\ w_data w' TSoa o = x
  | BPanic => r = Panics
  end /\ only_changes [(TSoa, o)] w w'.
Proof. apply blend_distinct. Qed.
Theorem C56_ltm_distinct checks (w : world F) (j : hljob F) r w' :
  (forall b, In b (opt (hj_input j)) -> readable (w_lock w (TSoa, b))) ->
  (forall b, In b (opt (hj_output j)) -> idle (w_lock w (TMat, b))) ->
  exec (p_ltm checks j) w = (r, w') ->
  match ltm_run checks (ltm_in w j) with
  | Ok out => r = Val tt /\ option_map (w_data w' TMat) (hj_output j) = Some out
  | Err e => r = Fail e /\ w_data w' = w_data w
  | Panic => r = Panics
  end /\ only_changes (map (pair TMat) (opt (hj_output j))) w w'.
Proof. apply ltm_distinct. Qed.
Theorem C56_sampling_distinct {C} an cx (job : list (transform (V4 F)) -> res (C * list (transform (V4 F)))) o (w : world F) r w' :
  idle (w_lock w (TSoa, o)) ->
  exec (p_sampling an cx job (Some o)) w = (r, w') ->
  match (if an && cx then job (w_data w TSoa o) else Err InvalidJob) with
  | Ok (c, out) => r = Val c /\ w_data w' TSoa o = out
  | Err e => r = Fail e /\ w_data w' = w_data w
  | Panic => r = Panics
  end /\ only_changes [(TSoa, o)] w w'.
Proof. apply sampling_distinct. Qed.
Theorem C56_skin_distinct checks (w : world F) (j : hsjob) r w' :
  NoDup (skin_outs j) -> (forall b, In b (skin_ins j) -> ~ In b (skin_outs j)) ->
  (forall a, In a (skin_reads j) -> readable (w_lock w a)) -> (forall b, In b (skin_outs j) -> idle (w_lock w (TV3, b))) ->
  exec (p_skin checks j) w = (r, w') ->
  match skin_run checks (skin_in w j) with
  | SOk o => r = Val tt /\ skin_results w' j o
  | SErr e o => r = Fail e /\ skin_results w' j o
  | SPanic => r = Panics
  end /\ only_changes (map (pair TV3) (skin_outs j)) w w'.
Proof. apply skin_distinct. Qed.

(** A job one of whose inputs is its output never succeeds; if it is otherwise in order and the
    buffer is a cell, it panics.  A lock is waited for, by the thread that holds it (unless a layer
    before it makes the job panic). *)
Theorem C56_blend_alias_fails (w : world F) (j : hbjob F) o r w' :
  hb_output j = Some o -> lk_kind (w_lock w (TSoa, o)) <> KFree ->
  In o (map hl_transform (hb_layers j ++ hb_additive j)) ->
  exec (p_blend j) w = (r, w') -> (forall c, r <> Val c) /\ only_changes [(TSoa, o)] w w'.
Proof.
  intros Ho K AL E. apply in_map_iff in AL. destruct AL as (l & El & Il).
  split; [apply (blend_alias w j o r w' Ho K (ex_intro _ l (conj Il El)) E)|].
  pose proof (writes_eval _ (p_blend j) w [] (writes_blend j)) as W. unfold exec in E. rewrite E in W. rewrite Ho in W. exact W.
Qed.
Theorem C56_blend_cell_alias_panics (w : world F) (j : hbjob F) o r w' :
  hb_output j = Some o -> lk_kind (w_lock w (TSoa, o)) = KCell ->
  In o (map hl_transform (hb_layers j ++ hb_additive j)) ->
  blend_validate (blend_in w j) = true -> idle (w_lock w (TSoa, o)) ->
  (forall l, In l (hb_layers j ++ hb_additive j) -> hl_transform l <> o -> readable (w_lock w (TSoa, hl_transform l))) ->
  exec (p_blend j) w = (r, w') -> r = Panics.
Proof.
  intros Ho K AL V Hi R E. apply in_map_iff in AL. destruct AL as (l & El & Il).
  destruct (blend_alias w j o r w' Ho ltac:(congruence) (ex_intro _ l (conj Il El)) E) as [_ H].
  destruct (H V Hi R) as [?|[? _]]; [assumption|congruence].
Qed.
Theorem C56_blend_lock_alias (w : world F) (j : hbjob F) o r w' :
  hb_output j = Some o -> lk_kind (w_lock w (TSoa, o)) = KLock ->
  In o (map hl_transform (hb_layers j ++ hb_additive j)) ->
  blend_validate (blend_in w j) = true -> idle (w_lock w (TSoa, o)) ->
  (forall l, In l (hb_layers j ++ hb_additive j) -> hl_transform l <> o -> readable (w_lock w (TSoa, hl_transform l))) ->
  exec (p_blend j) w = (r, w') -> r = Panics \/ r = Blocks.
Proof.
  intros Ho K AL V Hi R E. apply in_map_iff in AL. destruct AL as (l & El & Il).
  destruct (blend_alias w j o r w' Ho ltac:(congruence) (ex_intro _ l (conj Il El)) E) as [_ H].
  destruct (H V Hi R) as [?|[_ ?]]; auto.
Qed.
(** Skinning, with an input among the outputs or the same output twice. *)
Theorem C56_skin_alias_fails checks (w : world F) (j : hsjob) r w' :
  ((exists b, In b (skin_ins j) /\ In b (skin_outs j)) \/ ~ NoDup (skin_outs j)) ->
  (forall b, In b (skin_outs j) -> lk_kind (w_lock w (TV3, b)) <> KFree) ->
  exec (p_skin checks j) w = (r, w') -> r <> Val tt /\ w_data w' = w_data w.
Proof. apply skin_alias. Qed.
Theorem C56_skin_cell_alias_panics checks (w : world F) (j : hsjob) r w' :
  ((exists b, In b (skin_ins j) /\ In b (skin_outs j)) \/ ~ NoDup (skin_outs j)) ->
  (hs_vertex_count j < 18446744073709551616)%N -> skin_validate checks (skin_in w j) = Ok true ->
  (forall a, In a (skin_reads j) -> readable (w_lock w a)) -> (forall b, In b (skin_outs j) -> idle (w_lock w (TV3, b))) ->
  (forall a, In a (skin_reads j ++ map (pair TV3) (skin_outs j)) -> lk_kind (w_lock w a) = KCell) ->
  exec (p_skin checks j) w = (r, w') -> r = Panics.
Proof.
  intros A VC V RD ID K E.
  destruct (skin_alias_how checks w j r w' A VC V RD ID) as [[? _]|(_ & a & I & Ka)]; auto; [intros a I; rewrite K by exact I; discriminate|].
  rewrite K in Ka by exact I. discriminate.
Qed.
Theorem C56_skin_lock_alias_blocks checks (w : world F) (j : hsjob) r w' :
  ((exists b, In b (skin_ins j) /\ In b (skin_outs j)) \/ ~ NoDup (skin_outs j)) ->
  (hs_vertex_count j < 18446744073709551616)%N -> skin_validate checks (skin_in w j) = Ok true ->
  (forall a, In a (skin_reads j) -> readable (w_lock w a)) -> (forall b, In b (skin_outs j) -> idle (w_lock w (TV3, b))) ->
  (forall a, In a (skin_reads j ++ map (pair TV3) (skin_outs j)) -> lk_kind (w_lock w a) = KLock) ->
  exec (p_skin checks j) w = (r, w') -> r = Blocks.
Proof.
  intros A VC V RD ID K E.
  destruct (skin_alias_how checks w j r w' A VC V RD ID) as [(_ & a & I & Ka)|[? _]]; auto; [intros a I; rewrite K by exact I; discriminate|].
  rewrite K in Ka by exact I. discriminate.
Qed.

(** Every access to a buffer is made under a guard, every write under an exclusive one, and
    exclusive guards are kept until the job leaves. *)
Theorem C56_accesses_guarded :
  (forall j : hbjob F, guarded [] (p_blend j) (fun _ _ => True)) /\
  (forall checks (j : hljob F), guarded [] (p_ltm checks j) (fun _ _ => True)) /\
  (forall C an cx (job : list (transform (V4 F)) -> res (C * list (transform (V4 F)))) o, guarded [] (p_sampling an cx job o) (fun _ _ => True)) /\
  (forall checks (j : hsjob), guarded [] (p_skin checks j : prog F unit) (fun _ _ => True)).
Proof.
  repeat split; intros; [apply guarded_blend|apply guarded_ltm|apply guarded_sampling|apply guarded_skin].
Qed.

(** [validate] only reads: it agrees with the validation of the contents and leaves them alone, even
    when an output is also an input. *)
Theorem C56_blend_validate (w : world F) (j : hbjob F) r w' :
  (forall b, In b (opt (hb_output j) ++ map hl_transform (hb_layers j ++ hb_additive j)) -> readable (w_lock w (TSoa, b))) ->
  exec (p_blend_validate j) w = (r, w') -> r = Val (blend_validate (blend_in w j)) /\ w_data w' = w_data w.
Proof. apply blend_validate_exec. Qed.
Theorem C56_ltm_validate (w : world F) (j : hljob F) r w' :
  (forall b, In b (opt (hj_input j)) -> readable (w_lock w (TSoa, b))) ->
  (forall b, In b (opt (hj_output j)) -> readable (w_lock w (TMat, b))) ->
  exec (p_ltm_validate j) w = (r, w') -> r = Val (ltm_validate (ltm_in w j)) /\ w_data w' = w_data w.
Proof. apply ltm_validate_exec. Qed.
Theorem C56_skin_validate checks (w : world F) (j : hsjob) r w' :
  (forall a, In a (skin_reads j) -> readable (w_lock w a)) -> (forall b, In b (skin_outs j) -> readable (w_lock w (TV3, b))) ->
  exec (p_skin_validate checks j) w = (r, w') ->
  r = (match skin_validate checks (skin_in w j) with Ok b => Val b | Err e => Fail e | Panic => Panics end) /\ w_data w' = w_data w.
Proof. apply skin_validate_exec. Qed.

(** ** C66: A half-written output behind a lock is never used *)

(** A run that panics after it has changed a buffer behind a lock leaves the lock poisoned. *)
Theorem C66_torn_outputs_poisoned {A} (p : prog F A) Q (w w' : world F) t b :
  guarded [] p Q -> exec p w = (Panics, w') ->
  w_data w' t b <> w_data w t b -> lk_kind (w_lock w (t, b)) = KLock -> lk_poison (w_lock w' (t, b)) = true.
Proof. apply torn_poisons. Qed.
(** Changed or not, when it was borrowed without waiting. *)
Theorem C66_blend_panic_poisons (w : world F) (j : hbjob F) o w' :
  hb_output j = Some o -> lk_kind (w_lock w (TSoa, o)) = KLock -> idle (w_lock w (TSoa, o)) ->
  exec (p_blend j) w = (Panics, w') -> lk_poison (w_lock w' (TSoa, o)) = true.
Proof. apply blend_panic_poisons. Qed.
Theorem C66_ltm_panic_poisons checks (w : world F) (j : hljob F) i o w' :
  hj_input j = Some i -> hj_output j = Some o -> lk_kind (w_lock w (TMat, o)) = KLock ->
  readable (w_lock w (TSoa, i)) -> idle (w_lock w (TMat, o)) ->
  exec (p_ltm checks j) w = (Panics, w') -> lk_poison (w_lock w' (TMat, o)) = true.
Proof. apply ltm_panic_poisons. Qed.
Theorem C66_sampling_panic_poisons {C} an cx (job : list (transform (V4 F)) -> res (C * list (transform (V4 F)))) o (w : world F) w' :
  lk_kind (w_lock w (TSoa, o)) = KLock -> idle (w_lock w (TSoa, o)) ->
  exec (p_sampling an cx job (Some o)) w = (Panics, w') -> lk_poison (w_lock w' (TSoa, o)) = true.
Proof. apply sampling_panic_poisons. Qed.

(** A job succeeds only if none of the locks of its buffers is poisoned. *)
Theorem C66_blend_rejects_poisoned (w : world F) (j : hbjob F) c w' :
  exec (p_blend j) w = (Val c, w') ->
  (forall o, hb_output j = Some o -> lk_kind (w_lock w (TSoa, o)) = KFree -> ~ In o (map hl_transform (hb_layers j ++ hb_additive j))) ->
  forall b, In b (opt (hb_output j) ++ map hl_transform (hb_layers j ++ hb_additive j)) ->
    lk_kind (w_lock w (TSoa, b)) = KLock -> lk_poison (w_lock w (TSoa, b)) = false.
Proof.
  intros E H. apply (blend_clean w j c w' E). intros o Ho. specialize (H o Ho).
  destruct (lk_kind (w_lock w (TSoa, o))); [right|left; discriminate..].
  intros (l & I & El). apply H; [reflexivity|]. rewrite <- El. apply in_map, I.
Qed.
Theorem C66_ltm_rejects_poisoned checks (w : world F) (j : hljob F) w' :
  exec (p_ltm checks j) w = (Val tt, w') ->
  (forall b, In b (opt (hj_input j)) -> lk_kind (w_lock w (TSoa, b)) = KLock -> lk_poison (w_lock w (TSoa, b)) = false) /\
  (forall b, In b (opt (hj_output j)) -> lk_kind (w_lock w (TMat, b)) = KLock -> lk_poison (w_lock w (TMat, b)) = false).
Proof. apply ltm_clean. Qed.
Theorem C66_sampling_rejects_poisoned {C} an cx (job : list (transform (V4 F)) -> res (C * list (transform (V4 F)))) o (w : world F) c w' :
  exec (p_sampling an cx job (Some o)) w = (Val c, w') ->
  lk_kind (w_lock w (TSoa, o)) = KLock -> lk_poison (w_lock w (TSoa, o)) = false.
Proof. apply sampling_clean. Qed.
Theorem C66_skin_rejects_poisoned checks (w : world F) (j : hsjob) w' :
  exec (p_skin checks j) w = (Val tt, w') ->
  forall b, In b (skin_ins j ++ skin_outs j) -> lk_kind (w_lock w (TV3, b)) = KLock -> lk_poison (w_lock w (TV3, b)) = false.
Proof. apply skin_clean. Qed.
(** The error is LockPoison. *)
Theorem C66_blend_poisoned_output (w : world F) (j : hbjob F) o r w' :
  is_some (hb_skeleton j) = true -> is_some (hb_context j) = true -> hb_output j = Some o ->
  lk_kind (w_lock w (TSoa, o)) = KLock -> lk_poison (w_lock w (TSoa, o)) = true ->
  lk_writer (w_lock w (TSoa, o)) = false -> lk_readers (w_lock w (TSoa, o)) = 0%N ->
  exec (p_blend j) w = (r, w') -> r = Fail LockPoison /\ w_data w' = w_data w.
Proof.
  intros S C Ho K P W R. unfold exec, p_blend. rewrite Ho. destruct (hb_skeleton j); [|discriminate]. destruct (hb_context j); [|discriminate].
  cbn [need pbind]. unfold borrow. cbn [pbind eval]. unfold acquire. rewrite K, P, W, R. cbn. intros Q. inversion Q; subst. auto.
Qed.
End Props.

Print Assumptions C56_borrows_released.
Print Assumptions C56_locks_unchanged.
Print Assumptions C56_blend_distinct.
Print Assumptions C56_ltm_distinct.
Print Assumptions C56_sampling_distinct.
Print Assumptions C56_skin_distinct.
Print Assumptions C56_blend_alias_fails.
Print Assumptions C56_blend_cell_alias_panics.
Print Assumptions C56_blend_lock_alias.
Print Assumptions C56_skin_alias_fails.
Print Assumptions C56_skin_cell_alias_panics.
Print Assumptions C56_skin_lock_alias_blocks.
Print Assumptions C56_accesses_guarded.
Print Assumptions C56_blend_validate.
Print Assumptions C56_ltm_validate.
Print Assumptions C56_skin_validate.
Print Assumptions C66_torn_outputs_poisoned.
Print Assumptions C66_blend_panic_poisons.
Print Assumptions C66_ltm_panic_poisons.
Print Assumptions C66_sampling_panic_poisons.
Print Assumptions C66_blend_rejects_poisoned.
Print Assumptions C66_ltm_rejects_poisoned.
Print Assumptions C66_sampling_rejects_poisoned.
Print Assumptions C66_skin_rejects_poisoned.
Print Assumptions C66_blend_poisoned_output.

(** ** Examples in binary32 *)
Definition x1 (x : f32) : transform (V4 f32) :=
  TR (V3 (splat x) (splat nzero) (splat nzero)) (Q4 (splat nzero) (splat nzero) (splat nzero) (splat none_))
     (V3 (splat none_) (splat none_) (splat none_)).
Definition x_skel : skeleton f32 := mk_skel [x1 none_] [(-1)%Z].
(** Every buffer is of kind [k]; SoA buffers hold one element, vertex buffers two vertices. *)
Definition x_world (k : kind) : world f32 :=
  mk_world (fun _ => mk_lock k 0 false false)
    (fun t b =>
       match t with
       | TSoa => [x1 (if (b =? 0)%nat then nzero else ntwo)]
       | TMat => [mat_identity]
       | TU16 => [0; 0]%N
       | TF32 => [none_; none_]
       | TV3 => [V3 none_ none_ none_; V3 none_ none_ none_]
       end).
Definition x_blend (o : nat) (ls : list nat) : hbjob f32 :=
  mk_hbjob (Some x_skel) (Some (mk_bctx 0 0 nzero [])) nhalf (map (fun b => mk_hlayer b none_ []) ls) [] (Some o).
Definition x_skin (p op : nat) : hsjob :=
  mk_hsjob 2 1 (Some 0%nat) None (Some 0%nat) None (Some p) None None (Some op) None None.
Definition code {A} (r : outcome A) : N :=
  match r with Val _ => 0 | Fail LockPoison => 1 | Fail _ => 2 | Panics => 3 | Blocks => 4 end.
Definition x_run {A} (p : prog f32 A) (k : kind) : N := code (fst (exec p (x_world k))).

Lemma x_idle k a : idle (w_lock (x_world k) a). Proof. repeat split. Qed.
Lemma x_readable k a : readable (w_lock (x_world k) a). Proof. destruct k; repeat split; cbn; discriminate. Qed.
Example C56_distinct_example :
  (forall l, In l (hb_layers (x_blend 0 [1; 2; 1]%nat) ++ hb_additive (x_blend 0 [1; 2; 1]%nat)) ->
     hl_transform l <> 0%nat /\ readable (w_lock (x_world KCell) (TSoa, hl_transform l))) /\
  x_run (p_blend (x_blend 0 [1; 2; 1])) KCell = 0%N /\ x_run (p_blend (x_blend 0 [1; 2; 1])) KLock = 0%N /\
  NoDup (skin_outs (x_skin 0 1)) /\ (forall b, In b (skin_ins (x_skin 0 1)) -> ~ In b (skin_outs (x_skin 0 1))) /\
  x_run (p_skin true (x_skin 0 1)) KCell = 0%N /\ x_run (p_skin true (x_skin 0 1)) KLock = 0%N.
Proof.
  split; [intros l [<-|[<-|[<-|[]]]]; (split; [discriminate|apply x_readable])|].
  split; [reflexivity|]. split; [reflexivity|]. split; [repeat constructor; intros []|].
  split; [intros b [<-|[]] [H|[]]; discriminate|]. split; reflexivity.
Qed.
(** The hypotheses of the alias theorems are met, and the outcomes are those they announce. *)
Example C56_alias_example :
  In 0%nat (map hl_transform (hb_layers (x_blend 0 [1; 0]%nat) ++ hb_additive (x_blend 0 [1; 0]%nat))) /\
  blend_validate (blend_in (x_world KCell) (x_blend 0 [1; 0]%nat)) = true /\
  x_run (p_blend (x_blend 0 [1; 0])) KCell = 3%N /\ x_run (p_blend (x_blend 0 [1; 0])) KLock = 4%N /\
  (exists b, In b (skin_ins (x_skin 3 3)) /\ In b (skin_outs (x_skin 3 3))) /\
  skin_validate true (skin_in (x_world KCell) (x_skin 3 3)) = Ok true /\
  x_run (p_skin true (x_skin 3 3)) KCell = 3%N /\ x_run (p_skin true (x_skin 3 3)) KLock = 4%N.
Proof.
  split; [cbn; auto|]. split; [reflexivity|]. split; [reflexivity|]. split; [reflexivity|].
  split; [exists 3%nat; cbn; auto|]. split; [reflexivity|]. split; reflexivity.
Qed.

(** [validate] does not notice the alias, so a validated job can still panic or wait for itself. *)
Theorem C56_validated_jobs_run_refuted :
  exists j : hbjob f32,
    fst (exec (p_blend_validate j) (x_world KCell)) = Val true /\
    fst (exec (p_blend j) (x_world KCell)) = Panics /\
    fst (exec (p_blend_validate j) (x_world KLock)) = Val true /\
    fst (exec (p_blend j) (x_world KLock)) = Blocks.
Proof. exists (x_blend 0 [1; 0]%nat). repeat split. Qed.
Print Assumptions C56_validated_jobs_run_refuted.

(** A job that panics half way: the skeleton's rest pose has one element more than its joints need,
    and the pass that adds the rest pose runs out of the output after it has written an element. *)
Definition x_torn : hbjob f32 :=
  mk_hbjob (Some (mk_skel [x1 none_; x1 none_] [(-1)%Z])) (Some (mk_bctx 0 0 nzero [])) ntwo [mk_hlayer 1 none_ []] [] (Some 0%nat).
Definition first_x (w : world f32) (b : nat) : bool :=
  match w_data w TSoa b with t :: _ => neq (l0 (vx (tr_t t))) nzero | [] => false end.
Example C66_torn_example :
  let r := exec (p_blend x_torn) (x_world KLock) in
  code (fst r) = 3%N /\ first_x (x_world KLock) 0 = true /\ first_x (snd r) 0 = false /\
  lk_poison (w_lock (snd r) (TSoa, 0%nat)) = true /\
  code (fst (exec (p_blend (x_blend 0 [1]%nat)) (snd r))) = 1%N /\ code (fst (exec (p_blend (x_blend 1 [0]%nat)) (snd r))) = 1%N.
Proof. vm_compute. repeat split. Qed.
(** A cell is not poisoned: there, the half-written output is taken as it is. *)
Theorem C66_cells_not_poisoned_refuted :
  exists (j j2 : hbjob f32) w1 w2 c,
    exec (p_blend j) (x_world KCell) = (Panics, w1) /\ first_x w1 0 <> first_x (x_world KCell) 0 /\
    In 0%nat (map hl_transform (hb_layers j2)) /\
    exec (p_blend j2) w1 = (Val c, w2).
Proof.
  exists x_torn, (x_blend 1 [0]%nat), (snd (exec (p_blend x_torn) (x_world KCell))).
  remember (exec (p_blend (x_blend 1 [0]%nat)) (snd (exec (p_blend x_torn) (x_world KCell)))) as e eqn:Q.
  assert (C : code (fst e) = 0%N) by (rewrite Q; vm_compute; reflexivity).
  destruct e as [[c|[]| |] w2]; try discriminate. exists w2, c.
  split; [|split; [|split; [left; reflexivity|reflexivity]]].
  - assert (C2 : code (fst (exec (p_blend x_torn) (x_world KCell))) = 3%N) by (vm_compute; reflexivity).
    clear Q. destruct (exec (p_blend x_torn) (x_world KCell)) as [[c'|[]| |] w1]; try discriminate. reflexivity.
  - vm_compute. discriminate.
Qed.
Print Assumptions C66_cells_not_poisoned_refuted.
