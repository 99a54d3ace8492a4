(** Vocabulary for the properties of concurrent jobs. *)
From Verif Require Import Base Num Math Skeleton Sampling Blending Skinning Buffers BuffersSpec Threads.

Section Spec.
  Context {F : Type} {NF : Num F} {R : Type}.
  Notation sys := (sys F R). Notation thread := (thread F R).

  (** Nobody holds a borrow; locks may be poisoned. *)
  Definition unborrowed (w : world F) : Prop :=
    forall a, lk_readers (w_lock w a) = 0%N /\ lk_writer (w_lock w a) = false.
  Definition finished (th : thread) : Prop := th_act th = Idle /\ th_todo th = [].
  Definition all_finished (s : sys) : Prop := forall th, In th (s_threads s) -> finished th.

  (** ** Data races *)

  (** The buffer a thread is about to read or write. *)
  Definition next_access (th : thread) : option (addr * mode) :=
    match th_act th with
    | Run (Load t b _) _ => Some ((t, b), Sh)
    | Run (Store t b _ _) _ => Some ((t, b), Ex)
    | _ => None
    end.
  (** Two threads are about to access the same buffer, one of them to write it. *)
  Definition race (s : sys) : Prop :=
    exists i j th th' a m m',
      i <> j /\ nth_error (s_threads s) i = Some th /\ nth_error (s_threads s) j = Some th' /\
      next_access th = Some (a, m) /\ next_access th' = Some (a, m') /\ (m = Ex \/ m' = Ex).

  (** ** Jobs one after the other *)

  (** Thread [i] runs its whole next job while the others do nothing. *)
  Definition whole_job (i : nat) (s : sys) : sys :=
    match nth_error (s_threads s) i with
    | Some (mk_thread Idle (j :: todo) log) =>
        let (o, w) := exec (j log) (s_world s) in
        mk_sys w (upd (s_threads s) i (mk_thread Idle todo (log ++ [o])))
    | _ => s
    end.
  Definition run_serially (order : list nat) (s : sys) : sys := fold_left (fun s i => whole_job i s) order s.
  (** The same outcomes and the same memory. *)
  Definition same_result (s s' : sys) : Prop :=
    map th_log (s_threads s) = map th_log (s_threads s') /\
    (forall a, w_lock (s_world s) a = w_lock (s_world s') a) /\
    (forall t b, w_data (s_world s) t b = w_data (s_world s') t b).

  (** ** Waiting *)

  (** A thread waits for a lock. *)
  Definition waits (w : world F) (th : thread) (a : addr) (m : mode) : Prop :=
    match th_act th with
    | Run (Acq a' m' _ _) _ => a' = a /\ m' = m /\ acquire (w_lock w a) m = Wait
    | _ => False
    end.
  (** Thread [i] can make a step even if a lock prefers its waiting writers to new readers, as the
      RwLock of std does on Linux. *)
  Definition ready (s : sys) (i : nat) : Prop :=
    exists th, nth_error (s_threads s) i = Some th /\ tstep (s_world s) th <> None /\
      forall a q k g, th_act th = Run (Acq a Sh q k) g ->
        forall th', In th' (s_threads s) -> ~ waits (s_world s) th' a Ex.
  (** An execution that goes on for ever. *)
  Definition endless (s : sys) : Prop :=
    exists f : nat -> sys, f 0%nat = s /\ forall n, exists i, f (S n) = sstep i (f n) /\ f (S n) <> f n.
End Spec.

Section Jobs.
  Context {F : Type} {NF : Num F} {C : Type}.
  Notation script := (script F C). Notation job := (job F C).

  (** The buffers a job names, in the order in which it borrows them, and how. *)
  Definition named (t : ety) (m : mode) (bs : list nat) : list (addr * mode) := map (fun b => ((t, b), m)) bs.
  Definition layer_bufs (j : hbjob F) : list nat := map hl_transform (hb_layers j ++ hb_additive j).
  Definition skin_bufs (j : hsjob) (out : mode) : list (addr * mode) :=
    named TMat Sh (opt (hs_matrices j)) ++ named TMat Sh (opt (hs_it_matrices j)) ++
    named TU16 Sh (opt (hs_indices j)) ++ named TF32 Sh (opt (hs_weights j)) ++
    named TV3 Sh (skin_ins j) ++ named TV3 out (skin_outs j).
  Definition uses (j : job) : list (addr * mode) :=
    match j with
    | JSample _ _ _ o => named TSoa Ex (opt o)
    | JBlend j => named TSoa Ex (opt (hb_output j)) ++ named TSoa Sh (layer_bufs j)
    | JLtm _ j => named TSoa Sh (opt (hj_input j)) ++ named TMat Ex (opt (hj_output j))
    | JSkin _ j => skin_bufs j Ex
    | JBlendV j => named TSoa Sh (opt (hb_output j)) ++ named TSoa Sh (layer_bufs j)
    | JLtmV j => named TSoa Sh (opt (hj_input j)) ++ named TMat Sh (opt (hj_output j))
    | JSkinV _ j => skin_bufs j Sh
    end.
  (** A job a thread may come to run: one of its script, after some outcomes. *)
  Definition may_run (scs : list script) (i : nat) (j : job) : Prop :=
    exists sc f log, nth_error scs i = Some sc /\ In f sc /\ j = f log.
  Definition may_use (scs : list script) (i : nat) (a : addr) (m : mode) : Prop :=
    exists j, may_run scs i j /\ In (a, m) (uses j).

  (** What Rust's type system guarantees: a buffer used by two threads is a lock (Rc and RefCell are
      not Sync; Vec and &mut are exclusive), or a plain slice that both only read. *)
  Definition well_typed (w : world F) (scs : list script) : Prop :=
    forall i j a m m', i <> j -> may_use scs i a m -> may_use scs j a m' ->
      lk_kind (w_lock w a) = KLock \/ (lk_kind (w_lock w a) = KFree /\ m = Sh /\ m' = Sh).
  Definition initial (w : world F) (scs : list script) : sys F (result F C) := mk_sys w (map start scs).

  (** No job of the system writes the buffer. *)
  Definition read_only (scs : list script) (a : addr) : Prop := forall i, ~ may_use scs i a Ex.
  (** The job keeps all its guards until it leaves, except guards on buffers that nobody writes. *)
  Definition two_phase (scs : list script) (j : job) : Prop :=
    match j with
    | JSample _ _ _ _ | JLtm _ _ | JSkin _ _ | JLtmV _ => True
    | JBlend j | JBlendV j => forall b, In b (layer_bufs j) -> read_only scs (TSoa, b)
    | JSkinV _ j => forall a m, In (a, m) (skin_bufs j Sh) -> read_only scs a
    end.

  (** Locks are ranked, and whenever a job waits for a lock its rank is above those the job holds. *)
  Definition ordered (k : addr -> kind) (rank : addr -> nat) (j : job) : Prop :=
    let below a b := k a = KLock -> k b = KLock -> (rank a < rank b)%nat in
    match j with
    | JSample _ _ _ _ => True
    | JBlend j | JBlendV j =>
        forall o l, hb_output j = Some o -> In l (layer_bufs j) -> below (TSoa, o) (TSoa, l)
    | JLtm _ j | JLtmV j =>
        forall i o, hj_input j = Some i -> hj_output j = Some o -> below (TSoa, i) (TMat, o)
    | JSkin _ j | JSkinV _ j => ForallOrdPairs below (map fst (skin_bufs j Ex))
    end.
End Jobs.
