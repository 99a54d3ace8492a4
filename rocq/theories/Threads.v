(** Model of several threads that run jobs on shared buffers, one operation at a time in any order.

    Only Arc<RwLock<Vec<T>>> (base.rs 375-426) can be shared between threads; what the other kinds
    of buffers may do is what Rust's type system lets them do, see [well_typed] in ThreadsSpec.v.
    The operations of one thread are those of Buffers.v.  Memory is sequentially consistent; the
    locks order all accesses to the buffers (C67), so that weaker models agree with it. *)
From Verif Require Import Base Num Math Skeleton Sampling Blending Skinning Buffers.

Section Threads.
  Context {F : Type} {NF : Num F} {R : Type}.
  Notation world := (world F). Notation prog := (prog F R).

  (** What a thread is doing: nothing, running a job, or dropping the guards of one that is over. *)
  Inductive act :=
  | Idle
  | Run (p : prog) (g : guards)
  | Leave (o : outcome R) (g : guards).
  (** A thread: what it does now, the jobs it has still to run and the outcomes so far, the oldest
      first.  A job may depend on the outcomes of those before it (the context of a job is moved
      from one to the next).  A panic is caught and the thread goes on with its next job. *)
  Record thread := mk_thread {
    th_act : act;
    th_todo : list (list (outcome R) -> prog);
    th_log : list (outcome R)
  }.
  (** std::thread::panicking, which the guards ask when they are dropped (base.rs 396-405) *)
  Definition panics (o : outcome R) : bool := match o with Panics => true | _ => false end.

  (** The next operation of a thread; [None] if it is finished or waits for a lock.  Locals are
      dropped in the reverse order of their declaration, here the most recent guard first. *)
  Definition tstep (w : world) (th : thread) : option (world * thread) :=
    let to w a := Some (w, mk_thread a (th_todo th) (th_log th)) in
    match th_act th with
    | Idle =>
        match th_todo th with
        | [] => None
        | j :: todo => Some (w, mk_thread (Run (j (th_log th)) []) todo (th_log th))
        end
    | Run p g =>
        match p with
        | Ret a => to w (Leave (Val a) g)
        | Throw e => to w (Leave (Fail e) g)
        | Pan => to w (Leave Panics g)
        | Acq a m q k =>
            match acquire (w_lock w a) m with
            | Got l => to (mk_world (put_lock (w_lock w) a l) (w_data w)) (Run k ((a, m) :: g))
            | Poisoned => to w (Run q g)
            | Refused => to w (Run Pan g)
            | Wait => None
            end
        | Drop k =>
            match g with
            | h :: g => to (drop_one false w h) (Run k g)
            | [] => to w (Run k [])
            end
        | Load t b k => to w (Run (k (w_data w t b)) g)
        | Store t b x k => to (mk_world (w_lock w) (put_data (w_data w) t b x)) (Run k g)
        end
    | Leave o (h :: g) => to (drop_one (panics o) w h) (Leave o g)
    | Leave o [] => Some (w, mk_thread Idle (th_todo th) (th_log th ++ [o]))
    end.

  (** The memory and the threads. *)
  Record sys := mk_sys { s_world : world; s_threads : list thread }.
  (** Thread [i] makes its next operation, if it can. *)
  Definition sstep (i : nat) (s : sys) : sys :=
    match nth_error (s_threads s) i with
    | Some th =>
        match tstep (s_world s) th with
        | Some (w, th) => mk_sys w (upd (s_threads s) i th)
        | None => s
        end
    | None => s
    end.
  (** A schedule says which thread is next. *)
  Definition run_sched (sched : list nat) (s : sys) : sys := fold_left (fun s i => sstep i s) sched s.
End Threads.
Arguments act F R : clear implicits.
Arguments thread F R : clear implicits.
Arguments sys F R : clear implicits.
Arguments Idle {F R}. Arguments Run {F R}. Arguments Leave {F R}.

Section Jobs.
  Context {F : Type} {NF : Num F} {C : Type}.
  Notation soa := (transform (V4 F)).

  (** The jobs that borrow buffers, and their validations: sampling_job.rs 1099-1133, blending_job.rs
      302-325 and 272-298, local_to_model_job.rs 221-257 and 206-217, skinning_job.rs 531-575 and
      340-371. [C] is the context of the sampling job. *)
  Inductive job :=
  | JSample (animation context : bool) (f : list soa -> res (C * list soa)) (output : option nat)
  | JBlend (j : hbjob F)
  | JLtm (checks : bool) (j : hljob F)
  | JSkin (checks : bool) (j : hsjob)
  | JBlendV (j : hbjob F)
  | JLtmV (j : hljob F)
  | JSkinV (checks : bool) (j : hsjob).
  (** What [run] returns, with the context of the job it changes, and what [validate] returns. *)
  Inductive result :=
  | RDone
  | RBool (b : bool)
  | RBlend (c : bctx F)
  | RSample (c : C).
  (** The same functions, as the programs of Buffers.v, which cite base.rs 201-444 and the jobs. *)
  Definition job_prog (j : job) : prog F result :=
    match j with
    | JSample an cx f o => pbind (p_sampling an cx f o) (fun c => Ret (RSample c))
    | JBlend j => pbind (p_blend j) (fun c => Ret (RBlend c))
    | JLtm checks j => pbind (p_ltm checks j) (fun _ => Ret RDone)
    | JSkin checks j => pbind (p_skin checks j) (fun _ => Ret RDone)
    | JBlendV j => pbind (p_blend_validate j) (fun b => Ret (RBool b))
    | JLtmV j => pbind (p_ltm_validate j) (fun b => Ret (RBool b))
    | JSkinV checks j => pbind (p_skin_validate checks j) (fun b => Ret (RBool b))
    end.
  (** A thread that is about to run these jobs. *)
  Definition script := list (list (outcome result) -> job).
  Definition start (js : script) : thread F result := mk_thread Idle (map (fun j log => job_prog (j log)) js) [].
End Jobs.
Arguments job F C : clear implicits.
Arguments result F C : clear implicits.
Arguments script F C : clear implicits.
