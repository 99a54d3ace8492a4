(** Model of the shared buffers (base.rs, OzzBuf and OzzMutBuf) and of the way the jobs borrow them.

    A job is written as a program over a memory of buffers; its borrows are explicit.  A guard
    lives until the end of its scope: [Drop] ends the most recent one, and returning from the
    function, with a value, an error or a panic, ends all those that are left.  The order of the
    borrows is the one of the code.

    The context of a job is owned by it and is carried by the program. *)
From Verif Require Import Base Num Math Skeleton Sampling Blending Skinning.
Local Open Scope num_scope.

(** base.rs 201-444, the buffer traits and their instances.  Element types of the buffers: SoaTransform, Mat4, u16, f32, Vec3. *)
Inductive ety := TSoa | TMat | TU16 | TF32 | TV3.
Definition ety_eq (a b : ety) : {a = b} + {a <> b}.
Proof. decide equality. Defined.
(** base.rs 201-444: a buffer, its element type and its address. *)
Definition addr := (ety * nat)%type.
Definition addr_eq (a b : addr) : {a = b} + {a <> b}.
Proof. decide equality; [apply Nat.eq_dec|apply ety_eq]. Defined.

(** How a buffer is shared: Vec<T>, &[T] and &mut [T] (base.rs 229-318) have no run-time state;
    Rc<RefCell<Vec<T>>> (324-369); Arc<RwLock<Vec<T>>> (375-426). *)
Inductive kind := KFree | KCell | KLock.
(** base.rs 206 [buf], 222 [mut_buf]: shared or exclusive. *)
Inductive mode := Sh | Ex.
(** base.rs 324, 375: the state of a cell or lock, number of shared borrows, exclusive borrow, poison flag. *)
Record lock := mk_lock { lk_kind : kind; lk_readers : N; lk_writer : bool; lk_poison : bool }.
(** Largest number of shared borrows: isize::MAX for RefCell, 2^30 - 2 for the futex RwLock of
    std on Linux; one more panics. *)
Definition max_readers (k : kind) : N :=
  match k with KLock => 1073741822 | _ => 9223372036854775807 end%N.

(** base.rs 206, 222: the outcome of asking for a borrow. *)
Inductive acq := Got (l : lock) | Poisoned | Refused | Wait.
(** [buf] (Sh): base.rs 236-238, 263-265, 306-308, 328-330 [RefCell::borrow], 379-384
    [RwLock::read]; [mut_buf] (Ex): 275-277, 315-317, 348-350 [RefCell::borrow_mut], 402-407
    [RwLock::write].  A cell that is borrowed the other way panics ([Refused]); a lock held the
    other way waits ([Wait]); a poisoned lock is released at once and reported. *)
Definition acquire (l : lock) (m : mode) : acq :=
  let busy :=
    match m with Sh => lk_writer l | Ex => lk_writer l || negb (lk_readers l =? 0)%N end in
  let taken :=
    match m with
    | Sh => mk_lock (lk_kind l) (lk_readers l + 1) (lk_writer l) (lk_poison l)
    | Ex => mk_lock (lk_kind l) (lk_readers l) true (lk_poison l)
    end in
  let full := match m with Sh => (max_readers (lk_kind l) <=? lk_readers l)%N | Ex => false end in
  match lk_kind l with
  | KFree => Got l
  | KCell => if busy || full then Refused else Got taken
  | KLock => if busy then Wait else if full then Refused else if lk_poison l then Poisoned else Got taken
  end.
(** base.rs 227-426: dropping a guard (Ref, RefMut, RwLockReadGuard, RwLockWriteGuard); while a panic unwinds, an
    exclusive guard of a lock poisons it. *)
Definition release (panicking : bool) (l : lock) (m : mode) : lock :=
  match lk_kind l with
  | KFree => l
  | k =>
      match m with
      | Sh => mk_lock k (lk_readers l - 1) (lk_writer l) (lk_poison l)
      | Ex => mk_lock k (lk_readers l) false
               (lk_poison l || match k with KLock => panicking | _ => false end)
      end
  end.

Section Buffers.
  Context {F : Type} {NF : Num F}.

  Definition den (t : ety) : Type :=
    match t with
    | TSoa => transform (V4 F) | TMat => mat4 F | TU16 => N | TF32 => F | TV3 => vec3 F
    end.
  (** The memory: the state of every cell and the content of every buffer. *)
  Definition locks := addr -> lock.
  Definition data := forall t, nat -> list (den t).
  Record world := mk_world { w_lock : locks; w_data : data }.

  Definition put_lock (ls : locks) (a : addr) (l : lock) : locks :=
    fun a' => if addr_eq a a' then l else ls a'.
  Definition put_data (d : data) (t : ety) (b : nat) (x : list (den t)) : data :=
    fun t' b' =>
      match ety_eq t t' with
      | left e => if Nat.eq_dec b b' then eq_rect t (fun t => list (den t)) x t' e else d t' b'
      | right _ => d t' b'
      end.

  (** Programs. [Acq] has a branch for a poisoned lock.  [Load] and [Store] read and write the
      whole content of a buffer; single elements are read and written through them below. *)
  Inductive prog (A : Type) : Type :=
  | Ret (a : A)
  | Throw (e : ozz_error)
  | Pan
  | Acq (a : addr) (m : mode) (poisoned k : prog A)
  | Drop (k : prog A)
  | Load (t : ety) (b : nat) (k : list (den t) -> prog A)
  | Store (t : ety) (b : nat) (x : list (den t)) (k : prog A).
  Arguments Ret {A} a. Arguments Throw {A} e. Arguments Pan {A}. Arguments Acq {A} a m poisoned k.
  Arguments Drop {A} k. Arguments Load {A} t b k. Arguments Store {A} t b x k.

  Fixpoint pbind {A B} (p : prog A) (f : A -> prog B) : prog B :=
    match p with
    | Ret a => f a
    | Throw e => Throw e
    | Pan => Pan
    | Acq a m q k => Acq a m (pbind q f) (pbind k f)
    | Drop k => Drop (pbind k f)
    | Load t b k => Load t b (fun x => pbind (k x) f)
    | Store t b x k => Store t b x (pbind k f)
    end.

  Definition guards := list (addr * mode).
  (** Where a program has arrived. *)
  Inductive ev (A : Type) :=
  | EVal (a : A) (w : world) (g : guards)
  | EFail (e : ozz_error) (w : world) (g : guards)
  | EPan (w : world) (g : guards)
  | EBlock (w : world) (g : guards).
  Arguments EVal {A}. Arguments EFail {A}. Arguments EPan {A}. Arguments EBlock {A}.

  Definition drop_one (panicking : bool) (w : world) (h : addr * mode) : world :=
    mk_world (put_lock (w_lock w) (fst h) (release panicking (w_lock w (fst h)) (snd h))) (w_data w).
  Definition drop_all (panicking : bool) (w : world) (g : guards) : world := fold_left (drop_one panicking) g w.

  (** Execution by one thread, alone: a lock that waits never gets its turn. *)
  Fixpoint eval {A} (p : prog A) (w : world) (g : guards) : ev A :=
    match p with
    | Ret a => EVal a w g
    | Throw e => EFail e w g
    | Pan => EPan w g
    | Acq a m q k =>
        match acquire (w_lock w a) m with
        | Got l => eval k (mk_world (put_lock (w_lock w) a l) (w_data w)) ((a, m) :: g)
        | Poisoned => eval q w g
        | Refused => EPan w g
        | Wait => EBlock w g
        end
    | Drop k =>
        match g with
        | h :: g => eval k (drop_one false w h) g
        | [] => eval k w []
        end
    | Load t b k => eval (k (w_data w t b)) w g
    | Store t b x k => eval k (mk_world (w_lock w) (put_data (w_data w) t b x)) g
    end.

  (** What the caller of the function sees. *)
  Inductive outcome (A : Type) := Val (a : A) | Fail (e : ozz_error) | Panics | Blocks.
  Arguments Val {A}. Arguments Fail {A}. Arguments Panics {A}. Arguments Blocks {A}.
  Definition leave {A} (r : ev A) : outcome A * world :=
    match r with
    | EVal a w g => (Val a, drop_all false w g)
    | EFail e w g => (Fail e, drop_all false w g)
    | EPan w g => (Panics, drop_all true w g)
    | EBlock w g => (Blocks, w)
    end.
  Definition exec {A} (p : prog A) (w : world) : outcome A * world := leave (eval p w []).

  (** ** Building blocks *)
  Declare Scope prog_scope.
  Delimit Scope prog_scope with prog.
  Notation "x <- p ;; f" := (pbind p (fun x => f)) (at level 100, p at next level, right associativity) : prog_scope.
  Local Open Scope prog_scope.

  (** Not code of their own: a pure computation, reading a whole buffer, the end of a guard's scope. *)
  Definition lift {A} (r : res A) : prog A :=
    match r with Ok a => Ret a | Err e => Throw e | Panic => Pan end.
  Definition load (t : ety) (b : nat) : prog (list (den t)) := Load t b Ret.
  Definition drop : prog unit := Drop (Ret tt).
  (** [buf[i]] and [buf[i] = v], as in blending_job.rs 354-381 *)
  Definition rd (t : ety) (b i : nat) : prog (den t) := Load t b (fun l => lift (get l i)).
  Definition wr (t : ety) (b i : nat) (v : den t) : prog unit :=
    Load t b (fun l => match set l i v with Ok l => Store t b l (Ret tt) | _ => Pan end).
  (** [buf.buf()?] and [buf.mut_buf()?], as in blending_job.rs 302-313 *)
  Definition borrow (t : ety) (b : nat) (m : mode) : prog unit := Acq (t, b) m (Throw LockPoison) (Ret tt).
  (** [field.as_ref().ok_or(InvalidJob)?], as in blending_job.rs 302-313 *)
  Definition need {A} (o : option A) : prog A := match o with Some x => Ret x | None => Throw InvalidJob end.
  (** [for i in k..k + n], as in blending_job.rs 354 *)
  Fixpoint pfor {S} (n k : nat) (body : nat -> S -> prog S) (s : S) : prog S :=
    match n with
    | O => Ret s
    | Datatypes.S n => pbind (body k s) (pfor n (Datatypes.S k) body)
    end.
  Definition guard_ (b : bool) : prog unit := if b then Ret tt else Throw InvalidJob.

  (** ** BlendingJob *)

  (** blending_job.rs 18-37, with the address of the buffer *)
  Record hlayer := mk_hlayer { hl_transform : nat; hl_weight : F; hl_joint_weights : list (V4 F) }.
  (** blending_job.rs 115-128 *)
  Record hbjob := mk_hbjob {
    hb_skeleton : option (skeleton F);
    hb_context : option (bctx F);
    hb_threshold : F;
    hb_layers : list hlayer;
    hb_additive : list hlayer;
    hb_output : option nat
  }.
  (** A layer as Blending.v sees it, given the content of its buffer. *)
  Definition as_layer (l : hlayer) (x : list (transform (V4 F))) : layer F :=
    mk_layer x (hl_weight l) (hl_joint_weights l).

  (** blending_job.rs 355-381 *)
  Definition p_layer_pass (o n : nat) (l : hlayer) (first : bool) (accs : list (V4 F)) : prog (list (V4 F)) :=
    pfor n 0 (fun idx accs =>
      weight <- lift (weight_at (hl_weight l) (as_layer l []) idx) ;;
      acc <- lift (get accs idx) ;;
      accs <- lift (set accs idx (if first then weight else acc + weight)) ;;
      t <- rd TSoa (hl_transform l) idx ;;
      out <- rd TSoa o idx ;;
      _ <- wr TSoa o idx (if first then blend_1st_pass t weight else blend_n_pass t weight out) ;;
      Ret accs) accs.

  (** blending_job.rs 336-343, 440-446: borrow the layer's buffer and check the sizes *)
  Definition p_enter (n : nat) (l : hlayer) : prog unit :=
    _ <- borrow TSoa (hl_transform l) Sh ;;
    x <- load TSoa (hl_transform l) ;;
    guard_ (layer_ok n (as_layer l x)).

  (** blending_job.rs 327-383 [blend_layers] *)
  Fixpoint p_blend_layers (o n : nat) (layers : list hlayer) (c : bctx F) : prog (bctx F) :=
    match layers with
    | [] => Ret c
    | l :: rest =>
        _ <- p_enter n l ;;
        c <- (if nle (hl_weight l) nzero then Ret c
              else
                accs <- p_layer_pass o n l (bc_passes c =? 0)%nat (bc_weights c) ;;
                Ret (mk_bctx (S (bc_passes c))
                       (if is_partial (as_layer l []) then S (bc_partial c) else bc_partial c)
                       (bc_weight c + hl_weight l) accs)) ;;
        _ <- drop ;;
        p_blend_layers o n rest c
    end.

  (** blending_job.rs 385-410 [blend_rest_pose]; copy_from_slice writes element by element *)
  Definition p_rest_pose (o : nat) (rest : list (transform (V4 F))) (threshold : F) (c : bctx F) : prog (bctx F) :=
    if (bc_partial c =? 0)%nat then
      let bp_weight := threshold - bc_weight c in
      if nlt nzero bp_weight then
        if (bc_passes c =? 0)%nat then
          out <- load TSoa o ;;
          _ <- (if (length out =? length rest)%nat then Ret tt else Pan) ;;
          _ <- pfor (length rest) 0 (fun idx _ => r <- lift (get rest idx) ;; wr TSoa o idx r) tt ;;
          Ret (mk_bctx (bc_passes c) (bc_partial c) none_ (bc_weights c))
        else
          _ <- pfor (length rest) 0 (fun idx _ =>
            r <- lift (get rest idx) ;;
            out <- rd TSoa o idx ;;
            wr TSoa o idx (blend_n_pass r (splat bp_weight) out)) tt ;;
          Ret (mk_bctx (bc_passes c) (bc_partial c) threshold (bc_weights c))
      else Ret c
    else
      let simd_threshold := splat threshold in
      accs <- pfor (length rest) 0 (fun idx accs =>
        acc <- lift (get accs idx) ;;
        accs <- lift (set accs idx (nmax simd_threshold acc)) ;;
        r <- lift (get rest idx) ;;
        out <- rd TSoa o idx ;;
        _ <- wr TSoa o idx (blend_n_pass r (nmax (simd_threshold - acc) nzero) out) ;;
        Ret accs) (bc_weights c) ;;
      Ret (mk_bctx (bc_passes c) (bc_partial c) (bc_weight c) accs).

  (** blending_job.rs 412-430 [normalize] *)
  Definition p_normalize (o : nat) (rest : list (transform (V4 F))) (c : bctx F) : prog unit :=
    out <- load TSoa o ;;
    pfor (Nat.min (length out) (length rest)) 0 (fun idx _ =>
      dest <- rd TSoa o idx ;;
      ratio <- lift (if (bc_partial c =? 0)%nat then Ok (splat (nrecip (bc_weight c)))
                     else let* acc := get (bc_weights c) idx in Ok (nrecip acc)) ;;
      wr TSoa o idx (normalize_one ratio dest)) tt.

  (** blending_job.rs 448-478 *)
  Definition p_additive_pass (o n : nat) (l : hlayer) (w : F) (sub : bool) : prog unit :=
    pfor n 0 (fun idx _ =>
      weight <- lift (weight_at w (as_layer l []) idx) ;;
      t <- rd TSoa (hl_transform l) idx ;;
      out <- rd TSoa o idx ;;
      let one_minus_weight := none_ - weight in
      wr TSoa o idx (if sub then blend_sub_pass t weight one_minus_weight out
                     else blend_add_pass t weight one_minus_weight out)) tt.
  (** blending_job.rs 432-481 [add_layers] *)
  Fixpoint p_add_layers (o n rest_len : nat) (layers : list hlayer) : prog unit :=
    match layers with
    | [] => Ret tt
    | l :: tl =>
        _ <- p_enter n l ;;
        _ <- (if nlt nzero (hl_weight l) then p_additive_pass o rest_len l (hl_weight l) false
              else if nlt (hl_weight l) nzero then p_additive_pass o rest_len l (- hl_weight l) true
              else Ret tt) ;;
        _ <- drop ;;
        p_add_layers o n rest_len tl
    end.

  (** blending_job.rs 302-325 [run]; returns the new context *)
  Definition p_blend (j : hbjob) : prog (bctx F) :=
    sk <- need (hb_skeleton j) ;;
    ctx <- need (hb_context j) ;;
    o <- need (hb_output j) ;;
    _ <- borrow TSoa o Ex ;;
    out <- load TSoa o ;;
    let n := num_soa_joints sk in
    _ <- guard_ (nlt nzero (hb_threshold j) && (n <=? length out)%nat) ;;
    let accs := if (length (bc_weights ctx) <? n)%nat then resize (bc_weights ctx) n nzero else bc_weights ctx in
    c <- p_blend_layers o n (hb_layers j) (mk_bctx 0 0 nzero accs) ;;
    c <- p_rest_pose o (sk_rest sk) (hb_threshold j) c ;;
    _ <- p_normalize o (sk_rest sk) c ;;
    _ <- p_add_layers o n (length (sk_rest sk)) (hb_additive j) ;;
    Ret c.

  (** [buf.buf().ok()?] in validate: on a poisoned lock the closure returns None, validate false *)
  Definition peek {A} (t : ety) (b : nat) (poisoned : A) (k : list (den t) -> prog A) : prog A :=
    Acq (t, b) Sh (Ret poisoned) (Load t b k).

  (** blending_job.rs 281-293: the loops over the layers *)
  Fixpoint p_check_layers (n : nat) (layers : list hlayer) (ok : bool) (k : bool -> prog bool) : prog bool :=
    match layers with
    | [] => k ok
    | l :: tl =>
        peek TSoa (hl_transform l) false (fun x =>
          Drop (p_check_layers n tl (ok && layer_ok n (as_layer l x)) k))
    end.
  (** blending_job.rs 272-298 [validate] *)
  Definition p_blend_validate (j : hbjob) : prog bool :=
    match hb_skeleton j, hb_context j, hb_output j with
    | Some sk, Some _, Some o =>
        let n := num_soa_joints sk in
        peek TSoa o false (fun out =>
          p_check_layers n (hb_layers j) (nlt nzero (hb_threshold j) && (n <=? length out)%nat) (fun ok =>
            p_check_layers n (hb_additive j) ok Ret))
    | _, _, _ => Ret false
    end.

  (** ** LocalToModelJob *)

  (** local_to_model_job.rs 29-42 *)
  Record hljob := mk_hljob {
    hj_skeleton : option (skeleton F);
    hj_input : option nat;
    hj_root : mat4 F;
    hj_from : Z;
    hj_to : Z;
    hj_from_excluded : bool;
    hj_output : option nat
  }.
  Definition ltm_of (j : hljob) (input : option (list (transform (V4 F)))) (output : option (list (mat4 F))) : ltm_job F :=
    mk_ltm (hj_skeleton j) input (hj_root j) (hj_from j) (hj_to j) (hj_from_excluded j) output.
  (** local_to_model_job.rs 221-257 [run].  Input and output have different element types and
      cannot be the same buffer, so the computation is done at once on their contents (what it
      leaves in the output when it panics is not modelled). *)
  Definition p_ltm (checks : bool) (j : hljob) : prog unit :=
    sk <- need (hj_skeleton j) ;;
    i <- need (hj_input j) ;;
    _ <- borrow TSoa i Sh ;;
    o <- need (hj_output j) ;;
    _ <- borrow TMat o Ex ;;
    input <- load TSoa i ;;
    output <- load TMat o ;;
    out <- lift (ltm_run checks (ltm_of j (Some input) (Some output))) ;;
    Store TMat o out (Ret tt).
  (** local_to_model_job.rs 206-217 [validate] *)
  Definition p_ltm_validate (j : hljob) : prog bool :=
    match hj_skeleton j, hj_input j with
    | Some sk, Some i =>
        peek TSoa i false (fun input =>
          match hj_output j with
          | Some o => peek TMat o false (fun output => Ret (ltm_validate (ltm_of j (Some input) (Some output))))
          | None => Ret false
          end)
    | _, _ => Ret false
    end.

  (** ** SamplingJob: sampling_job.rs 1099-1133, [job] is what the job does with the content of
      its output buffer ([Sampling.run] on its animation, context and ratio). *)
  Definition p_sampling {C} (animation context : bool) (job : list (transform (V4 F)) -> res (C * list (transform (V4 F))))
      (output : option nat) : prog C :=
    _ <- guard_ animation ;;
    _ <- guard_ context ;;
    o <- need output ;;
    _ <- borrow TSoa o Ex ;;
    out <- load TSoa o ;;
    r <- lift (job out) ;;
    Store TSoa o (snd r) (Ret (fst r)).

  (** ** SkinningJob *)

  (** skinning_job.rs 15-44 *)
  Record hsjob := mk_hsjob {
    hs_vertex_count : N;
    hs_influences : N;
    hs_matrices : option nat;
    hs_it_matrices : option nat;
    hs_indices : option nat;
    hs_weights : option nat;
    hs_positions : option nat;
    hs_normals : option nat;
    hs_tangents : option nat;
    hs_out_positions : option nat;
    hs_out_normals : option nat;
    hs_out_tangents : option nat
  }.
  Variable checks : bool.

  (** skinning_job.rs 374-396 [unpack_buf], [unpack_mut_buf]: the guard is dropped if the buffer is too short *)
  Definition p_unpack (t : ety) (b : option nat) (m : mode) (size : N) : prog nat :=
    b <- need b ;;
    _ <- borrow t b m ;;
    l <- load t b ;;
    _ <- guard_ (size <=? N.of_nat (length l))%N ;;
    Ret b.
  Definition p_take (t : ety) (b : option nat) : prog nat :=
    b <- need b ;; _ <- borrow t b Sh ;; Ret b.

  (** The buffers of positions, normals and tangents (422-428, 458-465); those a variant does not
      use are not borrowed. *)
  Definition p_unpack3 (k : pnt) (m : mode) (vc : N) (p n t : option nat) : prog (nat * nat * nat) :=
    p <- p_unpack TV3 p m vc ;;
    n <- (match k with P => Ret 0%nat | _ => p_unpack TV3 n m vc end) ;;
    t <- (match k with PNT => p_unpack TV3 t m vc | _ => Ret 0%nat end) ;;
    Ret (p, n, t).

  (** One element: [out[i] = f(in[i])] *)
  Definition p_write (inp out i : nat) (f : vec3 F -> vec3 F) : prog unit :=
    x <- rd TV3 inp i ;; wr TV3 out i (f x).
  (** skinning_job.rs 430-442, 467-494: the loop over the vertices; [vertex i] reads the matrices,
      indices and weights *)
  Definition p_vertices (count : nat) (vertex : nat -> prog (mat4 F * mat4 F)) (k : pnt)
      (ins outs : nat * nat * nat) : prog unit :=
    let '(pi, ni, ti) := ins in let '(po, no, to) := outs in
    pfor count 0 (fun i _ =>
      mm <- vertex i ;;
      _ <- p_write pi po i (transform_point3 (fst mm)) ;;
      _ <- (match k with P => Ret tt | _ => p_write ni no i (transform_vector3 (snd mm)) end) ;;
      match k with PNT => p_write ti to i (transform_vector3 (snd mm)) | _ => Ret tt end) tt.

  Definition p_its (it : bool) (b : option nat) : prog (option nat) :=
    if it then b <- p_take TMat b ;; Ret (Some b) else Ret None.
  Definition load_its (b : option nat) : prog (option (list (mat4 F))) :=
    match b with Some b => l <- load TMat b ;; Ret (Some l) | None => Ret None end.

  (** skinning_job.rs 413-446 [skinning_1!] *)
  Definition p_skinning_1 (it : bool) (k : pnt) (j : hsjob) : prog unit :=
    let vc := hs_vertex_count j in
    ms <- p_take TMat (hs_matrices j) ;;
    its <- p_its it (hs_it_matrices j) ;;
    ix <- p_unpack TU16 (hs_indices j) Sh vc ;;
    ins <- p_unpack3 k Sh vc (hs_positions j) (hs_normals j) (hs_tangents j) ;;
    outs <- p_unpack3 k Ex vc (hs_out_positions j) (hs_out_normals j) (hs_out_tangents j) ;;
    p_vertices (N.to_nat vc) (fun i =>
      lm <- load TMat ms ;; li <- load_its its ;; lx <- load TU16 ix ;;
      lift (vertex_1 lm li lx i)) k ins outs.

  (** skinning_job.rs 448-497 [skinning_impl!] *)
  Definition p_skinning_impl (n : N) (it : bool) (k : pnt) (j : hsjob) : prog unit :=
    let vc := hs_vertex_count j in
    ms <- (match hs_matrices j with Some b => _ <- borrow TMat b Sh ;; Ret b | None => Pan end) ;;
    its <- p_its it (hs_it_matrices j) ;;
    si <- lift (umul checks vc n) ;;
    ix <- p_unpack TU16 (hs_indices j) Sh si ;;
    sw <- lift (umul checks vc (n - 1)) ;;
    ws <- p_unpack TF32 (hs_weights j) Sh sw ;;
    ins <- p_unpack3 k Sh vc (hs_positions j) (hs_normals j) (hs_tangents j) ;;
    outs <- p_unpack3 k Ex vc (hs_out_positions j) (hs_out_normals j) (hs_out_tangents j) ;;
    p_vertices (N.to_nat vc) (fun i =>
      lm <- load TMat ms ;; li <- load_its its ;; lx <- load TU16 ix ;; lw <- load TF32 ws ;;
      lift (vertex_n checks n lm li lx lw i)) k ins outs.

  (** skinning_job.rs 531-575 [run] *)
  Definition h_branch (j : hsjob) : N :=
    (N.min (hs_influences j - 1) 4 * 5 +
     if is_some (hs_normals j) then
       1 + (if is_some (hs_tangents j) then 1 else 0) + (if is_some (hs_it_matrices j) then 2 else 0)
     else 0)%N.
  Definition p_skin (j : hsjob) : prog unit :=
    if (hs_influences j =? 0)%N then Throw InvalidJob
    else
      match h_branch j with
      | 0 => p_skinning_1 false P j
      | 1 => p_skinning_1 false PN j
      | 2 => p_skinning_1 false PNT j
      | 3 => p_skinning_1 true PN j
      | 4 => p_skinning_1 true PNT j
      | 5 => p_skinning_impl 2 false P j
      | 6 => p_skinning_impl 2 false PN j
      | 7 => p_skinning_impl 2 false PNT j
      | 8 => p_skinning_impl 2 true PN j
      | 9 => p_skinning_impl 2 true PNT j
      | 10 => p_skinning_impl 3 false P j
      | 11 => p_skinning_impl 3 false PN j
      | 12 => p_skinning_impl 3 false PNT j
      | 13 => p_skinning_impl 3 true PN j
      | 14 => p_skinning_impl 3 true PNT j
      | 15 => p_skinning_impl 4 false P j
      | 16 => p_skinning_impl 4 false PN j
      | 17 => p_skinning_impl 4 false PNT j
      | 18 => p_skinning_impl 4 true PN j
      | 19 => p_skinning_impl 4 true PNT j
      | 20 => p_skinning_impl (hs_influences j) false P j
      | 21 => p_skinning_impl (hs_influences j) false PN j
      | 22 => p_skinning_impl (hs_influences j) false PNT j
      | 23 => p_skinning_impl (hs_influences j) true PN j
      | 24 => p_skinning_impl (hs_influences j) true PNT j
      | _ => Pan
      end%N.

  (** skinning_job.rs 340-371 [validate].  [sized_at]: the length check on a temporary borrow. *)
  Definition sized_at {t} (size : N) (l : list (den t)) : bool := (size <=? N.of_nat (length l))%N.
  Definition p_temp (t : ety) (b : option nat) (size : N) (k : bool -> prog bool) : prog bool :=
    match b with
    | Some b => peek t b false (fun l => Drop (k (sized_at size l)))
    | None => Ret false
    end.
  Definition p_skin_validate (j : hsjob) : prog bool :=
    let vc := hs_vertex_count j in let inf := hs_influences j in
    match hs_matrices j with
    | None => Ret false
    | Some m =>
        peek TMat m false (fun ms => Drop (
          match hs_indices j with
          | None => Ret false
          | Some x =>
              peek TU16 x false (fun ix =>
                si <- lift (umul checks vc inf) ;;
                let ok := (0 <? inf)%N && negb (length ms =? 0)%nat && sized_at (t := TU16) si ix in
                let rest ok :=
                  p_temp TV3 (hs_positions j) vc (fun b1 =>
                  p_temp TV3 (hs_out_positions j) vc (fun b2 =>
                    let ok := ok && b1 && b2 in
                    match hs_normals j with
                    | Some _ =>
                        p_temp TV3 (hs_normals j) vc (fun b3 =>
                        p_temp TV3 (hs_out_normals j) vc (fun b4 =>
                          let ok := ok && b3 && b4 in
                          match hs_tangents j with
                          | Some _ =>
                              p_temp TV3 (hs_tangents j) vc (fun b5 =>
                              p_temp TV3 (hs_out_tangents j) vc (fun b6 => Ret (ok && b5 && b6)))
                          | None => Ret ok
                          end))
                    | None => Ret (ok && negb (is_some (hs_tangents j)))
                    end)) in
                if (1 <? inf)%N then
                  match hs_weights j with
                  | None => Ret false
                  | Some b =>
                      peek TF32 b false (fun ws =>
                        sw <- lift (umul checks vc (inf - 1)) ;;
                        Drop (rest (ok && sized_at (t := TF32) sw ws)))
                  end
                else rest ok)
          end))
    end.
End Buffers.
Arguments den F t : clear implicits.
Arguments data F : clear implicits.
Arguments world F : clear implicits.
Arguments prog F A : clear implicits.
Arguments Ret {F A} a. Arguments Throw {F A} e. Arguments Pan {F A}. Arguments Acq {F A} a m poisoned k.
Arguments Drop {F A} k. Arguments Load {F A} t b k. Arguments Store {F A} t b x k.
Arguments ev F A : clear implicits.
Arguments EVal {F A}. Arguments EFail {F A}. Arguments EPan {F A}. Arguments EBlock {F A}.
Arguments outcome A : clear implicits.
Arguments Val {A}. Arguments Fail {A}. Arguments Panics {A}. Arguments Blocks {A}.
Arguments hlayer F : clear implicits.
Arguments hbjob F : clear implicits.
Arguments hljob F : clear implicits.
