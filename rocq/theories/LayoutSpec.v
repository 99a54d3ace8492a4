(** What a sound carving of one allocation into arrays is. *)
From Verif Require Import Base Layout.
Local Open Scope Z_scope.

Definition a_end (a : arr) : Z := a_ptr a + a_count a * a_size a.

(** The array lies inside the allocation of [size] bytes at [base]. *)
Definition inside (base size : Z) (a : arr) : Prop := base <= a_ptr a /\ a_end a <= base + size.

(** Its first element (hence every element, sizes being multiples of alignments) is aligned. *)
Definition aligned (a : arr) : Prop := a_ptr a mod a_align a = 0 /\ a_size a mod a_align a = 0.

(** The arrays follow one another: each ends before the next begins. *)
Definition disjoint (a b : arr) : Prop := a_end a <= a_ptr b \/ a_end b <= a_ptr a.

Definition carved (base size : Z) (l : list arr) : Prop :=
  Forall (fun a => 0 <= a_count a /\ 0 < a_size a /\ inside base size a /\ aligned a) l /\
  ForallOrdPairs disjoint l.

(** What the global allocator guarantees for a request of [size] bytes aligned to [align]
    (std::alloc::GlobalAlloc::alloc): a non-null aligned address, the block does not reach the
    last bytes of the address space. *)
Definition good_alloc (W : Z) (alloc : Z -> Z -> Z) (size align : Z) : Prop :=
  0 < alloc size align /\ alloc size align mod align = 0 /\ alloc size align + size + align <= W.

Definition u32 (x : Z) : Prop := 0 <= x < 2 ^ 32.
Definition u32_chan (c : chan_counts) : Prop := u32 (c_keys c) /\ u32 (c_entries c) /\ u32 (c_desc c).
Definition u32_counts (m : anim_counts) : Prop :=
  u32 (n_timepoints m) /\ u32_chan (n_t m) /\ u32_chan (n_r m) /\ u32_chan (n_s m).

(** The allocator never fails on requests below [2^40] bytes (running out of memory is the
    subject of [C53_out_of_memory_refuted]). *)
Definition allocator (W : Z) (alloc : Z -> Z -> Z) : Prop :=
  forall size align, 0 < size < 2 ^ 40 -> align = 4 \/ align = 16 -> good_alloc W alloc size align.

(** Some array of the animation is not empty. *)
Definition some_data (m : anim_counts) : Prop :=
  0 < n_timepoints m \/
  Exists (fun c => 0 < c_keys c \/ 0 < c_entries c \/ 0 < c_desc c) [n_t m; n_r m; n_s m].

(** Contents of an array: the list of its elements, each given by its bytes. *)
Definition contents (m : mem) (a : arr) : list (list Z) :=
  map (fun i => map m (addrs (a_ptr a + Z.of_nat i * a_size a) (Z.to_nat (a_size a))))
      (seq 0 (Z.to_nat (a_count a))).

(** A write [(k, i, v)]: element [i] of the [k]-th array becomes [v]. *)
Definition write := (nat * nat * list Z)%type.

(** Writes on byte memory, through the slices... *)
Fixpoint run_writes (l : list arr) (m : mem) (ws : list write) : res mem :=
  match ws with
  | [] => Ok m
  | (k, i, v) :: ws =>
      bind (get l k) (fun a => bind (store m a (Z.of_nat i) v) (fun m' => run_writes l m' ws))
  end.

(** ... and on a family of independent vectors. *)
Fixpoint run_vectors (vs : list (list (list Z))) (ws : list write) : res (list (list (list Z))) :=
  match ws with
  | [] => Ok vs
  | (k, i, v) :: ws =>
      bind (get vs k) (fun x => bind (set x i v) (fun x' => run_vectors (upd vs k x') ws))
  end.

(** Every written value has the size of the elements of its array. *)
Definition well_sized (l : list arr) (ws : list write) : Prop :=
  Forall (fun w => match w with (k, i, v) =>
            forall a, nth_error l k = Some a -> Z.of_nat (length v) = a_size a end) ws.
