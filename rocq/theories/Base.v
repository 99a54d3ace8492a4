(** Common vocabulary: results with panics, errors, list helpers. *)
From Coq Require Export List Arith ZArith NArith Lia Bool.
From Coq Require Export ZifyBool ZifyNat ZifyN.
Export ListNotations.

(** base.rs 15-44 [OzzError].  [IO k] keeps the kind of the std::io error as a number;
    [Utf8 n] keeps [valid_up_to]. *)
Inductive ozz_error :=
| LockPoison | InvalidJob | InvalidIndex | IO (kind : N) | Utf8 (valid_up_to : N)
| InvalidTag | InvalidVersion | Unexcepted.

(** base.rs 15-44 and every function returning [Result].  Outcome of a Rust function returning [Result<A, OzzError>]: [Panic] is any panic (failed
    assertion, index out of bounds, unwrap on None, overflow in debug mode...). *)
Inductive res (A : Type) :=
| Ok (a : A)
| Err (e : ozz_error)
| Panic.
Arguments Ok {A} a.
Arguments Err {A} e.
Arguments Panic {A}.

Definition bind {A B} (x : res A) (f : A -> res B) : res B :=
  match x with Ok a => f a | Err e => Err e | Panic => Panic end.

Declare Scope res_scope.
Delimit Scope res_scope with res.
Notation "'let*' x := e 'in' f" := (bind e (fun x => f))
  (at level 200, x pattern, e at level 100, f at level 200, right associativity) : res_scope.
Open Scope res_scope.

(** [assert!(b)], e.g. sampling_job.rs 1175, 1242, 1243, 1262 *)
Definition assert_ (b : bool) : res unit := if b then Ok tt else Panic.

(** [slice[i]] as an rvalue, e.g. sampling_job.rs 1280: out of bounds panics. *)
Definition get {A} (l : list A) (i : nat) : res A :=
  match nth_error l i with Some a => Ok a | None => Panic end.

(** Not code of its own, used by [set].  List update without bounds check (identity when out of bounds). *)
Fixpoint upd {A} (l : list A) (i : nat) (x : A) : list A :=
  match l, i with
  | [], _ => []
  | _ :: t, O => x :: t
  | h :: t, S j => h :: upd t j x
  end.

(** [slice[i] = x], e.g. sampling_job.rs 1233: out of bounds panics. *)
Definition set {A} (l : list A) (i : nat) (x : A) : res (list A) :=
  if i <? length l then Ok (upd l i x) else Panic.

(** [Option::ok_or(err)?], e.g. sampling_job.rs 1100-1104, skinning_job.rs 433 *)
Definition ok_or {A} (o : option A) (e : ozz_error) : res A :=
  match o with Some a => Ok a | None => Err e end.

(** * Facts *)

Lemma upd_length {A} (l : list A) i x : length (upd l i x) = length l.
Proof. revert i; induction l as [|h t IH]; intros [|i]; simpl; auto. Qed.

Lemma nth_error_upd {A} (l : list A) i j x :
  nth_error (upd l i x) j =
  if (i =? j) && (j <? length l) then Some x else nth_error l j.
Proof.
  revert i j; induction l as [|h t IH]; intros [|i] [|j]; simpl; auto.
  - rewrite andb_false_r; reflexivity.
  - rewrite IH. reflexivity.
Qed.

Lemma nth_error_upd_same {A} (l : list A) i x :
  i < length l -> nth_error (upd l i x) i = Some x.
Proof.
  intros H. rewrite nth_error_upd, Nat.eqb_refl.
  destruct (Nat.ltb_spec i (length l)); [reflexivity|lia].
Qed.

Lemma nth_error_upd_other {A} (l : list A) i j x :
  i <> j -> nth_error (upd l i x) j = nth_error l j.
Proof.
  intros H. rewrite nth_error_upd. destruct (Nat.eqb_spec i j); [lia|reflexivity].
Qed.

Lemma get_Ok {A} (l : list A) i a : get l i = Ok a <-> nth_error l i = Some a.
Proof.
  unfold get; destruct (nth_error l i); split; intros H; inversion H; reflexivity.
Qed.

Lemma get_lt {A} (l : list A) i : i < length l -> exists a, get l i = Ok a.
Proof.
  intros H. unfold get. destruct (nth_error l i) eqn:E; eauto.
  apply nth_error_None in E; lia.
Qed.

Lemma get_nth {A} (l : list A) i d : i < length l -> get l i = Ok (nth i l d).
Proof.
  intros H. unfold get. rewrite (nth_error_nth' l d H). reflexivity.
Qed.

Lemma get_not_Err {A} (l : list A) i e : get l i <> Err e.
Proof. unfold get; destruct (nth_error l i); discriminate. Qed.

Lemma set_lt {A} (l : list A) i x : i < length l -> set l i x = Ok (upd l i x).
Proof. intros H; unfold set. destruct (Nat.ltb_spec i (length l)); [reflexivity|lia]. Qed.

Lemma set_Ok {A} (l : list A) i x l' : set l i x = Ok l' -> i < length l /\ l' = upd l i x.
Proof.
  unfold set. destruct (Nat.ltb_spec i (length l)); intros E; inversion E; auto.
Qed.

Lemma bind_Ok {A B} (x : res A) (f : A -> res B) b :
  bind x f = Ok b <-> exists a, x = Ok a /\ f a = Ok b.
Proof.
  destruct x; simpl; split; intros H; try discriminate; eauto;
    destruct H as (a' & E & H); inversion E; subst; auto.
Qed.

Lemma nth_error_ext {A} (l1 l2 : list A) :
  (forall i, nth_error l1 i = nth_error l2 i) -> l1 = l2.
Proof.
  revert l2; induction l1 as [|a l1 IH]; intros [|b l2] H; auto.
  - specialize (H 0); discriminate.
  - specialize (H 0); discriminate.
  - f_equal; [specialize (H 0); simpl in H; congruence|].
    apply IH; intros i; apply (H (S i)).
Qed.

Lemma nth_upd {A} (l : list A) i j x d :
  nth j (upd l i x) d = if (i =? j) && (j <? length l) then x else nth j l d.
Proof.
  revert i j; induction l as [|h t IH]; intros [|i] [|j]; simpl; auto.
  - rewrite andb_false_r; reflexivity.
  - rewrite IH; reflexivity.
Qed.
