(** A checker that bounds a polynomial with rational coefficients on an interval, proved correct
    over the reals.  It is used to bound the distance between the polynomials of math.rs 1089-1223
    and the functions they approximate. *)
From Coq Require Import Reals Lra Psatz QArith Qreals Qabs List Bool.
Import ListNotations.
Local Open Scope R_scope.

(** Coefficients, constant term first. *)
Definition qpoly := list Q.
Fixpoint peval (p : qpoly) (x : R) : R := match p with [] => 0 | a :: p => Q2R a + x * peval p x end.

Fixpoint padd (p q : qpoly) : qpoly :=
  match p, q with [], _ => q | _, [] => p | a :: p, b :: q => Qred (a + b) :: padd p q end.
Definition pscale (k : Q) (p : qpoly) : qpoly := map (fun a => Qred (k * a)) p.
Fixpoint pmul (p q : qpoly) : qpoly := match p with [] => [] | a :: p => padd (pscale a q) (0%Q :: pmul p q) end.
Definition psub (p q : qpoly) : qpoly := padd p (pscale (-1) q).
(** the polynomial in [t] that is [p] at [c + t] *)
Fixpoint pshift (c : Q) (p : qpoly) : qpoly :=
  match p with [] => [] | a :: p => let s := pshift c p in padd [a] (padd (pscale c s) (0%Q :: s)) end.
(** a bound of |p t| for |t| <= h *)
Fixpoint pabs (h : Q) (p : qpoly) : Q := match p with [] => 0%Q | a :: p => Qred (Qabs a + h * pabs h p) end.

(** |p| <= eps on [a, b], bisecting at most [n] times *)
Fixpoint pcheck (n : nat) (p : qpoly) (eps a b : Q) : bool :=
  let c := Qred ((a + b) * (1 # 2)) in
  let h := Qred ((b - a) * (1 # 2)) in
  if Qle_bool (pabs h (pshift c p)) eps then true else
  match n with O => false | S n => pcheck n p eps a c && pcheck n p eps c b end.

Lemma Q2R_red a : Q2R (Qred a) = Q2R a. Proof. apply Qeq_eqR, Qred_correct. Qed.
Lemma Q2R_abs a : Q2R (Qabs a) = Rabs (Q2R a).
Proof.
  apply Qabs_case; intros H.
  - apply Qle_Rle in H. rewrite RMicromega.Q2R_0 in H. rewrite Rabs_pos_eq; [reflexivity|exact H].
  - apply Qle_Rle in H. rewrite RMicromega.Q2R_0 in H. rewrite Q2R_opp, Rabs_left1; [reflexivity|exact H].
Qed.
Lemma peval_add p : forall q x, peval (padd p q) x = peval p x + peval q x.
Proof.
  induction p as [|a p IH]; intros [|b q] x; cbn [padd peval]; try ring.
  rewrite Q2R_red, Q2R_plus, IH. ring.
Qed.
Lemma peval_scale k p x : peval (pscale k p) x = Q2R k * peval p x.
Proof. induction p as [|a p IH]; cbn [pscale map peval]; [ring|]. fold (pscale k p). rewrite IH, Q2R_red, Q2R_mult. ring. Qed.
Lemma peval_mul p q x : peval (pmul p q) x = peval p x * peval q x.
Proof.
  induction p as [|a p IH]; cbn [pmul peval]; [ring|]. rewrite peval_add, peval_scale. cbn [peval]. rewrite RMicromega.Q2R_0, IH. ring.
Qed.
Lemma peval_sub p q x : peval (psub p q) x = peval p x - peval q x.
Proof. unfold psub. rewrite peval_add, peval_scale. replace (Q2R (-1)) with (-1) by (unfold Q2R; simpl; lra). ring. Qed.
Lemma peval_shift c p t : peval (pshift c p) t = peval p (Q2R c + t).
Proof.
  induction p as [|a p IH]; cbn [pshift]; [reflexivity|]. cbv zeta. rewrite !peval_add, peval_scale. cbn [peval].
  rewrite RMicromega.Q2R_0, IH. ring.
Qed.
Lemma peval_abs h p t : 0 <= Q2R h -> Rabs t <= Q2R h -> Rabs (peval p t) <= Q2R (pabs h p).
Proof.
  intros H0 Ht. induction p as [|a p IH]; cbn [pabs peval].
  - rewrite RMicromega.Q2R_0, Rabs_R0. apply Rle_refl.
  - rewrite Q2R_red, Q2R_plus, Q2R_mult, Q2R_abs. eapply Rle_trans; [apply Rabs_triang|]. apply Rplus_le_compat_l.
    rewrite Rabs_mult. apply Rmult_le_compat; auto using Rabs_pos.
Qed.
Lemma pcheck_sound n p eps : forall a b x, pcheck n p eps a b = true ->
  Q2R a <= x <= Q2R b -> Rabs (peval p x) <= Q2R eps.
Proof.
  induction n as [|n IH]; intros a b x H Hx; cbn [pcheck] in H; cbv zeta in H;
    set (c := Qred ((a + b) * (1 # 2))) in *; set (h := Qred ((b - a) * (1 # 2))) in *;
    assert (Ec : Q2R c = (Q2R a + Q2R b) / 2) by (unfold c; rewrite Q2R_red, Q2R_mult, Q2R_plus; unfold Q2R at 3; simpl; lra);
    assert (Eh : Q2R h = (Q2R b - Q2R a) / 2) by (unfold h; rewrite Q2R_red, Q2R_mult, Q2R_minus; unfold Q2R at 3; simpl; lra);
    (destruct (Qle_bool (pabs h (pshift c p)) eps) eqn:E; [
      apply Qle_bool_iff, Qle_Rle in E; eapply Rle_trans; [|exact E];
      replace x with (Q2R c + (x - Q2R c)) by ring; rewrite <- peval_shift; apply peval_abs; [lra|];
      apply Rabs_le; lra|]).
  - discriminate.
  - apply andb_true_iff in H. destruct H as [H1 H2]. destruct (Rle_dec x (Q2R c)).
    + apply (IH a c); [exact H1|lra].
    + apply (IH c b); [exact H2|lra].
Qed.
