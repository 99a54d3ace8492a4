(** Vocabulary for the properties of shared buffers. *)
From Verif Require Import Base Num Math Skeleton Blending Skinning Buffers.

(** Nobody has borrowed the buffer, and its lock is not poisoned. *)
Definition idle (l : lock) : Prop := lk_writer l = false /\ lk_readers l = 0%N /\ lk_poison l = false.
(** Nobody has borrowed the buffer exclusively; there may be shared borrows, as long as the
    counter has room for those of the job. *)
Definition readable (l : lock) : Prop :=
  lk_writer l = false /\ lk_poison l = false /\ (lk_readers l + 10 <= max_readers (lk_kind l))%N.
(** The same borrows are outstanding. *)
Definition same_borrows (l l' : lock) : Prop :=
  lk_kind l' = lk_kind l /\ lk_readers l' = lk_readers l /\ lk_writer l' = lk_writer l.

Section Spec.
  Context {F : Type} {NF : Num F}.
  (** All buffers but those of [outs] have the same content. *)
  Definition only_changes (outs : list addr) (w w' : world F) : Prop :=
    forall t b, ~ In (t, b) outs -> w_data w' t b = w_data w t b.

  (** The job with the contents of its buffers in place of the buffers. *)
  Definition layer_in (w : world F) (l : hlayer F) : layer F :=
    mk_layer (w_data w TSoa (hl_transform l)) (hl_weight l) (hl_joint_weights l).
  Definition blend_in (w : world F) (j : hbjob F) : bjob F :=
    mk_bjob (hb_skeleton j) (hb_context j) (hb_threshold j) (map (layer_in w) (hb_layers j))
            (map (layer_in w) (hb_additive j)) (option_map (w_data w TSoa) (hb_output j)).
  Definition ltm_in (w : world F) (j : hljob F) : ltm_job F :=
    mk_ltm (hj_skeleton j) (option_map (w_data w TSoa) (hj_input j)) (hj_root j) (hj_from j) (hj_to j)
           (hj_from_excluded j) (option_map (w_data w TMat) (hj_output j)).
  Definition skin_in (w : world F) (j : hsjob) : sjob F :=
    mk_sjob (hs_vertex_count j) (hs_influences j)
            (option_map (w_data w TMat) (hs_matrices j)) (option_map (w_data w TMat) (hs_it_matrices j))
            (option_map (w_data w TU16) (hs_indices j)) (option_map (w_data w TF32) (hs_weights j))
            (option_map (w_data w TV3) (hs_positions j)) (option_map (w_data w TV3) (hs_normals j))
            (option_map (w_data w TV3) (hs_tangents j))
            (mk_souts (option_map (w_data w TV3) (hs_out_positions j)) (option_map (w_data w TV3) (hs_out_normals j))
                      (option_map (w_data w TV3) (hs_out_tangents j))).

  (** The buffers of vertices a skinning job works on: normals are transformed when they are given,
      tangents when both are given. *)
  Definition opt (b : option nat) : list nat := match b with Some b => [b] | None => [] end.
  Definition vertex_bufs (j : hsjob) (p n t : option nat) : list nat :=
    opt p ++ (if is_some (hs_normals j) then opt n ++ (if is_some (hs_tangents j) then opt t else []) else []).
  Definition skin_ins (j : hsjob) : list nat := vertex_bufs j (hs_positions j) (hs_normals j) (hs_tangents j).
  Definition skin_outs (j : hsjob) : list nat := vertex_bufs j (hs_out_positions j) (hs_out_normals j) (hs_out_tangents j).
  (** The buffers it writes hold the given outputs. *)
  Definition skin_results (w : world F) (j : hsjob) (o : souts F) : Prop :=
    so_positions o = option_map (w_data w TV3) (hs_out_positions j) /\
    (is_some (hs_normals j) = true ->
     so_normals o = option_map (w_data w TV3) (hs_out_normals j) /\
     (is_some (hs_tangents j) = true -> so_tangents o = option_map (w_data w TV3) (hs_out_tangents j))).
  (** All the buffers it reads. *)
  Definition skin_reads (j : hsjob) : list addr :=
    map (pair TMat) (opt (hs_matrices j)) ++ map (pair TMat) (opt (hs_it_matrices j)) ++
    map (pair TU16) (opt (hs_indices j)) ++ map (pair TF32) (opt (hs_weights j)) ++ map (pair TV3) (skin_ins j).

  (** [p], run with the guards [g], reads a buffer only while it holds a guard on it and writes a
      buffer only while it holds an exclusive one; it keeps its exclusive guards until it leaves; if
      it returns [a] with guards [g'], [post g' a]. *)
  Fixpoint guarded {A} (g : guards) (p : prog F A) (post : guards -> A -> Prop) : Prop :=
    match p with
    | Ret a => post g a
    | Throw _ | Pan => True
    | Acq a m q k => guarded g q post /\ guarded ((a, m) :: g) k post
    | Drop k => match g with (_, Sh) :: g => guarded g k post | _ => False end
    | Load t b k => (exists m, In ((t, b), m) g) /\ forall x, guarded g (k x) post
    | Store t b x k => In ((t, b), Ex) g /\ guarded g k post
    end.
End Spec.
