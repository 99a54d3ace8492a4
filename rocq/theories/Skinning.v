(** Model of SkinningJob (skinning_job.rs).

    Buffers are lists (locking is in Buffers.v).  [usize] arithmetic is 64-bit: [checks] says
    whether overflow checks are on (debug) or the product wraps (release).  glam's Mat4 and Vec3
    operations are modelled from their documentation ([transform_point3] is x*c0 + y*c1 + z*c2 + c3
    evaluated from the left). *)
From Verif Require Import Base Num Math Blending.
Local Open Scope num_scope.

Section Skinning.
  Context {F : Type} {NF : Num F}.
  Variable checks : bool.
  Notation mat := (mat4 F).
  Notation v3 := (vec3 F).

  (** skinning_job.rs 346, 350, 452, 453: [a * b] on usize *)
  Definition umul (a b : N) : res N :=
    if (a * b <? 18446744073709551616)%N then Ok (a * b)%N
    else if checks then Panic else Ok ((a * b) mod 18446744073709551616)%N.

  (** skinning_job.rs 15-44 [SkinningJob]: the three outputs are kept apart, as the mutable state. *)
  Record souts := mk_souts {
    so_positions : option (list v3);
    so_normals : option (list v3);
    so_tangents : option (list v3)
  }.
  Record sjob := mk_sjob {
    sj_vertex_count : N;
    sj_influences : N;
    sj_matrices : option (list mat);
    sj_it_matrices : option (list mat);
    sj_indices : option (list N);     (* u16 *)
    sj_weights : option (list F);
    sj_positions : option (list v3);
    sj_normals : option (list v3);
    sj_tangents : option (list v3);
    sj_outs : souts
  }.

  (** The [?] of skinning_job.rs 416-500.  Outcome with the outputs left behind. *)
  Inductive sres := SOk (o : souts) | SErr (e : ozz_error) (o : souts) | SPanic.

  (** skinning_job.rs 374-396 [unpack_buf], [unpack_mut_buf] *)
  Definition unpack {A} (b : option (list A)) (size : N) : res (list A) :=
    match b with
    | None => Err InvalidJob
    | Some l => if (N.of_nat (length l) <? size)%N then Err InvalidJob else Ok l
    end.
  Definition ok_or {A} (b : option A) (e : ozz_error) : res A :=
    match b with Some x => Ok x | None => Err e end.
  (** skinning_job.rs 433, 435, 473-487: [matrices.get(i).ok_or(InvalidIndex)] *)
  Definition get_mat (ms : list mat) (i : N) : res mat := ok_or (nth_error ms (N.to_nat i)) InvalidIndex.

  (** glam Mat4::transform_point3, transform_vector3 *)
  Definition transform_point3 (m : mat) (p : v3) : v3 :=
    let r := l0 m * splat (vx p) in
    let r := l1 m * splat (vy p) + r in
    let r := l2 m * splat (vz p) + r in
    let r := l3 m + r in
    V3 (l0 r) (l1 r) (l2 r).
  Definition transform_vector3 (m : mat) (p : v3) : v3 :=
    let r := l0 m * splat (vx p) in
    let r := l1 m * splat (vy p) + r in
    let r := l2 m * splat (vz p) + r in
    V3 (l0 r) (l1 r) (l2 r).
  (** skinning_job.rs 500-503 [mat4_col_mul] *)
  Definition mat4_col_mul (m : mat) (v : V4 F) : mat := mk4 (l0 m * v) (l1 m * v) (l2 m * v) (l3 m * v).
  (** glam Mat4 +=: by columns *)
  Definition mat_add (a b : mat) : mat := mk4 (l0 a + l0 b) (l1 a + l1 b) (l2 a + l2 b) (l3 a + l3 b).

  (** skinning_job.rs 406-411 [pnt!] *)
  Inductive pnt := P | PN | PNT.

  (** The loop over vertices; [vertex i] gives the matrices for position and for normal/tangent.
      skinning_job.rs 430-442, 467-494 *)
  Definition write (out : option (list v3)) (i : nat) (inp : list v3) (f : v3 -> v3) : res (option (list v3)) :=
    match out with
    | None => Panic (* not reached: unpacked before the loop *)
    | Some o => let* x := get inp i in let* o := set o i (f x) in Ok (Some o)
    end.
  (** skinning_job.rs 430-442, 467-494: one vertex, then all of them *)
  Definition write_vertex (k : pnt) (i : nat) (pos nrm tan : list v3) (mm : mat * mat) (o : souts) : res souts :=
    let* p := write (so_positions o) i pos (transform_point3 (fst mm)) in
    let* n := match k with P => Ok (so_normals o) | _ => write (so_normals o) i nrm (transform_vector3 (snd mm)) end in
    let* t := match k with PNT => write (so_tangents o) i tan (transform_vector3 (snd mm)) | _ => Ok (so_tangents o) end in
    Ok (mk_souts p n t).
  Fixpoint vertices (count i : nat) (vertex : nat -> res (mat * mat)) (k : pnt) (pos nrm tan : list v3) (o : souts) : sres :=
    match count with
    | O => SOk o
    | S count =>
        match vertex i with
        | Ok mm =>
            match write_vertex k i pos nrm tan mm o with
            | Ok o => vertices count (S i) vertex k pos nrm tan o
            | Err e => SErr e o
            | Panic => SPanic
            end
        | Err e => SErr e o
        | Panic => SPanic
        end
    end.

  (** Buffers needed by the variant, unpacked in the code's order (422-428, 458-465):
      positions, normals and tangents in, then out. *)
  Definition unpack_pnt (k : pnt) (j : sjob) : res (list v3 * list v3 * list v3) :=
    let vc := sj_vertex_count j in
    let* p := unpack (sj_positions j) vc in
    let* n := match k with P => Ok [] | _ => unpack (sj_normals j) vc end in
    let* t := match k with PNT => unpack (sj_tangents j) vc | _ => Ok [] end in
    let* _ := unpack (so_positions (sj_outs j)) vc in
    let* _ := match k with P => Ok [] | _ => unpack (so_normals (sj_outs j)) vc end in
    let* _ := match k with PNT => unpack (so_tangents (sj_outs j)) vc | _ => Ok [] end in
    Ok (p, n, t).
  Definition finish (j : sjob) (r : res sres) : sres :=
    match r with Ok r => r | Err e => SErr e (sj_outs j) | Panic => SPanic end.

  (** skinning_job.rs 413-446 [skinning_1!] *)
  Definition vertex_1 (ms : list mat) (its : option (list mat)) (indices : list N) (i : nat) : res (mat * mat) :=
    let* joint_index := get indices i in
    let* m := get_mat ms joint_index in
    let* mi := match its with Some its => get_mat its joint_index | None => Ok m end in
    Ok (m, mi).
  Definition skinning_1 (it : bool) (k : pnt) (j : sjob) : sres :=
    finish j (
      let* ms := ok_or (sj_matrices j) InvalidJob in
      let* its := if it then let* x := ok_or (sj_it_matrices j) InvalidJob in Ok (Some x) else Ok None in
      let* indices := unpack (sj_indices j) (sj_vertex_count j) in
      let* (p, n, t) := unpack_pnt k j in
      Ok (vertices (N.to_nat (sj_vertex_count j)) 0 (vertex_1 ms its indices) k p n t (sj_outs j))).

  (** skinning_job.rs 468-488: the blended matrices of vertex [i]; state of the inner loop is
      (weight_sum, transform, transform_it). *)
  Definition lookup2 (ms : list mat) (its : option (list mat)) (joint_index : N) (w : V4 F) : res (mat * mat) :=
    let* m := get_mat ms joint_index in
    let* mi := match its with Some its => get_mat its joint_index | None => Ok m end in
    Ok (mat4_col_mul m w, mat4_col_mul mi w).
  Definition get_n {A} (l : list A) (i : N) : res A := get l (N.to_nat i).
  Definition vertex_n (n : N) (ms : list mat) (its : option (list mat)) (indices : list N) (weights : list F) (i : nat)
      : res (mat * mat) :=
    let* weight_offset := umul (N.of_nat i) (n - 1) in
    let* index_offset := umul (N.of_nat i) n in
    let* w := get_n weights weight_offset in
    let weight := splat w in
    let* joint_index := get_n indices index_offset in
    let* mm := lookup2 ms its joint_index weight in
    let* (sum, mm) := for_range (N.to_nat (N.max (n - 1) 1 - 1)) 1 (fun jj s =>
      let* w := get_n weights (weight_offset + N.of_nat jj) in
      let weight := splat w in
      let* joint_index := get_n indices (index_offset + N.of_nat jj) in
      let* mm := lookup2 ms its joint_index weight in
      Ok (fst s + weight, (mat_add (fst (snd s)) (fst mm), mat_add (snd (snd s)) (snd mm)))) (weight, mm) in
    let weight := splat none_ - sum in
    let* joint_index := get_n indices (index_offset + n - 1) in
    let* m1 := lookup2 ms its joint_index weight in
    Ok (mat_add (fst mm) (fst m1), mat_add (snd mm) (snd m1)).
  (** skinning_job.rs 448-497 [skinning_impl!]: [unwrap] panics on unset matrices *)
  Definition skinning_impl (n : N) (it : bool) (k : pnt) (j : sjob) : sres :=
    finish j (
      let* ms := match sj_matrices j with Some ms => Ok ms | None => Panic end in
      let* its := if it then let* x := ok_or (sj_it_matrices j) InvalidJob in Ok (Some x) else Ok None in
      let* si := umul (sj_vertex_count j) n in
      let* indices := unpack (sj_indices j) si in
      let* sw := umul (sj_vertex_count j) (n - 1) in
      let* weights := unpack (sj_weights j) sw in
      let* (p, nn, t) := unpack_pnt k j in
      Ok (vertices (N.to_nat (sj_vertex_count j)) 0 (vertex_n n ms its indices weights) k p nn t (sj_outs j))).

  (** skinning_job.rs 531-575 [run] and 577-601: the 25 instances *)
  Definition is_some {A} (o : option A) : bool := match o with Some _ => true | None => false end.
  Definition skin_branch (j : sjob) : N :=
    (N.min (sj_influences j - 1) 4 * 5 +
     if is_some (sj_normals j) then
       1 + (if is_some (sj_tangents j) then 1 else 0) + (if is_some (sj_it_matrices j) then 2 else 0)
     else 0)%N.
  Definition skin_run (j : sjob) : sres :=
    if (sj_influences j =? 0)%N then SErr InvalidJob (sj_outs j)
    else
      match skin_branch j with
      | 0 => skinning_1 false P j
      | 1 => skinning_1 false PN j
      | 2 => skinning_1 false PNT j
      | 3 => skinning_1 true PN j
      | 4 => skinning_1 true PNT j
      | 5 => skinning_impl 2 false P j
      | 6 => skinning_impl 2 false PN j
      | 7 => skinning_impl 2 false PNT j
      | 8 => skinning_impl 2 true PN j
      | 9 => skinning_impl 2 true PNT j
      | 10 => skinning_impl 3 false P j
      | 11 => skinning_impl 3 false PN j
      | 12 => skinning_impl 3 false PNT j
      | 13 => skinning_impl 3 true PN j
      | 14 => skinning_impl 3 true PNT j
      | 15 => skinning_impl 4 false P j
      | 16 => skinning_impl 4 false PN j
      | 17 => skinning_impl 4 false PNT j
      | 18 => skinning_impl 4 true PN j
      | 19 => skinning_impl 4 true PNT j
      | 20 => skinning_impl (sj_influences j) false P j
      | 21 => skinning_impl (sj_influences j) false PN j
      | 22 => skinning_impl (sj_influences j) false PNT j
      | 23 => skinning_impl (sj_influences j) true PN j
      | 24 => skinning_impl (sj_influences j) true PNT j
      | _ => SPanic
      end%N.

  (** skinning_job.rs 340-371 [validate] *)
  Definition sized {A} (b : option (list A)) (n : N) : bool :=
    match b with Some l => (n <=? N.of_nat (length l))%N | None => false end.
  Definition skin_validate (j : sjob) : res bool :=
    let vc := sj_vertex_count j in let inf := sj_influences j in let o := sj_outs j in
    match sj_matrices j with
    | None => Ok false
    | Some ms =>
        match sj_indices j with
        | None => Ok false
        | Some _ =>
            let* si := umul vc inf in
            let ok := (0 <? inf)%N && negb (length ms =? 0)%nat && sized (sj_indices j) si in
            let* okw :=
              if (1 <? inf)%N then
                match sj_weights j with
                | None => Ok false
                | Some _ => let* sw := umul vc (inf - 1) in Ok (sized (sj_weights j) sw)
                end
              else Ok true in
            Ok (ok && okw && sized (sj_positions j) vc && sized (so_positions o) vc &&
                match sj_normals j with
                | Some _ =>
                    sized (sj_normals j) vc && sized (so_normals o) vc &&
                    match sj_tangents j with
                    | Some _ => sized (sj_tangents j) vc && sized (so_tangents o) vc
                    | None => true
                    end
                | None => negb (is_some (sj_tangents j))
                end)
        end
    end.
End Skinning.
Arguments souts F : clear implicits.
Arguments sjob F : clear implicits.
Arguments sres F : clear implicits.
