(** Model of TrackSamplingJob (track_sampling_job.rs) and TrackTriggeringJob
    (track_triggering_job.rs) over the accessors of Track (track.rs).

    The track is a record of its four private fields used by the jobs.  Iterators are modelled by
    explicit states; the unbounded outer loop of [next] takes fuel, and running out of it is the
    explicit outcome [Hang]. *)
From Verif Require Import Base Num.
Local Open Scope num_scope.

(** track_triggering_job.rs 195: [f32::floor], from truncation (exact in both instances of [Num]; infinities and NaN are kept). *)
Definition nfloor {F} {NF : Num F} (x : F) : F :=
  let t := ntrunc x in if nlt x t then t - none_ else t.

Section Tracks.
  Context {F : Type} {NF : Num F}.

  (** track.rs 117-126 [Track] (without its name) *)
  Record ftrack (V : Type) := mk_track {
    t_key_count : nat;
    t_ratios : list F;
    t_values : list V;
    t_steps : list N
  }.
  Arguments mk_track {V}. Arguments t_key_count {V}. Arguments t_ratios {V}. Arguments t_values {V}. Arguments t_steps {V}.

  (** track_sampling_job.rs 129, track_triggering_job.rs 225: [(track.steps()[i / 8] & (1 << (i & 7))) != 0] *)
  Definition step_key {V} (t : ftrack V) (i : nat) : res bool :=
    let* b := get (t_steps t) (i / 8) in Ok (negb (N.land b (N.shiftl 1 (N.of_nat (i mod 8))) =? 0)%N).

  (** track_sampling_job.rs 122-126: [iter().position(p)], and the [unwrap] or the default after it *)
  Fixpoint position {A} (p : A -> bool) (l : list A) : option nat :=
    match l with
    | [] => None
    | x :: l => if p x then Some 0%nat else match position p l with Some i => Some (S i) | None => None end
    end.
  Definition unwrap {A} (o : option A) : res A := match o with Some x => Ok x | None => Panic end.
  Definition last_error {A} (l : list A) : option A := nth_error l (length l - 1).

  (** track_sampling_job.rs 112-142 [run]; [lerp] and [default] are those of the value type
      (track.rs 27-107; for f32, [lerp_f] below; glam's for the others). *)
  Definition sample_track {V} (lerp : V -> V -> F -> V) (default : V) (t : ftrack V) (ratio : F) : res V :=
    if (length (t_ratios t) =? 0)%nat then Ok default
    else if (length (t_ratios t) =? 1)%nat || nlt ratio nzero then unwrap (nth_error (t_values t) 0)
    else if nlt none_ ratio then unwrap (last_error (t_values t))
    else
      let id1 := match position (fun x => nlt ratio x) (t_ratios t) with Some i => i | None => t_key_count t end in
      let id0 := (id1 - 1)%nat in
      let* id0_step := step_key t id0 in
      if id0_step || (id1 =? t_key_count t)%nat then get (t_values t) id0
      else
        let* tk0 := get (t_ratios t) id0 in
        let* tk1 := get (t_ratios t) id1 in
        let k := (ratio - tk0) / (tk1 - tk0) in
        let* v0 := get (t_values t) id0 in
        let* v1 := get (t_values t) id1 in
        Ok (lerp v0 v1 k).
  (** track_sampling_job.rs 113: an unset track is InvalidJob. *)
  Definition sample_run {V} (lerp : V -> V -> F -> V) (default : V) (t : option (ftrack V)) (ratio : F) : res V :=
    let* t := ok_or t InvalidJob in sample_track lerp default t ratio.
  (** track.rs 34-36 *)
  Definition lerp_f (a b t : F) : F := a + (b - a) * t.

  (** track_triggering_job.rs 17-22 [Edge] *)
  Record edge := mk_edge { e_ratio : F; e_rising : bool }.
  (** track_triggering_job.rs 42-51 [TrackTriggeringJob] with its track set *)
  Record tjob := mk_tjob { j_track : ftrack F; j_from : F; j_to : F; j_threshold : F }.
  (** 173-183 [TrackTriggeringIter]: [None] is the end marker *)
  Definition tstate := option (F * Z)%type.

  (** 189-202 [new] *)
  Definition iter_new (j : tjob) : tstate :=
    if neq (j_from j) (j_to j) then None
    else Some (nfloor (j_from j), if nlt (j_from j) (j_to j) then 0%Z else (Z.of_nat (t_key_count (j_track j)) - 1)%Z).

  (** 204-237 [detect_edge] *)
  Definition detect_edge (j : tjob) (it0 it1 : nat) (forward : bool) : res (option edge) :=
    let t := j_track j in let thr := j_threshold j in
    let* val0 := get (t_values t) it0 in
    let* val1 := get (t_values t) it1 in
    let found :=
      if nle val0 thr && nlt thr val1 then Some forward
      else if nlt thr val0 && nle val1 thr then Some (negb forward)
      else None in
    match found with
    | None => Ok None
    | Some rising =>
        let* step := step_key t it0 in
        let* ratio :=
          if step then get (t_ratios t) it1
          else if (it1 =? 0)%nat then Ok nzero
          else
            let alpha := (thr - val0) / (val1 - val0) in
            let* ratio0 := get (t_ratios t) it0 in
            let* ratio1 := get (t_ratios t) it1 in
            Ok (ratio0 + (ratio1 - ratio0) * alpha) in
        Ok (Some (mk_edge ratio rising))
    end.

  (** track_triggering_job.rs 254, 276: the key before [inner], around the end of the track *)
  Definition before (key_count inner : nat) : nat := if (inner =? 0)%nat then (key_count - 1)%nat else (inner - 1)%nat.
  (** 256-261: the edge at [inner] in loop [outer], if inside the window *)
  Definition accept_fwd (j : tjob) (outer r : F) : bool :=
    nle (j_from j) r && (nlt r (j_to j) || nle (none_ + outer) (j_to j)).
  (** 278-282 *)
  Definition accept_bwd (j : tjob) (outer r : F) : bool :=
    nle (j_to j) r && (nlt r (j_from j) || nle (none_ + outer) (j_from j)).
  Definition edge_at (j : tjob) (forward : bool) (outer : F) (inner : nat) : res (option edge) :=
    let* e := detect_edge j (before (t_key_count (j_track j)) inner) inner forward in
    Ok match e with
       | Some e =>
           let r := e_ratio e + outer in
           if (if forward then accept_fwd j outer r else accept_bwd j outer r) then Some (mk_edge r (e_rising e)) else None
       | None => None
       end.

  (** The inner while loops.  [Some (edge, inner)]: returned with the new [inner]; [None]: left. *)
  (** 253-270; [n] is key_count - inner *)
  Fixpoint inner_fwd (j : tjob) (outer : F) (n inner : nat) : res (option (edge * nat)) :=
    match n with
    | O => Ok None
    | S n =>
        let* e := edge_at j true outer inner in
        match e with
        | Some e => Ok (Some (e, S inner))
        | None =>
            let* r := get (t_ratios (j_track j)) inner in
            if nle (j_to j) (r + outer) then Ok None else inner_fwd j outer n (S inner)
        end
    end.
  (** 275-292; [n] is inner + 1 *)
  Fixpoint inner_bwd (j : tjob) (outer : F) (n : nat) : res (option (edge * Z)) :=
    match n with
    | O => Ok None
    | S inner =>
        let* e := edge_at j false outer inner in
        match e with
        | Some e => Ok (Some (e, (Z.of_nat inner - 1)%Z))
        | None =>
            let* r := get (t_ratios (j_track j)) inner in
            if nle (r + outer) (j_to j) then Ok None else inner_bwd j outer inner
        end
    end.

  (** 246-300 [next]: one call.  [inner] is an isize: -1 once a backward loop is exhausted. *)
  Inductive next_res := NYield (e : edge) (st : tstate) | NEnd | NPanic | NHang.
  Fixpoint next (fuel : nat) (j : tjob) (outer : F) (inner : Z) : next_res :=
    match fuel with
    | O => NHang
    | S fuel =>
        let key_count := t_key_count (j_track j) in
        if nlt (j_from j) (j_to j) then
          if nlt outer (j_to j) then
            match inner_fwd j outer (key_count - Z.to_nat inner) (Z.to_nat inner) with
            | Ok (Some (e, i)) => NYield e (Some (outer, Z.of_nat i))
            | Ok None => next fuel j (outer + none_) 0
            | _ => NPanic
            end
          else NEnd
        else
          if nlt (j_to j) (outer + none_) then
            match inner_bwd j outer (Z.to_nat (inner + 1)) with
            | Ok (Some (e, i)) => NYield e (Some (outer, i))
            | Ok None => next fuel j (outer - none_) (Z.of_nat key_count - 1)
            | _ => NPanic
            end
          else NEnd
    end.

  (** track_triggering_job.rs 240-301: collecting the whole iterator ([for e in job.run()?]). *)
  Inductive edges_res := Edges (l : list edge) | Panics | Hang.
  Fixpoint collect (fuel : nat) (j : tjob) (st : tstate) : edges_res :=
    match fuel with
    | O => Hang
    | S f =>
        match st with
        | None => Edges []
        | Some (outer, inner) =>
            match next f j outer inner with
            | NEnd => Edges []
            | NPanic => Panics
            | NHang => Hang
            | NYield e st => match collect f j st with Edges l => Edges (e :: l) | r => r end
            end
        end
    end.
  (** track_triggering_job.rs 240-301: iterating the job ends and yields [l]. *)
  Definition yields (j : tjob) (l : list edge) : Prop := exists fuel, collect fuel j (iter_new j) = Edges l.
End Tracks.
Arguments ftrack F V : clear implicits.
Arguments edge F : clear implicits.
Arguments tjob F : clear implicits.
Arguments mk_track {F V}.
Arguments t_key_count {F V}.
Arguments t_ratios {F V}.
Arguments t_values {F V}.
Arguments t_steps {F V}.
