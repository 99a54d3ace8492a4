(** Model of src/sampling_job.rs: SamplingContext and SamplingJob. *)
From Verif Require Import Base Num Math Gv4.

(** animation.rs 609-618 [KeyframesCtrl]: the keyframe bookkeeping of one channel (translations,
    rotations or scales).  u16/u32 indices are [nat]; raw iframe bytes and descriptors are [N]. *)
Record ctrl (F : Type) := mk_ctrl {
  k_ratios : list nat;      (* ratios: index into timepoints, one per key *)
  k_prev : list nat;        (* previouses: distance to the previous key of the same track *)
  k_ientries : list N;      (* iframe_entries *)
  k_idesc : list N;         (* iframe_desc *)
  k_interval : F            (* iframe_interval *)
}.
Arguments mk_ctrl {F}. Arguments k_ratios {F}. Arguments k_prev {F}.
Arguments k_ientries {F}. Arguments k_idesc {F}. Arguments k_interval {F}.

(** animation.rs 182-226 [Animation], the part sampling reads.  [an_id] is its address.
    [K3] is Float3Key and [KQ] QuaternionKey. *)
Record animation (F K3 KQ : Type) := mk_anim {
  an_id : N;
  an_num_tracks : nat;
  an_timepoints : list F;
  an_t : ctrl F; an_tkeys : list K3;
  an_r : ctrl F; an_rkeys : list KQ;
  an_s : ctrl F; an_skeys : list K3
}.
Arguments mk_anim {F K3 KQ}. Arguments an_id {F K3 KQ}. Arguments an_num_tracks {F K3 KQ}.
Arguments an_timepoints {F K3 KQ}. Arguments an_t {F K3 KQ}. Arguments an_tkeys {F K3 KQ}.
Arguments an_r {F K3 KQ}. Arguments an_rkeys {F K3 KQ}. Arguments an_s {F K3 KQ}.
Arguments an_skeys {F K3 KQ}.

Definition div_ceil (a b : nat) : nat := Nat.div (a + (b - 1)) b.

(** animation.rs 639-644 *)
Definition num_soa {F K3 KQ} (a : animation F K3 KQ) : nat := div_ceil (an_num_tracks a) 4.

(** sampling_job.rs 17-25 [InterpSoaFloat3], 70-78 [InterpSoaQuaternion] *)
Record interp (F V : Type) := mk_interp { ir0 : V4 F; ir1 : V4 F; iv0 : V; iv1 : V }.
Arguments mk_interp {F V}. Arguments ir0 {F V}. Arguments ir1 {F V}.
Arguments iv0 {F V}. Arguments iv1 {F V}.

(** sampling_job.rs 142-164 [SamplingContextInner]: one channel. *)
Record chan (F V : Type) := mk_chan {
  ch_entries : list nat;          (* *_entries: max_tracks u32 *)
  ch_outdated : list N;           (* *_outdated: max_outdated bytes *)
  ch_next : nat;                  (* *_next *)
  ch_values : list (interp F V)   (* hot data: max_soa_tracks *)
}.
Arguments mk_chan {F V}. Arguments ch_entries {F V}. Arguments ch_outdated {F V}.
Arguments ch_next {F V}. Arguments ch_values {F V}.

(** sampling_job.rs 142-164 [SamplingContextInner] *)
Record context (F : Type) := mk_ctx {
  cx_max_soa : nat;
  cx_id : N;                      (* animation_id *)
  cx_ratio : F;
  cx_t : chan F (vec3 (V4 F));
  cx_r : chan F (quat (V4 F));
  cx_s : chan F (vec3 (V4 F))
}.
Arguments mk_ctx {F}. Arguments cx_max_soa {F}. Arguments cx_id {F}. Arguments cx_ratio {F}.
Arguments cx_t {F}. Arguments cx_r {F}. Arguments cx_s {F}.

Section Model.
  Context {F : Type} {NF : Num F} {K3 KQ : Type}.
  (** Float3Key::simd_decompress (animation.rs 34-38) and QuaternionKey::simd_decompress
      (animation.rs 96-158), see Keys.v. *)
  Variable dec3 : K3 -> K3 -> K3 -> K3 -> vec3 (V4 F).
  Variable decq : KQ -> KQ -> KQ -> KQ -> quat (V4 F).
  (** Bytes after the iframe entries in memory, see Gv4.v. *)
  Variable outside : nat -> N.

  Notation anim := (animation F K3 KQ).

  (** ** Context *)

  (** sampling_job.rs 289-351 [SamplingContext::new]: capacities and cursors; the arrays are
      whatever [alloc] returned, passed here as arguments (they must have the right lengths). *)
  Definition chan_sized {V} (max_soa : nat) (c : chan F V) : Prop :=
    length (ch_entries c) = 4 * max_soa /\
    length (ch_outdated c) = div_ceil max_soa 8 /\
    length (ch_values c) = max_soa.
  Definition context_new (max_tracks : nat) (t : chan F (vec3 (V4 F))) (r : chan F (quat (V4 F)))
      (s : chan F (vec3 (V4 F))) : context F :=
    mk_ctx (div_ceil max_tracks 4) 0 nzero
      (mk_chan (ch_entries t) (ch_outdated t) 0 (ch_values t))
      (mk_chan (ch_entries r) (ch_outdated r) 0 (ch_values r))
      (mk_chan (ch_entries s) (ch_outdated s) 0 (ch_values s)).
  Definition set_id (c : context F) (id : N) : context F :=
    mk_ctx (cx_max_soa c) id (cx_ratio c) (cx_t c) (cx_r c) (cx_s c).
  (** sampling_job.rs 356-360 [from_animation] *)
  Definition context_from_animation (a : anim) t r s : context F :=
    set_id (context_new (an_num_tracks a) t r s) (an_id a).
  Definition reset_next {V} (c : chan F V) : chan F V :=
    mk_chan (ch_entries c) (ch_outdated c) 0 (ch_values c).
  (** sampling_job.rs 364-370 [clear] *)
  Definition clear (c : context F) : context F :=
    mk_ctx (cx_max_soa c) 0 nzero (reset_next (cx_t c)) (reset_next (cx_r c)) (reset_next (cx_s c)).
  (** sampling_job.rs 215-239 [clone]: every array is copied. *)
  Definition clone (c : context F) : context F := c.
  (** sampling_job.rs 373-378 [clone_without_animation_id] *)
  Definition clone_without_id (c : context F) : context F := set_id (clone c) 0.

  (** sampling_job.rs 1135-1147 [step_context]: returns the previous ratio too. *)
  Definition step_context (c : context F) (a : anim) (ratio : F) : context F * F :=
    let c1 := if negb (N.eqb (cx_id c) (an_id a))
              then mk_ctx (cx_max_soa c) (an_id a) (cx_ratio c)
                     (reset_next (cx_t c)) (reset_next (cx_r c)) (reset_next (cx_s c))
              else c in
    (mk_ctx (cx_max_soa c1) (cx_id c1) ratio (cx_t c1) (cx_r c1) (cx_s c1), cx_ratio c1).

  (** ** Cache update *)

  (** sampling_job.rs 1182-1201, 1245, 1305-1308, 1342-1345: usize/u32 subtraction, overflow panics (in release builds the wrapped value is then used
      as an index and panics there). *)
  Definition sub_ (a b : nat) : res nat := if b <=? a then Ok (a - b) else Panic.

  (** sampling_job.rs 1278-1281 [key_ratio] *)
  Definition key_ratio (k : ctrl F) (tp : list F) (at_ : nat) : res F :=
    let* i := get (k_ratios k) at_ in get tp i.

  (** 1212-1226 [initialize_cache].  [iframe_desc[..] + 1] overflowing u32 panics. *)
  Definition initialize_cache (k : ctrl F) (iframe : nat) (entries : list nat)
    : res (list nat * nat) :=
    match iframe with
    | S i =>
        let iframe := i * 2 in
        let* offset := get (k_idesc k) iframe in
        let* buf := slice_from (k_ientries k) (N.to_nat offset) in
        let* (vs, _, _) := decode_gv4_stream outside buf (length entries) in
        let* last := get (k_idesc k) (iframe + 1) in
        let* _ := assert_ (N.ltb last 4294967295) in
        Ok (map N.to_nat vs, N.to_nat last + 1)
    | O =>
        let num_tracks := length entries in
        Ok (map (fun i => i + num_tracks) (seq 0 num_tracks), num_tracks * 2)
    end.

  (** 1228-1237 [outdate_cache] *)
  Fixpoint set_all (l : list N) (is : list nat) (x : N) : res (list N) :=
    match is with
    | [] => Ok l
    | i :: t => let* l' := set l i x in set_all l' t x
    end.
  Definition outdate_cache (outdated : list N) (num_soa : nat) : res (list N) :=
    let n := div_ceil num_soa 8 in
    let* n1 := sub_ n 1 in
    let* o := set_all outdated (seq 0 n1) 255%N in
    set o n1 (N.shiftr 255 (N.of_nat (n * 8 - num_soa))).

  (** sampling_job.rs 1246-1257, 1264-1274: the loops of [track_forward] and [track_backward].  First index of [is] whose cache entry is [target]; after a miss at [e] in the second loops
      the code asserts [ok e]. *)
  Fixpoint scan (cache : list nat) (target : nat) (ok : nat -> bool) (is : list nat)
    : res (option nat) :=
    match is with
    | [] => Ok None
    | e :: t =>
        let* c := get cache e in
        if c =? target then Ok (Some e)
        else let* _ := assert_ (ok e) in scan cache target ok t
    end.

  (** 1239-1258 [track_forward] *)
  Definition track_forward (cache previouses : list nat) (key last_track num_tracks : nat)
    : res nat :=
    let* _ := assert_ (key <? length previouses) in
    let* _ := assert_ (last_track <? num_tracks) in
    let* p := get previouses key in
    let* target := sub_ key p in
    let* r1 := scan cache target (fun _ => true) (seq last_track (num_tracks - last_track)) in
    match r1 with
    | Some e => Ok e
    | None =>
        let* r2 := scan cache target (fun e => e <? last_track) (seq 0 num_tracks) in
        match r2 with Some e => Ok e | None => Ok 0 end
    end.

  (** 1260-1276 [track_backward] *)
  Definition track_backward (cache : list nat) (target last_track num_tracks : nat) : res nat :=
    let* _ := assert_ (last_track <? num_tracks) in
    let* r1 := scan cache target (fun _ => true) (rev (seq 0 (last_track + 1))) in
    match r1 with
    | Some e => Ok e
    | None =>
        let* r2 := scan cache target (fun e => last_track <? e) (rev (seq 0 num_tracks)) in
        match r2 with Some e => Ok e | None => Ok 0 end
    end.

  (** sampling_job.rs 1149-1210 [update_cache]: [outdated[track / 32] |= 1 << ((track & 0x1F) / 4)] *)
  Definition mark (outdated : list N) (track : nat) : res (list N) :=
    let i := Nat.div track 32 in
    let* b := get outdated i in
    set outdated i (N.lor b (N.shiftl 1 (N.of_nat (Nat.div (Nat.modulo track 32) 4)))).

  (** 1178-1188: the forward loop of [update_cache].  [fuel] bounds the iterations; running out
      of it is reported as [Panic] and excluded by the theorems, which show [Ok]. *)
  Fixpoint forward (fuel : nat) (k : ctrl F) (tp : list F) (num_tracks : nat) (ratio : F)
      (entries : list nat) (outdated : list N) (next track : nat)
    : res (list nat * list N * nat * nat) :=
    match fuel with
    | O => Panic
    | S fuel =>
        if next <? length (k_prev k) then
          let* p := get (k_prev k) next in
          let* at_ := sub_ next p in
          let* kr := key_ratio k tp at_ in
          if nle kr ratio then
            let* track := track_forward entries (k_prev k) next track num_tracks in
            let* e := get entries track in
            let* _ := assert_ (e =? at_) in
            let* outdated := mark outdated track in
            let* entries := set entries track next in
            forward fuel k tp num_tracks ratio entries outdated (next + 1) track
          else Ok (entries, outdated, next, track)
        else Ok (entries, outdated, next, track)
    end.

  (** 1190-1206: the rewind loop. *)
  Fixpoint rewind (fuel : nat) (k : ctrl F) (tp : list F) (num_tracks : nat) (ratio : F)
      (entries : list nat) (outdated : list N) (next track : nat)
    : res (list nat * list N * nat) :=
    match fuel with
    | O => Panic
    | S fuel =>
        let* n1 := sub_ next 1 in
        let* p := get (k_prev k) n1 in
        let* at_ := sub_ n1 p in
        let* kr := key_ratio k tp at_ in
        if nlt ratio kr then
          let* _ := assert_ (num_tracks * 2 <? next) in
          let* track := track_backward entries n1 track num_tracks in
          let* outdated := mark outdated track in
          let* e := get entries track in
          let* _ := assert_ (e =? n1) in
          let* previous := get (k_prev k) e in
          let* _ := assert_ (previous + num_tracks <=? e) in
          let* entries := set entries track (e - previous) in
          rewind fuel k tp num_tracks ratio entries outdated n1 track
        else Ok (entries, outdated, next)
    end.

  (** 1159-1176: the decision to jump, and to which iframe (None: keep the cache). *)
  Definition pick_iframe (k : ctrl F) (next : nat) (ratio prev_ratio : F) : option Z :=
    let delta := (ratio - prev_ratio)%num in
    if (next =? 0) || nlt (k_interval k / ntwo)%num (nabs delta) then
      let iframe :=
        if negb (length (k_idesc k) =? 0)
        then nto_i32 (nhalf + ratio / k_interval k)%num
        else if (next =? 0) || nlt delta nzero then 0%Z else (-1)%Z in
      if (0 <=? iframe)%Z then Some iframe else None
    else None.

  (** 1149-1210 [update_cache] *)
  Definition update_cache {V} (c : chan F V) (num_tracks num_soa : nat) (k : ctrl F)
      (tp : list F) (ratio prev_ratio : F) : res (chan F V) :=
    let num_keys := length (k_prev k) in
    let* _ := assert_ (num_tracks * 2 <=? num_keys) in
    let next := ch_next c in
    let* _ := assert_ ((next =? 0) || (num_tracks * 2 <=? next) && (next <=? num_keys)) in
    let* (entries, outdated, next) :=
      match pick_iframe k next ratio prev_ratio with
      | Some iframe =>
          let* (entries, next) := initialize_cache k (Z.to_nat iframe) (ch_entries c) in
          let* _ := assert_ ((num_tracks * 2 <=? next) && (next <=? num_keys)) in
          let* outdated := outdate_cache (ch_outdated c) num_soa in
          Ok (entries, outdated, next)
      | None => Ok (ch_entries c, ch_outdated c, next)
      end in
    let* (entries, outdated, next, track) :=
      forward (S num_keys) k tp num_tracks ratio entries outdated next 0 in
    let* (entries, outdated, next) :=
      rewind (S next) k tp num_tracks ratio entries outdated next track in
    let* _ := assert_ ((num_tracks * 2 <=? next) && (next <=? num_keys)) in
    Ok (mk_chan entries outdated next (ch_values c)).

  (** ** Decompression *)

  (** 1284-1291 [key_ratio_simd] *)
  Definition key_ratio_simd (k : ctrl F) (tp : list F) (ats : V4 nat) : res (V4 F) :=
    let* r0 := key_ratio k tp (l0 ats) in
    let* r1 := key_ratio k tp (l1 ats) in
    let* r2 := key_ratio k tp (l2 ats) in
    let* r3 := key_ratio k tp (l3 ats) in
    Ok (mk4 r0 r1 r2 r3).

  Definition get4 {A} (l : list A) (ats : V4 nat) : res (V4 A) :=
    let* a0 := get l (l0 ats) in
    let* a1 := get l (l1 ats) in
    let* a2 := get l (l2 ats) in
    let* a3 := get l (l3 ats) in
    Ok (mk4 a0 a1 a2 a3).

  (** sampling_job.rs 1304-1307, 1341-1344: [rights[j] - previouses[rights[j]]] *)
  Definition left_of (k : ctrl F) (right : nat) : res nat :=
    let* p := get (k_prev k) right in sub_ right p.

  (** 1293-1328 [decompress_float3] and 1330-1365 [decompress_quat], one SoA element; the two
      functions are the same but for the key type [K] and [dec : K^4 -> V]. *)
  Definition decompress_one {K V} (dec : K -> K -> K -> K -> V) (k : ctrl F) (tp : list F)
      (keys : list K) (entries : list nat) (i : nat) : res (interp F V) :=
    let* rights := get4 entries (mk4 (i * 4) (i * 4 + 1) (i * 4 + 2) (i * 4 + 3)) in
    let* a0 := left_of k (l0 rights) in
    let* a1 := left_of k (l1 rights) in
    let* a2 := left_of k (l2 rights) in
    let* a3 := left_of k (l3 rights) in
    let lefts := mk4 a0 a1 a2 a3 in
    let* kl := get4 keys lefts in
    let* r0 := key_ratio_simd k tp lefts in
    let* kr := get4 keys rights in
    let* r1 := key_ratio_simd k tp rights in
    Ok (mk_interp r0 r1 (dec (l0 kl) (l1 kl) (l2 kl) (l3 kl))
                        (dec (l0 kr) (l1 kr) (l2 kr) (l3 kr))).

  (** sampling_job.rs 1293-1328 [decompress_float3], 1330-1365 [decompress_quat].  The double loop over bytes [j] and bits [i] in [8j, 8j+8) is one loop over
      [i] in [0, 8 * len): bit [i mod 8] of byte [i / 8]. *)
  Fixpoint decompress_loop {K V} (dec : K -> K -> K -> K -> V) (k : ctrl F) (tp : list F)
      (keys : list K) (entries : list nat) (outdated : list N) (is : list nat)
      (values : list (interp F V)) : res (list (interp F V)) :=
    match is with
    | [] => Ok values
    | i :: t =>
        let* b := get outdated (Nat.div i 8) in
        let* values :=
          if N.testbit b (N.of_nat (Nat.modulo i 8))
          then let* v := decompress_one dec k tp keys entries i in set values i v
          else Ok values in
        decompress_loop dec k tp keys entries outdated t values
    end.
  Definition decompress {K V} (dec : K -> K -> K -> K -> V) (k : ctrl F) (tp : list F)
      (keys : list K) (c : chan F V) : res (chan F V) :=
    let* values := decompress_loop dec k tp keys (ch_entries c) (ch_outdated c)
                     (seq 0 (8 * length (ch_outdated c))) (ch_values c) in
    Ok (mk_chan (ch_entries c) (ch_outdated c) (ch_next c) values).

  (** ** Interpolation *)

  (** 1367-1388 [interpolates], one SoA element. *)
  Definition interp_ratio {V} (ratio : F) (i : interp F V) : V4 F :=
    ((splat ratio - ir0 i) / (ir1 i - ir0 i))%num.
  Definition interpolate_one (c : context F) (ratio : F) (idx : nat) : res (transform (V4 F)) :=
    let* t := get (ch_values (cx_t c)) idx in
    let* r := get (ch_values (cx_r c)) idx in
    let* s := get (ch_values (cx_s c)) idx in
    Ok (TR (v3_lerp (iv0 t) (iv1 t) (interp_ratio ratio t))
           (q_nlerp (iv0 r) (iv1 r) (interp_ratio ratio r))
           (v3_lerp (iv0 s) (iv1 s) (interp_ratio ratio s))).
  (** sampling_job.rs 1374: [output.iter_mut().enumerate().take(num_soa)]: [n] elements left to fill, from [idx]. *)
  Fixpoint interpolates (c : context F) (ratio : F) (n idx : nat)
      (output : list (transform (V4 F))) : res (list (transform (V4 F))) :=
    match n, output with
    | S n, _ :: t =>
        let* x := interpolate_one c ratio idx in
        let* t := interpolates c ratio n (idx + 1) t in
        Ok (x :: t)
    | _, _ => Ok output
    end.

  (** ** The job *)

  (** 1084-1095 [validate] (buffers that cannot be borrowed are treated in Buffers.v). *)
  Definition validate (oa : option anim) (oc : option (context F))
      (oo : option (list (transform (V4 F)))) : bool :=
    match oa, oc, oo with
    | Some a, Some c, Some o => (num_soa a <=? cx_max_soa c) && (num_soa a <=? length o)
    | _, _, _ => false
    end.

  (** 1099-1133 [run]: the new context and output. *)
  Definition run (oa : option anim) (oc : option (context F)) (ratio : F)
      (oo : option (list (transform (V4 F)))) : res (context F * list (transform (V4 F))) :=
    let* a := ok_or oa InvalidJob in
    let* c := ok_or oc InvalidJob in
    let* o := ok_or oo InvalidJob in
    if negb ((num_soa a <=? cx_max_soa c) && (num_soa a <=? length o)) then Err InvalidJob
    else if num_soa a =? 0 then Ok (c, o)
    else
      let '(c, prev_ratio) := step_context c a ratio in
      let tp := an_timepoints a in
      let n := an_num_tracks a in
      let ns := num_soa a in
      let* ct := update_cache (cx_t c) n ns (an_t a) tp ratio prev_ratio in
      let* ct := decompress dec3 (an_t a) tp (an_tkeys a) ct in
      let* cr := update_cache (cx_r c) n ns (an_r a) tp ratio prev_ratio in
      let* cr := decompress decq (an_r a) tp (an_rkeys a) cr in
      let* cs := update_cache (cx_s c) n ns (an_s a) tp ratio prev_ratio in
      let* cs := decompress dec3 (an_s a) tp (an_skeys a) cs in
      let c := mk_ctx (cx_max_soa c) (cx_id c) (cx_ratio c) ct cr cs in
      let* o := interpolates c ratio ns 0 o in
      Ok (c, o).

  (** 1055-1058 [set_ratio] *)
  Definition set_ratio (x : F) : F := f32_clamp_or_max x nzero none_.
End Model.
