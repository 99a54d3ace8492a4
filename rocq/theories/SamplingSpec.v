(** What sampling an animation means, without any cache.

    Keys of a channel are stored in one array.  [k_prev] gives, for each key, the distance to the
    previous key of the same track.  With [T] tracks (rounded up to a multiple of 4), keys
    [0 .. T-1] are the first keys of the tracks. *)
From Verif Require Import Base Num Math Gv4Spec Sampling.

Section Spec.
  Context {F : Type} {NF : Num F}.

  (** Time ratio of a key. *)
  Definition time (tp : list F) (k : ctrl F) (i : nat) : F := nth (nth i (k_ratios k) 0) tp nzero.
  (** Previous key of the same track. *)
  Definition previous (k : ctrl F) (i : nat) : nat := i - nth i (k_prev k) 0.
  (** The track a key belongs to: follow the links down to a first key. *)
  Fixpoint owner_from (fuel : nat) (T : nat) (k : ctrl F) (i : nat) : nat :=
    if i <? T then i
    else match fuel with O => i | S f => owner_from f T k (previous k i) end.
  Definition owner (T : nat) (k : ctrl F) (i : nat) : nat := owner_from i T k i.
  (** The keys with index below [n] of track [t], in order. *)
  Definition track_keys (T : nat) (k : ctrl F) (n t : nat) : list nat :=
    filter (fun i => owner T k i =? t) (seq 0 n).

  (** The two keys between which ratio [r] falls: walk along the keys of the track and stop at the
      first pair whose right key is later than [r], or at the last pair. *)
  Fixpoint bracket (tm : nat -> F) (r : F) (l : nat) (rest : list nat) : nat * nat :=
    match rest with
    | [] => (l, l)
    | k :: rest' =>
        match rest' with
        | [] => (l, k)
        | _ => if nlt r (tm k) then (l, k) else bracket tm r k rest'
        end
    end.
  Definition sample_pair (T : nat) (tp : list F) (k : ctrl F) (r : F) (t : nat) : nat * nat :=
    match track_keys T k (length (k_prev k)) t with
    | [] => (0, 0)
    | l :: rest => bracket (time tp k) r l rest
    end.
  (** Position of [r] between two keys. *)
  Definition alpha (tp : list F) (k : ctrl F) (r : F) (p : nat * nat) : F :=
    ((r - time tp k (fst p)) / (time tp k (snd p) - time tp k (fst p)))%num.

  (** Linear interpolation, and normalised linear interpolation of quaternions. *)
  Definition mix (a b t : F) : F := ((b - a) * t + a)%num.
  Definition mix3 (a b : vec3 F) (t : F) : vec3 F :=
    V3 (mix (vx a) (vx b) t) (mix (vy a) (vy b) t) (mix (vz a) (vz b) t).
  Definition mixq (a b : quat F) (t : F) : quat F :=
    let x := mix (qx a) (qx b) t in
    let y := mix (qy a) (qy b) t in
    let z := mix (qz a) (qz b) t in
    let w := mix (qw a) (qw b) t in
    let i := (none_ / nsqrt (x * x + y * y + z * z + w * w))%num in
    Q4 (x * i)%num (y * i)%num (z * i)%num (w * i)%num.

  Context {K3 KQ : Type}.
  (** Decoding of one key. *)
  Variable dec3_lane : K3 -> vec3 F.
  Variable decq_lane : KQ -> quat F.

  Definition sample3 (T : nat) (tp : list F) (k : ctrl F) (keys : list K3) (d : K3) (r : F) (t : nat)
    : vec3 F :=
    let p := sample_pair T tp k r t in
    mix3 (dec3_lane (nth (fst p) keys d)) (dec3_lane (nth (snd p) keys d)) (alpha tp k r p).
  Definition sampleq (T : nat) (tp : list F) (k : ctrl F) (keys : list KQ) (d : KQ) (r : F) (t : nat)
    : quat F :=
    let p := sample_pair T tp k r t in
    mixq (decq_lane (nth (fst p) keys d)) (decq_lane (nth (snd p) keys d)) (alpha tp k r p).

  (** The local transform of track [t] at ratio [r]. *)
  Definition sample_track (a : animation F K3 KQ) (d3 : K3) (dq : KQ) (r : F) (t : nat)
    : transform F :=
    let T := 4 * num_soa a in
    TR (sample3 T (an_timepoints a) (an_t a) (an_tkeys a) d3 r t)
       (sampleq T (an_timepoints a) (an_r a) (an_rkeys a) dq r t)
       (sample3 T (an_timepoints a) (an_s a) (an_skeys a) d3 r t).

  (** What a run must leave in the output: lane [l] of element [i] is track [4 i + l]; elements
      past the animation are untouched. *)
  Definition sampled (a : animation F K3 KQ) (d3 : K3) (dq : KQ) (r : F)
      (before after : list (transform (V4 F))) : Prop :=
    length after = length before /\
    (forall i l, i < num_soa a -> l < 4 ->
       option_map (fun x => lane_tr x l) (nth_error after i)
       = Some (sample_track a d3 dq r (4 * i + l))) /\
    (forall i, num_soa a <= i -> nth_error after i = nth_error before i).

  (** ** Well-formed animations (what the ozz builder produces) *)

  Definition isnum (x : F) : bool := nle x x.

  (** The last key before [n] of each track. *)
  Definition snapshot (T : nat) (k : ctrl F) (n : nat) : list nat :=
    map (fun t => last (track_keys T k n t) 0) (seq 0 T).

  Fixpoint is_prefix (a b : list N) : bool :=
    match a, b with
    | [], _ => true
    | x :: a', y :: b' => N.eqb x y && is_prefix a' b'
    | _, _ => false
    end.

  Fixpoint nodupb (l : list nat) : bool :=
    match l with [] => true | x :: t => negb (existsb (Nat.eqb x) t) && nodupb t end.

  (** Iframe [j] stores, GV4-encoded at its offset, the last key of each track up to and including
      key [last]. *)
  Definition wf_iframe (T : nat) (k : ctrl F) (j : nat) : bool :=
    let off := N.to_nat (nth (2 * j) (k_idesc k) 0%N) in
    let n := N.to_nat (nth (2 * j + 1) (k_idesc k) 0%N) + 1 in
    (off <=? length (k_ientries k)) && (2 * T <=? n) && (n <=? length (k_prev k)) &&
    is_prefix (gv4_min (map N.of_nat (snapshot T k n))) (skipn off (k_ientries k)).

  Definition wf_channel (num_tracks T num_keys : nat) (tp : list F) (k : ctrl F) : bool :=
    let n := length (k_prev k) in
    (* one ratio and one value per key; ratios name existing time points *)
    (length (k_ratios k) =? n) && (num_keys =? n) && (2 * T <=? n) && (N.of_nat n <? 4294967295)%N &&
    forallb (fun i => i <? length tp) (k_ratios k) &&
    (* keys T .. 2T-1 are the second keys, linked to the first ones *)
    forallb (fun i => nth i (k_prev k) 0 =? T) (seq T T) &&
    (* other keys are linked to a non-first key of a real (not padding) track *)
    forallb (fun i => (1 <=? nth i (k_prev k) 0) && (nth i (k_prev k) 0 + T <=? i) &&
                      (owner T k i <? num_tracks)) (seq (2 * T) (n - 2 * T)) &&
    (* no two keys have the same previous key *)
    nodupb (map (previous k) (seq T (n - T))) &&
    (* keys are sorted by the time of their previous key *)
    forallb (fun i => nle (time tp k (previous k i)) (time tp k (previous k (i + 1))))
            (seq T (n - T - 1)) &&
    (* tracks start at ratio 0 (or before) *)
    forallb (fun i => nle (time tp k i) nzero) (seq 0 T) &&
    (* raw bytes *)
    forallb (fun b => (b <? 256)%N) (k_ientries k) &&
    (* iframes: none, or enough of them to cover ratios up to 1 *)
    ((length (k_idesc k) =? 0) ||
     (Nat.modulo (length (k_idesc k)) 2 =? 0) && nlt nzero (k_interval k) &&
     (nto_i32 (nhalf + none_ / k_interval k)%num <=? Z.of_nat (Nat.div (length (k_idesc k)) 2))%Z &&
     forallb (fun d => (d <? 4294967295)%N) (k_idesc k) &&
     forallb (wf_iframe T k) (seq 0 (Nat.div (length (k_idesc k)) 2))).

  Definition wf_animation (a : animation F K3 KQ) : bool :=
    let T := 4 * num_soa a in
    forallb isnum (an_timepoints a) &&
    wf_channel (an_num_tracks a) T (length (an_tkeys a)) (an_timepoints a) (an_t a) &&
    wf_channel (an_num_tracks a) T (length (an_rkeys a)) (an_timepoints a) (an_r a) &&
    wf_channel (an_num_tracks a) T (length (an_skeys a)) (an_timepoints a) (an_s a).
End Spec.

(** Order facts the proofs need of the number type; instances for binary32 and for R. *)
Class OrdNum (F : Type) {NF : Num F} : Prop := {
  ord_num : forall a b : F, nle a b = true -> nle a a = true /\ nle b b = true;
  ord_trans : forall a b c : F, nle a b = true -> nle b c = true -> nle a c = true;
  ord_total : forall a b : F, nle a a = true -> nle b b = true -> nlt b a = negb (nle a b);
  ord_iframe : forall iv r : F,
    nlt nzero iv = true -> nle nzero r = true -> nle r none_ = true ->
    (0 <= nto_i32 (nhalf + r / iv)%num <= nto_i32 (nhalf + none_ / iv)%num)%Z
}.
