(** Loop invariants of BlendingJob, for every number type. *)
From Verif Require Import Base Num Math Skeleton SkeletonProofs Blending.
Local Open Scope num_scope.

(** Apply [f k] to the elements of index [k < n]. *)
Fixpoint mapi_from {A} (k n : nat) (f : nat -> A -> A) (l : list A) : list A :=
  match l with
  | [] => []
  | x :: t => (if (k <? n)%nat then f k x else x) :: mapi_from (S k) n f t
  end.
Notation mapi_to n f l := (mapi_from 0 n f l).

Lemma mapi_length {A} (f : nat -> A -> A) n l : forall k, length (mapi_from k n f l) = length l.
Proof. induction l as [|x t IH]; intros k; cbn; [reflexivity|]. rewrite IH. reflexivity. Qed.
Lemma mapi_nth {A} (f : nat -> A -> A) n d l : forall k i, (i < length l)%nat ->
  nth i (mapi_from k n f l) d = if (k + i <? n)%nat then f (k + i)%nat (nth i l d) else nth i l d.
Proof.
  induction l as [|x t IH]; intros k i Hi; cbn in Hi; [lia|].
  destruct i as [|i]; cbn [mapi_from nth].
  - rewrite Nat.add_0_r. reflexivity.
  - rewrite IH by lia. replace (S k + i)%nat with (k + S i)%nat by lia. reflexivity.
Qed.
Lemma mapi_0 {A} (f : nat -> A -> A) l : forall k, mapi_from k 0 f l = l.
Proof. induction l as [|x t IH]; intros k; cbn; [reflexivity|]. rewrite IH. destruct k; reflexivity. Qed.
Lemma mapi_S {A} (f : nat -> A -> A) d l : forall k n, (k <= n)%nat -> (n - k < length l)%nat ->
  mapi_from k (S n) f l = upd (mapi_from k n f l) (n - k) (f n (nth (n - k) l d)).
Proof.
  induction l as [|x t IH]; intros k n Hk Hn; cbn in Hn; [lia|].
  cbn [mapi_from]. destruct (Nat.eq_dec k n) as [E|E].
  - subst k. rewrite Nat.sub_diag. cbn [upd nth].
    replace (n <? S n)%nat with true by (symmetry; apply Nat.ltb_lt; lia). f_equal.
    clear IH Hn Hk.
    assert (G : forall m t, (S n <= m)%nat -> mapi_from m (S n) f t = mapi_from m n f t).
    { clear. intros m t. revert m. induction t as [|y t IH]; intros m Hm; [reflexivity|]. cbn [mapi_from].
      replace (m <? S n)%nat with false by (symmetry; apply Nat.ltb_ge; lia).
      replace (m <? n)%nat with false by (symmetry; apply Nat.ltb_ge; lia). rewrite IH by lia. reflexivity. }
    apply G. lia.
  - replace (n - k)%nat with (S (n - S k)) by lia. cbn [upd nth].
    replace (k <? S n)%nat with true by (symmetry; apply Nat.ltb_lt; lia).
    replace (k <? n)%nat with true by (symmetry; apply Nat.ltb_lt; lia).
    f_equal. apply IH; lia.
Qed.

Lemma get_at {A} (l : list A) k d : (k < length l)%nat -> get l k = Ok (nth k l d).
Proof. intros H. unfold get. rewrite (nth_error_nth' l d H). reflexivity. Qed.
Lemma set_at {A} (l : list A) k x : (k < length l)%nat -> set l k x = Ok (upd l k x).
Proof. intros H. unfold set. destruct (Nat.ltb_spec k (length l)); [reflexivity|lia]. Qed.

(** A loop whose body transforms one state into the next. *)
Lemma for_range_ok {S} (body : nat -> S -> res S) (s : nat -> S) n : forall k,
  (forall i, (k <= i < k + n)%nat -> body i (s i) = Ok (s (Datatypes.S i))) ->
  for_range n k body (s k) = Ok (s (k + n)%nat).
Proof.
  induction n as [|n IH]; intros k H; cbn [for_range].
  - rewrite Nat.add_0_r. reflexivity.
  - rewrite H by lia. cbn [bind]. rewrite IH by (intros; apply H; lia).
    replace (Datatypes.S k + n)%nat with (k + Datatypes.S n)%nat by lia. reflexivity.
Qed.

(** A loop updating index [i] of a list in place. *)
Lemma for_range_map {A} (body : nat -> list A -> res (list A)) (f : nat -> A -> A) d l n :
  (n <= length l)%nat ->
  (forall i m, (i < n)%nat -> length m = length l -> nth i m d = nth i l d ->
     body i m = Ok (upd m i (f i (nth i l d)))) ->
  for_range n 0 body l = Ok (mapi_to n f l).
Proof.
  intros Hn H. rewrite <- (mapi_0 f l 0) at 1.
  apply (for_range_ok body (fun k => mapi_to k f l) n 0). intros i Hi.
  rewrite (H i); [|lia|apply mapi_length|].
  - rewrite (mapi_S f d l 0 i) by lia. rewrite Nat.sub_0_r. reflexivity.
  - rewrite mapi_nth by lia. rewrite Nat.add_0_l, Nat.ltb_irrefl. reflexivity.
Qed.
Lemma for_range_map2 {A B} (body : nat -> list A * list B -> res (list A * list B))
    (f : nat -> A -> A) (g : nat -> A -> B -> B) da db la lb n :
  (n <= length la)%nat -> (n <= length lb)%nat ->
  (forall i ma mb, (i < n)%nat -> length ma = length la -> length mb = length lb ->
     nth i ma da = nth i la da -> nth i mb db = nth i lb db ->
     body i (ma, mb) = Ok (upd ma i (f i (nth i la da)), upd mb i (g i (nth i la da) (nth i lb db)))) ->
  for_range n 0 body (la, lb) = Ok (mapi_to n f la, mapi_to n (fun i => g i (nth i la da)) lb).
Proof.
  intros Ha Hb H. rewrite <- (mapi_0 f la 0) at 1. rewrite <- (mapi_0 (fun i => g i (nth i la da)) lb 0) at 1.
  apply (for_range_ok body (fun k => (mapi_to k f la, mapi_to k (fun i => g i (nth i la da)) lb)) n 0).
  intros i Hi. rewrite (H i); [|lia|apply mapi_length|apply mapi_length| |].
  - rewrite (mapi_S f da la 0 i) by lia. rewrite (mapi_S _ db lb 0 i) by lia. rewrite Nat.sub_0_r. reflexivity.
  - rewrite mapi_nth by lia. rewrite Nat.add_0_l, Nat.ltb_irrefl. reflexivity.
  - rewrite mapi_nth by lia. rewrite Nat.add_0_l, Nat.ltb_irrefl. reflexivity.
Qed.

Section Proofs.
  Context {F : Type} {NF : Num F}.
  Notation soa := (transform (V4 F)).
  Notation dW := (nzero : V4 F).
  Notation dT := (tr_identity : soa).

  (** ** What the job computes at SoA index [k] *)
  Definition wat (w : F) (l : layer F) (k : nat) : V4 F :=
    match ly_joint_weights l with [] => splat w | ws => splat w * nmax (nth k ws dW) nzero end.
  Definition eff (l : layer F) : bool := negb (nle (ly_weight l) nzero).
  Definition col_step (k : nat) (a : option (V4 F * soa)) (l : layer F) : option (V4 F * soa) :=
    if eff l then
      let w := wat (ly_weight l) l k in
      let t := nth k (ly_transform l) dT in
      match a with
      | None => Some (w, blend_1st_pass t w)
      | Some (acc, o) => Some (acc + w, blend_n_pass t w o)
      end
    else a.
  Definition cols (k : nat) (ls : list (layer F)) (a : option (V4 F * soa)) := fold_left (col_step k) ls a.
  Definition sum_step (a : F) (l : layer F) : F := if eff l then a + ly_weight l else a.
  Definition sumw (ls : list (layer F)) (a : F) : F := fold_left sum_step ls a.
  Definition some_partial (ls : list (layer F)) : bool := existsb (fun l => eff l && is_partial l) ls.

  Definition rest_col (thr : F) (ls : list (layer F)) (rest : soa) (a : option (V4 F * soa)) : V4 F * soa :=
    match a with
    | None => (splat none_, rest)
    | Some (acc, o) =>
        if some_partial ls then
          (nmax (splat thr) acc, blend_n_pass rest (nmax (splat thr - acc) nzero) o)
        else
          let bp := thr - sumw ls nzero in
          if nlt nzero bp then (splat thr, blend_n_pass rest (splat bp) o)
          else (splat (sumw ls nzero), o)
    end.
  Definition base_col (sk : skeleton F) (thr : F) (ls : list (layer F)) (k : nat) : soa :=
    let wo := rest_col thr ls (nth k (sk_rest sk) dT) (cols k ls None) in
    normalize_one (nrecip (fst wo)) (snd wo).
  Definition add_step (k : nat) (o : soa) (l : layer F) : soa :=
    let t := nth k (ly_transform l) dT in
    if nlt nzero (ly_weight l) then
      let w := wat (ly_weight l) l k in blend_add_pass t w (none_ - w) o
    else if nlt (ly_weight l) nzero then
      let w := wat (- ly_weight l) l k in blend_sub_pass t w (none_ - w) o
    else o.
  Definition full_col (sk : skeleton F) (thr : F) (ls adds : list (layer F)) (k : nat) : soa :=
    fold_left (add_step k) adds (base_col sk thr ls k).

  Lemma weight_at_ok n w (l : layer F) k : layer_ok n l = true -> (k < n)%nat -> weight_at w l k = Ok (wat w l k).
  Proof.
    intros H Hk. unfold layer_ok in H. apply andb_prop in H. destruct H as [_ H].
    unfold weight_at, wat. destruct (ly_joint_weights l) as [|a ws]; [reflexivity|].
    apply Nat.leb_le in H. rewrite (get_at _ k dW) by lia. reflexivity.
  Qed.
  Lemma layer_ok_len n (l : layer F) : layer_ok n l = true -> (n <= length (ly_transform l))%nat.
  Proof. intros H. unfold layer_ok in H. apply andb_prop in H. destruct H as [H _]. apply Nat.leb_le, H. Qed.

  Lemma layer_pass_ok n (l : layer F) first accs out :
    layer_ok n l = true -> (n <= length accs)%nat -> (n <= length out)%nat ->
    layer_pass n l first (accs, out) = Ok
      (mapi_to n (fun k a => if first then wat (ly_weight l) l k else a + wat (ly_weight l) l k) accs,
       mapi_to n (fun k o => if first then blend_1st_pass (nth k (ly_transform l) dT) (wat (ly_weight l) l k)
                             else blend_n_pass (nth k (ly_transform l) dT) (wat (ly_weight l) l k) o) out).
  Proof.
    intros Hl Ha Ho. pose proof (layer_ok_len _ _ Hl) as Ht.
    apply (for_range_map2 _
      (fun k a => if first then wat (ly_weight l) l k else a + wat (ly_weight l) l k)
      (fun k _ o => if first then blend_1st_pass (nth k (ly_transform l) dT) (wat (ly_weight l) l k)
                    else blend_n_pass (nth k (ly_transform l) dT) (wat (ly_weight l) l k) o) dW dT); auto.
    intros i ma mb Hi La Lb Ea Eb. cbn [fst snd].
    rewrite (weight_at_ok n) by assumption. cbn [bind].
    rewrite (get_at ma i dW) by lia. cbn [bind]. rewrite set_at by lia. cbn [bind].
    rewrite (get_at (ly_transform l) i dT) by lia. cbn [bind].
    rewrite (get_at mb i dT) by lia. cbn [bind]. rewrite set_at by lia. cbn [bind].
    rewrite Ea, Eb. reflexivity.
  Qed.

  Definition view (c : bctx F) (out : list soa) (k : nat) : option (V4 F * soa) :=
    if (bc_passes c =? 0)%nat then None else Some (nth k (bc_weights c) dW, nth k out dT).

  Lemma blend_layers_ok n : forall ls c out,
    forallb (layer_ok n) ls = true -> (n <= length (bc_weights c))%nat -> (n <= length out)%nat ->
    exists c' out', blend_layers n ls (c, out) = BOk (c', out') /\
      length out' = length out /\ length (bc_weights c') = length (bc_weights c) /\
      bc_passes c' = (bc_passes c + length (filter eff ls))%nat /\
      bc_partial c' = (bc_partial c + length (filter (fun l => eff l && is_partial l) ls))%nat /\
      bc_weight c' = sumw ls (bc_weight c) /\
      (forall k, (k < n)%nat -> view c' out' k = cols k ls (view c out k)) /\
      (forall k, (n <= k)%nat -> nth_error out' k = nth_error out k).
  Proof.
    induction ls as [|l ls IH]; intros c out Hok Ha Ho.
    - exists c, out. cbn. rewrite !Nat.add_0_r. repeat split; reflexivity.
    - cbn [forallb] in Hok. apply andb_prop in Hok. destruct Hok as [Hl Hls].
      cbn [blend_layers]. rewrite Hl. cbn [negb].
      destruct (nle (ly_weight l) nzero) eqn:Ew.
      + assert (Ee : eff l = false) by (unfold eff; rewrite Ew; reflexivity).
        destruct (IH c out Hls Ha Ho) as (c' & out' & E & L1 & L2 & P & Q & W & V & U).
        exists c', out'. split; [exact E|]. cbn [filter]. rewrite Ee. cbn [andb].
        repeat split; auto.
        * rewrite W. unfold sumw. cbn [fold_left]. unfold sum_step at 3. rewrite Ee. reflexivity.
        * intros k Hk. rewrite (V k Hk). unfold cols. cbn [fold_left]. unfold col_step at 3. rewrite Ee. reflexivity.
      + assert (Ee : eff l = true) by (unfold eff; rewrite Ew; reflexivity).
        cbn [fst snd]. rewrite layer_pass_ok by assumption.
        match goal with |- context [blend_layers n ls (?cc, ?oo)] => set (c1 := cc); set (o1 := oo) end.
        destruct (IH c1 o1) as (c' & out' & E & L1 & L2 & P & Q & W & V & U).
        * exact Hls.
        * unfold c1. cbn [bc_weights]. rewrite mapi_length. exact Ha.
        * unfold o1. rewrite mapi_length. exact Ho.
        * exists c', out'. split; [exact E|].
          assert (Lo : length o1 = length out) by apply mapi_length.
          assert (Lc : length (bc_weights c1) = length (bc_weights c)) by apply mapi_length.
          repeat split.
          -- congruence.
          -- congruence.
          -- rewrite P. unfold c1. cbn [bc_passes filter]. rewrite Ee. cbn [length]. lia.
          -- rewrite Q. unfold c1. cbn [bc_partial filter]. rewrite Ee. cbn [andb].
             destruct (is_partial l); cbn [length]; lia.
          -- rewrite W. unfold sumw. cbn [fold_left]. unfold sum_step at 3. rewrite Ee. reflexivity.
          -- intros k Hk. rewrite (V k Hk). unfold cols. cbn [fold_left]. f_equal.
             unfold view, col_step, c1, o1. cbn [bc_passes bc_weights]. rewrite Ee.
             rewrite !mapi_nth by lia. rewrite Nat.add_0_l.
             replace (k <? n)%nat with true by (symmetry; apply Nat.ltb_lt; lia).
             change (S (bc_passes c) =? 0)%nat with false. cbv iota zeta.
             destruct (bc_passes c =? 0)%nat; reflexivity.
          -- intros k Hk. rewrite (U k Hk). unfold o1.
             destruct (Nat.lt_ge_cases k (length out)) as [Hlt|Hge].
             ++ rewrite (nth_error_nth' _ dT) by (rewrite mapi_length; lia).
                rewrite mapi_nth by lia. rewrite Nat.add_0_l.
                replace (k <? n)%nat with false by (symmetry; apply Nat.ltb_ge; lia).
                symmetry. apply nth_error_nth'. exact Hlt.
             ++ rewrite (proj2 (nth_error_None _ _)) by (rewrite mapi_length; lia).
                symmetry. apply nth_error_None. exact Hge.
  Qed.

  Lemma mapi_tail {A} (f : nat -> A -> A) n (l : list A) k : (n <= k)%nat ->
    nth_error (mapi_to n f l) k = nth_error l k.
  Proof.
    intros Hk. destruct (Nat.lt_ge_cases k (length l)) as [Hlt|Hge].
    - destruct l as [|d0 l']; [cbn in Hlt; lia|]. set (l := d0 :: l') in *.
      rewrite (nth_error_nth' _ d0) by (rewrite mapi_length; lia).
      rewrite mapi_nth by lia. rewrite Nat.add_0_l.
      replace (k <? n)%nat with false by (symmetry; apply Nat.ltb_ge; lia).
      symmetry. apply nth_error_nth'. exact Hlt.
    - rewrite (proj2 (nth_error_None _ _)) by (rewrite mapi_length; lia).
      symmetry. apply nth_error_None. exact Hge.
  Qed.

  Lemma cols_none k ls : filter eff ls = [] -> forall a, cols k ls a = a.
  Proof.
    unfold cols. induction ls as [|l ls IH]; intros H a; [reflexivity|]. cbn [filter fold_left] in *.
    unfold col_step at 2. destruct (eff l); [discriminate|]. apply IH, H.
  Qed.
  Lemma sumw_none ls : filter eff ls = [] -> forall a, sumw ls a = a.
  Proof.
    unfold sumw. induction ls as [|l ls IH]; intros H a; [reflexivity|]. cbn [filter fold_left] in *.
    unfold sum_step at 2. destruct (eff l); [discriminate|]. apply IH, H.
  Qed.
  Lemma cols_some k ls : filter eff ls <> [] -> forall a, cols k ls a <> None.
  Proof.
    assert (G : forall ls a, a <> None -> cols k ls a <> None).
    { clear ls. unfold cols. induction ls as [|l ls IH]; intros a Ha; [exact Ha|]. cbn [fold_left]. apply IH.
      unfold col_step. destruct (eff l); [destruct a as [[]|]; discriminate|exact Ha]. }
    unfold cols. induction ls as [|l ls IH]; intros H a; [contradiction|]. cbn [filter fold_left] in *.
    destruct (eff l) eqn:E.
    - apply (G ls). unfold col_step. rewrite E. destruct a as [[]|]; discriminate.
    - apply IH. exact H.
  Qed.
  Lemma some_partial_filter ls :
    some_partial ls = negb (length (filter (fun l => eff l && is_partial l) ls) =? 0)%nat.
  Proof.
    unfold some_partial. induction ls as [|l ls IH]; [reflexivity|]. cbn [existsb filter].
    destruct (eff l && is_partial l); [reflexivity|exact IH].
  Qed.

  (** Rest pose and normalisation. *)
  Lemma blend_rest_ok (rest : list soa) thr ls c out :
    (length rest <= length (bc_weights c))%nat -> (length rest <= length out)%nat ->
    bc_passes c = length (filter eff ls) ->
    bc_partial c = length (filter (fun l => eff l && is_partial l) ls) ->
    bc_weight c = sumw ls nzero ->
    (forall t, nlt nzero t = true -> nlt nzero (t - nzero) = true) -> nlt nzero thr = true ->
    (filter eff ls = [] -> length out = length rest) ->
    exists c' out', blend_rest_pose rest thr (c, out) = Ok (c', out') /\
      length out' = length out /\ bc_partial c' = bc_partial c /\
      length (bc_weights c') = length (bc_weights c) /\
      (forall k, (k < length rest)%nat ->
        rest_col thr ls (nth k rest dT) (view c out k) =
        (if (bc_partial c =? 0)%nat then splat (bc_weight c') else nth k (bc_weights c') dW, nth k out' dT)) /\
      (forall k, (length rest <= k)%nat -> nth_error out' k = nth_error out k).
  Proof.
    intros Hc Ho P Q W Z T L.
    assert (SP : some_partial ls = negb (bc_partial c =? 0)%nat) by (rewrite Q; apply some_partial_filter).
    unfold blend_rest_pose. cbn [fst snd].
    destruct (bc_partial c =? 0)%nat eqn:EQ.
    - destruct (bc_passes c =? 0)%nat eqn:EP.
      + assert (N : filter eff ls = []) by (apply length_zero_iff_nil; apply Nat.eqb_eq in EP; lia).
        rewrite W, sumw_none by exact N. rewrite (Z _ T). unfold copy_from_slice.
        rewrite (L N), Nat.eqb_refl. cbn [bind]. eexists _, _. split; [reflexivity|].
        cbn [bc_partial bc_weights bc_weight]. repeat split; auto.
        * intros k Hk. unfold view. rewrite EP. reflexivity.
        * intros k Hk. rewrite !(proj2 (nth_error_None _ _)); [reflexivity| |exact Hk]. rewrite (L N). exact Hk.
      + rewrite W. destruct (nlt nzero (thr - sumw ls nzero)) eqn:EB.
        * rewrite (for_range_map _ (fun k o => blend_n_pass (nth k rest dT) (splat (thr - sumw ls nzero)) o) dT).
          -- cbn [bind]. eexists _, _. split; [reflexivity|]. cbn [bc_partial bc_weights bc_weight].
             repeat split; auto.
             ++ apply mapi_length.
             ++ intros k Hk. unfold view. rewrite EP. unfold rest_col. rewrite SP. cbn [negb]. rewrite EB.
                rewrite mapi_nth by lia. rewrite Nat.add_0_l.
                replace (k <? length rest)%nat with true by (symmetry; apply Nat.ltb_lt; lia). reflexivity.
             ++ intros k Hk. apply mapi_tail, Hk.
          -- exact Ho.
          -- intros i m Hi Lm Em. rewrite (get_at rest i dT) by exact Hi. cbn [bind].
             rewrite (get_at m i dT) by lia. cbn [bind]. rewrite set_at by lia. rewrite Em. reflexivity.
        * eexists _, _. split; [reflexivity|]. repeat split; auto.
          intros k Hk. unfold view. rewrite EP. unfold rest_col. rewrite SP. cbn [negb]. rewrite EB, W. reflexivity.
    - assert (EP : (bc_passes c =? 0)%nat = false).
      { apply Nat.eqb_neq. apply Nat.eqb_neq in EQ. intros H. apply EQ. rewrite Q.
        rewrite P in H. apply length_zero_iff_nil in H.
        apply length_zero_iff_nil. clear - H. induction ls as [|l ls IH]; [reflexivity|]. cbn [filter] in *.
        destruct (eff l); [discriminate|]. cbn [andb]. apply IH, H. }
      rewrite (for_range_map2 _ (fun k a => nmax (splat thr) a)
                (fun k a o => blend_n_pass (nth k rest dT) (nmax (splat thr - a) nzero) o) dW dT).
      + cbn [bind]. eexists _, _. split; [reflexivity|]. cbn [bc_partial bc_weights bc_weight].
        repeat split; auto; try apply mapi_length.
        * intros k Hk. unfold view. rewrite EP. unfold rest_col. rewrite SP. cbn [negb].
          rewrite !mapi_nth by lia. rewrite Nat.add_0_l.
          replace (k <? length rest)%nat with true by (symmetry; apply Nat.ltb_lt; lia). reflexivity.
        * intros k Hk. apply mapi_tail, Hk.
      + exact Hc.
      + exact Ho.
      + intros i ma mb Hi La Lb Ea Eb. cbn [fst snd]. rewrite (get_at ma i dW) by lia. cbn [bind].
        rewrite set_at by lia. cbn [bind]. rewrite (get_at rest i dT) by exact Hi. cbn [bind].
        rewrite (get_at mb i dT) by lia. cbn [bind]. rewrite set_at by lia. cbn [bind]. rewrite Ea, Eb. reflexivity.
  Qed.

  Lemma normalize_ok (rest : list soa) c out :
    (length rest <= length (bc_weights c))%nat -> (length rest <= length out)%nat ->
    normalize rest (c, out) = Ok (mapi_to (length rest) (fun k o =>
      normalize_one (if (bc_partial c =? 0)%nat then splat (nrecip (bc_weight c)) else nrecip (nth k (bc_weights c) dW)) o) out).
  Proof.
    intros Hc Ho. unfold normalize. cbn [fst snd]. rewrite Nat.min_r by exact Ho.
    apply (for_range_map _ (fun k o => normalize_one
      (if (bc_partial c =? 0)%nat then splat (nrecip (bc_weight c)) else nrecip (nth k (bc_weights c) dW)) o) dT); [exact Ho|].
    intros i m Hi Lm Em. rewrite (get_at m i dT) by lia. cbn [bind].
    destruct (bc_partial c =? 0)%nat; cbn [bind].
    - rewrite set_at by lia. rewrite Em. reflexivity.
    - rewrite (get_at (bc_weights c) i dW) by lia. cbn [bind]. rewrite set_at by lia. rewrite Em. reflexivity.
  Qed.

  Lemma additive_pass_ok n m (l : layer F) w sub out : layer_ok n l = true -> (m <= n)%nat -> (m <= length out)%nat ->
    additive_pass m l w sub out = Ok (mapi_to m (fun k o =>
      let t := nth k (ly_transform l) dT in let wt := wat w l k in
      if sub then blend_sub_pass t wt (none_ - wt) o else blend_add_pass t wt (none_ - wt) o) out).
  Proof.
    intros Hl Hm Ho. pose proof (layer_ok_len _ _ Hl).
    apply (for_range_map _ (fun k o =>
      let t := nth k (ly_transform l) dT in let wt := wat w l k in
      if sub then blend_sub_pass t wt (none_ - wt) o else blend_add_pass t wt (none_ - wt) o) dT); [exact Ho|].
    intros i mm Hi Lm Em. rewrite (weight_at_ok n) by (try assumption; lia). cbn [bind].
    rewrite (get_at (ly_transform l) i dT) by lia. cbn [bind].
    rewrite (get_at mm i dT) by lia. cbn [bind]. rewrite set_at by lia. rewrite Em. reflexivity.
  Qed.

  Lemma add_layers_ok n : forall ls c out, forallb (layer_ok n) ls = true -> (n <= length out)%nat ->
    exists out', add_layers n n ls (c, out) = BOk (c, out') /\ length out' = length out /\
      (forall k, (k < n)%nat -> nth k out' dT = fold_left (add_step k) ls (nth k out dT)) /\
      (forall k, (n <= k)%nat -> nth_error out' k = nth_error out k).
  Proof.
    induction ls as [|l ls IH]; intros c out Hok Ho.
    - exists out. cbn. repeat split; reflexivity.
    - cbn [forallb] in Hok. apply andb_prop in Hok. destruct Hok as [Hl Hls].
      cbn [add_layers fst snd]. rewrite Hl. cbn [negb].
      rewrite !(additive_pass_ok n n) by (try assumption; lia).
      set (o1 := if nlt nzero (ly_weight l) then _ else _).
      set (f := fun k o => add_step k o l).
      assert (E1 : exists o2, o1 = Ok o2 /\ length o2 = length out /\
        (forall k, (k < n)%nat -> nth k o2 dT = f k (nth k out dT)) /\
        (forall k, (n <= k)%nat -> nth_error o2 k = nth_error out k)).
      { unfold o1, f, add_step. destruct (nlt nzero (ly_weight l)).
        - eexists. split; [reflexivity|]. split; [apply mapi_length|]. split; [|intros; apply mapi_tail; assumption].
          intros k Hk. rewrite mapi_nth by lia. rewrite Nat.add_0_l.
          replace (k <? n)%nat with true by (symmetry; apply Nat.ltb_lt; lia). reflexivity.
        - destruct (nlt (ly_weight l) nzero).
          + eexists. split; [reflexivity|]. split; [apply mapi_length|]. split; [|intros; apply mapi_tail; assumption].
            intros k Hk. rewrite mapi_nth by lia. rewrite Nat.add_0_l.
            replace (k <? n)%nat with true by (symmetry; apply Nat.ltb_lt; lia). reflexivity.
          + eexists. split; [reflexivity|]. repeat split; reflexivity. }
      destruct E1 as (o2 & -> & L2 & V2 & U2).
      destruct (IH c o2 Hls ltac:(lia)) as (out' & E & L & V & U).
      exists out'. split; [exact E|]. split; [congruence|]. split.
      + intros k Hk. rewrite (V k Hk), (V2 k Hk). reflexivity.
      + intros k Hk. rewrite (U k Hk). apply U2, Hk.
  Qed.

  (** ** The whole job *)
  Definition effective (ls : list (layer F)) : Prop := exists l, In l ls /\ eff l = true.
  Lemma filter_eff ls : filter eff ls <> [] <-> effective ls.
  Proof.
    split.
    - intros H. destruct (filter eff ls) as [|l t] eqn:E; [contradiction|].
      exists l. apply filter_In. rewrite E. left; reflexivity.
    - intros (l & H) E. apply filter_In in H. rewrite E in H. destruct H.
  Qed.

  Hypothesis sub_zero : forall t : F, nlt nzero t = true -> nlt nzero (t - nzero) = true.

  Lemma run_ok sk ctx out thr ls adds :
    length (sk_rest sk) = num_soa_joints sk ->
    let j := mk_bjob (Some sk) (Some ctx) thr ls adds (Some out) in
    blend_validate j = true -> (effective ls \/ length out = num_soa_joints sk) ->
    exists c' out', blend_run j = BOk (c', out') /\ length out' = length out /\
      (forall k, (k < num_soa_joints sk)%nat -> nth k out' dT = full_col sk thr ls adds k) /\
      (forall k, (num_soa_joints sk <= k)%nat -> nth_error out' k = nth_error out k).
  Proof.
    intros Hr j Hv Hd. unfold blend_run, blend_validate, j in *. cbn [bj_skeleton bj_context bj_output bj_threshold bj_layers bj_additive] in *.
    set (n := num_soa_joints sk) in *.
    apply andb_prop in Hv. destruct Hv as [Hv Va]. apply andb_prop in Hv. destruct Hv as [Hv Vl].
    rewrite Hv. apply andb_prop in Hv. destruct Hv as [Ht Hn]. cbn [negb].
    apply Nat.leb_le in Hn.
    set (accs := if (length (bc_weights ctx) <? n)%nat then _ else _).
    assert (La : (n <= length accs)%nat).
    { unfold accs, resize. destruct (Nat.ltb_spec (length (bc_weights ctx)) n); [|lia].
      rewrite app_length, firstn_length, repeat_length. lia. }
    clearbody accs.
    destruct (blend_layers_ok n ls (mk_bctx 0 0 nzero accs) out Vl La Hn)
      as (c1 & o1 & E1 & L1 & L1' & P1 & Q1 & W1 & V1 & U1).
    cbn [bc_passes bc_partial bc_weight bc_weights] in *. rewrite E1.
    destruct (blend_rest_ok (sk_rest sk) thr ls c1 o1) as (c2 & o2 & E2 & L2 & Q2 & L2' & V2 & U2); auto; try lia.
    { intros N. destruct Hd as [Hd|Hd]; [|lia]. apply filter_eff in Hd. contradiction. }
    rewrite E2. rewrite normalize_ok by lia.
    rewrite Hr in *.
    set (o3 := mapi_to n _ _).
    assert (L3 : length o3 = length o2) by apply mapi_length.
    destruct (add_layers_ok n adds (fst (c2, o2)) o3 Va ltac:(lia)) as (o4 & E4 & L4 & V4' & U4).
    rewrite E4. eexists _, _. split; [reflexivity|]. split; [lia|]. split.
    - intros k Hk. rewrite (V4' k Hk). unfold full_col. f_equal. unfold base_col, o3.
      rewrite mapi_nth by lia. rewrite Nat.add_0_l.
      replace (k <? n)%nat with true by (symmetry; apply Nat.ltb_lt; lia).
      pose proof (V2 k Hk) as V2k. rewrite (V1 k Hk) in V2k.
      change (view (mk_bctx 0 0 nzero accs) out k) with (@None (V4 F * soa)) in V2k.
      cbv zeta. rewrite V2k. cbn [fst snd]. rewrite Q2.
      destruct (bc_partial c1 =? 0)%nat; reflexivity.
    - intros k Hk. rewrite (U4 k Hk). unfold o3. rewrite (mapi_tail _ n) by exact Hk. rewrite (U2 k Hk). apply U1, Hk.
  Qed.

  (** Without an effective layer and with a longer output, the job panics. *)
  Lemma run_panics sk ctx out thr ls adds :
    length (sk_rest sk) = num_soa_joints sk ->
    let j := mk_bjob (Some sk) (Some ctx) thr ls adds (Some out) in
    blend_validate j = true -> ~ effective ls -> length out <> num_soa_joints sk ->
    blend_run j = BPanic.
  Proof.
    intros Hr j Hv He Hd. unfold blend_run, blend_validate, j in *. cbn [bj_skeleton bj_context bj_output bj_threshold bj_layers bj_additive] in *.
    set (n := num_soa_joints sk) in *.
    apply andb_prop in Hv. destruct Hv as [Hv Va]. apply andb_prop in Hv. destruct Hv as [Hv Vl].
    rewrite Hv. apply andb_prop in Hv. destruct Hv as [Ht Hn]. cbn [negb].
    apply Nat.leb_le in Hn.
    set (accs := if (length (bc_weights ctx) <? n)%nat then _ else _).
    assert (La : (n <= length accs)%nat).
    { unfold accs, resize. destruct (Nat.ltb_spec (length (bc_weights ctx)) n); [|lia].
      rewrite app_length, firstn_length, repeat_length. lia. }
    clearbody accs.
    destruct (blend_layers_ok n ls (mk_bctx 0 0 nzero accs) out Vl La Hn)
      as (c1 & o1 & E1 & L1 & L1' & P1 & Q1 & W1 & V1 & U1).
    cbn [bc_passes bc_partial bc_weight bc_weights] in *. rewrite E1.
    assert (N : filter eff ls = []).
    { destruct (filter eff ls) eqn:E; [reflexivity|]. exfalso. apply He, filter_eff. rewrite E. discriminate. }
    assert (N2 : filter (fun l => eff l && is_partial l) ls = []).
    { clear - N. induction ls as [|l ls IH]; [reflexivity|]. cbn [filter] in *.
      destruct (eff l); [discriminate|]. cbn [andb]. apply IH, N. }
    rewrite N in P1. rewrite N2 in Q1. rewrite sumw_none in W1 by exact N.
    unfold blend_rest_pose. cbn [fst snd]. rewrite P1, Q1, W1. cbn [length Nat.add Nat.eqb].
    rewrite (sub_zero _ Ht). unfold copy_from_slice.
    destruct (Nat.eqb_spec (length o1) (length (sk_rest sk))); [lia|]. reflexivity.
  Qed.

  (** A run that succeeds was valid. *)
  Lemma run_ok_valid j s : blend_run j = BOk s -> blend_validate j = true.
  Proof.
    assert (BL : forall n ls s s', blend_layers n ls s = BOk s' -> forallb (layer_ok n) ls = true).
    { intros n ls. induction ls as [|l ls IH]; intros s0 s' H; [reflexivity|]. cbn [blend_layers forallb] in *.
      destruct (layer_ok n l); cbn [negb] in H; [|discriminate]. cbn [andb].
      destruct (nle (ly_weight l) nzero); [eapply IH, H|].
      destruct (layer_pass _ _ _ _) as [[a o]|e|]; [|discriminate|discriminate]. eapply IH, H. }
    assert (AL : forall n m ls s s', add_layers n m ls s = BOk s' -> forallb (layer_ok n) ls = true).
    { intros n m ls. induction ls as [|l ls IH]; intros s0 s' H; [reflexivity|]. cbn [add_layers forallb] in *.
      destruct (layer_ok n l); cbn [negb] in H; [|discriminate]. cbn [andb].
      match type of H with context [match ?r with Ok _ => _ | Err _ => _ | Panic => _ end] => destruct r end;
        [|discriminate|discriminate]. eapply IH, H. }
    unfold blend_run, blend_validate. intros H.
    destruct (bj_skeleton j) as [sk|]; [|discriminate]. destruct (bj_context j) as [ctx|]; [|discriminate].
    destruct (bj_output j) as [out|]; [|discriminate]. cbv zeta in *.
    destruct (nlt nzero (bj_threshold j) && (num_soa_joints sk <=? length out)%nat); [|discriminate]. cbn [negb andb] in *.
    match type of H with context [blend_layers ?a ?b ?c] => destruct (blend_layers a b c) as [s1|e s1|] eqn:E1 end;
      [|discriminate|discriminate].
    rewrite (BL _ _ _ _ E1). cbn [andb].
    destruct (blend_rest_pose _ _ _) as [s2|e|]; [|discriminate|discriminate].
    destruct (normalize _ _) as [o|e|]; [|discriminate|discriminate].
    exact (AL _ _ _ _ _ H).
  Qed.
End Proofs.
