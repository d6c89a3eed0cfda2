(* Property C39: memory spaces. *)
From Verif Require Import Base Model_Memspace Spec_Memspace Proof_Memspace Proof_MemspaceApi.

(* Whatever is done to any number of spaces, and whichever allocations fail: every
   target belongs to exactly one space, once; nothing is leaked and nothing else lives. *)
Theorem C39_history_tidy : forall srt ans os ss m, sorts srt -> run srt ([], Mem [] 1 ans 0) os = World ss m -> tidy ss m.
Proof. exact history_tidy. Qed.
Print Assumptions C39_history_tidy.
(* No space ever holds the same target twice, unless it was made from a list of node ids
   with duplicates (or from a space made so). *)
Theorem C39_history_sets : forall srt ans os ss m, sorts srt -> (forall ids, In (ONuma ids) os -> NoDup ids) -> run srt ([], Mem [] 1 ans 0) os = World ss m -> forall s, In s ss -> is_set m s.
Proof. exact history_sets. Qed.
Print Assumptions C39_history_sets.
(* Nothing crashes while memory lasts, except a filter that rejects every target. *)
Theorem C39_step_safe : forall srt ss m o, sorts srt -> tidy ss m -> step srt (ss, m) o = Crashed -> answers m <> [] \/ exists i f s, o = OFilter i f /\ nth_error ss i = Some s /\ forall h, In h (nodes s) -> f h = Drop.
Proof. exact step_safe. Qed.
Print Assumptions C39_step_safe.
Definition caps (h : Z) : result * Z := (SUCCESS, h * h).
Example C39_history_case : exists ss m, run isort ([], Mem [] 1 [] 0) [ONuma [3; 5; 7]; OClone 0; ORemove 1 0 1; OSort 0 caps; OFilter 0 (fun h => if h =? 1 then Drop else Keep); ONew; OAdd 2 0 0] = World ss m /\
  map nodes ss = [[3; 2]; [4; 6]; [7]] /\ members m (nth 0 ss (Space [] false)) [(0, 7); (0, 5)] /\ members m (nth 1 ss (Space [] false)) [(0, 3); (0, 7)] /\ members m (nth 2 ss (Space [] false)) [(0, 7)] /\ blocks m = 16.
Proof. eexists _, _. split; [vm_compute; reflexivity|]. repeat split. Qed.
Example C39_sorts_case : sorts isort.
Proof. exact isort_sorts. Qed.

(* Adding appends a copy, if no target of the space has another type or is the same. *)
Theorem C39_add : forall l1 s l2 m h u ts, tidy (l1 ++ s :: l2) m -> members m s ts -> lookup h m = Some u ->
  exists r s' m', space_add s h m = Some (r, s', m') /\ tidy (l1 ++ s' :: l2) m' /\ untouched m m' (owned (l1 ++ l2)) /\
  ((r = SUCCESS /\ members m' s' (ts ++ [u]) /\ forall t, In t ts -> ~ conflict t u) \/
   (r = ERR_INVALID_ARGUMENT /\ unchanged s s' m m' /\ exists t, In t ts /\ conflict t u) \/
   (r = ERR_OUT_OF_HOST_MEMORY /\ unchanged s s' m m' /\ answers m <> [])).
Proof. exact add_members. Qed.
Print Assumptions C39_add.
(* Removing takes out the first target that is the same, and no other; a failure changes
   nothing. *)
Theorem C39_remove : forall l1 s l2 m h u ts, tidy (l1 ++ s :: l2) m -> members m s ts -> lookup h m = Some u ->
  exists r s' m', space_remove s h m = Some (r, s', m') /\ tidy (l1 ++ s' :: l2) m' /\ untouched m m' (owned (l1 ++ l2)) /\
  ((r = SUCCESS /\ 1 < Z.of_nat (List.length ts) /\ exists pre post, ts = pre ++ u :: post /\ ~ In u pre /\ members m' s' (pre ++ post)) \/
   (r = ERR_INVALID_ARGUMENT /\ unchanged s s' m m' /\ ~ In u ts) \/
   (r = ERR_OUT_OF_HOST_MEMORY /\ unchanged s s' m m' /\ (answers m <> [] \/ ts = [u]))).
Proof. exact remove_members. Qed.
Print Assumptions C39_remove.
Theorem C39_clone : forall ss m s ts, tidy ss m -> In s ss -> members m s ts ->
  exists r o m', space_clone s m = Some (r, o, m') /\ untouched m m' (owned ss) /\
  ((r = SUCCESS /\ exists s', o = Some s' /\ tidy (ss ++ [s']) m' /\ members m' s' ts) \/ (r <> SUCCESS /\ o = None /\ tidy ss m' /\ (answers m <> [] \/ ts = []))).
Proof. exact clone_members. Qed.
Print Assumptions C39_clone.
Theorem C39_from_numa : forall ss m ids, tidy ss m ->
  (space_from_numa ids m = None /\ answers m <> []) \/
  exists r o m', space_from_numa ids m = Some (r, o, m') /\ untouched m m' (owned ss) /\
  ((r = SUCCESS /\ exists s', o = Some s' /\ tidy (ss ++ [s']) m' /\ members m' s' (map (fun i => (0, i)) ids)) \/ (r <> SUCCESS /\ o = None /\ tidy ss m' /\ (answers m <> [] \/ ids = []))).
Proof. exact numa_members. Qed.
Print Assumptions C39_from_numa.
Theorem C39_destroy : forall l1 s l2 m, tidy (l1 ++ s :: l2) m -> exists m', space_destroy s m = Some m' /\ tidy (l1 ++ l2) m' /\ untouched m m' (owned (l1 ++ l2)).
Proof. exact destroy_members. Qed.
Print Assumptions C39_destroy.
(* Sorting gives the same targets in descending order, or fails and changes nothing. *)
Theorem C39_sort : forall srt prop l1 s l2 m r s' m', sorts srt -> tidy (l1 ++ s :: l2) m -> space_sort srt prop s m = (r, s', m') ->
  tidy (l1 ++ s' :: l2) m' /\ untouched m m' (nodes s ++ owned (l1 ++ l2)) /\
  ((r = SUCCESS /\ Permutation (nodes s) (nodes s') /\ (forall h, In h (nodes s) -> fst (prop h) = SUCCESS) /\ forall i j a b, (i < j)%nat -> nth_error (nodes s') i = Some a -> nth_error (nodes s') j = Some b -> snd (prop b) <= snd (prop a)) \/
   (r <> SUCCESS /\ unchanged s s' m m' /\ ((r = ERR_OUT_OF_HOST_MEMORY /\ (answers m <> [] \/ nodes s = [])) \/ exists h v, In h (nodes s) /\ prop h = (r, v)))).
Proof. exact sort_members. Qed.
Print Assumptions C39_sort.
(* A filter keeps exactly what it does not reject, in order; if it reports an error
   nothing changes.  It crashes only if everything is rejected or memory ran out. *)
Theorem C39_filter : forall fail f l1 s l2 m ts, tidy (l1 ++ s :: l2) m -> is_set m s -> members m s ts -> (forall r, fail r <> SUCCESS) ->
  match space_filter fail f s m with
  | None => (forall h r, In h (nodes s) -> f h <> Fail r) /\ (answers m <> [] \/ (1 < Z.of_nat (List.length ts) /\ forall h, In h (nodes s) -> f h = Drop))
  | Some (r, s', m') => tidy (l1 ++ s' :: l2) m' /\ untouched m m' (owned (l1 ++ l2)) /\
      ((r = SUCCESS /\ (forall h r, In h (nodes s) -> f h <> Fail r) /\ nodes s' = filter (fun h => match f h with Drop => false | _ => true end) (nodes s) /\ untouched m m' (nodes s')) \/
       (r <> SUCCESS /\ (unchanged s s' m m' \/ r = ERR_UNKNOWN /\ incl (nodes s') (nodes s)) /\
        (answers m <> [] \/ (exists h r0, In h (nodes s) /\ f h = Fail r0 /\ r = fail r0) \/ (Z.of_nat (List.length ts) <= 1 /\ forall h, In h (nodes s) -> f h = Drop))))
  end.
Proof. exact filter_members. Qed.
Print Assumptions C39_filter.
(* A filter by a property of the target, such as its id or its capacity, keeps exactly
   the targets that have it, provided one has. *)
Theorem C39_filter_targets : forall f (p : target -> bool) l1 s l2 m ts, tidy (l1 ++ s :: l2) m -> is_set m s -> members m s ts -> (forall h t, lookup h m = Some t -> f h = if p t then Keep else Drop) -> answers m = [] -> existsb p ts = true ->
  exists s' m', space_filter user_fail f s m = Some (SUCCESS, s', m') /\ tidy (l1 ++ s' :: l2) m' /\ untouched m m' (owned (l1 ++ l2)) /\ members m' s' (filter p ts).
Proof. exact filter_targets. Qed.
Print Assumptions C39_filter_targets.
Theorem C39_filter_by_id : forall ids l1 s l2 m ts, tidy (l1 ++ s :: l2) m -> is_set m s -> members m s ts -> answers m = [] -> existsb (fun t => existsb (Z.eqb (snd t)) ids) ts = true ->
  exists s' m', space_filter user_fail (by_id ids m) s m = Some (SUCCESS, s', m') /\ members m' s' (filter (fun t => existsb (Z.eqb (snd t)) ids) ts).
Proof.
  intros ids l1 s l2 m ts T IS M A E. destruct (filter_targets (by_id ids m) (fun t => existsb (Z.eqb (snd t)) ids) l1 s l2 m ts T IS M) as (s' & m' & W & _ & _ & Q); [|exact A|exact E|eauto].
  intros h (ty & i) L. unfold by_id. rewrite L. reflexivity.
Qed.
Print Assumptions C39_filter_by_id.
(* At least the capacity asked for. *)
Theorem C39_filter_by_capacity : forall cap least l1 s l2 m ts, tidy (l1 ++ s :: l2) m -> is_set m s -> members m s ts -> answers m = [] ->
  (forall i, fst (cap i) = SUCCESS) -> (exists t, In t ts /\ least <= snd (cap (snd t))) ->
  exists s' m', space_filter user_fail (by_capacity cap least m) s m = Some (SUCCESS, s', m') /\
    members m' s' (filter (fun t => negb (snd (cap (snd t)) <? least)) ts).
Proof.
  intros cap least l1 s l2 m ts T IS M A C (t & It & Et).
  destruct (filter_targets (by_capacity cap least m) (fun t => negb (snd (cap (snd t)) <? least)) l1 s l2 m ts T IS M) as (s' & m' & W & _ & _ & Q); [|exact A| |eauto].
  - intros h (ty & i) L. unfold by_capacity. rewrite L. cbn [snd]. specialize (C i). destruct (cap i) as [r c]. cbn [fst snd] in *. subst r.
    destruct (least <=? c) eqn:X, (c <? least) eqn:Y; try reflexivity; lia.
  - apply existsb_exists. exists t. split; [exact It|]. replace (snd (cap (snd t)) <? least) with false by lia. reflexivity.
Qed.
Print Assumptions C39_filter_by_capacity.
Example C39_filter_case : match run isort ([], Mem [] 1 [] 0) [ONuma [3; 5; 7]] with Crashed => False | World ss m => exists s' m', space_filter user_fail (by_id [7; 3] m) (nth 0 ss (Space [] false)) m = Some (SUCCESS, s', m') /\ members m' s' [(0, 3); (0, 7)] end.
Proof. vm_compute. eexists _, _. split; reflexivity. Qed.
(* The highest bandwidth space: the best node for each node of the space, once. *)
Theorem C39_select : forall bw ss m s ts, tidy ss m -> In s ss -> members m s ts ->
  exists r o m', space_select (best_bandwidth bw (nodes s)) s m = Some (r, o, m') /\ untouched m m' (owned ss) /\
  ((r = SUCCESS /\ exists s' best, o = Some s' /\ tidy (ss ++ [s']) m' /\ NoDup best /\ (forall t, In t best <-> exists h, In h (nodes s) /\ best_bandwidth bw (nodes s) h = (SUCCESS, t)) /\ map (fun h => lookup h m') (nodes s') = map (fun h => lookup h m) best) \/
   (r <> SUCCESS /\ o = None /\ tidy ss m' /\ (answers m <> [] \/ ts = [] \/ exists h v, In h (nodes s) /\ best_bandwidth bw (nodes s) h = (r, v)))).
Proof. exact select_members. Qed.
Print Assumptions C39_select.
(* The best node has the highest bandwidth (the lowest latency), and is the first such. *)
Theorem C39_best_bandwidth : forall bw hs i t, hs <> [] -> (forall h, In h hs -> 0 <= snd (bw i h)) -> best_bandwidth bw hs i = (SUCCESS, t) ->
  (forall h, In h hs -> fst (bw i h) = SUCCESS) /\ exists pre post, hs = pre ++ t :: post /\ (forall h, In h pre -> snd (bw i h) < snd (bw i t)) /\ forall h, In h post -> snd (bw i h) <= snd (bw i t).
Proof. exact bandwidth_best. Qed.
Print Assumptions C39_best_bandwidth.
Theorem C39_best_latency : forall lat hs i t, hs <> [] -> (forall h, In h hs -> snd (lat i h) < U64) -> best_latency lat hs i = (SUCCESS, t) ->
  (forall h, In h hs -> fst (lat i h) = SUCCESS) /\ exists pre post, hs = pre ++ t :: post /\ (forall h, In h pre -> snd (lat i t) < snd (lat i h)) /\ forall h, In h post -> snd (lat i t) <= snd (lat i h).
Proof. exact latency_best. Qed.
Print Assumptions C39_best_latency.
Example C39_best_case : best_bandwidth (fun i h => (SUCCESS, Z.abs (i - h))) [3; 5; 9; 1] 5 = (SUCCESS, 9) /\ best_latency (fun i h => (SUCCESS, Z.abs (i - h))) [3; 5; 9; 1] 8 = (SUCCESS, 9).
Proof. vm_compute. auto. Qed.

(* ---- what does not hold ---- *)
Definition s35 : space := Space [1; 2] true.
Definition s0 : space := Space [] false.
Definition m35 : mem := Mem [(2, (0, 5)); (1, (0, 3))] 3 [] 7.
Lemma two_is : run isort ([], Mem [] 1 [] 0) [ONuma [3; 5]; ONew] = World [s35; s0] m35.
Proof. vm_compute. reflexivity. Qed.
Lemma two_tidy : tidy [s35; s0] m35.
Proof. exact (history_tidy isort [] _ _ _ isort_sorts two_is). Qed.
Lemma two_set : is_set m35 s35.
Proof. refine (history_sets isort [] _ _ _ isort_sorts _ two_is s35 (or_introl eq_refl)). intros ids [E|[E|[]]]; [injection E as <-|discriminate]. repeat constructor; cbn; intuition discriminate. Qed.
Definition m3 : mem := Mem [(1, (0, 3))] 2 [] 4.
Lemma one_tidy : tidy [Space [1] true] m3.
Proof. assert (E : run isort ([], Mem [] 1 [] 0) [ONuma [3]] = World [Space [1] true] m3) by (vm_compute; reflexivity). exact (history_tidy isort [] _ _ _ isort_sorts E). Qed.
(* The last target of a space cannot be removed: for every such space. *)
Theorem C39_remove_last : forall l1 s l2 m h u, tidy (l1 ++ s :: l2) m -> members m s [u] -> lookup h m = Some u -> exists m', space_remove s h m = Some (ERR_OUT_OF_HOST_MEMORY, s, m').
Proof.
  intros l1 s l2 m h u T M LU. destruct (remove_members _ _ _ _ _ _ _ T M LU) as (r & s' & m' & E & _ & _ & [(_ & W & _)|[(_ & _ & W)|(-> & (-> & _) & _)]]); [exfalso; cbn in W; lia|exfalso; apply W; left; reflexivity|]. eauto.
Qed.
Print Assumptions C39_remove_last.
Theorem C39_remove_refuted : ~ (forall l1 s l2 m h u ts, tidy (l1 ++ s :: l2) m -> members m s ts -> lookup h m = Some u -> answers m = [] -> In u ts -> exists s' m', space_remove s h m = Some (SUCCESS, s', m')).
Proof.
  intros W. destruct (W [] (Space [1] true) [] m3 1 (0, 3) [(0, 3)]) as (s' & m' & E); [exact one_tidy|reflexivity|reflexivity|reflexivity|left; reflexivity|]. destruct (C39_remove_last [] (Space [1] true) [] m3 1 (0, 3) one_tidy eq_refl eq_refl) as (m2 & E2). congruence.
Qed.
Print Assumptions C39_remove_refuted.
(* An empty space can be neither cloned nor sorted nor filtered: "out of memory". *)
Theorem C39_empty_refuted : ~ (forall ss m s, tidy ss m -> In s ss -> answers m = [] -> exists s' m', space_clone s m = Some (SUCCESS, Some s', m')).
Proof. intros W. destruct (W _ _ s0 two_tidy (or_intror (or_introl eq_refl)) eq_refl) as (s' & m' & E). vm_compute in E. discriminate. Qed.
Print Assumptions C39_empty_refuted.
Theorem C39_empty_sort_refuted : ~ (forall srt ss m s prop, sorts srt -> tidy ss m -> In s ss -> answers m = [] -> (forall h, In h (nodes s) -> fst (prop h) = SUCCESS) -> fst (fst (space_sort srt prop s m)) = SUCCESS).
Proof. intros W. specialize (W isort _ _ s0 caps isort_sorts two_tidy (or_intror (or_introl eq_refl)) eq_refl ltac:(intros h [])). vm_compute in W. discriminate. Qed.
Print Assumptions C39_empty_sort_refuted.
(* A filter that rejects every target of a space of two or more uses targets it has
   destroyed: for every such space. *)
Theorem C39_filter_everything : forall fail f l1 s l2 m, tidy (l1 ++ s :: l2) m -> is_set m s -> answers m = [] -> 1 < len (nodes s) -> (forall h, In h (nodes s) -> f h = Drop) -> space_filter fail f s m = None.
Proof.
  intros fail f l1 s l2 m T IS A L D. apply good_tidy in T. apply good_framed in T. destruct T as (F & _). refine (filter_everything fail f s _ _ m F _ A L D). apply uniq_distinct. apply set_uniq; [|exact IS]. intros h I. apply (framed_live _ _ _ _ h F). apply in_app_iff. left. exact I.
Qed.
Print Assumptions C39_filter_everything.
Theorem C39_filter_refuted : ~ (forall f l1 s l2 m, tidy (l1 ++ s :: l2) m -> is_set m s -> answers m = [] -> space_filter user_fail f s m <> None).
Proof. intros W. apply (W (fun _ => Drop) [] s35 [s0] m35 two_tidy two_set eq_refl). apply (C39_filter_everything user_fail (fun _ => Drop) [] s35 [s0] m35 two_tidy two_set eq_refl); [vm_compute; reflexivity|reflexivity]. Qed.
Print Assumptions C39_filter_refuted.
(* So does one that runs out of memory after the first removal. *)
Theorem C39_filter_failure_refuted : ~ (forall f l1 s l2 m h, tidy (l1 ++ s :: l2) m -> is_set m s -> In h (nodes s) -> f h = Keep -> space_filter user_fail f s m <> None).
Proof.
  intros W.
  assert (T : tidy [Space [1; 2; 3] true] (Mem [(3, (0, 7)); (2, (0, 5)); (1, (0, 3))] 4 [true; true; false] 8)).
  { assert (E2 : run isort ([], Mem [] 1 (repeat true 10 ++ [false]) 0) [ONuma [3; 5; 7]] = World [Space [1; 2; 3] true] (Mem [(3, (0, 7)); (2, (0, 5)); (1, (0, 3))] 4 [true; true; false] 8)) by (vm_compute; reflexivity). exact (history_tidy isort _ _ _ _ isort_sorts E2). }
  refine (W (fun h => if h =? 3 then Keep else Drop) [] _ [] _ 3 T _ _ eq_refl _); [|cbn; auto|vm_compute; reflexivity].
  intros ts M. unfold members in M. vm_compute in M. destruct ts as [|a [|b [|c [|? ?]]]]; try discriminate. injection M as <- <- <-. repeat constructor; cbn; intuition discriminate.
Qed.
Print Assumptions C39_filter_failure_refuted.
(* A space can be made from a list with the same node twice. *)
Theorem C39_duplicates_refuted : ~ (forall ids m s m', space_from_numa ids m = Some (SUCCESS, Some s, m') -> is_set m' s).
Proof.
  intros W. specialize (W [3; 3] no_mem (Space [1; 2] true) (Mem [(2, (0, 3)); (1, (0, 3))] 3 [] 6) ltac:(vm_compute; reflexivity) [(0, 3); (0, 3)] eq_refl). inversion W as [|? ? N _]. apply N. left. reflexivity.
Qed.
Print Assumptions C39_duplicates_refuted.
(* Running out of memory while making a space from node ids reads freed memory. *)
Theorem C39_from_numa_refuted : ~ (forall ids ans, space_from_numa ids (Mem [] 1 ans 0) <> None).
Proof. intros W. apply (W [3; 5] [true; true; true; true; false]). vm_compute. reflexivity. Qed.
Print Assumptions C39_from_numa_refuted.
(* If sorting fails, the highest capacity space is lost. *)
Theorem C39_highest_capacity_refuted : ~ (forall srt prop ss s m r o m', sorts srt -> tidy ss m -> In s ss -> highest_capacity srt prop s m = Some (r, o, m') -> r <> SUCCESS -> tidy ss m').
Proof.
  intros W. pose proof (W isort (fun _ => (ERR_NOT_SUPPORTED, 0)) _ s35 m35 ERR_NOT_SUPPORTED None (Mem [(4, (0, 5)); (3, (0, 3)); (2, (0, 5)); (1, (0, 3))] 5 [] 13) isort_sorts two_tidy (or_introl eq_refl) ltac:(vm_compute; reflexivity) ltac:(discriminate)) as [_ _ L _ _ _]. vm_compute in L. discriminate.
Qed.
Print Assumptions C39_highest_capacity_refuted.
