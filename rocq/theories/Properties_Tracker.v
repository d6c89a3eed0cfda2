(* C13-C16, C50: the memory tracker (src/provider/provider_tracking.c) and pool
   lookup (src/memory_pool.c). *)
From Verif Require Import Base Model_Tracker Spec_Tracker Proof_TrackerProps.

(* C13. Whatever sequence of tracked allocations, frees, splits and merges by
   any number of pools has happened, the lookups agree, for every address, with
   the plain list of allocated regions: they report the newest region that
   contains the address, which lies inside every other region containing it;
   and nothing when no region contains it.  No assertion fails on the way.
   Merged regions do not lie inside another region (call_env); for those that
   do see tracker_freed_region_stays_refuted. *)
Theorem tracker_lookup_innermost : forall dbg t L x,
  reached dbg t L -> is_word x ->
  umfMemoryTrackerGetAllocInfo t x = info_of (owner L x) /\
  umfPoolByPtr t x = pool_of (owner L x) /\
  (forall g, owner L x = Some g ->
     In g L /\ covers x g = true /\ g_pool g <> 0 /\ forall h, In h L -> covers x h = true -> inside g h) /\
  (owner L x = None -> forall h, In h L -> covers x h = false) /\
  (forall k, call_env dbg L k -> exists r, step dbg t k = Some r).
Proof.
  intros dbg t L x H W. split; [exact (info_reached _ _ _ _ H W)|]. split; [exact (pool_reached _ _ _ _ H W)|].
  split; [|split; [exact (owner_none L x)|intros k; exact (reached_progress _ _ _ k H)]].
  intros g O. destruct (find_some _ _ O) as (IN & C). split; [exact IN|]. split; [exact C|].
  split; [exact (proj2 (proj2 (proj2 (reached_nice _ _ _ _ H IN))))|]. exact (reached_nested _ _ _ _ _ H O).
Qed.
Print Assumptions tracker_lookup_innermost.

(* C14. Freeing a region that has nothing allocated inside it, whatever was
   split and merged before, passes exactly that region upstream and removes it:
   lookups afterwards see the remaining regions only.
   MISSING: merges of regions that lie inside another region. *)
Theorem tracker_freed_region_gone_partial : forall dbg t L pool p size o r g,
  reached dbg t L -> call_env dbg L (TFree pool p size SUCCESS o) -> free_standing L p g ->
  step dbg t (TFree pool p size SUCCESS o) = Some r ->
  r_res r = SUCCESS /\ r_ev r = [EvFree p size] /\
  (forall x, is_word x -> umfMemoryTrackerGetAllocInfo (r_st r) x = info_of (owner (forget L p) x)) /\
  (forall x, is_word x -> (forall h, In h (forget L p) -> covers x h = false) -> umfPoolByPtr (r_st r) x = 0).
Proof.
  intros dbg t L pool p size o r g H CE FS ST. destruct (free_result _ _ _ _ _ _ _ _ _ H CE ST) as (R1 & R2).
  split; [exact R1|]. split; [exact R2|].
  assert (H2 : reached dbg (r_st r) (forget L p)).
  { pose proof (reached_step _ _ _ _ _ _ H CE ST) as X. unfold observe in X. rewrite R1 in X.
    assert (free_standingb L p = true) as FB by (apply Proof_TrackerOps.free_standingb_iff; eauto). rewrite FB in X. exact X. }
  split; [intros x W; exact (info_reached _ _ _ _ H2 W)|]. intros x W NC. rewrite (pool_reached _ _ _ _ H2 W).
  destruct (owner (forget L p) x) as [h|] eqn:O; [|reflexivity]. destruct (find_some _ _ O) as (IN & C). rewrite (NC h IN) in C. discriminate.
Qed.
Print Assumptions tracker_freed_region_gone_partial.

(* C15. When the upstream provider refuses an allocation, a free, a split or a
   merge, the call fails, and every lookup gives the same answer as before.
   MISSING: a refused free when memory for putting the record back is short
   (tracker_refused_free_forgets_refuted). *)
Theorem tracker_refused_unchanged_partial : forall dbg t L k r x,
  reached dbg t L -> call_env dbg L k -> step dbg t k = Some r -> refused k -> is_word x ->
  r_res r <> SUCCESS /\
  umfMemoryTrackerGetAllocInfo (r_st r) x = umfMemoryTrackerGetAllocInfo t x /\ umfPoolByPtr (r_st r) x = umfPoolByPtr t x.
Proof.
  intros dbg t L k r x H CE ST RF W. pose proof (refused_fails _ _ _ _ _ H CE ST RF) as NS. split; [exact NS|].
  pose proof (reached_step _ _ _ _ _ _ H CE ST) as H2. rewrite (failed_same _ _ _ NS) in H2. fold (reached dbg) in H2.
  rewrite (info_reached _ _ _ _ H2 W), (info_reached _ _ _ _ H W), (pool_reached _ _ _ _ H2 W), (pool_reached _ _ _ _ H W). split; reflexivity.
Qed.
Print Assumptions tracker_refused_unchanged_partial.

(* More generally every call that does not report success leaves all lookups
   as they were (also when the tracker itself runs out of memory). *)
Theorem tracker_failed_call_unchanged : forall dbg t L k r x,
  reached dbg t L -> call_env dbg L k -> step dbg t k = Some r -> r_res r <> SUCCESS -> is_word x ->
  umfMemoryTrackerGetAllocInfo (r_st r) x = umfMemoryTrackerGetAllocInfo t x.
Proof.
  intros dbg t L k r x H CE ST NS W. pose proof (reached_step _ _ _ _ _ _ H CE ST) as H2. rewrite (failed_same _ _ _ NS) in H2.
  rewrite (info_reached _ _ _ _ H2 W), (info_reached _ _ _ _ H W). reflexivity.
Qed.
Print Assumptions tracker_failed_call_unchanged.

(* C16. umfFree hands the pointer to exactly one pool, the owner of the
   innermost region containing it, and reports that pool's answer; when no
   region contains it no pool is called. *)
Theorem umfFree_to_owner : forall dbg t L pool_free p,
  reached dbg t L -> is_word p ->
  match owner L p with
  | Some g => umfFree pool_free t p = (pool_free (g_pool g) p, [(g_pool g, p)]) /\ forall h, In h L -> covers p h = true -> inside g h
  | None => umfFree pool_free t p = (SUCCESS, [])
  end.
Proof.
  intros dbg t L pf p H W. unfold umfFree. rewrite (pool_reached _ _ _ _ H W). destruct (owner L p) as [g|] eqn:O; cbn [pool_of]; [|reflexivity].
  destruct (find_some _ _ O) as (IN & _). destruct (reached_nice _ _ _ _ H IN) as (_ & _ & _ & NZ).
  destruct (Z.eqb_spec (g_pool g) 0) as [X|_]; [congruence|]. split; [reflexivity|]. exact (reached_nested _ _ _ _ _ H O).
Qed.
Print Assumptions umfFree_to_owner.

(* C50. A tracked allocation either succeeds, returning the upstream pointer
   unchanged, or fails, returning no pointer, giving the upstream memory back
   with the same address and size, and leaving the tracker untouched.  It
   succeeds whenever memory is available and fewer than eight regions contain
   the address; with eight it is refused. *)
Theorem tracked_alloc_all_or_nothing : forall dbg t L pool size align up o r,
  reached dbg t L -> call_env dbg L (TAlloc pool size align up o) -> step dbg t (TAlloc pool size align up o) = Some r ->
  (r_res r <> SUCCESS -> r_ptr r = 0 /\ r_st r = t) /\
  (fst up = SUCCESS -> snd up <> 0 -> r_res r <> SUCCESS -> r_ev r = [EvAlloc size align; EvFree (snd up) size]) /\
  (r_res r = SUCCESS -> r_ptr r = snd up /\ r_ev r = [EvAlloc size align]) /\
  (fst up = SUCCESS -> snd up <> 0 -> o = AddOracle true true true -> (length (filter (covers (snd up)) L) < 8)%nat -> r_res r = SUCCESS) /\
  (fst up = SUCCESS -> snd up <> 0 -> length (filter (covers (snd up)) L) = 8%nat -> r_res r = ERR_OUT_OF_RESOURCES).
Proof. exact alloc_result. Qed.
Print Assumptions tracked_alloc_all_or_nothing.

(* C51. A split or merge that reports success was asked for exactly the regions
   that exist: the split region starts at the pointer and has the stated total
   size, nothing is allocated inside it, and afterwards every address of the
   two parts is attributed to them. *)
Theorem tracked_split_exact : forall dbg t L pool p total first value lock up o r x,
  reached dbg t L -> call_env dbg L (TSplit pool p total first value lock up o) ->
  step dbg t (TSplit pool p total first value lock up o) = Some r -> r_res r = SUCCESS -> is_word x ->
  (exists g, free_standing L p g /\ g_size g = total) /\
  umfMemoryTrackerGetAllocInfo (r_st r) x =
    (if (p <=? x) && (x <? p + total) then
       if x <? p + first then (SUCCESS, Some (p, first, pool)) else (SUCCESS, Some (p + first, total - first, pool))
     else umfMemoryTrackerGetAllocInfo t x).
Proof. exact split_lookup. Qed.
Print Assumptions tracked_split_exact.

(* The same for merges: the two regions exist, are adjacent, belong to the same
   pool and add up to the stated size; afterwards every address of both is
   attributed to the merged region, and all others are as before. *)
Theorem tracked_merge_exact : forall dbg t L pool lo hi total value lock up r x,
  reached dbg t L -> call_env dbg L (TMerge pool lo hi total value lock up) ->
  step dbg t (TMerge pool lo hi total value lock up) = Some r -> r_res r = SUCCESS -> is_word x ->
  (exists g h, free_standing L lo g /\ free_standing L hi h /\ lo + g_size g = hi /\ hi + g_size h = lo + total /\ g_pool g = g_pool h) /\
  umfMemoryTrackerGetAllocInfo (r_st r) x =
    (if (lo <=? x) && (x <? lo + total) then (SUCCESS, Some (lo, total, pool)) else umfMemoryTrackerGetAllocInfo t x).
Proof. exact merge_lookup. Qed.
Print Assumptions tracked_merge_exact.

(* ---- refutations ---- *)
Definition all_ok := AddOracle true true true.
Fixpoint play (dbg : bool) (t : tracker) (L : list region) (ks : list call) : option (tracker * list region) :=
  match ks with
  | [] => Some (t, L)
  | k :: r => match step dbg t k with Some a => play dbg (r_st a) (observe L k a) r | None => None end
  end.
Fixpoint legal (env : list region -> call -> Prop) (dbg : bool) (t : tracker) (L : list region) (ks : list call) : Prop :=
  match ks with
  | [] => True
  | k :: r => env L k /\ match step dbg t k with Some a => legal env dbg (r_st a) (observe L k a) r | None => True end
  end.
Lemma play_reached : forall env dbg ks t L t' L', reached_by env dbg t L -> legal env dbg t L ks -> play dbg t L ks = Some (t', L') -> reached_by env dbg t' L'.
Proof.
  induction ks as [|k ks IH]; intros t L t' L' H LG P; cbn [play legal] in *; [injection P as <- <-; exact H|]. destruct LG as (E & LG).
  destruct (step dbg t k) as [a|] eqn:S; [|discriminate]. exact (IH _ _ _ _ (reached_step _ _ _ _ _ _ H E S) LG P).
Qed.

Lemma legal_cons : forall (env : list region -> call -> Prop) dbg t L k ks r l,
  env L k -> step dbg t k = Some r -> observe L k r = l -> legal env dbg (r_st r) l ks -> legal env dbg t L (k :: ks).
Proof. intros env dbg t L k ks r l E S <- R. cbn [legal]. rewrite S. split; assumption. Qed.

(* discharging the obligations of concrete calls *)
Ltac call tac := match goal with |- legal ?env ?d ?t ?L (?k :: ?ks) =>
  let a := eval vm_compute in (step d t k) in
  match a with Some ?r => let l := eval vm_compute in (observe L k r) in
    refine (legal_cons env d t L k ks r l _ _ _ _); [tac|vm_compute; reflexivity|vm_compute; reflexivity|cbn [r_st]] end end.
Ltac in_list H := cbn in H; repeat (destruct H as [<-|H]); [..|destruct H].
Ltac side := unfold inside, apart, is_word, free_standing, U64; cbn [g_base g_size g_pool fst snd]; lia.
Ltac fs := split; [reflexivity|split; [reflexivity|intros ?h ?H; in_list H; cbn; lia]].
Ltac alloc_legal := split; [discriminate|intros _ _; split; [reflexivity|split; [reflexivity|split; [reflexivity|intros ?h ?H; in_list H; side]]]].
Ltac free_legal := split; [side|eexists; split; [fs|split; reflexivity]].
Ltac split_legal := split; [side|split; [lia|eexists; split; [fs|split; reflexivity]]].
Ltac merge_legal := cbn [fair_env]; do 2 eexists; split; [fs|split; [fs|repeat split]].

(* [history env dbg ks R]: R says that playing ks, whose obligations are left as
   a first goal, reaches the computed state *)
Ltac history env dbg ks R :=
  let a := eval vm_compute in (play dbg umfMemoryTrackerCreate [] ks) in
  match a with Some (?t, ?L) =>
    assert (R : legal env dbg umfMemoryTrackerCreate [] ks -> reached_by env dbg t L) by
      (let X := fresh in intros X; refine (play_reached env dbg ks _ _ t L (reached_new env dbg) X _); vm_compute; reflexivity);
    match type of R with ?X -> _ => let Y := fresh in assert (Y : X); [|specialize (R Y); clear Y] end
  end.

(* C13/C14 for merges of regions inside another region: split and merge back an
   inner region, free it, free the outer one: nothing is allocated any more, no
   call failed, memory was never short, yet the outer region's pool is still
   reported, because the merge does not undo the split's child count. *)
Definition stale_history : list call :=
  [ TAlloc 1 4096 0 (SUCCESS, 4096) all_ok;
    TAlloc 2 512 0 (SUCCESS, 5120) all_ok;
    TSplit 2 5120 512 256 true true SUCCESS all_ok;
    TMerge 2 5120 5376 512 true true SUCCESS;
    TFree 2 5120 512 SUCCESS all_ok ].
Theorem tracker_freed_region_stays_refuted :
  ~ (forall dbg t L x, reached_by fair_env dbg t L -> is_word x -> umfPoolByPtr t x = pool_of (owner L x)).
Proof.
  intros F. history fair_env true ((stale_history ++ [TFree 1 4096 4096 SUCCESS all_ok])) R.
  { unfold stale_history; cbn [app].
    call alloc_legal. call alloc_legal. call split_legal. call merge_legal. call free_legal. call free_legal. exact Logic.I. }
  assert (W : is_word 4096) by (unfold is_word, U64; lia). specialize (F _ _ _ 4096 R W). vm_compute in F. discriminate.
Qed.
Print Assumptions tracker_freed_region_stays_refuted.

(* After the same start, merging two adjacent regions of one pool that have
   nothing allocated inside them fails an assertion in a debug build, and is
   refused in a release build. *)
Definition stale_merge : list call :=
  TAlloc 1 4096 0 (SUCCESS, 8192) all_ok :: stale_history.
Theorem tracker_legal_merge_asserts_refuted :
  ~ (forall t L k, reached_by fair_env true t L -> fair_env L k -> exists r, step true t k = Some r).
Proof.
  intros F. history fair_env true (stale_merge) R.
  { unfold stale_merge, stale_history.
    call alloc_legal. call alloc_legal. call alloc_legal. call split_legal. call merge_legal. call free_legal. exact Logic.I. }
  destruct (F _ _ (TMerge 1 4096 8192 8192 true true SUCCESS) R) as (r & X); [merge_legal|]. vm_compute in X. discriminate.
Qed.
Print Assumptions tracker_legal_merge_asserts_refuted.

(* When both regions went through that, a release build frees records that stay
   in the map (undefined behaviour). *)
Definition stale_merge2 : list call :=
  stale_history ++
  [ TAlloc 1 4096 0 (SUCCESS, 8192) all_ok;
    TAlloc 2 512 0 (SUCCESS, 9216) all_ok;
    TSplit 2 9216 512 256 true true SUCCESS all_ok;
    TMerge 2 9216 9472 512 true true SUCCESS;
    TFree 2 9216 512 SUCCESS all_ok ].
Theorem tracker_legal_merge_undefined_refuted :
  ~ (forall t L k, reached_by fair_env false t L -> fair_env L k -> exists r, step false t k = Some r).
Proof.
  intros F. history fair_env false (stale_merge2) R.
  { unfold stale_merge2, stale_history; cbn [app].
    call alloc_legal. call alloc_legal. call split_legal. call merge_legal. call free_legal.
    call alloc_legal. call alloc_legal. call split_legal. call merge_legal. call free_legal. exact Logic.I. }
  destruct (F _ _ (TMerge 1 4096 8192 8192 true true SUCCESS) R) as (r & X); [merge_legal|]. vm_compute in X. discriminate.
Qed.
Print Assumptions tracker_legal_merge_undefined_refuted.

(* C15: a refused free loses the region when the record cannot be re-added. *)
Theorem tracker_refused_free_forgets_refuted :
  ~ (forall t L k r x, reached_by fair_env false t L -> fair_env L k -> step false t k = Some r -> refused k -> is_word x ->
       umfPoolByPtr (r_st r) x = umfPoolByPtr t x).
Proof.
  intros F. history fair_env false ([TAlloc 1 4096 0 (SUCCESS, 4096) all_ok]) R.
  { call alloc_legal. exact Logic.I. }
  specialize (fun r => F _ _ (TFree 1 4096 4096 ERR_UNKNOWN (AddOracle false true true)) r 4096 R).
  assert (W : is_word 4096) by (unfold is_word, U64; lia). specialize (fun r E X => F r E X ltac:(discriminate) W).
  assert (FE : fair_env [Region 4096 4096 1] (TFree 1 4096 4096 ERR_UNKNOWN (AddOracle false true true))) by (cbn [fair_env]; free_legal).
  specialize (F _ FE eq_refl). vm_compute in F. discriminate.
Qed.
Print Assumptions tracker_refused_free_forgets_refuted.

(* A failed split is not undone upstream: the call reports an error and the
   tracker still shows one region, but upstream the region is in two parts. *)
Theorem tracker_failed_split_undone_refuted :
  ~ (forall t L k r p total first, reached_by fair_env false t L -> fair_env L k -> step false t k = Some r -> r_res r <> SUCCESS ->
       In (EvSplit p total first) (r_ev r) -> refused k \/ In (EvMerge p (p + first) total) (r_ev r)).
Proof.
  intros F. history fair_env false ([TAlloc 1 4096 0 (SUCCESS, 4096) all_ok]) R.
  { call alloc_legal. exact Logic.I. }
  set (k := TSplit 1 4096 4096 1024 true true SUCCESS (AddOracle true false true)).
  assert (FE : fair_env [Region 4096 4096 1] k) by (cbn [fair_env k]; split_legal).
  specialize (fun r => F _ _ k r 4096 4096 1024 R FE). specialize (F _ eq_refl). destruct F as [X|X].
  - discriminate.
  - left. reflexivity.
  - apply X. reflexivity.
  - destruct X as [X|[]]. discriminate.
Qed.
Print Assumptions tracker_failed_split_undone_refuted.

(* ---- concrete cases ---- *)
(* three pools, nesting, a split and a merge of outer regions, a refused free *)
Definition demo : list call :=
  [ TAlloc 1 8192 0 (SUCCESS, 4096) all_ok;
    TSplit 1 4096 8192 4096 true true SUCCESS all_ok;
    TAlloc 2 512 0 (SUCCESS, 5120) all_ok;
    TAlloc 3 64 0 (SUCCESS, 5120) all_ok;
    TFree 3 5120 64 ERR_UNKNOWN all_ok;
    TFree 3 5120 64 SUCCESS all_ok;
    TAlloc 3 16 0 (SUCCESS, 5136) (AddOracle true false true);
    TFree 2 5120 512 SUCCESS all_ok;
    TMerge 1 4096 8192 8192 true true SUCCESS ].
Ltac free_ok_legal := split; [side|intros ?N; try congruence; intros ?g (?O & _); injection O as <-; repeat split; reflexivity].
Example demo_legal : exists t, reached true t [Region 4096 8192 1] /\ umfPoolByPtr t 5120 = 1 /\ umfPoolByPtr t 12287 = 1 /\ umfPoolByPtr t 12288 = 0.
Proof.
  history (call_env true) true demo R.
  { unfold demo.
    call alloc_legal. call ltac:(split; [discriminate|repeat split; side]). call alloc_legal. call alloc_legal. call free_ok_legal.
    call free_ok_legal. call alloc_legal. call free_ok_legal. call idtac; [|exact Logic.I].
    split; [discriminate|]. split; [side|]. split; [side|]. split; [side|]. split.
    - intros _ g h G _ H _. injection G as <-. injection H as <-. split; [reflexivity|]. split; [fs|]. split; [fs|]. split; reflexivity.
    - intros _. do 2 eexists. split; [fs|]. split; [fs|]. repeat split. }
  eexists. split; [exact R|]. vm_compute. auto.
Qed.
(* in the middle of it, the lookups see the innermost of three regions *)
Example demo_nested : exists t L, play true umfMemoryTrackerCreate [] (firstn 4 demo) = Some (t, L) /\
  L = [Region 5120 64 3; Region 5120 512 2; Region 4096 4096 1; Region 8192 4096 1] /\
  map (umfPoolByPtr t) [4096; 5120; 5183; 5184; 5631; 5632; 8191; 8192; 4095] = [1; 3; 3; 2; 2; 1; 1; 1; 0] /\
  umfFree (fun _ _ => SUCCESS) t 5183 = (SUCCESS, [(3, 5183)]) /\ umfFree (fun _ _ => ERR_UNKNOWN) t 4095 = (SUCCESS, []).
Proof. do 2 eexists. split; [vm_compute; reflexivity|]. vm_compute. repeat split; reflexivity. Qed.
(* eight levels are possible, the ninth is refused and the memory returned *)
Fixpoint nestings (n : nat) (size : Z) : list call :=
  match n with O => [] | S m => TAlloc 1 size 0 (SUCCESS, 4096) all_ok :: nestings m (size - 16) end.
Example ninth_level : exists t L, play true umfMemoryTrackerCreate [] (nestings 8 1024) = Some (t, L) /\ length (filter (covers 4096) L) = 8%nat /\
  step true t (TAlloc 1 16 0 (SUCCESS, 4096) all_ok) = Some (Reply ERR_OUT_OF_RESOURCES 0 [EvAlloc 16 0; EvFree 4096 16] t).
Proof. do 2 eexists. split; [vm_compute; reflexivity|]. vm_compute. repeat split; reflexivity. Qed.
