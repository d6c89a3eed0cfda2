(* Model of the memory tracker and of the tracking provider that every pool's
   provider is wrapped in (src/provider/provider_tracking.c), and of
   umfPoolByPtr / umfFree (src/memory_pool.c).

   Simplifications that hold for the whole file:
   - The eight maps are the critnib trees of Model_Critnib.v; a stored pointer
     to a tracker_alloc_info_t appears as the record it points to.
   - n_children is an unbounded integer (the C counter would need 2^64 steps to
     wrap); addresses and sizes are 64-bit with explicit wrap-around.
   - Each call is one atomic step; the IPC handle cache of the provider is left
     out here (see Model_Ipc.v).
   - Upstream provider results, allocation of tracker_alloc_info_t and of
     critnib leaves/nodes, and locking results are oracle inputs of each call.
   - [dbg] = true models a build without NDEBUG.  The outcome None is a failed
     assert(), or undefined behaviour (use of a freed tracker_alloc_info_t). *)
From Verif Require Import Base Model_Critnib.

(* provider_tracking.c:46-53  tracker_alloc_info_t *)
Record entry := Entry { e_pool : Z; e_size : Z; e_children : Z }.

(* provider_tracking.c:29,33-42  MAX_LEVELS_OF_ALLOC_SEGMENT_MAP maps *)
Definition MAX_LEVELS : nat := 8.
Definition tracker := list (tree entry).
Definition umfMemoryTrackerCreate : tracker := repeat Nil MAX_LEVELS.

Definition level_map (t : tracker) (k : nat) : tree entry := nth k t Nil.
Fixpoint set_level (t : tracker) (k : nat) (m : tree entry) : tracker :=
  match t, k with
  | [], _ => []
  | _ :: r, O => m :: r
  | a :: r, S k' => a :: set_level r k' m
  end.

(* assignment through a tracker_alloc_info_t pointer found in map [k] under
   [key] (never allocates: the key is present) *)
Definition poke (t : tracker) (k : nat) (key : Z) (f : entry -> entry) : tracker :=
  match critnib_get (level_map t k) key with
  | Some e => set_level t k (fst (critnib_insert true true (level_map t k) key (f e) true))
  | None => t
  end.
Definition add_children (d : Z) (e : entry) : entry := Entry (e_pool e) (e_size e) (e_children e + d).

(* provider_tracking.c:75-97: the descent of get_most_nested_alloc_segment.
   [lv] = the maps from [level] on; [par] = parent_key/parent_value; [cur] =
   rkey/rvalue, which keep their old values when critnib_find finds nothing.
   The extra result says whether [cur] comes from the map of the reported
   level. *)
Record nested := Nested { n_level : nat; n_parent : option Z; n_cur : option (Z * entry); n_here : bool }.
Fixpoint nested_loop (lv : list (tree entry)) (ptr : Z) (level : nat) (par : option Z) (cur : option (Z * entry)) : nested :=
  match lv with
  | [] => Nested level par cur false
  | m :: rest =>
      match critnib_find m ptr FIND_LE with
      | None => Nested level par cur false
      | Some (k, e) =>
          if (ptr <? wrap (k + e_size e)) && negb (e_children e =? 0) then
            match rest with
            | [] => Nested level par (Some (k, e)) true
            | _ => nested_loop rest ptr (S level) (Some k) (Some (k, e))
            end
          else Nested level par (Some (k, e)) true
      end
  end.

(* provider_tracking.c:65-123 *)
Definition get_most_nested_alloc_segment (t : tracker) (ptr : Z) (no_children : bool) : option (nested * entry) :=
  let n := nested_loop t ptr 0 None None in
  match n_cur n with
  | None => None
  | Some (k, e) =>
      if negb (k =? ptr) then None
      else if no_children && (0 <? e_children e) then None
      else Some (n, e)
  end.

(* allocation of a tracker value; of a critnib leaf; of a critnib node *)
Record add_oracle := AddOracle { o_value : bool; o_leaf : bool; o_node : bool }.

(* provider_tracking.c:125-175; None = an ASSERT inside critnib failed *)
Definition umfMemoryTrackerAddAtLevel (t : tracker) (level : nat) (pool ptr size : Z) (par : option Z) (o : add_oracle)
  : option (result * tracker) :=
  if negb (o_value o) then Some (ERR_OUT_OF_HOST_MEMORY, t)
  else
    match critnib_insert (o_leaf o) (o_node o) (level_map t level) ptr (Entry pool size 0) false with
    | (m, INS_OK) =>
        let t' := set_level t level m in
        Some (SUCCESS, match par with Some k => poke t' (pred level) k (add_children 1) | None => t' end)
    | (_, INS_ENOMEM) => Some (ERR_OUT_OF_HOST_MEMORY, t)
    | (_, INS_EEXIST) => Some (ERR_UNKNOWN, t)
    | (_, INS_ASSERT) => None
    end.

(* provider_tracking.c:193-223: the descent of umfMemoryTrackerAdd *)
Fixpoint add_loop (lv : list (tree entry)) (ptr size : Z) (level : nat) (par : option Z) : result + (nat * option Z) :=
  match lv with
  | [] => inr (level, par)
  | m :: rest =>
      match critnib_find m ptr FIND_LE with
      | None => inr (level, par)
      | Some (k, e) =>
          if ptr <? wrap (k + e_size e) then
            match rest with
            | [] => inl ERR_OUT_OF_RESOURCES
            | _ =>
                if wrap (ptr + size) >? wrap (k + e_size e) then inl ERR_INVALID_ARGUMENT
                else if e_children e =? 0 then inr (S level, Some k)
                else add_loop rest ptr size (S level) (Some k)
            end
          else inr (level, par)
      end
  end.
(* provider_tracking.c:177-233 *)
Definition umfMemoryTrackerAdd (t : tracker) (pool ptr size : Z) (o : add_oracle) : option (result * tracker) :=
  match add_loop t ptr size 0 None with
  | inl r => Some (r, t)
  | inr (level, par) => umfMemoryTrackerAddAtLevel t level pool ptr size par o
  end.

(* provider_tracking.c:235-277; None = assert(value) fails in critnib or here *)
Definition umfMemoryTrackerRemove (t : tracker) (ptr : Z) : option (result * tracker) :=
  match get_most_nested_alloc_segment t ptr true with
  | None => Some (ERR_UNKNOWN, t)
  | Some (n, _) =>
      match critnib_remove (level_map t (n_level n)) ptr with
      | Some (m, Some _) =>
          let t' := set_level t (n_level n) m in
          Some (SUCCESS, match n_parent n with Some k => poke t' (pred (n_level n)) k (add_children (-1)) | None => t' end)
      | _ => None
      end
  end.

(* provider_tracking.c:379-394: the descent of umfMemoryTrackerGetAllocInfo *)
Fixpoint info_loop (lv : list (tree entry)) (ptr : Z) (top : option (Z * entry)) : option (Z * entry) :=
  match lv with
  | [] => top
  | m :: rest =>
      match critnib_find m ptr FIND_LE with
      | None => top
      | Some (k, e) =>
          if ptr <? wrap (k + e_size e) then
            if e_children e =? 0 then Some (k, e) else info_loop rest ptr (Some (k, e))
          else top
      end
  end.
(* provider_tracking.c:357-409 (base, baseSize, pool); the tracker exists *)
Definition umfMemoryTrackerGetAllocInfo (t : tracker) (ptr : Z) : result * option (Z * Z * Z) :=
  if ptr =? 0 then (ERR_INVALID_ARGUMENT, None)
  else match info_loop t ptr None with
       | None => (ERR_INVALID_ARGUMENT, None)
       | Some (k, e) => (SUCCESS, Some (k, e_size e, e_pool e))
       end.
(* provider_tracking.c:347-355; 0 = NULL *)
Definition umfMemoryTrackerGetPool (t : tracker) (ptr : Z) : Z :=
  match umfMemoryTrackerGetAllocInfo t ptr with
  | (_, Some (_, _, pool)) => pool
  | (_, None) => 0
  end.

(* memory_pool.c:151-153 *)
Definition umfPoolByPtr (t : tracker) (ptr : Z) : Z := umfMemoryTrackerGetPool t ptr.
(* memory_pool.c:213-216 and 141-149: the call of a pool's free operation is
   what can be observed; [pool_free] is that operation's result *)
Definition umfFree (pool_free : Z -> Z -> result) (t : tracker) (ptr : Z) : result * list (Z * Z) :=
  let pool := umfPoolByPtr t ptr in
  if pool =? 0 then (SUCCESS, []) else (pool_free pool ptr, [(pool, ptr)]).

(* ---- the tracking provider ---- *)
(* calls to the upstream provider, in order *)
Inductive event :=
| EvAlloc (size align : Z) | EvFree (ptr size : Z)
| EvSplit (ptr total first : Z) | EvMerge (lo hi total : Z).

Inductive call :=
| TAlloc (pool size align : Z) (up : result * Z) (o : add_oracle)
| TFree (pool ptr size : Z) (up : result) (o : add_oracle)
| TSplit (pool ptr total first : Z) (value lock : bool) (up : result) (o : add_oracle)
| TMerge (pool lo hi total : Z) (value lock : bool) (up : result).

Record reply := Reply { r_res : result; r_ptr : Z; r_ev : list event; r_st : tracker }.

Section Provider.
Variable dbg : bool.

(* provider_tracking.c:465-498 *)
Definition trackingAlloc (t : tracker) (pool size align : Z) (up : result * Z) (o : add_oracle) : option reply :=
  let (r, p) := up in
  match r with
  | SUCCESS =>
      if p =? 0 then Some (Reply SUCCESS 0 [EvAlloc size align] t)
      else
        match umfMemoryTrackerAdd t pool p size o with
        | Some (SUCCESS, t') => Some (Reply SUCCESS p [EvAlloc size align] t')
        | Some (e, t') => Some (Reply e 0 [EvAlloc size align; EvFree p size] t')
        | None => None
        end
  | _ => Some (Reply r 0 [EvAlloc size align] t)
  end.

(* provider_tracking.c:720-773 *)
Definition trackingFree (t : tracker) (pool ptr size : Z) (up : result) (o : add_oracle) : option reply :=
  match (if ptr =? 0 then Some (ERR_UNKNOWN, t) else umfMemoryTrackerRemove t ptr) with
  | None => None
  | Some (removed, t1) =>
      match up, removed with
      | SUCCESS, _ => Some (Reply SUCCESS 0 [EvFree ptr size] t1)
      | _, SUCCESS =>
          match umfMemoryTrackerAdd t1 pool ptr size o with
          | Some (_, t2) => Some (Reply up 0 [EvFree ptr size] t2)
          | None => None
          end
      | _, _ => Some (Reply up 0 [EvFree ptr size] t1)
      end
  end.

(* provider_tracking.c:500-603.  On success the old record of [ptr] is replaced
   by {pool, first, 0}; when the upper part cannot be added the old record is
   put back, but the upstream split stays. *)
Definition trackingAllocationSplit (t : tracker) (pool ptr total first : Z) (value lock : bool) (up : result) (o : add_oracle)
  : option reply :=
  if negb value then Some (Reply ERR_OUT_OF_HOST_MEMORY 0 [] t)
  else if negb lock then Some (Reply ERR_UNKNOWN 0 [] t)
  else
    match get_most_nested_alloc_segment t ptr true with
    | None => Some (Reply ERR_INVALID_ARGUMENT 0 [] t)
    | Some (n, e) =>
        if negb (e_size e =? total) then Some (Reply ERR_INVALID_ARGUMENT 0 [] t)
        else
          match up with
          | SUCCESS =>
              let t1 := poke t (n_level n) ptr (fun _ => Entry pool first 0) in
              match umfMemoryTrackerAddAtLevel t1 (n_level n) pool (wrap (ptr + first)) (wrap (total - first)) (n_parent n) o with
              | Some (SUCCESS, t2) => Some (Reply SUCCESS 0 [EvSplit ptr total first] t2)
              | Some (r, t2) => Some (Reply r 0 [EvSplit ptr total first] (poke t2 (n_level n) ptr (fun _ => e)))
              | None => None
              end
          | _ => Some (Reply up 0 [EvSplit ptr total first] t)
          end
    end.

(* provider_tracking.c:605-718.  err_assert (702-706) is a failed assert in
   debug builds and INVALID_ARGUMENT otherwise.  When a value was found one
   level above the reported level, the success path (674-690) frees a record
   that stays in the map and removes nothing: modelled as undefined behaviour.
   The parent's n_children is not touched. *)
Definition trackingAllocationMerge (t : tracker) (pool lo hi total : Z) (value lock : bool) (up : result) : option reply :=
  let err_assert := if dbg then None else Some (Reply ERR_INVALID_ARGUMENT 0 [] t) in
  if negb value then Some (Reply ERR_OUT_OF_HOST_MEMORY 0 [] t)
  else if negb lock then Some (Reply ERR_UNKNOWN 0 [] t)
  else
    match get_most_nested_alloc_segment t lo false with
    | None => err_assert
    | Some (nl, el) =>
        match get_most_nested_alloc_segment t hi false with
        | None => err_assert
        | Some (nh, eh) =>
            if negb (Nat.eqb (n_level nl) (n_level nh)) then err_assert
            else if negb (e_pool el =? e_pool eh) then err_assert
            else if negb (wrap (e_size el + e_size eh) =? total) then err_assert
            else
              match up with
              | SUCCESS =>
                  if negb (n_here nl && n_here nh) then None
                  else
                    let t1 := poke t (n_level nl) lo (fun _ => Entry pool total (e_children el + e_children eh)) in
                    match critnib_remove (level_map t1 (n_level nh)) hi with
                    | Some (m, Some _) => Some (Reply SUCCESS 0 [EvMerge lo hi total] (set_level t1 (n_level nh) m))
                    | _ => None
                    end
              | _ => Some (Reply up 0 [EvMerge lo hi total] t)
              end
        end
    end.

(* memory_provider.c:323-336 and 338-354: the argument checks in front of the
   provider's split and merge *)
Definition split_args_ok (ptr total first : Z) : bool :=
  negb (ptr =? 0) && negb (first =? 0) && negb (total =? 0) && (first <? total).
Definition merge_args_ok (lo hi total : Z) : bool :=
  negb (lo =? 0) && negb (hi =? 0) && negb (total =? 0) && (lo <? hi) && (hi - lo <? total).

Definition step (t : tracker) (k : call) : option reply :=
  match k with
  | TAlloc pool size align up o => trackingAlloc t pool size align up o
  | TFree pool ptr size up o => trackingFree t pool ptr size up o
  | TSplit pool ptr total first value lock up o =>
      if split_args_ok ptr total first then trackingAllocationSplit t pool ptr total first value lock up o
      else Some (Reply ERR_INVALID_ARGUMENT 0 [] t)
  | TMerge pool lo hi total value lock up =>
      if merge_args_ok lo hi total then trackingAllocationMerge t pool lo hi total value lock up
      else Some (Reply ERR_INVALID_ARGUMENT 0 [] t)
  end.
End Provider.
