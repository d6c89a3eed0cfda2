(* Model of the opened-IPC-handle cache (src/ipc_cache.c), of opening and
   closing handles in the tracking provider (src/provider/provider_tracking.c)
   and of umfOpenIPCHandle / umfCloseIPCHandle (src/ipc.c).

   Simplifications that hold for the whole file:
   - Each API call is one atomic step.
   - All entries of all caches are in the global LRU list (ipc_cache.c:255-256),
     so the hash table of a tracking provider is the part of that list whose
     key names the provider (the key always does, provider_tracking.c:1074).
   - ref_count does not wrap upwards (that takes 2^64 opens); its decrement at 0
     wraps.
   - tracker->ipc_segments_map, a critnib, is an association list without
     duplicate keys (see Properties_Critnib.v).
   - The outcome None is undefined behaviour or a failed assert. *)
From Verif Require Import Base.

(* ipc_cache.h:17-21  ipc_opened_cache_key_t *)
Record key := Key { k_base : Z; k_prov : Z; k_pid : Z }.
Definition key_eqb (a b : key) : bool := (k_base a =? k_base b) && (k_prov a =? k_prov b) && (k_pid a =? k_pid b).

(* ipc_cache.c:30-39 with ipc_cache.h:23-27.  [c_id] is the address of the
   structure, which is also what identifies its value part. *)
Record centry := CEntry { c_id : Z; c_key : key; c_ref : Z; c_hid : Z; c_base : Z; c_size : Z }.
(* provider_tracking.c:55-59  tracker_ipc_info_t *)
Record seg := Seg { s_size : Z; s_prov : Z; s_entry : Z }.

(* ipc_cache.c:41-47 and the tracker's segment map; [i_lru]: head of the list
   first; [i_next]: a fresh address for umf_ba_alloc *)
Record istate := IState { i_lru : list centry; i_cur : Z; i_max : Z; i_segs : list (Z * seg); i_next : Z }.
(* ipc_cache.c:73-110 *)
Definition umfIpcCacheGlobalInit (limit : Z) : istate := IState [] 0 limit [] 1.

(* what the upstream provider [prov] is asked to do *)
Inductive event :=
| EvOpen (k : key) (hid base size : Z)   (* a successful open of a handle *)
| EvOpenFail (k : key) (hid : Z)
| EvClose (prov base size : Z).

(* critnib_get / critnib_find FIND_LE / critnib_remove on the segment map *)
Definition seg_get (m : list (Z * seg)) (b : Z) : option seg :=
  match find (fun x => fst x =? b) m with Some (_, s) => Some s | None => None end.
Definition seg_del (m : list (Z * seg)) (b : Z) : list (Z * seg) := filter (fun x => negb (fst x =? b)) m.
Fixpoint seg_le (m : list (Z * seg)) (p : Z) : option (Z * seg) :=
  match m with
  | [] => None
  | (b, s) :: r =>
      match seg_le r p with
      | Some (b', s') => if (b <=? p) && (b' <? b) then Some (b, s) else Some (b', s')
      | None => if b <=? p then Some (b, s) else None
      end
  end.

(* provider_tracking.c:323-345 and 982-1008.  The callback is given the key of
   the entry that is about to be used, and closes through that key's provider. *)
Definition ipcOpenedCacheEvictionCallback (m : list (Z * seg)) (k : key) (base size : Z) : list (Z * seg) * list event :=
  ((if base =? 0 then m else seg_del m base), [EvClose (k_prov k) base size]).

Definition without (id : Z) (l : list centry) : list centry := filter (fun e => negb (c_id e =? id)) l.

(* allocation of a cache entry, its mutex; of the tracker's record; critnib *)
Record open_oracle := OpenOracle { oo_entry : bool; oo_mutex : bool; oo_value : bool; oo_leaf : bool }.

(* ipc_cache.c:178-273.  Result: error code and, on success, the id of the
   entry; state; events. *)
Definition umfIpcOpenedCacheGet (s : istate) (k : key) (hid : Z) (o : open_oracle) : option (result * Z * istate * list event) :=
  match find (fun e => key_eqb (c_key e) k) (i_lru s), find (fun e => key_eqb (c_key e) k && (c_hid e =? hid)) (i_lru s) with
  | _, Some e => (* hit: to the head of the list, one more reference *)
      let e' := CEntry (c_id e) (c_key e) (c_ref e + 1) (c_hid e) (c_base e) (c_size e) in
      Some (SUCCESS, c_id e, IState (e' :: without (c_id e) (i_lru s)) (i_cur s) (i_max s) (i_segs s) (i_next s), [])
  | same, None =>
      let candidate :=
        match same with
        | Some e => Some (Some e)
        | None =>
            if negb (i_max s =? 0) && (i_max s <=? i_cur s) then
              match i_lru s with
              | [] => None (* lru_list->prev with an empty list *)
              | _ => Some (find (fun e => c_ref e =? 0) (rev (i_lru s)))
              end
            else Some None
        end in
      match candidate with
      | None => None
      | Some (Some v) => (* the victim's structure is used again *)
          let e' := CEntry (c_id v) k 1 hid 0 0 in
          let (m, evs) := ipcOpenedCacheEvictionCallback (i_segs s) k (c_base v) (c_size v) in
          Some (SUCCESS, c_id v, IState (e' :: without (c_id v) (i_lru s)) (i_cur s - 1 + 1) (i_max s) m (i_next s), evs)
      | Some None =>
          if negb (oo_entry o) then Some (ERR_OUT_OF_HOST_MEMORY, 0, s, [])
          else if negb (oo_mutex o) then None (* umf_ba_global_free of a umf_ba_alloc block *)
          else
            let e' := CEntry (i_next s) k 1 hid 0 0 in
            Some (SUCCESS, i_next s, IState (e' :: i_lru s) (i_cur s + 1) (i_max s) (i_segs s) (i_next s + 1), [])
      end
  end.

(* ipc_cache.c:275-290 *)
Definition dec64 (x : Z) : Z := if x =? 0 then U64 - 1 else x - 1.
Definition umfIpcHandleMappedCacheRelease (s : istate) (id : Z) : option istate :=
  if existsb (fun e => c_id e =? id) (i_lru s) then
    Some (IState (map (fun e => if c_id e =? id then CEntry (c_id e) (c_key e) (dec64 (c_ref e)) (c_hid e) (c_base e) (c_size e) else e) (i_lru s))
                 (i_cur s) (i_max s) (i_segs s) (i_next s))
  else None (* the entry has been freed *).

Definition set_mapping (id base size : Z) (l : list centry) : list centry :=
  map (fun e => if c_id e =? id then CEntry (c_id e) (c_key e) (c_ref e) (c_hid e) base size else e) l.

(* provider_tracking.c:279-321: result of adding the mapping to the tracker *)
Definition umfMemoryTrackerAddIpcSegment (m : list (Z * seg)) (base size prov id : Z) (o : open_oracle) : result * list (Z * seg) :=
  if negb (oo_value o) then (ERR_OUT_OF_HOST_MEMORY, m)
  else match seg_get m base with
       | Some _ => (ERR_UNKNOWN, m)
       | None => if oo_leaf o then (SUCCESS, (base, Seg size prov id) :: m) else (ERR_OUT_OF_HOST_MEMORY, m)
       end.

Record reply := Reply { r_res : result; r_ptr : Z; r_ev : list event; r_st : istate; r_slot : bool }.

(* provider_tracking.c:1010-1057 (upstreamOpenIPCHandle), 1059-1108
   (trackingOpenIpcHandle) and ipc.c:123-146 (umfOpenIPCHandle).  [up] is the
   upstream provider's answer if it is asked; [offset] and [size] come from the
   handle.  [r_slot] (not visible to the caller): a cache entry was referenced. *)
Definition umfOpenIPCHandle (s : istate) (k : key) (hid size offset : Z) (up : result * Z) (o : open_oracle) : option reply :=
  match umfIpcOpenedCacheGet s k hid o with
  | None => None
  | Some (SUCCESS, id, s1, evs) =>
      match find (fun e => c_id e =? id) (i_lru s1) with
      | None => None
      | Some e =>
          if negb (c_base e =? 0) then Some (Reply SUCCESS (wrap (c_base e + offset)) evs s1 true)
          else
            match up with
            | (SUCCESS, p) =>
                if p =? 0 then None
                else
                  match umfMemoryTrackerAddIpcSegment (i_segs s1) p size (k_prov k) id o with
                  | (SUCCESS, m) =>
                      Some (Reply SUCCESS (wrap (p + offset)) (evs ++ [EvOpen k hid p size])
                                  (IState (set_mapping id p size (i_lru s1)) (i_cur s1) (i_max s1) m (i_next s1)) true)
                  | (r, _) => Some (Reply r 0 (evs ++ [EvOpen k hid p size; EvClose (k_prov k) p size]) s1 true)
                  end
            | (r, _) => Some (Reply r 0 (evs ++ [EvOpenFail k hid]) s1 true)
            end
      end
  | Some (r, _, s1, evs) => Some (Reply r 0 evs s1 false)
  end.

(* provider_tracking.c:411-444 and 1110-1130, ipc.c:148-158 *)
Definition umfMemoryTrackerGetIpcInfo (s : istate) (ptr : Z) : option (Z * seg) :=
  if ptr =? 0 then None
  else match seg_le (i_segs s) ptr with
       | Some (b, g) => if ptr >=? wrap (b + s_size g) then None else Some (b, g)
       | None => None
       end.
Definition umfCloseIPCHandle (s : istate) (ptr : Z) : option reply :=
  match umfMemoryTrackerGetIpcInfo s ptr with
  | None => Some (Reply ERR_INVALID_ARGUMENT 0 [] s false)
  | Some (b, _) =>
      match seg_get (i_segs s) b with
      | None => Some (Reply ERR_INVALID_ARGUMENT 0 [] s false)
      | Some g => match umfIpcHandleMappedCacheRelease s (s_entry g) with
                  | Some s' => Some (Reply SUCCESS 0 [] s' false)
                  | None => None
                  end
      end
  end.

(* ipc_cache.c:160-176, called by trackingFinalize (provider_tracking.c:834-843);
   the entries are visited in LRU order instead of hash order *)
Fixpoint destroy_loop (l : list centry) (prov : Z) (s : istate) : istate * list event :=
  match l with
  | [] => (s, [])
  | e :: r =>
      if k_prov (c_key e) =? prov then
        let (m, evs) := ipcOpenedCacheEvictionCallback (i_segs s) (c_key e) (c_base e) (c_size e) in
        let (s', evs') := destroy_loop r prov (IState (without (c_id e) (i_lru s)) (i_cur s - 1) (i_max s) m (i_next s)) in
        (s', evs ++ evs')
      else destroy_loop r prov s
  end.
Definition umfIpcOpenedCacheDestroy (s : istate) (prov : Z) : reply :=
  let (s', evs) := destroy_loop (i_lru s) prov s in Reply SUCCESS 0 evs s' false.

Inductive call :=
| COpen (k : key) (hid size offset : Z) (up : result * Z) (o : open_oracle)
| CClose (ptr : Z)
| CDestroy (prov : Z).
Definition step (s : istate) (c : call) : option reply :=
  match c with
  | COpen k hid size offset up o => umfOpenIPCHandle s k hid size offset up o
  | CClose ptr => umfCloseIPCHandle s ptr
  | CDestroy prov => Some (umfIpcOpenedCacheDestroy s prov)
  end.
