(* Model of the creation and destruction of pools and of the providers beneath them
   (src/memory_pool.c, src/memory_provider.c, src/provider/provider_tracking.c), as
   far as the resources are concerned.

   Simplifications that hold for the whole file:
   - A resource (memory of a handle, a critnib, a mutex, ...) is an object of the
     heap with an address of its own; releasing an object that is not there, or
     following a NULL or dangling pointer, is the outcome None.
   - Whether an acquisition succeeds is an oracle.
   - The IPC cache and the critnib of a pool are empty when it is destroyed.
   - Version checks and logging are left out. *)
From Verif Require Import Base.

Inductive kind := KProvider | KProvPriv | KPool | KPoolPriv | KMutex | KTracking | KCritnib | KIpcCache.
Definition kind_eq_dec (a b : kind) : {a = b} + {a <> b}.
Proof. decide equality. Defined.
Record heap := Heap { h_next : Z; h_objs : list (Z * kind) }.
Definition take (h : heap) (k : kind) : Z * heap := (h_next h, Heap (h_next h + 1) ((h_next h, k) :: h_objs h)).
Definition is_obj (i : Z) (k : kind) (x : Z * kind) : bool := (fst x =? i) && if kind_eq_dec (snd x) k then true else false.
Definition give (h : heap) (i : Z) (k : kind) : option heap :=
  if existsb (is_obj i k) (h_objs h) then Some (Heap (h_next h) (filter (fun x => negb (fst x =? i)) (h_objs h))) else None.

(* provider_priv of a provider: that of a client's provider, or of a tracking
   provider (provider_tracking.c:455-461: itself, ipcCache, hIpcMappedCache,
   hUpstream) *)
Inductive priv := Upstream (o : Z) | Track (o crit : Z) (cache : option Z) (up : Z).
(* memory_pool_internal.h:27-39; flags of memory_pool.h:27-37 *)
Record pool := Pool { pl_provider : Z; pl_own : bool; pl_untracked : bool; pl_mutex : Z; pl_priv : Z }.
(* the structures behind the handles; l_tracker: TRACKER != NULL; l_final: providers
   of clients that were finalized, latest first *)
Record lib := Lib { l_heap : heap; l_provs : list (Z * priv); l_pools : list (Z * pool); l_tracker : bool; l_final : list Z }.

Definition find {T} (l : list (Z * T)) (h : Z) : option T := match List.find (fun x => fst x =? h) l with Some (_, v) => Some v | None => None end.
Definition drop {T} (l : list (Z * T)) (h : Z) : list (Z * T) := filter (fun x => negb (fst x =? h)) l.

(* memory_provider.c:186-223 for a client's provider with valid operations; [mem]:
   the handle can be allocated; [ini]: result of initialize *)
Definition provider_create (l : lib) (mem : bool) (ini : result) : option (result * option Z * lib) :=
  if negb mem then Some (ERR_OUT_OF_HOST_MEMORY, None, l)
  else
    let '(h, hp) := take (l_heap l) KProvider in
    match ini with
    | SUCCESS =>
        let '(o, hp) := take hp KProvPriv in
        Some (SUCCESS, Some h, Lib hp ((h, Upstream o) :: l_provs l) (l_pools l) (l_tracker l) (l_final l))
    | e =>
        match give hp h KProvider with None => None | Some hp => Some (e, None, Lib hp (l_provs l) (l_pools l) (l_tracker l) (l_final l)) end
    end.

(* memory_provider.c:225-230, with finalize of a client's provider, or
   provider_tracking.c:834-843 and ipc_cache.c:160-176 *)
Definition provider_destroy (l : lib) (h : Z) : option lib :=
  if h =? 0 then Some l
  else
    match find (l_provs l) h with
    | None => None
    | Some p =>
        let fin :=
          match p with
          | Upstream o => give (l_heap l) o KProvPriv
          | Track o crit cache _ =>
              match cache with
              | None => None
              | Some c =>
                  match give (l_heap l) c KIpcCache with
                  | None => None
                  | Some hp => match give hp crit KCritnib with None => None | Some hp => give hp o KTracking end
                  end
              end
          end in
        match fin with
        | None => None
        | Some hp =>
            match give hp h KProvider with
            | None => None
            | Some hp => Some (Lib hp (drop (l_provs l) h) (l_pools l) (l_tracker l) (match p with Upstream _ => h :: l_final l | _ => l_final l end))
            end
        end
    end.

(* which acquisitions of umfPoolCreateInternal succeed: memory of the pool; critnib;
   IPC cache; handle and private data of the tracking provider; mutex; result of the
   pool's initialize *)
Record luck := Luck { k_mem : bool; k_crit : bool; k_cache : bool; k_handle : bool; k_track : bool; k_mutex : bool; k_init : result }.

(* provider_tracking.c:1152-1181, memory_provider.c:186-223 and
   provider_tracking.c:775-790: the new tracking provider *)
Definition tracking_create (l : lib) (up : Z) (k : luck) : option (result * option Z * lib) :=
  if negb (l_tracker l) then Some (ERR_UNKNOWN, None, l)
  else if negb (k_crit k) then Some (ERR_OUT_OF_HOST_MEMORY, None, l)
  else
    let '(c, hp) := take (l_heap l) KCritnib in
    let '(cache, hp) := if k_cache k then let '(i, hp) := take hp KIpcCache in (Some i, hp) else (None, hp) in
    let l := Lib hp (l_provs l) (l_pools l) (l_tracker l) (l_final l) in
    if negb (k_handle k) then Some (ERR_OUT_OF_HOST_MEMORY, None, l)
    else
      let '(h, hp) := take hp KProvider in
      if negb (k_track k) then match give hp h KProvider with None => None | Some hp => Some (ERR_OUT_OF_HOST_MEMORY, None, Lib hp (l_provs l) (l_pools l) (l_tracker l) (l_final l)) end
      else
        let '(o, hp) := take hp KTracking in
        Some (SUCCESS, Some h, Lib hp ((h, Track o c cache up) :: l_provs l) (l_pools l) (l_tracker l) (l_final l)).

(* memory_pool.c:51-115; [up]: the provider; [out]: hPool is given *)
Definition pool_create (l : lib) (up : Z) (own untracked out : bool) (k : luck) : option (result * option Z * lib) :=
  if (up =? 0) || negb out then Some (ERR_INVALID_ARGUMENT, None, l)
  else if negb (k_mem k) then Some (ERR_OUT_OF_HOST_MEMORY, None, l)
  else
    let '(p, hp) := take (l_heap l) KPool in
    let l := Lib hp (l_provs l) (l_pools l) (l_tracker l) (l_final l) in
    let err_provider_create l e :=
      match give (l_heap l) p KPool with None => None | Some hp => Some (e, None, Lib hp (l_provs l) (l_pools l) (l_tracker l) (l_final l)) end in
    match (if untracked then Some (SUCCESS, Some up, l) else tracking_create l up k) with
    | None => None
    | Some (SUCCESS, None, _) => None
    | Some (SUCCESS, Some prov, l) =>
        let err_lock_init l e :=
          match (if untracked then Some l else provider_destroy l prov) with None => None | Some l => err_provider_create l e end in
        if negb (k_mutex k) then err_lock_init l ERR_UNKNOWN
        else
          let '(m, hp) := take (l_heap l) KMutex in
          let l := Lib hp (l_provs l) (l_pools l) (l_tracker l) (l_final l) in
          match k_init k with
          | SUCCESS =>
              let '(o, hp) := take (l_heap l) KPoolPriv in
              Some (SUCCESS, Some p, Lib hp (l_provs l) ((p, Pool prov own untracked m o) :: l_pools l) (l_tracker l) (l_final l))
          | e =>
              match give (l_heap l) m KMutex with
              | None => None
              | Some hp => err_lock_init (Lib hp (l_provs l) (l_pools l) (l_tracker l) (l_final l)) e
              end
          end
    | Some (e, _, l) => err_provider_create l e
    end.

(* memory_pool.c:155-169: upstream provider of a pool *)
Definition pool_upstream (l : lib) (q : pool) : option Z :=
  if pl_untracked q then Some (pl_provider q)
  else match find (l_provs l) (pl_provider q) with Some (Track _ _ _ up) => Some up | _ => None end.

(* memory_pool.c:117-139 *)
Definition pool_destroy (l : lib) (p : Z) : option lib :=
  match find (l_pools l) p with
  | None => None
  | Some q =>
      match give (l_heap l) (pl_priv q) KPoolPriv with
      | None => None
      | Some hp =>
          let l := Lib hp (l_provs l) (l_pools l) (l_tracker l) (l_final l) in
          match pool_upstream l q with
          | None => None
          | Some up =>
              match (if pl_untracked q then Some l else provider_destroy l (pl_provider q)) with
              | None => None
              | Some l =>
                  match (if pl_own q then provider_destroy l up else Some l) with
                  | None => None
                  | Some l =>
                      match give (l_heap l) (pl_mutex q) KMutex with
                      | None => None
                      | Some hp => match give hp p KPool with None => None | Some hp => Some (Lib hp (l_provs l) (drop (l_pools l) p) (l_tracker l) (l_final l)) end
                      end
                  end
              end
          end
      end
  end.
