(* provider/provider_level_zero.c: the Level Zero provider over a driver whose answers are
   an oracle.  Simplified: the library is loaded or not (init_ze_global_state, 214-270), with
   its two optional functions given as flags; the base allocator is a count of blocks; the
   descriptor structures are the arguments they carry; a handle is the descriptor number in
   its first bytes (the rest is copied along); the array
   of resident devices has at least the stated number of entries. *)
From Verif Require Import Base.

(* include/umf/memory_provider_gpu.h:20-25 *)
Definition MT_HOST : Z := 1.
Definition MT_DEVICE : Z := 2.
Definition MT_SHARED : Z := 3.

(* ---- the driver and the process ---- *)
Inductive kind := KHost | KDevice | KShared.
Inductive call :=
| AllocHost (ctx size align : Z)
| AllocDevice (ctx dev ordinal : Z) (relaxed : bool) (size align : Z)
| AllocShared (ctx dev ordinal : Z) (relaxed : bool) (size align : Z)
| Free (ctx p : Z) | FreeExt (ctx policy p : Z)
| MakeResident (ctx dev p size : Z)
| DeviceProps (dev : Z) | AllocProps (ctx p : Z)
| GetIpc (ctx p : Z) | PutIpc (ctx h : Z) | OpenIpc (ctx dev h : Z) | CloseIpc (ctx p : Z)
| DupFd (pid fd : Z) | CloseFd (fd : Z).
Record block := Block { b_ptr : Z; b_kind : kind; b_ctx : Z; b_size : Z }.
(* [resident]: (device, address) pairs; [fds]: descriptors duplicated and not closed;
   [made]: calls so far with their codes, newest first *)
Record driver := Driver { memory : list block; resident : list (Z * Z); fds : list Z; made : list (call * Z) }.
Definition oracle := nat -> Z * Z.

Definition OOM : Z := 2 ^ 30 + 2 ^ 29 + 2 ^ 28 + 2.        (* ZE_RESULT_ERROR_OUT_OF_HOST_MEMORY, 0x70000002 *)
Definition INVALID : Z := 2 ^ 30 + 2 ^ 29 + 2 ^ 28 + 2 ^ 27 + 4.   (* ZE_RESULT_ERROR_INVALID_ARGUMENT, 0x78000004 *)
Definition live_at (p : Z) (l : list block) : bool := existsb (fun b => b_ptr b =? p) l.
Fixpoint drop_block (ctx p : Z) (l : list block) : list block :=
  match l with [] => [] | b :: l => if (b_ptr b =? p) && (b_ctx b =? ctx) then l else b :: drop_block ctx p l end.
Fixpoint drop_fd (p : Z) (l : list Z) : list Z :=
  match l with [] => [] | q :: l => if q =? p then l else q :: drop_fd p l end.

(* What the driver does, not code of the library: an address handed out and not taken back
   is not handed out again, nor is NULL (read as out of memory); a descriptor is not negative. *)
Definition drv (O : oracle) (d : driver) (c : call) : Z * Z * driver :=
  let (code0, v) := O (length (made d)) in
  let is_alloc := match c with AllocHost _ _ _ | AllocDevice _ _ _ _ _ _ | AllocShared _ _ _ _ _ _ => true | _ => false end in
  let code := if is_alloc && (code0 =? 0) && (live_at v (memory d) || (v =? 0)) then OOM
              else if match c with DupFd _ _ => true | _ => false end && (code0 =? 0) && (v <? 0) then INVALID else code0 in
  let log := (c, code) :: made d in
  if code =? 0 then
    match c with
    | AllocHost ctx s _ => (0, v, Driver (Block v KHost ctx s :: memory d) (resident d) (fds d) log)
    | AllocDevice ctx _ _ _ s _ => (0, v, Driver (Block v KDevice ctx s :: memory d) (resident d) (fds d) log)
    | AllocShared ctx _ _ _ s _ => (0, v, Driver (Block v KShared ctx s :: memory d) (resident d) (fds d) log)
    | Free ctx p | FreeExt ctx _ p =>
        (0, 0, Driver (drop_block ctx p (memory d)) (filter (fun x => negb (snd x =? p)) (resident d)) (fds d) log)
    | MakeResident _ dev p _ => (0, 0, Driver (memory d) ((dev, p) :: resident d) (fds d) log)
    | DupFd _ _ => (0, v, Driver (memory d) (resident d) (v :: fds d) log)
    | CloseFd fd => (0, 0, Driver (memory d) (resident d) (drop_fd fd (fds d)) log)
    | _ => (0, v, Driver (memory d) (resident d) (fds d) log)
    end
  else (code, 0, Driver (memory d) (resident d) (fds d) log).

(* ---- the provider ---- *)
(* provider_level_zero.c:200-212 *)
Definition ze2umf (code : Z) : result :=
  if code =? 0 then SUCCESS
  else if code =? OOM then ERR_OUT_OF_HOST_MEMORY
  else if code =? INVALID then ERR_INVALID_ARGUMENT
  else ERR_PROVIDER_SPECIFIC.
Definition is_success (r : result) : bool := result_eqb r SUCCESS.

(* provider_level_zero.c:124-141; [p_resident]: None is NULL *)
Record params := Params {
  p_context : Z; p_device : Z; p_type : Z;
  p_resident : option (list Z); p_count : Z; p_policy : Z; p_ordinal : Z }.
(* provider_level_zero.c:143-158 *)
Record provider := Provider {
  context : Z; device : Z; mtype : Z; devices : list Z; policy : Z; max_alloc : Z; min_page : Z; ordinal : Z }.

(* provider_level_zero.c:395-407: DEFAULT, BLOCKING_FREE, DEFER_FREE; flags 0, 1, 2 *)
Definition free_policy (p : Z) : Z := if p =? 1 then 1 else if p =? 2 then 2 else 0.

(* provider_level_zero.c:408-415; None: an assertion *)
Definition use_relaxed (pr : provider) (size : Z) : option bool :=
  if device pr =? 0 then None else if max_alloc pr <=? 0 then None else Some (max_alloc pr <? size).

(* provider_level_zero.c:479-488 *)
Fixpoint make_resident (O : oracle) (d : driver) (ctx p size : Z) (devs : list Z) : result * driver :=
  match devs with
  | [] => (SUCCESS, d)
  | x :: devs =>
    let '(c, _, d1) := drv O d (MakeResident ctx x p size) in
    if c =? 0 then make_resident O d1 ctx p size devs else (ze2umf c, d1)
  end.

(* provider_level_zero.c:422-489 *)
Definition ze_alloc (O : oracle) (d : driver) (pr : provider) (size align : Z) : option (result * Z * driver) :=
  let finish (x : Z * Z * driver) :=
    let '(c, p, d1) := x in
    if negb (c =? 0) then Some (ze2umf c, 0, d1)
    else let (r, d2) := make_resident O d1 (context pr) p size (devices pr) in Some (r, p, d2) in
  if mtype pr =? MT_HOST then finish (drv O d (AllocHost (context pr) size align))
  else if mtype pr =? MT_DEVICE then
    match use_relaxed pr size with
    | None => None
    | Some rl => finish (drv O d (AllocDevice (context pr) (device pr) (ordinal pr) rl size align))
    end
  else if mtype pr =? MT_SHARED then
    match use_relaxed pr size with
    | None => None
    | Some rl => finish (drv O d (AllocShared (context pr) (device pr) (ordinal pr) rl size align))
    end
  else Some (ERR_UNKNOWN, 0, d).

(* provider_level_zero.c:491-512; [ext]: zeMemFreeExt was found, which 256-262 does not
   require; None: a call through NULL *)
Definition ze_free (O : oracle) (ext : bool) (d : driver) (pr : provider) (p : Z) : option (result * driver) :=
  if p =? 0 then Some (SUCCESS, d)
  else if policy pr =? 0 then let '(c, _, d1) := drv O d (Free (context pr) p) in Some (ze2umf c, d1)
  else if ext then let '(c, _, d1) := drv O d (FreeExt (context pr) (policy pr) p) in Some (ze2umf c, d1)
  else None.

(* provider_level_zero.c:514-536 *)
Definition query_min_page_size (O : oracle) (ext : bool) (d : driver) (pr : provider) : option (result * Z * driver) :=
  match ze_alloc O d pr 1 0 with
  | None => None
  | Some (r, p, d1) =>
    if negb (is_success r) then Some (r, 0, d1)
    else
      let '(c, v, d2) := drv O d1 (AllocProps (context pr) p) in
      match ze_free O ext d2 pr p with
      | None => None
      | Some (_, d3) => Some (ze2umf c, (if c =? 0 then v else 0), d3)
      end
  end.

(* provider_level_zero.c:545-639.  [room1], [room2]: the base allocator has memory for the
   provider and for the devices.  At 631-634 a failed query finalizes [provider], the address
   of the caller's variable, instead of the new provider: undefined (None). *)
Definition initialize (O : oracle) (d : driver) (heap : Z) (room1 room2 loaded ext : bool) (ps : option params)
  : option (result * option provider * Z * driver) :=
  match ps with
  | None => Some (ERR_INVALID_ARGUMENT, None, heap, d)
  | Some ps =>
    if p_context ps =? 0 then Some (ERR_INVALID_ARGUMENT, None, heap, d)
    else if Bool.eqb (p_type ps =? MT_HOST) (negb (p_device ps =? 0)) then Some (ERR_INVALID_ARGUMENT, None, heap, d)
    else if negb (p_count ps =? 0) && match p_resident ps with None => true | _ => false end then Some (ERR_INVALID_ARGUMENT, None, heap, d)
    else if negb loaded then Some (ERR_DEPENDENCY_UNAVAILABLE, None, heap, d)
    else if negb room1 then Some (ERR_OUT_OF_HOST_MEMORY, None, heap, d)
    else
      let '(c, mx, d1) := if p_device ps =? 0 then (0, 0, d) else drv O d (DeviceProps (p_device ps)) in
      if negb (c =? 0) then Some (ze2umf c, None, heap + 1 - 1, d1)
      else if negb (p_count ps =? 0) && negb room2 then Some (ERR_OUT_OF_HOST_MEMORY, None, heap + 1 - 1, d1)
      else
        let devs := match p_resident ps with Some l => firstn (Z.to_nat (p_count ps)) l | None => [] end in
        let pr := Provider (p_context ps) (p_device ps) (p_type ps) devs (free_policy (p_policy ps)) mx 0 (p_ordinal ps) in
        let heap' := if p_count ps =? 0 then heap + 1 else heap + 2 in
        match query_min_page_size O ext d1 pr with
        | None => None
        | Some (r, pg, d2) =>
          if is_success r
          then Some (SUCCESS, Some (Provider (context pr) (device pr) (mtype pr) (devices pr) (policy pr) (max_alloc pr) pg (ordinal pr)), heap', d2)
          else None
        end
  end.

(* provider_level_zero.c:654-675 *)
Definition ze_page_size (O : oracle) (d : driver) (pr : provider) (p : Z) : result * Z * driver :=
  if p =? 0 then (SUCCESS, min_page pr, d)
  else let '(c, v, d1) := drv O d (AllocProps (context pr) p) in
       if c =? 0 then (SUCCESS, v, d1) else (ze2umf c, 0, d1).

(* provider_level_zero.c:735-738; 748-769 *)
Record ipc_data := IpcData { i_pid : Z; i_handle : Z }.
Definition ze_get_ipc (O : oracle) (d : driver) (pid : Z) (pr : provider) (p : Z) : result * option ipc_data * driver :=
  let '(c, h, d1) := drv O d (GetIpc (context pr) p) in
  if c =? 0 then (SUCCESS, Some (IpcData pid h), d1) else (ze2umf c, None, d1).
(* provider_level_zero.c:771-792; [put]: zeMemPutIpcHandle was found *)
Definition ze_put_ipc (O : oracle) (put : bool) (d : driver) (pr : provider) (i : ipc_data) : result * driver :=
  if negb put then (SUCCESS, d) else let '(c, _, d1) := drv O d (PutIpc (context pr) (i_handle i)) in (ze2umf c, d1).
(* provider_level_zero.c:794-827 *)
Definition ze_open_ipc (O : oracle) (d : driver) (pid : Z) (pr : provider) (i : ipc_data) : result * Z * driver :=
  if i_pid i =? pid then
    let '(c, p, d1) := drv O d (OpenIpc (context pr) (device pr) (i_handle i)) in (ze2umf c, p, d1)
  else
    let '(c, fd, d1) := drv O d (DupFd (i_pid i) (i_handle i)) in
    if negb (c =? 0) then (ze2umf c, 0, d1)   (* the error of pidfd_open or pidfd_getfd *)
    else
      let '(c2, p, d2) := drv O d1 (OpenIpc (context pr) (device pr) fd) in
      let '(_, _, d3) := if fd =? -1 then (0, 0, d2) else drv O d2 (CloseFd fd) in
      (ze2umf c2, p, d3).
(* provider_level_zero.c:829-844 *)
Definition ze_close_ipc (O : oracle) (d : driver) (pr : provider) (p : Z) : result * driver :=
  let '(c, _, d1) := drv O d (CloseIpc (context pr) p) in (ze2umf c, d1).

(* ---- a history ---- *)
Inductive request :=
| RAlloc (pr : provider) (size align : Z)
| RFree (pr : provider) (p : Z)
| RPage (pr : provider) (p : Z)
| RGet (pr : provider) (p : Z)
| RPut (pr : provider) (i : ipc_data)
| ROpen (pr : provider) (i : ipc_data)
| RClose (pr : provider) (p : Z).
(* [pid]: this process *)
Definition serve (O : oracle) (ext put : bool) (pid : Z) (d : driver) (q : request) : option (result * Z * driver) :=
  match q with
  | RAlloc pr s a => ze_alloc O d pr s a
  | RFree pr p => match ze_free O ext d pr p with Some (r, d') => Some (r, 0, d') | None => None end
  | RPage pr p => Some (ze_page_size O d pr p)
  | RGet pr p => let '(r, _, d') := ze_get_ipc O d pid pr p in Some (r, 0, d')
  | RPut pr i => let (r, d') := ze_put_ipc O put d pr i in Some (r, 0, d')
  | ROpen pr i => Some (ze_open_ipc O d pid pr i)
  | RClose pr p => let (r, d') := ze_close_ipc O d pr p in Some (r, 0, d')
  end.
