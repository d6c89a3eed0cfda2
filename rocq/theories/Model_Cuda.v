(* provider/provider_cuda.c: the CUDA provider over a driver whose answers are an oracle.
   Simplified: the library is loaded or not (init_cu_global_state, 191-252, is one flag);
   one thread, whose current context is part of the driver's state; the base allocator is a
   count of blocks; the native error is kept, its text is cu_message below. *)
From Verif Require Import Base.

(* include/umf/memory_provider_gpu.h:20-25 *)
Definition MT_UNKNOWN : Z := 0.
Definition MT_HOST : Z := 1.
Definition MT_DEVICE : Z := 2.
Definition MT_SHARED : Z := 3.
Definition CU_MEM_ATTACH_GLOBAL : Z := 1.

(* ---- the driver ---- *)
Inductive kind := KHost | KDevice | KManaged.
Inductive call :=
| GetCurrent | GetDevice
| SetCurrent (c : Z)
| AllocHost (size flags : Z) | AllocDevice (size : Z) | AllocManaged (size flags : Z)
| FreeHost (p : Z) | FreeDevice (p : Z)
| IpcGet (p : Z) | IpcOpen (h : Z) | IpcClose (p : Z)
| Granularity (dev : Z) (recommended : bool).
Record block := Block { b_ptr : Z; b_kind : kind; b_ctx : Z; b_size : Z }.
(* [made]: the calls so far, newest first: context current when made, call, code *)
Record driver := Driver { current : Z; memory : list block; mapped : list Z; made : list (Z * call * Z) }.
(* the answer to the n-th call: code (0 is CUDA_SUCCESS) and value *)
Definition oracle := nat -> Z * Z.

Definition OOM : Z := 2.
Definition live_at (p : Z) (l : list block) : bool := existsb (fun b => b_ptr b =? p) l.
Definition kind_eqb (a b : kind) : bool :=
  match a, b with KHost, KHost | KDevice, KDevice | KManaged, KManaged => true | _, _ => false end.
Fixpoint drop_block (p : Z) (host : bool) (l : list block) : list block :=
  match l with
  | [] => []
  | b :: l => if (b_ptr b =? p) && Bool.eqb host (kind_eqb (b_kind b) KHost) then l else b :: drop_block p host l
  end.
Fixpoint drop_map (p : Z) (l : list Z) : list Z :=
  match l with [] => [] | q :: l => if q =? p then l else q :: drop_map p l end.

(* What the driver does, not code of the library.  An address it has handed out and not got
   back is not handed out again (such an answer is read as out of memory), nor is NULL;
   cuMemFreeHost takes back host memory only, cuMemFree the two other kinds. *)
Definition drv (O : oracle) (d : driver) (c : call) : Z * Z * driver :=
  let (code0, v) := O (length (made d)) in
  let is_alloc := match c with AllocHost _ _ | AllocDevice _ | AllocManaged _ _ => true | _ => false end in
  let code := if is_alloc && (code0 =? 0) && (live_at v (memory d) || (v =? 0)) then OOM else code0 in
  let log := (current d, c, code) :: made d in
  if code =? 0 then
    match c with
    | GetCurrent => (0, current d, Driver (current d) (memory d) (mapped d) log)
    | GetDevice => (0, v, Driver (current d) (memory d) (mapped d) log)
    | SetCurrent x => (0, 0, Driver x (memory d) (mapped d) log)
    | AllocHost s _ => (0, v, Driver (current d) (Block v KHost (current d) s :: memory d) (mapped d) log)
    | AllocDevice s => (0, v, Driver (current d) (Block v KDevice (current d) s :: memory d) (mapped d) log)
    | AllocManaged s _ => (0, v, Driver (current d) (Block v KManaged (current d) s :: memory d) (mapped d) log)
    | FreeHost p => (0, 0, Driver (current d) (drop_block p true (memory d)) (mapped d) log)
    | FreeDevice p => (0, 0, Driver (current d) (drop_block p false (memory d)) (mapped d) log)
    | IpcOpen _ => (0, v, Driver (current d) (memory d) (v :: mapped d) log)
    | IpcClose p => (0, 0, Driver (current d) (memory d) (drop_map p (mapped d)) log)
    | IpcGet _ | Granularity _ _ => (0, v, Driver (current d) (memory d) (mapped d) log)
    end
  else (code, 0, Driver (current d) (memory d) (mapped d) log).

(* ---- the provider ---- *)
(* provider_cuda.c:173-189 (CUDA_ERROR_INVALID_VALUE 1, OUT_OF_MEMORY 2, DEINITIALIZED 4,
   INVALID_HANDLE 400) *)
Definition cu2umf (code : Z) : result :=
  if code =? 0 then SUCCESS
  else if code =? 2 then ERR_OUT_OF_HOST_MEMORY
  else if (code =? 1) || (code =? 400) then ERR_INVALID_ARGUMENT
  else if code =? 4 then ERR_OUT_OF_RESOURCES
  else ERR_PROVIDER_SPECIFIC.

(* provider_cuda.c:113-125; 105-111 *)
Record params := Params { p_context : Z; p_device : Z; p_type : Z; p_flags : Z }.
Record provider := Provider { context : Z; device : Z; mtype : Z; min_alignment : Z; alloc_flags : Z }.
Definition is_success (r : result) : bool := result_eqb r SUCCESS.

(* provider_cuda.c:254-298, with the handle address given.  [room]: the base allocator has
   memory; [heap]: its blocks.  The failure at 270-273 does not give the block back. *)
Definition params_create (O : oracle) (d : driver) (heap : Z) (room loaded : bool) : result * option params * Z * driver :=
  if negb room then (ERR_OUT_OF_HOST_MEMORY, None, heap, d)
  else if negb loaded then (ERR_DEPENDENCY_UNAVAILABLE, None, heap + 1, d)
  else
    let '(c1, ctx, d1) := drv O d GetCurrent in
    let '(c2, dev, d2) := drv O d1 GetDevice in
    (SUCCESS, Some (Params (if c1 =? 0 then ctx else 0) (if c2 =? 0 then dev else -1) MT_UNKNOWN 0), heap + 1, d2).

(* provider_cuda.c:356-426 *)
Definition initialize (O : oracle) (d : driver) (heap : Z) (room loaded : bool) (ps : option params)
  : result * option provider * Z * driver :=
  match ps with
  | None => (ERR_INVALID_ARGUMENT, None, heap, d)
  | Some ps =>
    if (p_type ps =? MT_UNKNOWN) || (MT_SHARED <? p_type ps) then (ERR_INVALID_ARGUMENT, None, heap, d)
    else if p_context ps =? 0 then (ERR_INVALID_ARGUMENT, None, heap, d)
    else if p_device ps <? 0 then (ERR_INVALID_ARGUMENT, None, heap, d)
    else if negb loaded then (ERR_DEPENDENCY_UNAVAILABLE, None, heap, d)
    else if negb room then (ERR_OUT_OF_HOST_MEMORY, None, heap, d)
    else
      let '(c, g, d1) := drv O d (Granularity (p_device ps) false) in
      if negb (c =? 0) then (cu2umf c, None, heap + 1 - 1, d1)
      else (SUCCESS, Some (Provider (p_context ps) (p_device ps) (p_type ps) g
                             (if (p_type ps =? MT_SHARED) && (p_flags ps =? 0) then CU_MEM_ATTACH_GLOBAL else p_flags ps)), heap + 1, d1)
  end.

(* provider_cuda.c:437-455; the second component is *restore_ctx ([keep] if not written) *)
Definition set_context (O : oracle) (d : driver) (required keep : Z) : result * Z * driver :=
  let '(c, cur, d1) := drv O d GetCurrent in
  if negb (c =? 0) then (cu2umf c, keep, d1)
  else if cur =? required then (SUCCESS, cur, d1)
  else
    let '(c2, _, d2) := drv O d1 (SetCurrent required) in
    if c2 =? 0 then (SUCCESS, cur, d2) else (cu2umf c2, cur, d2).

(* provider_cuda.c:521-563 *)
Definition cu_free (O : oracle) (d : driver) (pr : provider) (p : Z) : result * driver :=
  if p =? 0 then (SUCCESS, d)
  else
    let '(r, restore, d1) := set_context O d (context pr) 0 in
    if negb (is_success r) then (r, d1)
    else if mtype pr =? MT_HOST then
      let '(c, _, d2) := drv O d1 (FreeHost p) in
      let '(_, _, d3) := set_context O d2 restore restore in (cu2umf c, d3)
    else if (mtype pr =? MT_SHARED) || (mtype pr =? MT_DEVICE) then
      let '(c, _, d2) := drv O d1 (FreeDevice p) in
      let '(_, _, d3) := set_context O d2 restore restore in (cu2umf c, d3)
    else (ERR_UNKNOWN, d1).

(* provider_cuda.c:457-519; None: the assertion at 493 *)
Definition cu_alloc (O : oracle) (d : driver) (pr : provider) (size alignment : Z) : option (result * Z * driver) :=
  if min_alignment pr <? alignment then Some (ERR_NOT_SUPPORTED, 0, d)
  else
    let '(r, restore, d1) := set_context O d (context pr) 0 in
    if negb (is_success r) then Some (r, 0, d1)
    else
      let finish (x : Z * Z * driver) :=
        let '(c, p, d2) := x in
        let '(_, _, d3) := set_context O d2 restore restore in
        if negb (is_success (cu2umf c)) then Some (cu2umf c, 0, d3)
        else if (0 <? alignment) && negb (p mod alignment =? 0) then
          Some (ERR_INVALID_ALIGNMENT, 0, snd (cu_free O d3 pr p))
        else Some (cu2umf c, p, d3) in
      if mtype pr =? MT_HOST then finish (drv O d1 (AllocHost size (alloc_flags pr)))
      else if mtype pr =? MT_DEVICE then finish (drv O d1 (AllocDevice size))
      else if mtype pr =? MT_SHARED then finish (drv O d1 (AllocManaged size (alloc_flags pr)))
      else None.

(* provider_cuda.c:615-649 *)
Definition cu_page_size (O : oracle) (d : driver) (pr : provider) (recommended : bool) : result * Z * driver :=
  let '(c, g, d1) := drv O d (Granularity (device pr) recommended) in (cu2umf c, g, d1).
(* provider_cuda.c:663-680, 682-687 *)
Definition cu_get_ipc (O : oracle) (d : driver) (pr : provider) (p : Z) : result * Z * driver :=
  let '(c, h, d1) := drv O d (IpcGet p) in (cu2umf c, h, d1).
(* provider_cuda.c:689-717 *)
Definition cu_open_ipc (O : oracle) (d : driver) (pr : provider) (h : Z) : result * Z * driver :=
  let '(r, restore, d1) := set_context O d (context pr) 0 in
  if negb (is_success r) then (r, 0, d1)
  else
    let '(c, p, d2) := drv O d1 (IpcOpen h) in
    let '(_, _, d3) := set_context O d2 restore restore in (cu2umf c, p, d3).
(* provider_cuda.c:719-733 *)
Definition cu_close_ipc (O : oracle) (d : driver) (pr : provider) (p : Z) : result * driver :=
  let '(c, _, d1) := drv O d (IpcClose p) in (cu2umf c, d1).

(* ---- the error text, 565-613: bytes of a buffer of [len] = 1024; a text is a list of
   non-zero bytes, the buffer holds it and a NUL.  [None]: a write outside the buffer. *)
Definition cu_strncpy (len n : Z) (src : list Z) : option (list Z) :=
  if n <=? len - 1 then Some (firstn (Z.to_nat n) src) else None.
Definition cu_strncat (len n : Z) (dst src : list Z) : option (list Z) :=
  let add := firstn (Z.to_nat n) src in
  if Z.of_nat (length dst + length add) <? len then Some (dst ++ add) else None.
Definition TLS_MSG_BUF_LEN : Z := 1024.
Definition cu_message (name text dflt_name dflt_text sep : list Z) (name_ok text_ok : bool) : option (list Z) :=
  match cu_strncpy TLS_MSG_BUF_LEN (TLS_MSG_BUF_LEN - 1) (if name_ok then name else dflt_name) with
  | None => None
  | Some b1 =>
    match cu_strncat TLS_MSG_BUF_LEN (wrap (TLS_MSG_BUF_LEN - Z.of_nat (length b1) - 1)) b1 sep with
    | None => None
    | Some b2 => cu_strncat TLS_MSG_BUF_LEN (wrap (TLS_MSG_BUF_LEN - Z.of_nat (length b2) - 1)) b2 (if text_ok then text else dflt_text)
    end
  end.

(* ---- a history: several providers, one thread ---- *)
Inductive request :=
| RAlloc (pr : provider) (size alignment : Z)
| RFree (pr : provider) (p : Z)
| ROpen (pr : provider) (h : Z)
| RClose (pr : provider) (p : Z)
| RGet (pr : provider) (p : Z)
| RPage (pr : provider) (recommended : bool)
| RContext (c : Z).   (* the user's own cuCtxSetCurrent *)
(* the answer: result and pointer *)
Definition serve (O : oracle) (d : driver) (q : request) : option (result * Z * driver) :=
  match q with
  | RAlloc pr s a => cu_alloc O d pr s a
  | RFree pr p => let (r, d') := cu_free O d pr p in Some (r, 0, d')
  | ROpen pr h => Some (cu_open_ipc O d pr h)
  | RClose pr p => let (r, d') := cu_close_ipc O d pr p in Some (r, 0, d')
  | RGet pr p => Some (cu_get_ipc O d pr p)
  | RPage pr b => Some (cu_page_size O d pr b)
  | RContext c => let '(code, _, d') := drv O d (SetCurrent c) in Some (cu2umf code, 0, d')
  end.
