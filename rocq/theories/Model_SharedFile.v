(* Model of the files behind OS providers with shared visibility and of the IPC handles
   that name them: create_fd_for_mmap and the IPC functions of provider_os_memory.c,
   utils_shm_create, utils_shm_open, utils_shm_unlink and utils_create_anonymous_fd of
   utils_linux_common.c, utils_duplicate_fd of utils_posix_common.c.

   Simplifications that hold for the whole file:
   - A file is a number; names of shared memory files are numbers, already validated
     (provider_os_memory.c:408-432).  The kernel's name table and every process's
     descriptors are state; nobody else changes them.
   - New descriptors are inputs and greater than 0 (descriptor 0 is taken).
   - A handle has no offset, size and protection, a provider no allocations; only the file
     they belong to is followed.
   - Whether the kernel grants an operation is an input. *)
From Verif Require Import Base.
Open Scope Z_scope.

Record prov := mk_prov {
  p_pid : Z;
  p_name : option Z;     (* provider->shm_name *)
  p_fd : Z;              (* provider->fd *)
  p_file : Z             (* the file fd stands for; its allocations are parts of it *)
}.

Record kern := mk_kern {
  next_file : Z;                 (* files 0 .. next_file - 1 have existed *)
  names : Z -> option Z;         (* /dev/shm *)
  fds : Z -> Z -> option Z;      (* descriptors of each process *)
  made : list prov               (* the providers created so far, newest first *)
}.

Definition boot : kern := mk_kern 0 (fun _ => None) (fun _ _ => None) [].

Definition set_name (k : kern) (n : Z) (f : option Z) : kern :=
  mk_kern (next_file k) (fun m => if m =? n then f else names k m) (fds k) (made k).
Definition set_fd (k : kern) (pid fd : Z) (f : option Z) : kern :=
  mk_kern (next_file k) (names k)
    (fun p d => if (p =? pid) && (d =? fd) then f else fds k p d) (made k).
Definition new_file (k : kern) : kern :=
  mk_kern (next_file k + 1) (names k) (fds k) (made k).
Definition add_prov (k : kern) (p : prov) : kern :=
  mk_kern (next_file k) (names k) (fds k) (p :: made k).

(* umf_result_t values (include/umf/base.h:34-52) *)
Definition CODE_SUCCESS : Z := 0.
Definition CODE_INVALID_ARGUMENT : Z := 3.
Definition CODE_UNKNOWN : Z := 2147483646.  (* 0x7ffffffe *)

(* utils_shm_create (utils_linux_common.c:142-166); [opened]: shm_open succeeds with this
   descriptor; [sized]: ftruncate succeeds.  The descriptor or -1. *)
Definition utils_shm_create (k : kern) (pid name fd : Z) (opened sized : bool) : kern * Z :=
  let k := set_name k name None in
  if negb opened then (k, -1)
  else
    let f := next_file k in
    let k := set_fd (set_name (new_file k) name (Some f)) pid fd (Some f) in
    if sized then (k, fd)
    else (set_name (set_fd k pid fd None) name None, -1).

(* create_fd_for_mmap with UMF_MEM_MAP_SHARED (provider_os_memory.c:434-505), returned by
   umfMemoryProviderCreate as it is (720-723): the code it gives.  Each file is new, so its
   number is next_file. *)
Definition create (k : kern) (pid : Z) (name : option Z) (fd : Z) (opened sized : bool) :
  kern * Z :=
  let f := next_file k in
  match name with
  | Some n =>
      let (k, d) := utils_shm_create k pid n fd opened sized in
      if d =? -1 then (k, -1)
      else (add_prov k (mk_prov pid (Some n) d f), CODE_SUCCESS)
  | None =>
      (* utils_create_anonymous_fd (utils_linux_common.c:219-241), utils_set_file_size *)
      if negb opened then (k, CODE_UNKNOWN)
      else
        let k := set_fd (new_file k) pid fd (Some f) in
        if sized then (add_prov k (mk_prov pid None fd f), CODE_SUCCESS)
        else (set_fd k pid fd None, CODE_INVALID_ARGUMENT)
  end.

Record handle := mk_handle { h_pid : Z; h_name : option Z; h_fd : Z }.

(* os_get_ipc_handle (provider_os_memory.c:1406-1436); fd is not set for a name *)
Definition get_ipc_handle (p : prov) : handle :=
  mk_handle (p_pid p) (p_name p) (match p_name p with Some _ => 0 | None => p_fd p end).

(* os_open_ipc_handle (provider_os_memory.c:1468-1508): the file that is mapped, if the
   kernel grants opening or duplicating it, and mapping it; the descriptor is closed
   again.  None: the call fails. *)
Definition open_ipc_handle (k : kern) (h : handle) (opens maps : bool) : kern * option Z :=
  match h_name h with
  | Some n =>
      match (if opens then names k n else None) with
      | None => (k, None)
      | Some f => (set_name k n None, if maps then Some f else None)
      end
  | None =>
      match (if opens then fds k (h_pid h) (h_fd h) else None) with
      | None => (k, None)
      | Some f => (k, if maps then Some f else None)
      end
  end.

Inductive step :=
| Create (pid : Z) (name : option Z) (fd : Z) (opened sized : bool)
| Open (h : handle) (opens maps : bool)
| Destroy (p : prov).

(* os_finalize (provider_os_memory.c:763-783) neither closes the file nor removes its
   name *)
Definition exec (k : kern) (s : step) : kern :=
  match s with
  | Create pid name fd opened sized => fst (create k pid name fd opened sized)
  | Open h opens maps => fst (open_ipc_handle k h opens maps)
  | Destroy _ => k
  end.
