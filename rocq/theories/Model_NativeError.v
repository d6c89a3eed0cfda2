(* Model of the error records behind umfMemoryProviderGetLastNativeError: the operations of
   the OS, devdax, file and fixed providers that write them, and the four functions that
   read them.

   Simplifications that hold for the whole file:
   - A call is described by what the kernel, hwloc and the parts of the library below it
     answered; its arguments are left out.  A failing answer carries the errno it left.
   - [ret] inputs stand for results of parts that never give
     ERR_PROVIDER_SPECIFIC; a call in which one does is not an execution.
   - Logging leaves errno alone.  NULL arguments of the readers (assert) are left out.
   - The text strerror_r gives is an input, cut to the room left in the buffer. *)
From Coq Require Import String.
From Verif Require Import Base.
Open Scope Z_scope.

Inductive kind := OS | DEVDAX | FILE | FIXED.

Definition kind_eqb (a b : kind) : bool :=
  match a, b with
  | OS, OS | DEVDAX, DEVDAX | FILE, FILE | FIXED, FIXED => true
  | _, _ => false
  end.

(* provider_os_memory.h:138-147 *)
Definition OS_ALLOC_FAILED : Z := 1001.
Definition OS_ADDRESS_NOT_ALIGNED : Z := 1002.
Definition OS_BIND_FAILED : Z := 1003.
Definition OS_FREE_FAILED : Z := 1004.
Definition OS_PURGE_LAZY_FAILED : Z := 1005.
Definition OS_PURGE_FORCE_FAILED : Z := 1006.
Definition OS_TOPO_DISCOVERY_FAILED : Z := 1007.
(* provider_devdax_memory.h:60-66 *)
Definition DEVDAX_ALLOC_FAILED : Z := 2001.
Definition DEVDAX_FREE_FAILED : Z := 2003.
Definition DEVDAX_PURGE_FORCE_FAILED : Z := 2004.
(* provider_file_memory.h:62-67 *)
Definition FILE_ALLOC_FAILED : Z := 3001.
Definition FILE_FREE_FAILED : Z := 3002.
Definition FILE_PURGE_FORCE_FAILED : Z := 3003.
(* provider_fixed_memory.h:55-58 *)
Definition FIXED_PURGE_FORCE_FAILED : Z := 4001.

(* UMF_*_RESULT_SUCCESS, the first code of each provider (the same headers) *)
Definition first_code (k : kind) : Z :=
  match k with OS => 1000 | DEVDAX => 2000 | FILE => 3000 | FIXED => 4000 end.

(* Native_error_str: provider_os_memory.c:160-174, provider_devdax_memory.c:115-122,
   provider_file_memory.c:142-147, provider_fixed_memory.c:55-57.  The designated
   initialisers are written out in the order of their indices. *)
Definition native_error_str (k : kind) : list string :=
  match k with
  | OS => ["success"; "memory allocation failed"; "allocated address is not aligned";
           "binding memory to NUMA node failed"; "memory deallocation failed";
           "lazy purging failed"; "force purging failed";
           "HWLOC topology discovery failed"]
  | DEVDAX => ["success"; "memory allocation failed"; "allocated address is not aligned";
               "memory deallocation failed"; "force purging failed"]
  | FILE => ["success"; "memory allocation failed"; "memory deallocation failed";
             "force purging failed"]
  | FIXED => ["success"; "force purging failed"]
  end%string%list.

(* provider_os_memory.c:135-141 and the same structure in the other three files; msg_buff
   is left out, as a reader writes it before giving it away *)
Record tls := mk_tls { native_error : Z; errno_value : Z }.

(* a thread's record before the thread's first failure: static storage, all zero *)
Definition tls_zero : tls := mk_tls 0 0.

Definition TLS_MSG_BUF_LEN : Z := 1024.  (* provider_os_memory.c:107 and the others *)

(* Native_error_str[i]; None: outside the array *)
Definition str_at (k : kind) (i : Z) : option string :=
  if i <? 0 then None else nth_error (native_error_str k) (Z.to_nat i).

(* utils_strerror (utils_posix_common.c:189-198) into a buffer of [room] bytes *)
Definition strerror_into (text : Z -> string) (e room : Z) : string :=
  substring 0 (Z.to_nat (room - 1)) (text e).

(* os_get_last_native_error (provider_os_memory.c:1240-1273),
   devdax_get_last_native_error (provider_devdax_memory.c:284-317),
   file_get_last_native_error (provider_file_memory.c:548-581),
   fixed_get_last_native_error (provider_fixed_memory.c:159-192).
   None: undefined behaviour, a read outside the table or a write outside the buffer. *)
Definition get_last (text : Z -> string) (k : kind) (r : tls) : option (Z * string) :=
  match str_at k (native_error r - first_code k) with
  | None => None
  | Some msg =>
      if errno_value r =? 0 then Some (native_error r, msg)
      else
        let pos := Z.of_nat (String.length msg) + 2 in
        if TLS_MSG_BUF_LEN <? pos + 1 then None
        else Some (native_error r,
                   (msg ++ ": " ++
                    strerror_into text (errno_value r) (TLS_MSG_BUF_LEN - pos))%string)
  end.

(* ze_memory_provider_get_last_native_error (provider_level_zero.c:641-652): what the
   two output arguments hold afterwards, given the code in the record and what
   *ppMessage held before *)
Definition ze_get_last (code : Z) (message_before : string) : Z * string :=
  (code, message_before).

Definition ENOSYS : Z := 38.

(* the calls; a failing kernel call is [Some errno] *)
Inductive call :=
| OsInit (early : option result) (topology : bool) (ret : result)
    (* refused before the discovery (NULL parameters, no memory, hwloc_topology_init);
       hwloc_topology_load succeeds; how the rest of the creation ends *)
| OsAlloc (early : option result) (mapped aligned : bool) (policy : bool)
          (size_ok bitmap : bool) (binds : list (option Z))
    (* refused before the mapping; the policy is not the default; membindFirst has a
       bitmap; what each hwloc_set_area_membind answers *)
| OsFree (null : bool) (munmap : option Z)
| OsPurgeLazy (madvise : option Z)
| FileAlloc (early : option result) (aligned_alloc : result) (ret : result)
    (* answered by the coarse provider without the callback, or refused for its
       alignment; what file_alloc_aligned gives; how the rest ends *)
| PurgeForce (k : kind) (madvise : option Z)
| OpenIpc (k : kind) (early : option result) (mmap : option Z) (ret : result)
    (* refused before the mapping; the mapping; how the call ends once it is there *)
| CloseIpc (k : kind) (enabled : bool) (size : Z) (munmap : option Z).

(* the kind of provider a call belongs to *)
Definition kind_of (c : call) : kind :=
  match c with
  | OsInit _ _ _ | OsAlloc _ _ _ _ _ _ _ | OsFree _ _ | OsPurgeLazy _ => OS
  | FileAlloc _ _ _ => FILE
  | PurgeForce k _ | OpenIpc k _ _ _ | CloseIpc k _ _ _ => k
  end.

(* the loop over the partitions: provider_os_memory.c:1141-1162 *)
Fixpoint bind_all (binds : list (option Z)) (r : tls) : result * tls :=
  match binds with
  | [] => (SUCCESS, r)
  | None :: rest => bind_all rest r
  | Some e :: rest =>
      let r := mk_tls OS_BIND_FAILED e in
      if negb (e =? ENOSYS) && negb (e =? 0) then (ERR_PROVIDER_SPECIFIC, r)
      else bind_all rest r
  end.

(* the code each purge_force stores: OS 1311, devdax 351, file 616, fixed 223 *)
Definition purge_code (k : kind) : Z :=
  match k with
  | OS => OS_PURGE_FORCE_FAILED | DEVDAX => DEVDAX_PURGE_FORCE_FAILED
  | FILE => FILE_PURGE_FORCE_FAILED | FIXED => FIXED_PURGE_FORCE_FAILED
  end.

(* the code a failed mapping or unmapping of an IPC handle is recorded with; the fixed
   provider has no IPC.  OS 1500, 1522; devdax 481, 516; file 803, 840 *)
Definition open_code (k : kind) : Z :=
  match k with
  | OS => OS_ALLOC_FAILED | DEVDAX => DEVDAX_ALLOC_FAILED | FILE => FILE_ALLOC_FAILED
  | FIXED => 0
  end.
Definition close_code (k : kind) : Z :=
  match k with
  | OS => OS_FREE_FAILED | DEVDAX => DEVDAX_FREE_FAILED | FILE => FILE_FREE_FAILED
  | FIXED => 0
  end.

(* a call's result and its thread's record afterwards *)
Definition do_call (c : call) (r : tls) : result * tls :=
  match c with
  | OsInit early topology ret =>
      (* os_initialize, provider_os_memory.c:667-790 *)
      match early with
      | Some e => (e, r)
      | None =>
          if topology then (ret, r)
          else (ERR_PROVIDER_SPECIFIC, mk_tls OS_TOPO_DISCOVERY_FAILED 0)
      end
  | OsAlloc early mapped aligned policy size_ok bitmap binds =>
      (* os_alloc, provider_os_memory.c:1083-1207 *)
      match early with
      | Some e => (e, r)
      | None =>
          if negb mapped then (ERR_PROVIDER_SPECIFIC, mk_tls OS_ALLOC_FAILED 0)
          else if negb aligned then
            (ERR_PROVIDER_SPECIFIC, mk_tls OS_ADDRESS_NOT_ALIGNED 0)
          else if negb policy then (SUCCESS, r)
          else if negb size_ok then (ERR_INVALID_ARGUMENT, r)
          else if negb bitmap then (ERR_PROVIDER_SPECIFIC, r)
          else bind_all binds r
      end
  | OsFree null munmap =>
      (* os_free, provider_os_memory.c:1209-1238 *)
      if null then (SUCCESS, r)
      else match munmap with
           | Some e => (ERR_PROVIDER_SPECIFIC, mk_tls OS_FREE_FAILED e)
           | None => (SUCCESS, r)
           end
  | OsPurgeLazy madvise =>
      (* os_purge_lazy, provider_os_memory.c:1292-1304 *)
      match madvise with
      | Some e => (ERR_PROVIDER_SPECIFIC, mk_tls OS_PURGE_LAZY_FAILED e)
      | None => (SUCCESS, r)
      end
  | FileAlloc early aligned_alloc ret =>
      (* file_alloc_cb, provider_file_memory.c:493-546 *)
      match early with
      | Some e => (e, r)
      | None =>
          if result_eqb aligned_alloc SUCCESS then (ret, r)
          else (aligned_alloc, mk_tls FILE_ALLOC_FAILED 0)
      end
  | PurgeForce k madvise =>
      (* os_purge_force, provider_os_memory.c:1306-1317; devdax 345-360; file 610-623;
         fixed 217-230 *)
      match madvise with
      | Some e => (ERR_PROVIDER_SPECIFIC, mk_tls (purge_code k) e)
      | None => (SUCCESS, r)
      end
  | OpenIpc k early mmap ret =>
      (* os_open_ipc_handle, provider_os_memory.c:1468-1508; devdax 447-503;
         file 767-822 *)
      match early with
      | Some e => (e, r)
      | None =>
          match mmap with
          | Some e => (ERR_PROVIDER_SPECIFIC, mk_tls (open_code k) e)
          | None => (ret, r)
          end
      end
  | CloseIpc k enabled size munmap =>
      (* os_close_ipc_handle, provider_os_memory.c:1510-1529; devdax 505-524;
         file 824-847; size is what munmap was given *)
      if negb enabled then (ERR_INVALID_ARGUMENT, r)
      else match munmap with
           | Some e =>
               if 0 <? size then (ERR_PROVIDER_SPECIFIC, mk_tls (close_code k) e)
               else (SUCCESS, r)
           | None => (SUCCESS, r)
           end
  end.

(* every thread has one record for each kind of provider: the static __TLS variable of
   each of the four files *)
Definition records := Z -> kind -> tls.
Definition records_zero : records := fun _ _ => tls_zero.

Definition put (m : records) (t : Z) (k : kind) (r : tls) : records :=
  fun t' k' => if (t' =? t) && kind_eqb k' k then r else m t' k'.

(* the records after calls of several threads, in the order of the calls *)
Fixpoint run (h : list (Z * call)) (m : records) : records :=
  match h with
  | [] => m
  | (t, c) :: rest =>
      run rest (put m t (kind_of c) (snd (do_call c (m t (kind_of c)))))
  end.
