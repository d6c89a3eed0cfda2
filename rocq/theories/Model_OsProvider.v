(* Model of the OS memory provider (src/provider/provider_os_memory.c): mapping,
   aligned mapping, free, split, merge, IPC handles.  The NUMA binding is
   Model_OsNuma.

   Simplifications that hold for the whole file:
   - One call at a time.  (The statistics under concurrency: Model_OsStats.)
   - The map from addresses to file offsets (a critnib) is an association list;
     its own memory never runs out.
   - Unmapping the head or the tail of a fresh mapping succeeds.
   - errno, logging and the last native error are left out.
   - The outcome None is a failed assert (dbg) or undefined behaviour in the NUMA
     binding. *)
From Verif Require Import Base Model_Utils Model_OsNuma.

(* calls of mmap (length, file offset if a file is mapped), munmap and
   hwloc_set_area_membind *)
Inductive sys :=
| Mmap (a len : Z) (off : option Z)
| MmapFail (len : Z) (off : option Z)
| Munmap (a len : Z) (ok : bool)
| SBind (c : bind_call).

(* provider_os_memory_internal.h:29-73; o_fd: fd > 0, that is, shared visibility *)
Record osp := Osp { o_fd : bool; o_max : Z; o_size : Z; o_map : list (Z * Z); o_numa : numa; o_allocated : Z; o_peak : Z }.

(* utils_posix_common.c:138: OFF_T_MAX *)
Definition get_max_file_size : Z := 2 ^ 63 - 1.
(* provider_os_memory.c:434-503 and the zeroed structure of 690 *)
Definition os_created (shared : bool) (u : numa) : osp := Osp shared (if shared then get_max_file_size else 0) 0 [] u 0 0.

(* provider_os_memory.c:827-906; [mm]: answer of mmap.  The address (None: error),
   the calls, the new file size and the file offset. *)
Definition utils_mmap_aligned (dbg : bool) (page : Z) (fd : bool) (max_fd size_fd length alignment : Z) (mm : option Z) : option (option Z * list sys * Z * Z) :=
  let big := page <? alignment in
  let ext := if big then wrap (length + alignment) else length in
  if fd && (max_fd <? wrap (size_fd + ext)) then Some (None, [], size_fd, 0)
  else
    let off := if fd then size_fd else 0 in
    let size_fd' := if fd then wrap (size_fd + ext) else size_fd in
    let foff := if fd then Some off else None in
    match mm with
    | None => Some (None, [MmapFail ext foff], size_fd', off)
    | Some a =>
        if big then
          let rest := a mod alignment in
          let al := if rest =? 0 then a else wrap (a + (alignment - rest)) in
          let head := wrap (al - a) in
          let tail0 := wrap (al + length) in
          let mask := wrap (page - 1) in
          let tail := if Z.land tail0 mask =? 0 then tail0 else Z.land (wrap (tail0 + page)) (wnot mask) in
          let tail_len := wrap (wrap (a + ext) - tail) in
          if dbg && (negb (Z.land al mask =? 0) || negb (Z.land tail mask =? 0) || (tail <? tail0)) then None
          else
            Some (Some al, [Mmap a ext foff] ++ (if 0 <? head then [Munmap a head true] else []) ++ (if 0 <? tail_len then [Munmap tail tail_len true] else []), size_fd', off)
        else Some (Some a, [Mmap a ext foff], size_fd', off)
    end.

Definition map_get (m : list (Z * Z)) (k : Z) : option Z := match find (fun x => fst x =? k) m with Some (_, v) => Some v | None => None end.
(* critnib_insert without update: an existing key stays *)
Definition map_insert (m : list (Z * Z)) (k v : Z) : option (list (Z * Z)) := match map_get m k with Some _ => None | None => Some ((k, v) :: m) end.
Definition map_remove (m : list (Z * Z)) (k : Z) : list (Z * Z) := filter (fun x => negb (fst x =? k)) m.

(* provider_os_memory.c:1083-1207.  [be]: the number of the bind call that fails
   with an errno other than ENOSYS, if any.  The sequential effect of the
   compare-exchange loop (1185-1200) is the maximum. *)
Definition os_alloc (dbg : bool) (page : Z) (s : osp) (size alignment : Z) (mm : option Z) (be : option nat) : option (result * Z * list sys * osp) :=
  if negb (alignment =? 0) && negb (alignment mod page =? 0) && negb (page mod alignment =? 0) then Some (ERR_INVALID_ARGUMENT, 0, [], s)
  else
    match utils_mmap_aligned dbg page (o_fd s) (o_max s) (o_size s) size alignment mm with
    | None => None
    | Some (None, ev, size_fd, _) => Some (ERR_PROVIDER_SPECIFIC, 0, ev, Osp (o_fd s) (o_max s) size_fd (o_map s) (o_numa s) (o_allocated s) (o_peak s))
    | Some (Some addr, ev, size_fd, off) =>
        let undo r ev' u := Some (r, 0, ev ++ ev' ++ [Munmap addr size (0 <? size)], Osp (o_fd s) (o_max s) size_fd (o_map s) u (o_allocated s) (o_peak s)) in
        if (0 <? alignment) && negb (addr mod alignment =? 0) then undo ERR_PROVIDER_SPECIFIC [] (o_numa s)
        else
          let finish ev' u :=
            let m := if o_fd s then match map_insert (o_map s) addr (wrap (off + 1)) with Some m => m | None => o_map s end else o_map s in
            let al := wrap (o_allocated s + size) in
            Some (SUCCESS, addr, ev ++ ev', Osp (o_fd s) (o_max s) size_fd m u al (Z.max (o_peak s) al)) in
          if policy_default (nu_mode (o_numa s)) then finish [] (o_numa s)
          else
            let first := ALIGN_UP_SAFE size page in
            if first =? 0 then undo ERR_INVALID_ARGUMENT [] (o_numa s)
            else
              match os_bind (o_numa s) addr first page with
              | None => None
              | Some (calls, u) =>
                  match be with
                  | Some k => if Nat.ltb k (List.length calls) then undo ERR_PROVIDER_SPECIFIC (map SBind (firstn (S k) calls)) u else finish (map SBind calls) u
                  | None => finish (map SBind calls) u
                  end
              end
    end.

(* provider_os_memory.c:1209-1238; [ok]: munmap succeeds *)
Definition os_free (s : osp) (ptr size : Z) (ok : bool) : result * list sys * osp :=
  if ptr =? 0 then (SUCCESS, [], s)
  else
    let m := if o_fd s then map_remove (o_map s) ptr else o_map s in
    if ok then (SUCCESS, [Munmap ptr size true], Osp (o_fd s) (o_max s) (o_size s) m (o_numa s) (wrap (o_allocated s - size)) (o_peak s))
    else (ERR_PROVIDER_SPECIFIC, [Munmap ptr size false], Osp (o_fd s) (o_max s) (o_size s) m (o_numa s) (o_allocated s) (o_peak s)).

Definition set_map (s : osp) (m : list (Z * Z)) : osp := Osp (o_fd s) (o_max s) (o_size s) m (o_numa s) (o_allocated s) (o_peak s).
(* provider_os_memory.c:1326-1355 *)
Definition os_allocation_split (s : osp) (ptr total first : Z) : result * osp :=
  if negb (o_fd s) then (SUCCESS, s)
  else
    match map_get (o_map s) ptr with
    | None => (ERR_UNKNOWN, s)
    | Some v =>
        match map_insert (o_map s) (wrap (ptr + first)) (wrap (v + first)) with
        | None => (ERR_UNKNOWN, s)
        | Some m => (SUCCESS, set_map s m)
        end
    end.
(* provider_os_memory.c:1358-1378 *)
Definition os_allocation_merge (s : osp) (low high total : Z) : result * osp :=
  if negb (o_fd s) then (SUCCESS, s)
  else
    match map_get (o_map s) high with
    | None => (ERR_UNKNOWN, s)
    | Some _ => (SUCCESS, set_map s (map_remove (o_map s) high))
    end.

(* provider_os_memory.c:1382-1392, without the identity of process and file *)
Record ipc_data := Ipc { i_off : Z; i_size : Z }.
(* provider_os_memory.c:1406-1436 *)
Definition os_get_ipc_handle (s : osp) (ptr size : Z) : result * option ipc_data :=
  if negb (o_fd s) then (ERR_INVALID_ARGUMENT, None)
  else
    match map_get (o_map s) ptr with
    | None => (ERR_INVALID_ARGUMENT, None)
    | Some v => (SUCCESS, Some (Ipc (wrap (v - 1)) size))
    end.
(* provider_os_memory.c:1468-1508 once the file is open: the mmap call *)
Definition os_open_ipc_handle (d : ipc_data) (mm : option Z) : result * Z * list sys :=
  match mm with
  | Some a => (SUCCESS, a, [Mmap a (i_size d) (Some (i_off d))])
  | None => (ERR_PROVIDER_SPECIFIC, 0, [MmapFail (i_size d) (Some (i_off d))])
  end.
(* provider_os_memory.c:1510-1529; errors are ignored if size = 0 *)
Definition os_close_ipc_handle (ptr size : Z) (ok : bool) : result * list sys :=
  (if negb ok && (0 <? size) then ERR_PROVIDER_SPECIFIC else SUCCESS, [Munmap ptr size ok]).
(* provider_os_memory.c:229-251 *)
Definition os_stats_reset (s : osp) : osp := Osp (o_fd s) (o_max s) (o_size s) (o_map s) (o_numa s) (o_allocated s) (o_allocated s).
