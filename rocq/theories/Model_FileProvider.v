(* Model of the file memory provider (src/provider/provider_file_memory.c): the
   callbacks it gives to the coarse allocator, the IPC handles, and finalize.
   The entry points alloc, free, split and merge (487-491, 630-633, 675-679,
   853-856) only call the coarse allocator, Model_Coarse.

   Simplifications that hold for the whole file:
   - One call at a time; the lock of 427-430 is always obtained.
   - The maps (critnibs) are association lists; their own memory never runs out.
   - The file descriptor is valid, so the tests fd <= 0 of 640 and 687 are false.
   - errno, logging and the last native error are left out.
   - The outcome None is a failed assert (dbg). *)
From Verif Require Import Base Model_Utils Model_OsProvider.

(* calls of posix_fallocate (start, length), and of mmap and munmap *)
Inductive fsys := Grow (start len : Z) (ok : bool) | Call (c : sys).

(* 85-107.  f_ipc: IPC_enabled; f_dax: is_fsdax *)
Record filep := Filep {
  f_page : Z; f_size : Z; f_off : Z;                 (* page_size, size_fd, offset_fd *)
  f_base : Z; f_msize : Z; f_moff : Z;               (* base_mmap, size_mmap, offset_mmap *)
  f_mmaps : list (Z * Z); f_map : list (Z * Z);      (* mmaps, fd_offset_map *)
  f_ipc : bool; f_dax : bool }.

Definition FSDAX_PAGE_SIZE_2MB : Z := 2097152.
(* 187-307: after a successful file_initialize *)
Definition file_created (page : Z) (ipc dax : bool) : filep := Filep page FSDAX_PAGE_SIZE_2MB 0 0 0 0 [] [] ipc dax.

(* answers to one file_mmap_aligned: posix_fallocate succeeds; mmap's address *)
Record answer := Answer { a_grow : bool; a_mmap : option Z }.

(* 347-355 and 358-366: rounding up to whole pages *)
Definition page_up (page x : Z) : Z :=
  let rest := Z.land x (wrap (page - 1)) in if rest =? 0 then x else wrap (x + (page - rest)).

(* 330-416 *)
Definition file_mmap_aligned (dbg : bool) (s : filep) (size alignment : Z) (a : answer) : option (result * list fsys * filep) :=
  let ext0 := wrap (size + alignment) in
  if ext0 <? size then Some (ERR_INVALID_ARGUMENT, [], s)
  else
    let ext := page_up (f_page s) ext0 in
    if ext <? size then Some (ERR_INVALID_ARGUMENT, [], s)
    else
      let aoff := page_up (f_page s) (f_off s) in
      if aoff <? f_off s then Some (ERR_INVALID_ARGUMENT, [], s)
      else
        let new := wrap (aoff + ext) in
        let grows := f_size s <? new in
        let ev := if grows then [Grow (f_size s) (wrap (new - f_size s)) (a_grow a)] else [] in
        if grows && negb (a_grow a) then Some (ERR_UNKNOWN, ev, s)
        else
          let size_fd := if grows then new else f_size s in
          let off := if f_off s <? aoff then aoff else f_off s in
          if dbg && (IS_NOT_ALIGNED ext (f_page s) || IS_NOT_ALIGNED aoff (f_page s)) then None
          else
            match a_mmap a with
            | None => Some (ERR_PROVIDER_SPECIFIC, ev ++ [Call (MmapFail ext (Some aoff))], Filep (f_page s) size_fd off (f_base s) (f_msize s) (f_moff s) (f_mmaps s) (f_map s) (f_ipc s) (f_dax s))
            | Some ptr =>
                let mmaps := match map_insert (f_mmaps s) ptr ext with Some l => l | None => f_mmaps s end in
                let al := ALIGN_UP_SAFE ptr alignment in
                Some (SUCCESS, ev ++ [Call (Mmap ptr ext (Some aoff))], Filep (f_page s) size_fd off al (wrap (ext - wrap (al - ptr))) 0 mmaps (f_map s) (f_ipc s) (f_dax s))
            end.

(* 418-485; [a1], [a2]: answers to the first and the second file_mmap_aligned.
   The result: code, address, file offset, calls, new state. *)
Definition file_alloc_aligned (dbg : bool) (s : filep) (size alignment : Z) (a1 a2 : answer) : option (result * Z * Z * list fsys * filep) :=
  match (if wrap (f_msize s - f_moff s) <? size then file_mmap_aligned dbg s size alignment a1 else Some (SUCCESS, [], s)) with
  | None => None
  | Some (SUCCESS, ev1, s1) =>
      if dbg && (f_base s1 =? 0) then None
      else
        let p0 := wrap (f_base s1 + f_moff s1) in
        let rest := Z.land p0 (wrap (alignment - 1)) in
        let p := if negb (alignment =? 0) && negb (rest =? 0) then wrap (p0 + (alignment - rest)) else p0 in
        if dbg && IS_NOT_ALIGNED p alignment then None
        else
          let moff := wrap (p - f_base s1) in
          let off := wrap (wrap (f_off s1 + moff) - f_moff s1) in
          let finish ev s2 p off moff :=
            Some (SUCCESS, p, off, ev, Filep (f_page s2) (f_size s2) (wrap (off + size)) (f_base s2) (f_msize s2) (wrap (moff + size)) (f_mmaps s2) (f_map s2) (f_ipc s2) (f_dax s2)) in
          if wrap (f_msize s1 - moff) <? size then
            match file_mmap_aligned dbg s1 size alignment a2 with
            | None => None
            | Some (SUCCESS, ev2, s2) =>
                if dbg && ((f_base s2 =? 0) || IS_NOT_ALIGNED (f_base s2) alignment) then None
                else finish (ev1 ++ ev2) s2 (f_base s2) (f_off s2) 0
            | Some (e, ev2, s2) => Some (e, 0, 0, ev1 ++ ev2, s2)
            end
          else finish ev1 s1 p off moff
  | Some (e, ev1, s1) => Some (e, 0, 0, ev1, s1)
  end.

Definition set_fmap (s : filep) (m : list (Z * Z)) : filep :=
  Filep (f_page s) (f_size s) (f_off s) (f_base s) (f_msize s) (f_moff s) (f_mmaps s) m (f_ipc s) (f_dax s).

(* 493-546: code, *resultPtr, calls, new state *)
Definition file_alloc_cb (dbg : bool) (s : filep) (size alignment : Z) (a1 a2 : answer) : option (result * Z * list fsys * filep) :=
  if negb (alignment =? 0) && (negb (Z.land alignment (wrap (alignment - 1)) =? 0) || (negb (alignment mod f_page s =? 0) && negb (f_page s mod alignment =? 0)))
  then Some (ERR_INVALID_ALIGNMENT, 0, [], s)
  else
    let al := if IS_NOT_ALIGNED alignment (f_page s) then ALIGN_UP alignment (f_page s) else alignment in
    match file_alloc_aligned dbg s size al a1 a2 with
    | None => None
    | Some (SUCCESS, addr, off, ev, s') =>
        match map_insert (f_map s') addr (wrap (off + 1)) with
        | None => Some (ERR_UNKNOWN, 0, ev, s')
        | Some m => Some (SUCCESS, addr, ev, set_fmap s' m)
        end
    | Some (e, _, _, ev, s') => Some (e, 0, ev, s')
    end.

(* 635-673 *)
Definition file_allocation_split_cb (s : filep) (ptr total first : Z) : result * filep :=
  match map_get (f_map s) ptr with
  | None => (ERR_UNKNOWN, s)
  | Some v =>
      match map_insert (f_map s) (wrap (ptr + first)) (wrap (v + first)) with
      | None => (ERR_UNKNOWN, s)
      | Some m => (SUCCESS, set_fmap s m)
      end
  end.
(* 681-705 *)
Definition file_allocation_merge_cb (s : filep) (low high total : Z) : result * filep :=
  match map_get (f_map s) high with
  | None => (ERR_UNKNOWN, s)
  | Some _ => (SUCCESS, set_fmap s (map_remove (f_map s) high))
  end.

(* 727-751, without path, protection and visibility *)
Definition file_get_ipc_handle (s : filep) (ptr size : Z) : result * option ipc_data :=
  if negb (f_ipc s) then (ERR_INVALID_ARGUMENT, None)
  else
    match map_get (f_map s) ptr with
    | None => (ERR_INVALID_ARGUMENT, None)
    | Some v => (SUCCESS, Some (Ipc (wrap (v - 1)) size))
    end.
(* 768-819 once the file is open; [s]: the consumer's provider *)
Definition file_open_ipc_handle (s : filep) (d : ipc_data) (mm : option Z) : result * Z * list sys :=
  if negb (f_ipc s) then (ERR_INVALID_ARGUMENT, 0, [])
  else
    let '(off, size) := if f_dax s then utils_align_ptr_down_size_up (i_off d) (i_size d) FSDAX_PAGE_SIZE_2MB else (i_off d, i_size d) in
    match mm with
    | None => (ERR_PROVIDER_SPECIFIC, 0, [MmapFail size (Some off)])
    | Some a => (SUCCESS, a, [Mmap a size (Some off)])
    end.
(* 821-851 *)
Definition file_close_ipc_handle (s : filep) (ptr size : Z) (ok : bool) : result * list sys :=
  if negb (f_ipc s) then (ERR_INVALID_ARGUMENT, [])
  else
    let '(ptr, size) := if f_dax s then utils_align_ptr_down_size_up ptr size FSDAX_PAGE_SIZE_2MB else (ptr, size) in
    (if negb ok && (0 <? size) then ERR_PROVIDER_SPECIFIC else SUCCESS, [Munmap ptr size ok]).

(* 309-328: the mappings are unmapped in ascending order of their addresses; munmap
   does not fail.  (The coarse allocator has no free callback here.) *)
Fixpoint least (l : list (Z * Z)) : option (Z * Z) :=
  match l with [] => None | x :: r => match least r with Some y => Some (if fst x <? fst y then x else y) | None => Some x end end.
Fixpoint finalize_loop (fuel : nat) (key : Z) (l : list (Z * Z)) : option (list sys) :=
  match least (filter (fun x => key <? fst x) l) with
  | None => Some []
  | Some (a, len) =>
      match fuel with
      | O => None
      | S n => match finalize_loop n a (map_remove l a) with Some ev => Some (Munmap a len true :: ev) | None => None end
      end
  end.
Definition file_finalize (s : filep) : option (list sys) := finalize_loop (List.length (f_mmaps s)) 0 (f_mmaps s).
