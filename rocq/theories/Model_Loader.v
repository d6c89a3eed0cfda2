(* Model of how libraries are loaded at run time: init_tbb_callbacks and
   fini_tbb_global_state (src/pool/pool_scalable.c:123-177), init_cu_global_state
   and fini_cu_global_state (src/provider/provider_cuda.c:21-26, 191-252, 269,
   381), init_ze_global_state and fini_ze_global_state
   (src/provider/provider_level_zero.c:23-28, 214-270, 573), called from
   umfTearDown (src/libumf.c:66-96); src/utils/utils_load_library.c.

   Each library is treated by itself. The dynamic linker counts references;
   a library that has none is not mapped, and each time it is mapped again its
   functions may have other addresses, so a function pointer is the number of
   the mapping it was taken from. Simplifications: initialisation runs at one
   moment (pthread_once); a library that is mapped can always be opened once
   more; the names it has do not change. *)
From Verif Require Import Base.

(* [l_loaded]: functions whose addresses are taken; [l_checked]: those that must
   be there; [l_guarded]: those tested for NULL before each call; [l_noload]:
   UMF_UTIL_OPEN_LIBRARY_NO_LOAD; [l_early]: the handle is stored before the
   check; [l_keep]: the handle is kept when closing fails. *)
Record lib := Lib { l_loaded : list Z; l_checked : list Z; l_guarded : list Z; l_noload : bool; l_early : bool; l_keep : bool }.

(* malloc 0, realloc 1, aligned_malloc 2, free 3, create_v1 4, destroy 5,
   identify 6, msize 7: pool_scalable.c:133-154 *)
Definition tbb : lib := Lib [0; 1; 2; 3; 4; 5; 6; 7] [0; 1; 2; 3; 4; 5; 6] [] false true true.
(* in the order of provider_cuda.c:211-238; all are checked, 240-246 *)
Definition cuda : lib :=
  Lib [0; 1; 2; 3; 4; 5; 6; 7; 8; 9; 10; 11; 12; 13] [0; 1; 2; 3; 4; 5; 6; 7; 8; 9; 10; 11; 12; 13] [] true false false.
(* in the order of provider_level_zero.c:231-254: zeMemPutIpcHandle is 5 and
   tested before use (778), zeMemFreeExt is 10 *)
Definition level_zero : lib :=
  Lib [0; 1; 2; 3; 4; 5; 6; 7; 8; 9; 10; 11] [0; 1; 2; 3; 4; 6; 7; 8; 9; 11] [5] true false false.

(* [refs]: references the linker counts, [user]: those of them the application
   took itself; [gen]: number of the present (or last) mapping.
   [once], [failed], [handle], [ptr]: the static variables. [live]: pools or
   providers created and not destroyed. *)
Record lstate := LState { refs : Z; user : Z; gen : Z; once : bool; failed : bool; handle : bool; ptr : Z -> option Z; live : Z }.
Definition lstate0 : lstate := LState 0 0 0 false false false (fun _ => None) 0.

(* What an observer sees. [Called g]: a function of mapping [g] that is mapped. *)
Inductive seen :=
| Created | Unavailable       (* UMF_RESULT_SUCCESS, ERROR_DEPENDENCY_UNAVAILABLE *)
| Called | NotSupported       (* the function ran; the guard returned an error *)
| CallNull | CallUnmapped     (* undefined *)
| Closed | CloseFailed
| OverClosed.                 (* UMF closed a library it did not have open *)

Definition set_refs (s : lstate) (r u g : Z) : lstate := LState r u g (once s) (failed s) (handle s) (ptr s) (live s).

(* utils_open_library, utils_load_library.c:68-83 (dlopen); [ok]: whether a
   library that is not mapped can be found *)
Definition dl_open (noload ok : bool) (s : lstate) : option lstate :=
  if 0 <? refs s then Some (set_refs s (refs s + 1) (user s) (gen s))
  else if negb noload && ok then Some (set_refs s 1 (user s) (gen s + 1)) else None.
(* utils_close_library, 83 (dlclose) *)
Definition dl_close (ok : bool) (s : lstate) : lstate * seen :=
  if refs s <=? user s then (set_refs s (Z.max 0 (refs s - 1)) (user s) (gen s), OverClosed)
  else if ok then (set_refs s (refs s - 1) (user s) (gen s), Closed) else (s, CloseFailed).

Definition zin (x : Z) (l : list Z) : bool := existsb (Z.eqb x) l.
(* utils_get_symbol_addr, 85-99, for each name *)
Definition lookup (l : lib) (has : Z -> bool) (s : lstate) (x : Z) : option Z :=
  if zin x (l_loaded l) then if has x then Some (gen s) else None else ptr s x.

(* the function run once; [has]: the names the library has; [ok]: it can be
   found; [cl]: dlclose succeeds *)
Definition init (l : lib) (has : Z -> bool) (ok cl : bool) (s : lstate) : lstate * list seen :=
  match dl_open (l_noload l) ok s with
  | None => (LState (refs s) (user s) (gen s) true true (if l_early l then false else handle s) (ptr s) (live s), [])
  | Some s =>
      let p := lookup l has s in
      if forallb has (l_checked l) then (LState (refs s) (user s) (gen s) true (failed s) true p (live s), [])
      else
        let (s, e) := dl_close cl s in
        (LState (refs s) (user s) (gen s) true true (l_early l) p (live s), [e])
  end.

Inductive lev :=
| Load (ok : bool) | Unload       (* the application loads and unloads the library itself *)
| Create (ok cl : bool)           (* a pool or provider is created *)
| Destroy
| Use (x : Z)                     (* a call of a live object calls function [x] *)
| TearDown (cl : bool).           (* umfTearDown gives the last reference up *)

Definition lstep (l : lib) (has : Z -> bool) (s : lstate) (e : lev) : lstate * list seen :=
  match e with
  | Load ok =>
      match dl_open false ok s with
      | Some s => (set_refs s (refs s) (user s + 1) (gen s), [])
      | None => (s, [])
      end
  | Unload => if 0 <? user s then (set_refs s (Z.max 0 (refs s - 1)) (user s - 1) (gen s), []) else (s, [])
  | Create ok cl =>
      let (s, o) := if once s then (s, []) else init l has ok cl s in
      if failed s then (s, o ++ [Unavailable])
      else (LState (refs s) (user s) (gen s) (once s) (failed s) (handle s) (ptr s) (live s + 1), o ++ [Created])
  | Destroy => (LState (refs s) (user s) (gen s) (once s) (failed s) (handle s) (ptr s) (live s - 1), [])
  | Use x =>
      (s, match ptr s x with
          | None => if zin x (l_guarded l) then [NotSupported] else [CallNull]
          | Some g => if (0 <? refs s) && (g =? gen s) then [Called] else [CallUnmapped]
          end)
  | TearDown cl =>
      if handle s then
        let (s, o) := dl_close cl s in
        (LState (refs s) (user s) (gen s) (once s) (failed s) (l_keep l && negb (match o with Closed => true | _ => false end)) (ptr s) (live s), [o])
      else (s, [])
  end.

Fixpoint lrun (l : lib) (has : Z -> bool) (s : lstate) (es : list lev) : lstate * list seen :=
  match es with
  | [] => (s, [])
  | e :: es => let (s, o) := lstep l has s e in let (s, p) := lrun l has s es in (s, o ++ p)
  end.
