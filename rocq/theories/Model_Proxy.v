(* Model of the malloc replacement: src/proxy_lib/proxy_lib.c (118-503), and the calloc of
   the pools it can use: src/pool/pool_scalable.c (337-348), src/pool/pool_jemalloc.c
   (317-330).  The bootstrap ("leak") allocator is the linear allocator of Model_BaseAlloc.

   Simplifications:
   - Every call is one step.  A call made by the pool while it serves another call comes
     before it, with [inside] set (was_called_from_umfPool of that thread).
   - The answers of the system allocator, of the pool and of the OS are inputs ([ans]).
   - The memory tracked for the pool is a list of ranges; umfPoolByPtr looks there.
   - Contents are not modelled; ACopy records a memcpy.
   - The outcome None is a failed assert or undefined behaviour. *)
From Verif Require Import Base Model_Utils Model_BaseAlloc.

Inductive owner := Sys | Pool.
Inductive request := Malloc (n : Z) | Calloc (n s : Z) | Aligned (a n : Z).
Inductive act :=
| AOs (e : event)                       (* the linear allocator and the OS *)
| AGot (o : owner) (r : request) (p : Z) (* an allocation and its answer *)
| AMoved (o : owner) (p n q : Z)        (* realloc and its answer *)
| AGone (o : owner) (p : Z)             (* free *)
| AAsked (o : owner) (p r : Z)          (* usable size and its answer *)
| AMap (rs : list (Z * Z))              (* the memory tracked for the pool is now this *)
| ALeak (n p x s : Z)                   (* n bytes at p, in the linear block x of s bytes *)
| ALeakGone (p : Z)
| ACopy (dst src n : Z)
| ALost (p : Z).                        (* only an error is logged *)
(* the globals of the library (115-128): the linear allocator, Size_threshold_value,
   Proxy_pool, and the memory tracked for it *)
Record proxy := Proxy { x_leak : option linear; x_thr : Z; x_pool : bool; x_regions : list (Z * Z) }.
Definition x_start : proxy := Proxy None 0 false [].
(* pointer and number answered, memory of the pool afterwards, the OS for the creation and
   for the growth of the linear allocator *)
Record ans := Ans { a_ptr : Z; a_num : Z; a_regions : list (Z * Z); a_os0 : option Z; a_os1 : option Z }.
Definition LEAK_SIZE : Z := 4 * 1024 * 1024.

(* 305-313: umf_ba_linear_create may give NULL, which is then used *)
Definition ba_leak_init_once (c : consts) (w : proxy) (a : ans) : option (linear * list act) :=
  match x_leak w with
  | Some l => Some (l, [])
  | None => match umf_ba_linear_create c LEAK_SIZE (a_os0 a) true with (ev, Some l) => Some (l, map AOs ev) | (_, None) => None end
  end.
Definition set_leak (w : proxy) (l : linear) : proxy := Proxy (Some l) (x_thr w) (x_pool w) (x_regions w).
(* 315-319 *)
Definition ba_leak_aligned_alloc (dbg : bool) (c : consts) (w : proxy) (alignment size : Z) (a : ans) : option (Z * list act * proxy) :=
  match ba_leak_init_once c w a with
  | None => None
  | Some (l, e0) =>
      match umf_ba_linear_alloc dbg c l (wrap (size + alignment)) (a_os1 a) with
      | None => None
      | Some (x, ev, l') =>
          let p := ALIGN_UP_SAFE x alignment in
          Some (p, e0 ++ map AOs ev ++ (if x =? 0 then [] else [ALeak size p x (wrap (size + alignment))]), set_leak w l')
      end
  end.
(* 283-303 and 332-335 *)
Definition ba_leak_realloc (dbg : bool) (c : consts) (w : proxy) (ptr size max_size : Z) (l : linear) (e0 : list act) (a : ans) : option (Z * list act * proxy) :=
  match umf_ba_linear_alloc dbg c l size (a_os1 a) with
  | None => None
  | Some (q, ev, l') =>
      if q =? 0 then Some (0, e0 ++ map AOs ev, set_leak w l')
      else
        let n := if max_size <? size then max_size else size in
        match umf_ba_linear_free dbg c l' ptr with
        | None => None
        | Some (_, ev2, l2) => Some (q, e0 ++ map AOs ev ++ [ALeak size q q size; ACopy q ptr n] ++ map AOs ev2 ++ [ALeakGone ptr], set_leak w l2)
        end
  end.

(* umfPoolByPtr(ptr) == Proxy_pool *)
Definition of_pool (w : proxy) (p : Z) : bool := x_pool w && existsb (fun r => (fst r <=? p) && (p <? fst r + snd r)) (x_regions w).
Definition remap (w : proxy) (a : ans) : proxy := Proxy (x_leak w) (x_thr w) (x_pool w) (a_regions a).
(* an allocation by the pool; its calloc multiplies without a check *)
Definition pool_get (w : proxy) (r : request) (a : ans) : Z * list act * proxy := (a_ptr a, [AGot Pool r (a_ptr a); AMap (a_regions a)], remap w a).
(* 352-367 *)
Definition p_malloc (dbg : bool) (c : consts) (w : proxy) (inside : bool) (size : Z) (a : ans) : option (Z * list act * proxy) :=
  if size <? x_thr w then Some (a_ptr a, [AGot Sys (Malloc size) (a_ptr a)], w)
  else if negb inside && x_pool w then Some (pool_get w (Malloc size) a)
  else ba_leak_aligned_alloc dbg c w 0 size a.
(* 369-384 and 325-330 *)
Definition p_calloc (dbg : bool) (c : consts) (w : proxy) (inside : bool) (nmemb size : Z) (a : ans) : option (Z * list act * proxy) :=
  if wrap (nmemb * size) <? x_thr w then Some (a_ptr a, [AGot Sys (Calloc nmemb size) (a_ptr a)], w)
  else if negb inside && x_pool w then Some (pool_get w (Calloc nmemb size) a)
  else ba_leak_aligned_alloc dbg c w 0 (wrap (nmemb * size)) a.
(* 447-463 *)
Definition p_aligned_alloc (dbg : bool) (c : consts) (w : proxy) (inside : bool) (alignment size : Z) (a : ans) : option (Z * list act * proxy) :=
  if size <? x_thr w then Some (a_ptr a, [AGot Sys (Aligned alignment size) (a_ptr a)], w)
  else if negb inside && x_pool w then Some (pool_get w (Aligned alignment size) a)
  else ba_leak_aligned_alloc dbg c w alignment size a.
(* 386-412 *)
Definition p_free (dbg : bool) (c : consts) (w : proxy) (ptr : Z) (a : ans) : option (Z * list act * proxy) :=
  if ptr =? 0 then Some (0, [], w)
  else
    match ba_leak_init_once c w a with
    | None => None
    | Some (l, e0) =>
        match umf_ba_linear_free dbg c l ptr with
        | None => None
        | Some (r, ev, l') =>
            let w' := set_leak w l' in
            if r =? 0 then Some (0, e0 ++ map AOs ev ++ [ALeakGone ptr], w')
            else if of_pool w' ptr then Some (0, e0 ++ map AOs ev ++ [AGone Pool ptr; AMap (a_regions a)], remap w' a)
            else if negb (x_thr w' =? 0) then Some (0, e0 ++ map AOs ev ++ [AGone Sys ptr], w')
            else Some (0, e0 ++ map AOs ev ++ [ALost ptr], w')
        end
    end.
(* 414-445 *)
Definition p_realloc (dbg : bool) (c : consts) (w : proxy) (inside : bool) (ptr size : Z) (a : ans) : option (Z * list act * proxy) :=
  if ptr =? 0 then p_malloc dbg c w inside size a
  else if size =? 0 then p_free dbg c w ptr a
  else
    match ba_leak_init_once c w a with
    | None => None
    | Some (l, e0) =>
        let m := umf_ba_linear_pool_contains_pointer c l ptr in
        let w' := set_leak w l in
        if negb (m =? 0) then ba_leak_realloc dbg c w ptr size m l e0 a
        else if of_pool w' ptr then Some (a_ptr a, e0 ++ [AMoved Pool ptr size (a_ptr a); AMap (a_regions a)], remap w' a)
        else if negb (x_thr w' =? 0) then Some (a_ptr a, e0 ++ [AMoved Sys ptr size (a_ptr a)], w')
        else Some (0, e0 ++ [ALost ptr], w')
    end.
(* 468-497 *)
Definition p_usable_size (c : consts) (w : proxy) (ptr : Z) (a : ans) : option (Z * list act * proxy) :=
  if ptr =? 1 then Some (0xDEADBEEF, [], w)
  else
    match ba_leak_init_once c w a with
    | None => None
    | Some (l, e0) =>
        let w' := set_leak w l in
        if negb (umf_ba_linear_pool_contains_pointer c l ptr =? 0) then Some (0, e0, w')
        else if of_pool w' ptr then Some (a_num a, e0 ++ [AAsked Pool ptr (a_num a)], w')
        else if negb (x_thr w' =? 0) then Some (a_num a, e0 ++ [AAsked Sys ptr (a_num a)], w')
        else Some (0, e0 ++ [ALost ptr], w')
    end.
Inductive pcall := CMalloc (inside : bool) (n : Z) | CCalloc (inside : bool) (n s : Z) | CAligned (inside : bool) (al n : Z) | CFree (p : Z) | CRealloc (inside : bool) (p n : Z) | CUsable (p : Z)
| CThreshold (n : Z)   (* the constructor, 191-202 *)
| CPool                (* the constructor, 246-251 *)
| CDestroy.            (* the destructor of a library that is not preloaded, 265-272 *)
Definition pstep (dbg : bool) (c : consts) (w : proxy) (k : pcall) (a : ans) : option (Z * list act * proxy) :=
  match k with
  | CMalloc i n => p_malloc dbg c w i n a
  | CCalloc i n s => p_calloc dbg c w i n s a
  | CAligned i al n => p_aligned_alloc dbg c w i al n a
  | CFree p => p_free dbg c w p a
  | CRealloc i p n => p_realloc dbg c w i p n a
  | CUsable p => p_usable_size c w p a
  | CThreshold n => Some (0, [], Proxy (x_leak w) n (x_pool w) (x_regions w))
  | CPool => Some (0, [AMap (a_regions a)], Proxy (x_leak w) (x_thr w) true (a_regions a))
  | CDestroy => Some (0, [AMap []], Proxy (x_leak w) (x_thr w) false [])
  end.
