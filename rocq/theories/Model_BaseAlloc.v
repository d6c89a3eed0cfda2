(* Model of the internal allocators of UMF: src/base_alloc/base_alloc.c (chunks
   of one size), base_alloc_linear.c and base_alloc_global.c.

   Simplifications that hold for the whole file:
   - Every call is one atomic step (each allocator holds its mutex throughout).
   - The free list and the lists of pools, which live inside the managed memory,
     are lists of addresses, head first.
   - Annotations for memory checkers and log messages are left out.
   - ba_os_free never fails (base_alloc_linux.c:27-31 asserts it).
   - [dbg]: assert is active (NDEBUG not defined).  The counters that exist only
     then are always kept but only used then.  The outcome None is a failed
     assert or undefined behaviour. *)
From Verif Require Import Base Model_Utils.

(* page size; offsetof(umf_ba_pool_t, data) = sizeof(void * ) +
   sizeof(struct umf_ba_main_pool_meta_t); utils_mutex_get_size() rounded up to 8;
   offsetof(umf_ba_linear_pool_t, data) *)
Record consts := Consts { k_page : Z; k_header : Z; k_mutex : Z; k_lheader : Z }.
(* base_alloc.c:24, base_alloc_linear.c:27 *)
Definition MEMORY_ALIGNMENT : Z := 8.
(* base_alloc.c:20 *)
Definition MINIMUM_CHUNK_COUNT : Z := 128.

(* calls of ba_os_alloc and ba_os_free *)
Inductive event :=
| OsAlloc (p size : Z)
| OsFail (size : Z)
| OsFree (p size : Z).

(* ================ base_alloc.c ================ *)
(* base_alloc.c:35-69; b_pools: the "next" pools, head first *)
Record ba := Ba { b_base : Z; b_size : Z; b_chunk : Z; b_free : list Z; b_allocs : Z; b_pools : list Z; b_npools : Z; b_nchunks : Z }.

(* base_alloc.c:72-90 *)
Definition ba_debug_checks (b : ba) : bool :=
  (Z.of_nat (S (length (b_pools b))) =? b_npools b) && (Z.of_nat (length (b_free b)) =? wrap (b_nchunks b - b_allocs b)).

(* base_alloc.c:107-118; the loop ends before the fuel: size/chunk + 1 *)
Fixpoint carve (fuel : nat) (data_ptr size_left chunk : Z) : list Z :=
  match fuel with
  | O => []
  | S f => if chunk <=? size_left then data_ptr :: carve f (data_ptr + chunk) (size_left - chunk) chunk else []
  end.
(* base_alloc.c:94-126.  If no chunk fits (and assert is off) the code still
   makes the start of the memory the only element of the list. *)
Definition ba_divide_memory_into_chunks (dbg : bool) (b : ba) (ptr size : Z) : option ba :=
  if dbg && (negb (match b_free b with [] => true | _ => false end) || (size <=? b_chunk b)) then None
  else
    let l := carve (S (Z.to_nat (size / b_chunk b))) ptr size (b_chunk b) in
    Some (Ba (b_base b) (b_size b) (b_chunk b) (match l with [] => [ptr] | _ => l end) (b_allocs b) (b_pools b) (b_npools b) (b_nchunks b + Z.of_nat (length l))).

(* base_alloc.c:136-191; [os]: answer of ba_os_alloc, [lock]: utils_mutex_init works *)
Definition ba_pool_size (c : consts) (chunk : Z) : Z :=
  let s := wrap (k_header c + k_mutex c + MINIMUM_CHUNK_COUNT * chunk) in
  ALIGN_UP_SAFE (if s <? k_page c then k_page c else s) (k_page c).
Definition umf_ba_create (dbg : bool) (c : consts) (size : Z) (os : option Z) (lock : bool) : option (list event * option ba) :=
  let chunk := ALIGN_UP_SAFE size MEMORY_ALIGNMENT in
  if chunk =? 0 then Some ([], None)
  else
    let n := ba_pool_size c chunk in
    if n =? 0 then Some ([], None)
    else
      match os with
      | None => Some ([OsFail n], None)
      | Some p =>
          let (d, left) := utils_align_ptr_up_size_down (p + k_header c) (n - k_header c) MEMORY_ALIGNMENT in
          if negb lock then Some ([OsAlloc p n; OsFree p n], None)
          else
            match ba_divide_memory_into_chunks dbg (Ba p n chunk [] 0 [] 1 0) d left with
            | None => None
            | Some b => Some ([OsAlloc p n], Some b)
            end
      end.

(* base_alloc.c:193-249; address 0: NULL *)
Definition ba_take (dbg : bool) (b : ba) (ev : list event) : option (Z * list event * ba) :=
  match b_free b with
  | [] => Some (0, ev, b)
  | x :: r =>
      let b' := Ba (b_base b) (b_size b) (b_chunk b) r (b_allocs b + 1) (b_pools b) (b_npools b) (b_nchunks b) in
      if dbg && negb (ba_debug_checks b') then None else Some (x, ev, b')
  end.
Definition umf_ba_alloc (dbg : bool) (b : ba) (os : option Z) : option (Z * list event * ba) :=
  match b_free b with
  | [] =>
      match os with
      | None => Some (0, [OsFail (b_size b)], b)
      | Some p =>
          let b1 := Ba (b_base b) (b_size b) (b_chunk b) [] (b_allocs b) (p :: b_pools b) (b_npools b + 1) (b_nchunks b) in
          let (d, left) := utils_align_ptr_up_size_down (p + 8) (b_size b - 8) MEMORY_ALIGNMENT in
          match ba_divide_memory_into_chunks dbg b1 d left with
          | None => None
          | Some b2 => ba_take dbg b2 [OsAlloc p (b_size b)]
          end
      end
  | _ => ba_take dbg b []
  end.

(* base_alloc.c:254-271 *)
Definition pool_contains_pointer (c : consts) (b : ba) (ptr : Z) : bool :=
  ((b_base b + k_header c <=? ptr) && (ptr <? b_base b + b_size b)) ||
  existsb (fun p => (p + 8 <=? ptr) && (ptr <? p + b_size b)) (b_pools b).
(* base_alloc.c:274-294; ptr must be a chunk of the pool *)
Definition umf_ba_free (dbg : bool) (c : consts) (b : ba) (ptr : Z) : option ba :=
  if ptr =? 0 then Some b
  else if dbg && negb (pool_contains_pointer c b ptr) then None
  else
    let b' := Ba (b_base b) (b_size b) (b_chunk b) (ptr :: b_free b) (wrap (b_allocs b - 1)) (b_pools b) (b_npools b) (b_nchunks b) in
    if dbg && negb (ba_debug_checks b') then None else Some b'.

(* base_alloc.c:296-328; [proxy]: running in the proxy library.
   UMF_DEVELOPER_MODE is off. *)
Definition umf_ba_destroy (dbg proxy : bool) (b : ba) : option (list event) :=
  if negb (b_allocs b =? 0) && proxy then Some []
  else if dbg && negb (ba_debug_checks b) then None
  else Some (map (fun p => OsFree p (b_size b)) (b_pools b) ++ [OsFree (b_base b) (b_size b)]).

(* ================ base_alloc_linear.c ================ *)
(* base_alloc_linear.c:58-69: base_alloc_linear's "next" pools; the data starts at
   offset 24 = offsetof(umf_ba_next_linear_pool_t, data) *)
Record next_pool := NextPool { n_base : Z; n_size : Z; n_allocs : Z }.
Definition NEXT_HEADER : Z := 24.
(* base_alloc_linear.c:32-54 *)
Record linear := Linear { l_base : Z; l_size : Z; l_data : Z; l_left : Z; l_allocs : Z; l_next : list next_pool; l_npools : Z }.

(* base_alloc_linear.c:72-81 *)
Definition linear_debug_checks (l : linear) : bool := Z.of_nat (S (length (l_next l))) =? l_npools l.

(* base_alloc_linear.c:84-123 *)
Definition umf_ba_linear_create (c : consts) (pool_size : Z) (os : option Z) (lock : bool) : list event * option linear :=
  let s := wrap (pool_size + k_lheader c) in
  let n := ALIGN_UP_SAFE (if s <? k_page c then k_page c else s) (k_page c) in
  if n =? 0 then ([], None)
  else
    match os with
    | None => ([OsFail n], None)
    | Some p =>
        let (d, left) := utils_align_ptr_up_size_down (p + k_lheader c) (n - k_lheader c) MEMORY_ALIGNMENT in
        if negb lock then ([OsAlloc p n; OsFree p n], None)
        else ([OsAlloc p n], Some (Linear p n d left 0 [] 1))
    end.

(* base_alloc_linear.c:176-189 *)
Definition linear_take (dbg : bool) (l : linear) (aligned : Z) (ev : list event) : option (Z * list event * linear) :=
  if dbg && (l_left l <? aligned) then None
  else
    let l' := match l_next l with
              | n :: r => Linear (l_base l) (l_size l) (wrap (l_data l + aligned)) (wrap (l_left l - aligned)) (l_allocs l) (NextPool (n_base n) (n_size n) (n_allocs n + 1) :: r) (l_npools l)
              | [] => Linear (l_base l) (l_size l) (wrap (l_data l + aligned)) (wrap (l_left l - aligned)) (l_allocs l + 1) [] (l_npools l)
              end in
    if dbg && negb (linear_debug_checks l') then None else Some (l_data l, ev, l').
(* base_alloc_linear.c:125-190 *)
Definition umf_ba_linear_alloc (dbg : bool) (c : consts) (l : linear) (size : Z) (os : option Z) : option (Z * list event * linear) :=
  if size =? 0 then Some (0, [], l)
  else
    let aligned := ALIGN_UP_SAFE size MEMORY_ALIGNMENT in
    if aligned =? 0 then Some (0, [], l)
    else if l_left l <? aligned then
      let usable := wrap (k_page c - NEXT_HEADER) in
      let n := if usable <? aligned then ALIGN_UP_SAFE (wrap (k_page c + (aligned - usable))) (k_page c) else k_page c in
      if n =? 0 then Some (0, [], l)
      else if dbg && (wrap (n - NEXT_HEADER) <? aligned) then None
      else
        match os with
        | None => Some (0, [OsFail n], l)
        | Some p =>
            let (d, left) := utils_align_ptr_up_size_down (p + NEXT_HEADER) (wrap (n - NEXT_HEADER)) MEMORY_ALIGNMENT in
            linear_take dbg (Linear (l_base l) (l_size l) d left (l_allocs l) (NextPool p n 0 :: l_next l) (l_npools l + 1)) aligned [OsAlloc p n]
        end
    else linear_take dbg l aligned [].

(* base_alloc_linear.c:193-197 *)
Definition pool_contains_ptr (base size data ptr : Z) : bool := (data <=? ptr) && (ptr <? base + size).
(* base_alloc_linear.c:224-248; the list from the second pool on; the pools
   that stay and what is given back, None: not found *)
Fixpoint free_in_next (ns : list next_pool) (ptr : Z) : option (list event * list next_pool) :=
  match ns with
  | [] => None
  | n :: r =>
      if pool_contains_ptr (n_base n) (n_size n) (n_base n + NEXT_HEADER) ptr then
        if wrap (n_allocs n - 1) =? 0 then Some ([OsFree (n_base n) (n_size n)], r)
        else Some ([], NextPool (n_base n) (n_size n) (wrap (n_allocs n - 1)) :: r)
      else match free_in_next r ptr with Some (ev, r') => Some (ev, n :: r') | None => None end
  end.
(* base_alloc_linear.c:203-253: result 0 or -1 *)
Definition umf_ba_linear_free (dbg : bool) (c : consts) (l : linear) (ptr : Z) : option (Z * list event * linear) :=
  if dbg && negb (linear_debug_checks l) then None
  else if pool_contains_ptr (l_base l) (l_size l) (l_base l + k_lheader c) ptr then
    let a := wrap (l_allocs l - 1) in
    if (a =? 0) && negb (match l_next l with [] => true | _ => false end) && (k_page c <? l_size l) then
      Some (0, [OsFree (l_base l + k_page c) (l_size l - k_page c)], Linear (l_base l) (k_page c) (l_data l) (l_left l) a (l_next l) (l_npools l))
    else Some (0, [], Linear (l_base l) (l_size l) (l_data l) (l_left l) a (l_next l) (l_npools l))
  else
    match l_next l with
    | [] => Some (-1, [], l)
    | n :: r =>
        if pool_contains_ptr (n_base n) (n_size n) (n_base n + NEXT_HEADER) ptr then
          (* the active pool is never given back *)
          Some (0, [], Linear (l_base l) (l_size l) (l_data l) (l_left l) (l_allocs l) (NextPool (n_base n) (n_size n) (wrap (n_allocs n - 1)) :: r) (l_npools l))
        else
          match free_in_next r ptr with
          | Some (ev, r') =>
              let l' := Linear (l_base l) (l_size l) (l_data l) (l_left l) (l_allocs l) (n :: r') (match ev with [] => l_npools l | _ => l_npools l - 1 end) in
              if dbg && negb (linear_debug_checks l') then None else Some (0, ev, l')
          | None => Some (-1, [], l)
          end
    end.
(* base_alloc_linear.c:255-280 *)
Definition umf_ba_linear_destroy (dbg proxy : bool) (l : linear) : option (list event) :=
  if proxy then Some []
  else if dbg && negb (linear_debug_checks l) then None
  else Some (map (fun n => OsFree (n_base n) (n_size n)) (l_next l) ++ [OsFree (l_base l) (l_size l)]).
(* base_alloc_linear.c:286-310 *)
Fixpoint contains_in_next (ns : list next_pool) (ptr : Z) : Z :=
  match ns with
  | [] => 0
  | n :: r => if pool_contains_ptr (n_base n) (n_size n) (n_base n + NEXT_HEADER) ptr then n_base n + n_size n - ptr else contains_in_next r ptr
  end.
Definition umf_ba_linear_pool_contains_pointer (c : consts) (l : linear) (ptr : Z) : Z :=
  if pool_contains_ptr (l_base l) (l_size l) (l_base l + k_lheader c) ptr then l_base l + l_size l - ptr else contains_in_next (l_next l) ptr.

(* ================ base_alloc_global.c ================ *)
(* base_alloc_global.c:29-42; the metadata words, by address *)
Record global := Global { g_ac : list (option ba); g_meta : list (Z * Z) }.
Definition ALLOC_METADATA_SIZE : Z := 8.
Definition NUM_ALLOCATION_CLASSES : nat := 5.
Definition ac_size (i : nat) : Z := 2 ^ (4 + Z.of_nat i).

(* base_alloc_global.c:60-77; one OS answer and one mutex answer per class *)
Fixpoint create_classes (dbg : bool) (c : consts) (i : nat) (os : list (option Z * bool)) : option (list event * list (option ba)) :=
  match os with
  | [] => Some ([], [])
  | (o, lock) :: r =>
      match umf_ba_create dbg c (ac_size i) o lock, create_classes dbg c (S i) r with
      | Some (ev, b), Some (ev', bs) => Some (ev ++ ev', b :: bs)
      | _, _ => None
      end
  end.
Definition umf_ba_create_global (dbg : bool) (c : consts) (os : list (option Z * bool)) : option (list event * global) :=
  match create_classes dbg c 0 os with Some (ev, l) => Some (ev, Global l []) | None => None end.

(* base_alloc_global.c:80-91 *)
Definition ba_size_to_idx (size : Z) : Z :=
  if size <=? 16 then 0
  else utils_msb64 size + (if Z.land size (size - 1) =? 0 then 0 else 1) - 4.

(* base_alloc_global.c:97-128: user pointer (0: NULL) and metadata word.
   Writing metadata next to a NULL pointer is undefined behaviour. *)
Definition add_metadata_and_align (dbg : bool) (ptr size alignment : Z) : option (Z * Z) :=
  if ptr =? 0 then None
  else if dbg && ((2 ^ 32 <=? size) || (2 ^ 32 <=? alignment)) then None
  else
    let user := if alignment <=? ALLOC_METADATA_SIZE then wrap (ptr + ALLOC_METADATA_SIZE) else ALIGN_UP_SAFE (wrap (ptr + ALLOC_METADATA_SIZE)) alignment in
    if (negb (alignment <=? ALLOC_METADATA_SIZE)) && (user =? 0) then Some (0, 0)
    else
      let off := wrap (user - ptr) in
      if dbg && (2 ^ 32 <=? off) then None
      else Some (user, Z.lor size (wrap (off * 2 ^ 32))).

Definition meta_at (m : list (Z * Z)) (a : Z) : option Z := match find (fun x => fst x =? a) m with Some (_, w) => Some w | None => None end.
(* base_alloc_global.c:133-160: original pointer, total size, usable size *)
Definition get_original_alloc (m : list (Z * Z)) (user : Z) : option (Z * Z * Z) :=
  match meta_at m (user - ALLOC_METADATA_SIZE) with
  | None => None
  | Some w =>
      let stored := Z.land w (2 ^ 32 - 1) in
      let off := w / 2 ^ 32 in
      Some (wrap (user - off), stored, wrap (stored - off))
  end.

(* base_alloc_global.c:162-199 *)
Definition set_ac (i : nat) (l : list (option ba)) (b : ba) : list (option ba) := firstn i l ++ Some b :: skipn (S i) l.
Definition umf_ba_global_aligned_alloc (dbg : bool) (g : global) (size alignment : Z) (os : option Z) : option (Z * list event * global) :=
  if size =? 0 then Some (0, [], g)
  else if U64 - 1 - ALLOC_METADATA_SIZE <? size then Some (0, [], g)
  else
    let s1 := size + ALLOC_METADATA_SIZE in
    if (ALLOC_METADATA_SIZE <? alignment) && (U64 - 1 - alignment <? s1) then Some (0, [], g)
    else
      let total := if ALLOC_METADATA_SIZE <? alignment then s1 + alignment else s1 in
      let finish p ev ac :=
        match add_metadata_and_align dbg p total alignment with
        | None => None
        | Some (user, w) => Some (user, ev, Global ac (if user =? 0 then g_meta g else (user - ALLOC_METADATA_SIZE, w) :: g_meta g))
        end in
      let direct := match os with Some p => finish p [OsAlloc p total] (g_ac g) | None => finish 0 [OsFail total] (g_ac g) end in
      let i := ba_size_to_idx total in
      if Z.of_nat NUM_ALLOCATION_CLASSES <=? i then direct
      else
        match nth_error (g_ac g) (Z.to_nat i) with
        | None => None
        | Some None => direct
        | Some (Some b) =>
            match umf_ba_alloc dbg b os with
            | None => None
            | Some (p, ev, b') => finish p ev (set_ac (Z.to_nat i) (g_ac g) b')
            end
        end.
(* base_alloc_global.c:201-203 *)
Definition umf_ba_global_alloc (dbg : bool) (g : global) (size : Z) (os : option Z) := umf_ba_global_aligned_alloc dbg g size ALLOC_METADATA_SIZE os.

(* base_alloc_global.c:205-234, while the allocator exists *)
Definition umf_ba_global_free (dbg : bool) (c : consts) (g : global) (ptr : Z) : option (list event * global) :=
  if ptr =? 0 then Some ([], g)
  else
    match get_original_alloc (g_meta g) ptr with
    | None => None
    | Some (orig, total, _) =>
        let meta := filter (fun x => negb (fst x =? ptr - ALLOC_METADATA_SIZE)) (g_meta g) in
        let direct := Some ([OsFree orig total], Global (g_ac g) meta) in
        let i := ba_size_to_idx total in
        if Z.of_nat NUM_ALLOCATION_CLASSES <=? i then direct
        else
          match nth_error (g_ac g) (Z.to_nat i) with
          | None => None
          | Some None => direct
          | Some (Some b) =>
              match umf_ba_free dbg c b orig with
              | None => None
              | Some b' => Some ([], Global (set_ac (Z.to_nat i) (g_ac g) b') meta)
              end
          end
    end.
(* base_alloc_global.c:236-245 *)
Definition umf_ba_global_malloc_usable_size (g : global) (ptr : Z) : option Z :=
  if ptr =? 0 then Some 0 else match get_original_alloc (g_meta g) ptr with Some (_, _, u) => Some u | None => None end.
