(* Model of the disjoint pool (src/pool/pool_disjoint.c,
   src/pool/pool_disjoint_internal.h).

   Simplifications that hold for the whole file:
   - Each pool call is one atomic step.  (The interleaving of the steps on the
     shared limit is modelled at the end.)
   - A registered slab structure is identified by its mem_ptr: known_slabs is a
     critnib, which refuses a second entry for an address.  The list [p_slabs]
     is that map together with the structures it points to.  critnib_find_le is
     a search of the list (see Properties_Critnib.v).
   - The pool's provider is the tracking provider.  [p_regions] are the tracked
     regions of this pool; they are the only ones around the pool's memory, and
     re-adding a region whose free failed succeeds.
   - Statistics, tracing and poisoning are left out.
   - [dbg]: assert is active.  The outcome None is a failed assert or undefined
     behaviour. *)
From Verif Require Import Base Model_Utils.

(* pool_disjoint.c:62 *)
Definition CutOff : Z := 2 ^ 31.
(* include/umf/pools/pool_disjoint.h  UMF_DISJOINT_POOL_MIN_BUCKET_DEFAULT_SIZE *)
Definition MIN_BUCKET_DEFAULT_SIZE : Z := 8.
(* pool_disjoint_internal.h:18 *)
Definition CHUNK_BITMAP_SIZE : Z := 64.

(* pool_disjoint_internal.h:108-136 (shared_limits->max_size in place of the
   pointer, SIZE_MAX if none was given) and provider_min_page_size *)
Record params := Params { slab_min_size : Z; max_poolable_size : Z; capacity : Z; min_bucket_size : Z; max_size : Z; page_size : Z }.
(* pool_disjoint_internal.h:77-101; s_bucket: index of the bucket *)
Record slab := Slab { s_mem : Z; s_size : Z; s_total : Z; s_alloc : Z; s_bucket : nat; s_chunks : list Z }.
(* pool_disjoint_internal.h:25-69; the lists hold the mem_ptr of the slabs, head first *)
Record bucket := Bucket { b_size : Z; b_avail : list Z; b_unavail : list Z; b_inpool : Z }.
(* pool_disjoint_internal.h:138-160; p_total: shared_limits->total_size *)
Record pool := Pool { p_slabs : list slab; p_buckets : list bucket; p_total : Z; p_regions : list (Z * Z) }.

(* what the provider is asked to do *)
Inductive event :=
| PAlloc (p size align : Z)
| PAllocFail (size align : Z)
| PFree (p size : Z) (r : result).

(* ---- initialisation, pool_disjoint.c:573-694 ---- *)
(* 604-613 *)
Definition first_bucket_size (P : params) : Z := utils_max (utils_min (min_bucket_size P) CutOff) MIN_BUCKET_DEFAULT_SIZE.
(* 622-651; the table built by the loop.  The loop ends before the fuel does:
   Size2 doubles and starts above 0. *)
Fixpoint bucket_sizes (fuel : nat) (size1 size2 : Z) : list Z :=
  match fuel with
  | O => []
  | S f => if size2 <? CutOff then size1 :: size2 :: bucket_sizes f (size1 * 2) (size2 * 2) else [CutOff]
  end.
Definition bucket_table (P : params) : list Z :=
  let s1 := first_bucket_size P in bucket_sizes 64 s1 (s1 + s1 / 2).
Definition min_bucket_size_exp (P : params) : Z := utils_msb64 (first_bucket_size P).
(* [mem]: all allocations succeed *)
Definition disjoint_pool_initialize (P : params) (mem : bool) : result * option pool :=
  if (min_bucket_size P =? 0) || negb (IS_POWER_OF_2 (min_bucket_size P)) then (ERR_INVALID_ARGUMENT, None)
  else if negb mem then (ERR_OUT_OF_HOST_MEMORY, None)
  else (SUCCESS, Some (Pool [] (map (fun n => Bucket n [] [] 0) (bucket_table P)) 0 [])).

(* ---- size classes, pool_disjoint.c:448-486 ---- *)
Definition size_to_idx (dbg : bool) (P : params) (size : Z) : option nat :=
  if dbg && ((CutOff <? size) || (size =? 0)) then None
  else if size <? 2 ^ min_bucket_size_exp P then Some O
  else
    let position := utils_msb64 size in
    let is_power_of_2 := IS_POWER_OF_2 size in
    let larger := negb is_power_of_2 && negb (Z.land (size - 1) (2 ^ (position - 1)) =? 0) in
    Some (Z.to_nat ((position - min_bucket_size_exp P) * 2 + (if is_power_of_2 then 0 else 1) + (if larger then 1 else 0))).
(* the index is used without a bounds check *)
Definition disjoint_pool_find_bucket (dbg : bool) (P : params) (s : pool) (size : Z) : option (nat * bucket) :=
  match size_to_idx dbg P size with
  | Some i => match nth_error (p_buckets s) i with Some b => Some (i, b) | None => None end
  | None => None
  end.

(* ---- chunks of a slab ---- *)
(* utils_math.h:59-63: number of trailing zeros of a non-zero word *)
Fixpoint pos_ctz (p : positive) : Z := match p with xO q => 1 + pos_ctz q | _ => 0 end.
Definition utils_lsb64 (w : Z) : Z := match w with Zpos p => pos_ctz p | _ => 0 end.

(* pool_disjoint_internal.h:164-174, 174-180; the callers check the range *)
Definition word (ws : list Z) (i : Z) : Z := nth (Z.to_nat (i / CHUNK_BITMAP_SIZE)) ws 0.
Fixpoint set_word (n : nat) (ws : list Z) (w : Z) : list Z :=
  match ws, n with
  | [], _ => []
  | _ :: r, O => w :: r
  | x :: r, S m => x :: set_word m r w
  end.
Definition slab_set_chunk_bit (ws : list Z) (i : Z) (v : bool) : list Z :=
  let m := 2 ^ (i mod CHUNK_BITMAP_SIZE) in
  set_word (Z.to_nat (i / CHUNK_BITMAP_SIZE)) ws (if v then Z.lor (word ws i) m else Z.land (word ws i) (wnot m)).
Definition slab_read_chunk_bit (ws : list Z) (i : Z) : bool := Z.testbit (word ws i) (i mod CHUNK_BITMAP_SIZE).

(* pool_disjoint.c:147-160 *)
Fixpoint slab_find_first_available_chunk_idx (ws : list Z) (i : Z) : option Z :=
  match ws with
  | [] => None
  | w :: r => if negb (w =? 0) then Some (i * CHUNK_BITMAP_SIZE + utils_lsb64 w) else slab_find_first_available_chunk_idx r (i + 1)
  end.

(* pool_disjoint.c:64-70, 78-79, 82-83, 102-109 *)
Definition bucket_slab_alloc_size (P : params) (bsize : Z) : Z := utils_max bsize (slab_min_size P).
Definition num_chunks_total (P : params) (bsize : Z) : Z := utils_max (slab_min_size P / bsize) 1.
Definition new_chunks (total : Z) : list Z :=
  let num_words := (total + CHUNK_BITMAP_SIZE - 1) / CHUNK_BITMAP_SIZE in
  let all := repeat (U64 - 1) (Z.to_nat num_words) in
  if total mod CHUNK_BITMAP_SIZE =? 0 then all
  else set_word (Z.to_nat (num_words - 1)) all (2 ^ (total mod CHUNK_BITMAP_SIZE) - 1).

(* ---- lookup and update of the state ---- *)
Definition slab_at (s : pool) (x : Z) : option slab := find (fun sl => s_mem sl =? x) (p_slabs s).
Definition set_slab (sl : slab) (l : list slab) : list slab := map (fun y => if s_mem y =? s_mem sl then sl else y) l.
Fixpoint set_nth {A} (n : nat) (l : list A) (x : A) : list A :=
  match l, n with
  | [], _ => []
  | _ :: r, O => x :: r
  | y :: r, S m => y :: set_nth m r x
  end.
(* DL_DELETE *)
Definition dl_delete (x : Z) (l : list Z) : list Z := filter (fun y => negb (y =? x)) l.
(* critnib_find_le(known_slabs, ptr) *)
Fixpoint find_le (l : list slab) (ptr : Z) : option slab :=
  match l with
  | [] => None
  | y :: r =>
      match find_le r ptr with
      | Some z => if (s_mem y <=? ptr) && (s_mem z <? s_mem y) then Some y else Some z
      | None => if s_mem y <=? ptr then Some y else None
      end
  end.
(* pool_disjoint.c:178-181 *)
Definition slab_get_end (P : params) (sl : slab) : Z := wrap (s_mem sl + slab_min_size P).

(* answers for one allocation: slab structure, provider, critnib leaf, and the
   provider's answer to a free if the slab cannot be registered *)
Record alloc_oracle := AllocOracle { ao_slab : bool; ao_up : result * Z; ao_leaf : bool; ao_undo : result }.

(* umfMemoryProviderAlloc / Free on the tracking provider *)
Definition provider_alloc (s : pool) (size align : Z) (up : result * Z) : result * Z * list event * pool :=
  match up with
  | (SUCCESS, p) => (SUCCESS, p, [PAlloc p size align], Pool (p_slabs s) (p_buckets s) (p_total s) ((p, size) :: p_regions s))
  | (r, _) => (r, 0, [PAllocFail size align], s)
  end.
Definition untrack (p : Z) (l : list (Z * Z)) : list (Z * Z) := filter (fun x => negb (fst x =? p)) l.
Definition provider_free (s : pool) (p size : Z) (up : result) : list event * pool :=
  ([PFree p size up],
   match up with SUCCESS => Pool (p_slabs s) (p_buckets s) (p_total s) (untrack p (p_regions s)) | _ => s end).
(* umfMemoryTrackerGetAllocInfo: size of the tracked region around ptr *)
Definition tracked_size (s : pool) (ptr : Z) : option Z :=
  match find (fun x => (fst x <=? ptr) && (ptr <? fst x + snd x)) (p_regions s) with Some (_, n) => Some n | None => None end.

(* ---- allocation ---- *)
(* pool_disjoint.c:72-128, 205-227, 343-363: create_slab, pool_register_slab,
   bucket_create_slab for bucket i.  The address is known already: EEXIST. *)
Definition bucket_create_slab (P : params) (s : pool) (i : nat) (b : bucket) (o : alloc_oracle) : list event * pool :=
  if negb (ao_slab o) then ([], s)
  else
    let size := bucket_slab_alloc_size P (b_size b) in
    let total := num_chunks_total P (b_size b) in
    match provider_alloc s size 0 (ao_up o) with
    | (SUCCESS, p, ev, s1) =>
        let known := match slab_at s1 p with Some _ => true | None => false end in
        if known || negb (ao_leaf o) then
          let (ev2, s2) := provider_free s1 p size (ao_undo o) in (ev ++ ev2, s2)
        else
          (ev, Pool (Slab p size total 0 i (new_chunks total) :: p_slabs s1)
                    (set_nth i (p_buckets s1) (Bucket (b_size b) (p :: b_avail b) (b_unavail b) (b_inpool b)))
                    (p_total s1) (p_regions s1))
    | (_, _, ev, s1) => (ev, s1)
    end.

(* pool_disjoint.c:365-389; the slab is the head of the list afterwards *)
Definition bucket_get_avail_slab (dbg : bool) (P : params) (s : pool) (i : nat) (b : bucket) (o : alloc_oracle) : option (list event * pool) :=
  match b_avail b with
  | [] => Some (bucket_create_slab P s i b o)
  | x :: _ =>
      match slab_at s x with
      | None => None
      | Some sl =>
          if s_alloc sl =? 0 then
            let size := bucket_slab_alloc_size P (b_size b) in
            if dbg && ((b_inpool b <=? 0) || (p_total s <? size)) then None
            else Some ([], Pool (p_slabs s) (set_nth i (p_buckets s) (Bucket (b_size b) (b_avail b) (b_unavail b) (wrap (b_inpool b - 1))))
                                (wrap (p_total s - size)) (p_regions s))
          else Some ([], s)
      end
  end.

(* pool_disjoint.c:162-175 *)
Definition slab_get_chunk (bsize : Z) (sl : slab) : option (Z * slab) :=
  match slab_find_first_available_chunk_idx (s_chunks sl) 0 with
  | None => None
  | Some idx => Some (wrap (s_mem sl + idx * bsize),
                      Slab (s_mem sl) (s_size sl) (s_total sl) (s_alloc sl + 1) (s_bucket sl) (slab_set_chunk_bit (s_chunks sl) idx false))
  end.

(* pool_disjoint.c:320-338; address 0: no memory *)
Definition bucket_get_free_chunk (dbg : bool) (P : params) (s : pool) (i : nat) (b : bucket) (o : alloc_oracle) : option (Z * list event * pool) :=
  match bucket_get_avail_slab dbg P s i b o with
  | None => None
  | Some (ev, s1) =>
      match nth_error (p_buckets s1) i with
      | None => None
      | Some b1 =>
          match b_avail b1 with
          | [] => Some (0, ev, s1)
          | x :: _ =>
              match slab_at s1 x with
              | None => None
              | Some sl =>
                  match slab_get_chunk (b_size b1) sl with
                  | None => None
                  | Some (ptr, sl') =>
                      let b2 := if s_alloc sl' <? s_total sl' then b1
                                else Bucket (b_size b1) (dl_delete x (b_avail b1)) (x :: b_unavail b1) (b_inpool b1) in
                      Some (ptr, ev, Pool (set_slab sl' (p_slabs s1)) (set_nth i (p_buckets s1) b2) (p_total s1) (p_regions s1))
                  end
              end
          end
      end
  end.

Record reply := Reply { r_res : result; r_ptr : Z; r_ev : list event; r_st : pool }.

(* the result stands for TLS_last_allocation_error; it is not set by a request
   for 0 bytes *)
Definition direct_alloc (s : pool) (size align : Z) (o : alloc_oracle) : reply :=
  match provider_alloc s size align (ao_up o) with
  | (SUCCESS, p, ev, s1) => Reply SUCCESS p ev s1
  | (r, _, ev, s1) => Reply r 0 ev s1
  end.
(* pool_disjoint.c:520-571, 696-701 *)
Definition disjoint_pool_malloc (dbg : bool) (P : params) (s : pool) (size : Z) (o : alloc_oracle) : option reply :=
  if size =? 0 then Some (Reply SUCCESS 0 [] s)
  else if max_poolable_size P <? size then Some (direct_alloc s size 0 o)
  else
    match disjoint_pool_find_bucket dbg P s size with
    | None => None
    | Some (i, b) =>
        match bucket_get_free_chunk dbg P s i b o with
        | None => None
        | Some (ptr, ev, s1) => Some (Reply (if ptr =? 0 then ERR_OUT_OF_HOST_MEMORY else SUCCESS) ptr ev s1)
        end
    end.

(* pool_disjoint.c:727-741 *)
Definition aligned_request (P : params) (size align : Z) : Z :=
  if align <=? page_size P then (if 1 <? size then ALIGN_UP_SAFE size align else align)
  else wrap (wrap (size + align) - 1).
(* pool_disjoint.c:715-793 *)
Definition disjoint_pool_aligned_malloc (dbg : bool) (P : params) (s : pool) (size align : Z) (o : alloc_oracle) : option reply :=
  if size =? 0 then Some (Reply SUCCESS 0 [] s)
  else if align <=? 1 then disjoint_pool_malloc dbg P s size o
  else
    let n := aligned_request P size align in
    if max_poolable_size P <? n then Some (direct_alloc s size align o)
    else
      match disjoint_pool_find_bucket dbg P s n with
      | None => None
      | Some (i, b) =>
          match bucket_get_free_chunk dbg P s i b o with
          | None => None
          | Some (ptr, ev, s1) =>
              if ptr =? 0 then Some (Reply ERR_OUT_OF_HOST_MEMORY 0 ev s1)
              else Some (Reply SUCCESS (ALIGN_UP_SAFE ptr align) ev s1)
          end
      end.

(* ---- lookups by pointer and free ---- *)
(* pool_disjoint.c:841-844 and 811-813: the slab of a pointer, if the code thinks it has one *)
Definition slab_of (P : params) (s : pool) (ptr : Z) : option slab :=
  match find_le (p_slabs s) ptr with
  | Some sl => if slab_get_end P sl <=? ptr then None else Some sl
  | None => None
  end.
Definition size_of_bucket (s : pool) (i : nat) : option Z :=
  match nth_error (p_buckets s) i with Some b => Some (b_size b) | None => None end.
(* pool_disjoint.c:796-802 *)
Definition get_chunk_idx (bsize ptr : Z) (sl : slab) : Z := wrap (ptr - s_mem sl) / bsize.

(* pool_disjoint.c:804-831 *)
Definition disjoint_pool_malloc_usable_size (P : params) (s : pool) (ptr : Z) : Z :=
  if ptr =? 0 then 0
  else
    match slab_of P s ptr with
    | None => match tracked_size s ptr with Some n => n | None => 0 end
    | Some sl =>
        match size_of_bucket s (s_bucket sl) with
        | None => 0
        | Some bsize => wrap (bsize - wrap (ptr - wrap (s_mem sl + get_chunk_idx bsize ptr sl * bsize)))
        end
    end.

(* pool_disjoint.c:340-342, 391-399 *)
Definition bucket_max_pooled_slabs (P : params) (bsize : Z) : Z := if bsize <=? slab_min_size P / 2 then 1 else capacity P.
(* pool_disjoint.c:420-446: keep the slab?, total_size, chunked_slabs_in_pool *)
Definition bucket_can_pool (dbg : bool) (P : params) (bsize inpool total : Z) : bool * Z * Z :=
  if wrap (inpool + 1) <=? bucket_max_pooled_slabs P bsize then
    let add := bucket_slab_alloc_size P bsize in
    if wrap (total + add) <=? max_size P then (true, wrap (total + add), wrap (inpool + 1))
    else (false, wrap (wrap (total + add) - add), inpool)
  else (false, total, inpool).

(* pool_disjoint.c:183-199; ptr is the start of chunk idx *)
Definition slab_free_chunk (dbg : bool) (sl : slab) (idx : Z) : option slab :=
  if s_total sl <=? idx then None
  else if dbg && slab_read_chunk_bit (s_chunks sl) idx then None
  else Some (Slab (s_mem sl) (s_size sl) (s_total sl) (wrap (s_alloc sl - 1)) (s_bucket sl) (slab_set_chunk_bit (s_chunks sl) idx true)).

(* pool_disjoint.c:282-317 with destroy_slab 130-145; [up]: the provider's
   answer if the slab is given back (it is ignored) *)
Definition bucket_free_chunk (dbg : bool) (P : params) (s : pool) (sl : slab) (b : bucket) (idx : Z) (up : result) : option (list event * pool) :=
  match slab_free_chunk dbg sl idx with
  | None => None
  | Some sl' =>
      let i := s_bucket sl in
      let x := s_mem sl in
      let slabs := set_slab sl' (p_slabs s) in
      let was_full := wrap (s_total sl' - s_alloc sl') =? 1 in
      if was_full && negb (existsb (Z.eqb x) (b_unavail b)) then None
      else
        let b1 := if was_full then Bucket (b_size b) (x :: b_avail b) (dl_delete x (b_unavail b)) (b_inpool b) else b in
        if s_alloc sl' =? 0 then
          match bucket_can_pool dbg P (b_size b) (b_inpool b) (p_total s) with
          | (true, total, inpool) =>
              Some ([], Pool slabs (set_nth i (p_buckets s) (Bucket (b_size b1) (b_avail b1) (b_unavail b1) inpool)) total (p_regions s))
          | (false, total, inpool) =>
              let s1 := Pool (filter (fun y => negb (s_mem y =? x)) slabs)
                             (set_nth i (p_buckets s) (Bucket (b_size b1) (dl_delete x (b_avail b1)) (b_unavail b1) inpool)) total (p_regions s) in
              Some (provider_free s1 x (s_size sl') up)
          end
        else Some ([], Pool slabs (set_nth i (p_buckets s) b1) (p_total s) (p_regions s))
  end.

(* pool_disjoint.c:833-905 *)
Definition disjoint_pool_free (dbg : bool) (P : params) (s : pool) (ptr : Z) (up : result) : option reply :=
  if ptr =? 0 then Some (Reply SUCCESS 0 [] s)
  else
    match slab_of P s ptr with
    | None =>
        match tracked_size s ptr with
        | None => Some (Reply ERR_INVALID_ARGUMENT 0 [] s)
        | Some n => let (ev, s1) := provider_free s ptr n up in Some (Reply up 0 ev s1)
        end
    | Some sl =>
        match nth_error (p_buckets s) (s_bucket sl) with
        | None => None
        | Some b =>
            match bucket_free_chunk dbg P s sl b (get_chunk_idx (b_size b) ptr sl) up with
            | None => None
            | Some (ev, s1) => Some (Reply SUCCESS 0 ev s1)
            end
        end
    end.

(* pool_disjoint.c:260-275, 913-932: the slabs that are given back, in order;
   the provider's answers are ignored *)
Definition disjoint_pool_finalize (s : pool) : list Z := concat (map (fun b => b_avail b ++ b_unavail b) (p_buckets s)).
Definition destroyed (s : pool) (up : Z -> result) : list event :=
  concat (map (fun x => match slab_at s x with Some sl => [PFree x (s_size sl) (up x)] | None => [] end) (disjoint_pool_finalize s)).

Inductive call :=
| CMalloc (size : Z) (o : alloc_oracle)
| CAligned (size align : Z) (o : alloc_oracle)
| CFree (ptr : Z) (up : result)
| COthers (delta : Z). (* other pools that share the limit add or remove memory *)
Definition step (dbg : bool) (P : params) (s : pool) (c : call) : option reply :=
  match c with
  | CMalloc size o => disjoint_pool_malloc dbg P s size o
  | CAligned size align o => disjoint_pool_aligned_malloc dbg P s size align o
  | CFree ptr up => disjoint_pool_free dbg P s ptr up
  | COthers d => Some (Reply SUCCESS 0 [] (Pool (p_slabs s) (p_buckets s) (wrap (p_total s + d)) (p_regions s)))
  end.

(* ---- the shared limit under concurrency ----
   Any number of buckets, of any number of pools, share one limit.  Each bucket
   has its lock; [k_pending] is the value fetched by the thread that holds it
   between the fetch-and-add of bucket_can_pool (pool_disjoint.c:429-430) and
   the decision (432-441).  Slabs of the bucket have size [k_size]. *)
Record lbucket := LBucket { k_size : Z; k_max : Z; k_inpool : Z; k_pending : option Z }.
Inductive lstep (max : Z) : Z * list lbucket -> Z * list lbucket -> Prop :=
| l_reserve : forall total l1 b l2, k_pending b = None -> wrap (k_inpool b + 1) <= k_max b ->
    lstep max (total, l1 ++ b :: l2) (wrap (total + k_size b), l1 ++ LBucket (k_size b) (k_max b) (k_inpool b) (Some total) :: l2)
| l_keep : forall total l1 b l2 prev, k_pending b = Some prev -> wrap (prev + k_size b) <= max ->
    lstep max (total, l1 ++ b :: l2) (total, l1 ++ LBucket (k_size b) (k_max b) (wrap (k_inpool b + 1)) None :: l2)
| l_rollback : forall total l1 b l2 prev, k_pending b = Some prev -> max < wrap (prev + k_size b) ->
    lstep max (total, l1 ++ b :: l2) (wrap (total - k_size b), l1 ++ LBucket (k_size b) (k_max b) (k_inpool b) None :: l2)
(* bucket_get_avail_slab, pool_disjoint.c:375-385 *)
| l_take : forall total l1 b l2, k_pending b = None -> 0 < k_inpool b ->
    lstep max (total, l1 ++ b :: l2) (wrap (total - k_size b), l1 ++ LBucket (k_size b) (k_max b) (wrap (k_inpool b - 1)) None :: l2)
(* a pool is created; a pool is destroyed: destroy_bucket (pool_disjoint.c:260-275)
   gives the slabs back but leaves total_size alone *)
| l_create : forall total l size cap, lstep max (total, l) (total, LBucket size cap 0 None :: l)
| l_destroy : forall total l1 b l2, k_pending b = None -> lstep max (total, l1 ++ b :: l2) (total, l1 ++ l2).
