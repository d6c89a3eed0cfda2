(* Model of the coarse allocator (src/coarse/coarse.c): the block bookkeeping
   shared by the fixed, devdax and file memory providers.

   Simplifications that hold for the whole file:
   - The two ravl trees appear as what C11 proves a ravl tree to be: an ordered
     set.  [all_blocks] is the list of blocks in ascending address order;
     [free_blocks] is the list of (size, addresses) in ascending size order,
     where the addresses are the elements of the intrusive list of that size
     class, head first.
   - A block_t is identified by its [data] address, which is its key in
     all_blocks and never changes.  [b_listed] is "free_list_ptr != NULL".
   - The lock is not modelled: each API call is one atomic step (every call
     holds coarse->lock for its whole body; coarse_add_memory_* takes it twice,
     once for the insertion and once in coarse_free).
   - umf_ba_global_alloc results, callback results and the indeterminate value
     of the uninitialised field block_t.used are oracle inputs of each call.
   - [dbg] = true models a build without NDEBUG: assert() failures end the call
     with None.  [dbg] = false models a release build.  None is also the
     outcome of dereferencing NULL, in both builds. *)
From Verif Require Import Base Model_Utils.

(* coarse.h:36-53  coarse_strategy_t *)
Inductive strategy := FASTEST_BUT_ONE | FASTEST | CHECK_ALL_SIZE.

(* coarse.c:67-75  block_t *)
Record block := Block { b_data : Z; b_size : Z; b_used : bool; b_listed : bool }.

(* coarse.c:32-58  coarse_t (provider handle and lock left out; of the
   callbacks only whether the optional ones are set is kept). *)
Record coarse := Coarse {
  page_size : Z; strat : strategy; has_alloc : bool; has_free : bool;
  all_blocks : list block; free_blocks : list (Z * list Z);
  used_size : Z; alloc_size : Z }.

Definition set_all c l :=
  Coarse (page_size c) (strat c) (has_alloc c) (has_free c) l (free_blocks c) (used_size c) (alloc_size c).
Definition set_free c f :=
  Coarse (page_size c) (strat c) (has_alloc c) (has_free c) (all_blocks c) f (used_size c) (alloc_size c).
Definition set_used c u :=
  Coarse (page_size c) (strat c) (has_alloc c) (has_free c) (all_blocks c) (free_blocks c) u (alloc_size c).
Definition set_alloc c a :=
  Coarse (page_size c) (strat c) (has_alloc c) (has_free c) (all_blocks c) (free_blocks c) (used_size c) a.

(* Calls made to the provider's callbacks, in order. *)
Inductive event :=
| EvAlloc (size align : Z) (r : result) (p : Z)
| EvFree (p size : Z)
| EvSplit (p total first : Z) (r : result)
| EvMerge (lo hi total : Z) (r : result).

Notation "'do' x <- e ; k" := (match e with Some x => k | None => None end)
  (at level 200, x pattern, e at level 100, k at level 200).

(* ---- ordered-set operations on all_blocks (key: b_data) ---- *)
(* ravl_find EQUAL, coarse.c:193-196 *)
Definition find_block (l : list block) (p : Z) : option block :=
  find (fun b => b_data b =? p) l.
(* ravl_emplace_copy of a key that is not present *)
Fixpoint insert_block (l : list block) (n : block) : list block :=
  match l with
  | [] => [n]
  | b :: r => if b_data n <? b_data b then n :: l else b :: insert_block r n
  end.
(* assignment to fields of the block at p *)
Definition update_block (l : list block) (p : Z) (f : block -> block) : list block :=
  map (fun b => if b_data b =? p then f b else b) l.
(* ravl_remove, coarse.c:199-213 *)
Definition remove_block (l : list block) (p : Z) : list block :=
  filter (fun b => negb (b_data b =? p)) l.
(* ravl_node_predecessor / successor, coarse.c:125-131 *)
Fixpoint prev_block (l : list block) (p : Z) : option Z :=
  match l with
  | [] => None
  | b :: r => if b_data b <? p
              then match prev_block r p with Some q => Some q | None => Some (b_data b) end
              else None
  end.
Fixpoint next_block (l : list block) (p : Z) : option Z :=
  match l with
  | [] => None
  | b :: r => if p <? b_data b then Some (b_data b) else next_block r p
  end.

Definition with_size (s : Z) (b : block) := Block (b_data b) s (b_used b) (b_listed b).
Definition with_used (u : bool) (b : block) := Block (b_data b) (b_size b) u (b_listed b).
Definition with_listed (i : bool) (b : block) := Block (b_data b) (b_size b) (b_used b) i.
Definition upd c p f := set_all c (update_block (all_blocks c) p f).

(* ---- ordered-set operations on free_blocks (key: size) ---- *)
Fixpoint class_find (fr : list (Z * list Z)) (s : Z) : option (list Z) :=
  match fr with
  | [] => None
  | (k, l) :: r => if k =? s then Some l else class_find r s
  end.
(* ravl_find GREATER_EQUAL *)
Fixpoint class_ge (fr : list (Z * list Z)) (s : Z) : option (Z * list Z) :=
  match fr with
  | [] => None
  | (k, l) :: r => if s <=? k then Some (k, l) else class_ge r s
  end.
(* insertion of a new key, or assignment to head_node->head of a present one *)
Fixpoint class_put (fr : list (Z * list Z)) (s : Z) (l : list Z) : list (Z * list Z) :=
  match fr with
  | [] => [(s, l)]
  | (k, l0) :: r => if k =? s then (s, l) :: r
                    else if s <? k then (s, l) :: fr else (k, l0) :: class_put r s l
  end.
Definition class_del (fr : list (Z * list Z)) (s : Z) : list (Z * list Z) :=
  filter (fun e => negb (fst e =? s)) fr.
(* "if (head_node->head == NULL) remove the head", coarse.c:387-390, 417-420 *)
Definition class_set (fr : list (Z * list Z)) (s : Z) (l : list Z) : list (Z * list Z) :=
  match l with [] => class_del fr s | _ => class_put fr s l end.

Fixpoint remove_first (l : list Z) (p : Z) : list Z :=
  match l with [] => [] | a :: r => if a =? p then r else a :: remove_first r p end.

Section Build.
Variable dbg : bool.

Definition assert_fails (cond : bool) : bool := dbg && negb cond.

(* coarse.c:158-190  coarse_ravl_add_new.  [ok] = both umf_ba_global_alloc
   calls (block and tree node) succeed; [junk] = indeterminate initial value of
   block->used.  Second component: the new tree, None = NULL returned (out of
   memory, or ravl_emplace_copy found the key already present). *)
Definition coarse_ravl_add_new (l : list block) (data size : Z) (ok junk : bool)
  : option (option (list block)) :=
  let dup := match find_block l data with Some _ => true | None => false end in
  if assert_fails (negb (data =? 0)) || assert_fails (negb (size =? 0)) then None
  else if negb ok then Some None
  else if assert_fails (negb dup) then None
  else if dup then Some None
  else Some (Some (insert_block l (Block data size junk false))).

(* Results of the (up to three) allocations inside free_blocks_add: head node
   (with its tree node) and list element. *)
Record add_oracle := AddOracle { o_head : bool; o_elem : bool }.

(* coarse.c:319-355  free_blocks_add (with node_list_add, 220-240).  Returns
   whether it succeeded.  When the element allocation fails a new, empty head
   stays in the tree. *)
Definition free_blocks_add (c : coarse) (p : Z) (o : add_oracle) : option (bool * coarse) :=
  do b <- find_block (all_blocks c) p;
  match class_find (free_blocks c) (b_size b) with
  | Some l =>
      if o_elem o
      then Some (true, upd (set_free c (class_put (free_blocks c) (b_size b) (p :: l))) p (with_listed true))
      else Some (false, upd c p (with_listed false))
  | None =>
      if negb (o_head o) then Some (false, c)
      else if o_elem o
      then Some (true, upd (set_free c (class_put (free_blocks c) (b_size b) [p])) p (with_listed true))
      else Some (false, upd (set_free c (class_put (free_blocks c) (b_size b) [])) p (with_listed false))
  end.

(* coarse.c:272-294  node_list_rm_first: (removed element, remaining list) *)
Definition node_list_rm_first (l : list Z) (alignment : Z) : option (option Z * list Z) :=
  match l with
  | [] => None (* NULL dereference *)
  | a :: r => if IS_NOT_ALIGNED a alignment then Some (None, l) else Some (Some a, r)
  end.

(* coarse.c:297-312  node_list_rm_with_alignment *)
Fixpoint rm_with_alignment_loop (l : list Z) (alignment : Z) : option Z * list Z :=
  match l with
  | [] => (None, [])
  | a :: r => if IS_ALIGNED a alignment then (Some a, r)
              else let '(x, r') := rm_with_alignment_loop r alignment in (x, a :: r')
  end.
Definition node_list_rm_with_alignment (l : list Z) (alignment : Z) : option (option Z * list Z) :=
  match l with
  | [] => if dbg then None else Some (None, [])
  | _ => Some (rm_with_alignment_loop l alignment)
  end.

(* coarse.c:62-65 *)
Inductive check_t := CHECK_ONLY_THE_FIRST_BLOCK | CHECK_ALL_BLOCKS_OF_SIZE.

(* coarse.c:360-393  free_blocks_rm_ge *)
Definition free_blocks_rm_ge (c : coarse) (size alignment : Z) (ck : check_t)
  : option (option Z * coarse) :=
  match class_ge (free_blocks c) size with
  | None => Some (None, c)
  | Some (k, l) =>
      do (x, l') <- match ck with
                    | CHECK_ONLY_THE_FIRST_BLOCK => node_list_rm_first l alignment
                    | CHECK_ALL_BLOCKS_OF_SIZE => node_list_rm_with_alignment l alignment
                    end;
      let c1 := set_free c (class_set (free_blocks c) k l') in
      Some (x, match x with Some p => upd c1 p (with_listed false) | None => c1 end)
  end.

(* coarse.c:398-423  free_blocks_rm_node (with node_list_rm, 243-269) for the
   list element of the block at p *)
Definition free_blocks_rm_node (c : coarse) (p : Z) : option coarse :=
  do b <- find_block (all_blocks c) p;
  do l <- class_find (free_blocks c) (b_size b);
  match l with
  | [] => None
  | _ => Some (upd (set_free c (class_set (free_blocks c) (b_size b) (remove_first l p))) p (with_listed false))
  end.

(* coarse.c:463-471 *)
Definition unlist (c : coarse) (p : Z) : option coarse :=
  do b <- find_block (all_blocks c) p;
  if b_listed b then free_blocks_rm_node c p else Some c.

(* coarse.c:426-484  user_block_merge of the blocks at p1 and p2; [m] is the
   merge callback's answer. *)
Definition user_block_merge (c : coarse) (p1 p2 : Z) (used : bool) (m : result)
  : option (result * coarse * list event) :=
  do b1 <- find_block (all_blocks c) p1;
  do b2 <- find_block (all_blocks c) p2;
  if assert_fails (p1 <? p2) then None
  else
  let same_used := Bool.eqb (b_used b1) used && Bool.eqb (b_used b2) used in
  let contiguous := wrap (b_data b1 + b_size b1) =? b_data b2 in
  if negb (same_used && contiguous) then Some (ERR_INVALID_ARGUMENT, c, [])
  else
  let total := wrap (b_size b1 + b_size b2) in
  let ev := [EvMerge p1 p2 total m] in
  match m with
  | SUCCESS =>
      do c1 <- unlist c p1;
      do c2 <- unlist c1 p2;
      Some (SUCCESS,
            set_all c2 (remove_block (update_block (all_blocks c2) p1 (with_size total)) p2), ev)
  | e => Some (e, c, ev)
  end.

(* coarse.c:489-506  free_block_merge_with_prev: address of the resulting block *)
Definition free_block_merge_with_prev (c : coarse) (p : Z) (m : result)
  : option (Z * coarse * list event) :=
  match prev_block (all_blocks c) p with
  | None => Some (p, c, [])
  | Some q =>
      do (r, c', ev) <- user_block_merge c q p false m;
      match r with SUCCESS => Some (q, c', ev) | _ => Some (p, c', ev) end
  end.

(* coarse.c:511-528  free_block_merge_with_next *)
Definition free_block_merge_with_next (c : coarse) (p : Z) (m : result)
  : option (Z * coarse * list event) :=
  match next_block (all_blocks c) p with
  | None => Some (p, c, [])
  | Some q =>
      do (r, c', ev) <- user_block_merge c p q false m;
      Some (p, c', ev)
  end.

(* Answers used when a block is put back: both merge callbacks and the
   allocations of free_blocks_add. *)
Record back_oracle := BackOracle { o_prev : result; o_next : result; o_back : add_oracle }.

(* coarse.c:801-812  free_blocks_re_add; also the tail of coarse_free,
   coarse.c:1193-1197 *)
Definition free_blocks_re_add (c : coarse) (p : Z) (o : back_oracle)
  : option (bool * coarse * list event) :=
  do (q, c1, ev1) <- free_block_merge_with_prev c p (o_prev o);
  do (q', c2, ev2) <- free_block_merge_with_next c1 q (o_next o);
  do (ok, c3) <- free_blocks_add c2 q' (o_back o);
  Some (ok, c3, ev1 ++ ev2).

(* coarse.c:814-856  coarse_get_stats_no_lock; None = the assert of
   ravl_cb_count_free on an empty head (debug build) *)
Record stats := Stats { s_alloc : Z; s_used : Z; s_all : Z; s_free : Z }.
Definition count_free (fr : list (Z * list Z)) : Z :=
  fold_right (fun e n => Z.of_nat (length (snd e)) + n) 0 fr.
Definition get_stats (c : coarse) : stats :=
  Stats (alloc_size c) (used_size c) (Z.of_nat (length (all_blocks c))) (count_free (free_blocks c)).

(* coarse.c:540-584  debug_verify_all_blocks_cb, order and overlap part *)
Fixpoint verify_blocks (l : list block) : bool :=
  match l with
  | [] => true
  | b :: r =>
      negb (b_data b =? 0) && (b_size b >? 0)
      && match r with
         | [] => true
         | n :: _ => (b_data b <? b_data n) && (wrap (b_data b + b_size b) <=? b_data n)
         end
      && verify_blocks r
  end.
Definition sum_sizes (l : list block) : Z := fold_right (fun b n => b_size b + n) 0 l.

(* coarse.c:589-608  debug_check *)
Definition debug_check (c : coarse) : bool :=
  forallb (fun e => match snd e with [] => false | _ => true end) (free_blocks c)
  && verify_blocks (all_blocks c)
  && (Z.of_nat (length (filter (fun b => negb (b_used b)) (all_blocks c))) =? count_free (free_blocks c))
  && (wrap (sum_sizes (filter b_used (all_blocks c))) =? used_size c)
  && (wrap (sum_sizes (all_blocks c)) =? alloc_size c)
  && (used_size c <=? alloc_size c).
Definition check (c : coarse) : bool := assert_fails (debug_check c).

(* coarse.c:611-624  coarse_add_used_block *)
Definition coarse_add_used_block (c : coarse) (addr size : Z) (ok : bool) : option (result * coarse) :=
  do l <- coarse_ravl_add_new (all_blocks c) addr size ok true;
  match l with
  | None => Some (ERR_OUT_OF_HOST_MEMORY, c)
  | Some l => Some (SUCCESS, set_used (set_alloc (set_all c l) (wrap (alloc_size c + size))) (wrap (used_size c + size)))
  end.

(* Everything the environment decides during one coarse_alloc. *)
Record alloc_oracle := AllocOracle {
  o_split1 : result; o_new1 : bool; o_junk : bool; o_add1 : add_oracle; (* create_aligned_block *)
  o_split2 : result; o_new2 : bool; o_add2 : add_oracle;                (* split_current_block *)
  o_re : back_oracle;                                                   (* free_blocks_re_add *)
  o_cb : result * Z; o_newb : bool }.                                   (* alloc callback, new block *)

(* coarse.c:672-712  create_aligned_block for the block at p; returns the block
   to continue with *)
Definition create_aligned_block (c : coarse) (size alignment p : Z) (o : alloc_oracle)
  : option (result * Z * coarse * list event) :=
  do b <- find_block (all_blocks c) p;
  let aligned := ALIGN_UP p alignment in
  let padding := wrap (aligned - p) in
  if (alignment >? 0) && (padding >? 0) then
    let ev := [EvSplit p (b_size b) padding (o_split1 o)] in
    match o_split1 o with
    | SUCCESS =>
        do nl <- coarse_ravl_add_new (all_blocks c) (wrap (p + padding)) (wrap (b_size b - padding)) (o_new1 o) (o_junk o);
        match nl with
        | None => Some (ERR_OUT_OF_HOST_MEMORY, p, c, ev)
        | Some l =>
            let c1 := upd (set_all c l) p (fun b => with_size padding (with_used false b)) in
            do (ok, c2) <- free_blocks_add c1 p (o_add1 o);
            if negb ok then Some (ERR_OUT_OF_HOST_MEMORY, p, c2, ev)
            else if assert_fails (size <=? wrap (b_size b - padding)) then None
            else Some (SUCCESS, wrap (p + padding), c2, ev)
        end
    | e => Some (e, p, c, ev)
    end
  else Some (SUCCESS, p, c, []).

(* coarse.c:715-741  split_current_block.  The new block's used flag is set
   before anything reads it, so no indeterminate value is involved. *)
Definition split_current_block (c : coarse) (p size : Z) (o : alloc_oracle)
  : option (result * coarse * list event) :=
  do b <- find_block (all_blocks c) p;
  let ev := [EvSplit p (b_size b) size (o_split2 o)] in
  match o_split2 o with
  | SUCCESS =>
      do nl <- coarse_ravl_add_new (all_blocks c) (wrap (p + size)) (wrap (b_size b - size)) (o_new2 o) false;
      match nl with
      | None => Some (ERR_OUT_OF_HOST_MEMORY, c, ev)
      | Some l =>
          do (ok, c2) <- free_blocks_add (set_all c l) (wrap (p + size)) (o_add2 o);
          Some (if ok then SUCCESS else ERR_OUT_OF_HOST_MEMORY, c2, ev)
      end
  | e => Some (e, c, ev)
  end.

(* coarse.c:743-799  find_free_block *)
Definition find_free_block (c : coarse) (size alignment : Z) : option (option Z * coarse) :=
  let new_size := wrap (size + alignment) in
  let fastest c := if new_size <? size then Some (None, c)
                   else free_blocks_rm_ge c new_size 0 CHECK_ONLY_THE_FIRST_BLOCK in
  match strat c with
  | FASTEST => fastest c
  | FASTEST_BUT_ONE =>
      do (x, c') <- free_blocks_rm_ge c size alignment CHECK_ONLY_THE_FIRST_BLOCK;
      match x with Some p => Some (Some p, c') | None => fastest c' end
  | CHECK_ALL_SIZE =>
      do (x, c') <- free_blocks_rm_ge c size alignment CHECK_ALL_BLOCKS_OF_SIZE;
      match x with Some p => Some (Some p, c') | None => fastest c' end
  end.

(* coarse.c:1035-1047  the alignment actually used; None = INVALID_ALIGNMENT.
   page_size is never 0 (coarse.c:875). *)
Definition effective_alignment (page alignment : Z) : option Z :=
  if alignment =? 0 then Some page
  else if negb (Z.land alignment (wrap (alignment - 1)) =? 0)
          || (negb (alignment mod page =? 0) && negb (page mod alignment =? 0)) then None
  else if IS_NOT_ALIGNED alignment page then Some (ALIGN_UP_SAFE alignment page)
  else Some alignment.

(* What a call returns: result code, the value written to *resultPtr (None = not
   written), the callback calls, the new state. *)
Record reply := Reply { r_res : result; r_ptr : option Z; r_ev : list event; r_st : coarse }.
Definition finish (r : reply) : option reply := if check (r_st r) then None else Some r.

(* coarse.c:1070-1108  the part of coarse_alloc after a block was found *)
Definition use_block (c : coarse) (size alignment p : Z) (o : alloc_oracle) : option reply :=
  do b <- find_block (all_blocks c) p;
  let action_split := b_size b >? size in
  if assert_fails (negb (b_used b)) then None
  else
  do (r1, q, c1, ev1) <-
    (if alignment >? 0 then create_aligned_block c size alignment p o else Some (SUCCESS, p, c, []));
  match r1 with
  | SUCCESS =>
      do (r2, c2, ev2) <-
        (if action_split then split_current_block c1 q size o else Some (SUCCESS, c1, []));
      match r2 with
      | SUCCESS =>
          let c3 := if action_split then upd c2 q (with_size size) else c2 in
          finish (Reply SUCCESS (Some q) (ev1 ++ ev2)
                        (set_used (upd c3 q (with_used true)) (wrap (used_size c3 + size))))
      | e =>
          do (_, c3, ev3) <- free_blocks_re_add c2 q (o_re o);
          finish (Reply e None (ev1 ++ ev2 ++ ev3) c3)
      end
  | e =>
      do (_, c3, ev3) <- free_blocks_re_add c1 q (o_re o);
      finish (Reply e None (ev1 ++ ev3) c3)
  end.

(* coarse.c:1110-1145  the part of coarse_alloc when no block was found *)
Definition alloc_more (c : coarse) (size alignment : Z) (o : alloc_oracle) : option reply :=
  if negb (has_alloc c) then finish (Reply ERR_OUT_OF_HOST_MEMORY (Some 0) [] c)
  else
  let '(r, p) := o_cb o in
  let ev := [EvAlloc size alignment r p] in
  match r with
  | SUCCESS =>
      if assert_fails (IS_ALIGNED p alignment) then None
      else
      do (r', c') <- coarse_add_used_block c p size (o_newb o);
      match r' with
      | SUCCESS => finish (Reply SUCCESS (Some p) ev c')
      | e => finish (Reply e (Some p) (ev ++ if has_free c then [EvFree p size] else []) c')
      end
  | e => finish (Reply e (Some p) ev c)
  end.

(* coarse.c:1027-1146  coarse_alloc (NULL handles and lock failures left out).
   curr->size < size cannot be told from "no block" by the C code either. *)
Definition coarse_alloc (c : coarse) (size alignment : Z) (o : alloc_oracle) : option reply :=
  match effective_alignment (page_size c) alignment with
  | None => Some (Reply ERR_INVALID_ALIGNMENT None [] c)
  | Some al =>
      if check c then None
      else
      do (x, c1) <- find_free_block c size al;
      match x with
      | Some p =>
          do b <- find_block (all_blocks c1) p;
          if size <=? b_size b then use_block c1 size al p o else alloc_more c1 size al o
      | None => alloc_more c1 size al o
      end
  end.

(* coarse.c:1148-1207  coarse_free *)
Definition coarse_free (c : coarse) (p bytes : Z) (o : back_oracle) : option reply :=
  if p =? 0 then Some (Reply SUCCESS None [] c)
  else if check c then None
  else
  match find_block (all_blocks c) p with
  | None => Some (Reply ERR_INVALID_ARGUMENT None [] c)
  | Some b =>
      if negb (b_used b) then Some (Reply ERR_INVALID_ARGUMENT None [] c)
      else if (bytes >? 0) && negb (bytes =? b_size b) then Some (Reply ERR_INVALID_ARGUMENT None [] c)
      else if assert_fails (b_size b <=? used_size c) then None
      else
      let c1 := upd (set_used c (wrap (used_size c - b_size b))) p (with_used false) in
      do (ok, c2, ev) <- free_blocks_re_add c1 p o;
      if ok then finish (Reply SUCCESS None ev c2)
      else Some (Reply ERR_OUT_OF_HOST_MEMORY None ev c2)
  end.

(* coarse.c:1209-1285  coarse_merge *)
Definition coarse_merge (c : coarse) (lo hi total : Z) (m : result) : option reply :=
  let fail c := finish (Reply ERR_INVALID_ARGUMENT None [] c) in
  if (lo =? 0) || (hi =? 0) || (total =? 0) || (hi <=? lo) || (wrap (hi - lo) >=? total)
  then Some (Reply ERR_INVALID_ARGUMENT None [] c)
  else if check c then None
  else
  match find_block (all_blocks c) lo with
  | None => fail c
  | Some bl =>
      if negb (b_used bl) then fail c
      else match find_block (all_blocks c) hi with
      | None => fail c
      | Some bh =>
          if negb (b_used bh) then fail c
          else if negb (match next_block (all_blocks c) lo with Some q => q =? hi | None => false end)
                  || negb (hi =? wrap (lo + b_size bl)) then fail c
          else if negb (wrap (b_size bl + b_size bh) =? total) then fail c
          else
            do (r, c', ev) <- user_block_merge c lo hi true m;
            finish (Reply r None ev c')
      end
  end.

(* coarse.c:1287-1351  coarse_split; [s] = split callback's answer, [ok] = the
   allocations of coarse_ravl_add_new succeed *)
Definition coarse_split (c : coarse) (p total first : Z) (s : result) (ok : bool) : option reply :=
  let fail := finish (Reply ERR_INVALID_ARGUMENT None [] c) in
  if (p =? 0) || (first >=? total) || (first =? 0) || (total =? 0)
  then Some (Reply ERR_INVALID_ARGUMENT None [] c)
  else if check c then None
  else
  match find_block (all_blocks c) p with
  | None => fail
  | Some b =>
      if negb (b_size b =? total) then fail
      else if negb (b_used b) then fail
      else
      let ev := [EvSplit p total first s] in
      match s with
      | SUCCESS =>
          do nl <- coarse_ravl_add_new (all_blocks c) (wrap (p + first)) (wrap (b_size b - first)) ok true;
          match nl with
          | None => finish (Reply ERR_OUT_OF_HOST_MEMORY None ev c)
          | Some l => finish (Reply SUCCESS None ev (upd (set_all c l) p (with_size first)))
          end
      | e => finish (Reply e None ev c)
      end
  end.

(* coarse.c:964-985  coarse_add_memory_from_provider *)
Definition coarse_add_memory_from_provider (c : coarse) (size : Z) (o : alloc_oracle) (f : back_oracle)
  : option reply :=
  if size =? 0 then Some (Reply ERR_INVALID_ARGUMENT None [] c)
  else if negb (has_alloc c) then Some (Reply ERR_NOT_SUPPORTED None [] c)
  else
  do r <- coarse_alloc c size (page_size c) o;
  match r_res r with
  | SUCCESS =>
      do p <- r_ptr r;
      do r2 <- coarse_free (r_st r) p size f;
      Some (Reply (r_res r2) None (r_ev r ++ r_ev r2) (r_st r2))
  | e => Some (Reply e None (r_ev r) (r_st r))
  end.

(* coarse.c:987-1025  coarse_add_memory_fixed *)
Definition coarse_add_memory_fixed (c : coarse) (addr size : Z) (ok : bool) (f : back_oracle)
  : option reply :=
  if (addr =? 0) || (size =? 0) then Some (Reply ERR_INVALID_ARGUMENT None [] c)
  else if has_alloc c || has_free c then Some (Reply ERR_NOT_SUPPORTED None [] c)
  else if check c then None
  else
  do (r, c1) <- coarse_add_used_block c addr size ok;
  if check c1 then None
  else match r with
  | SUCCESS =>
      do r2 <- coarse_free c1 addr size f;
      Some (Reply (r_res r2) None (r_ev r2) (r_st r2))
  | e => Some (Reply e None [] c1)
  end.

(* coarse.c:626-656, 946-962  coarse_delete: the callback calls it makes *)
Fixpoint delete_loop (l : list block) (c : coarse) : option (coarse * list event) :=
  match l with
  | [] => Some (c, [])
  | b :: r =>
      if b_used b && assert_fails (b_size b <=? used_size c) then None
      else
      let c1 := if b_used b then set_used c (wrap (used_size c - b_size b)) else c in
      do c2 <- unlist c1 (b_data b);
      if assert_fails (b_size b <=? alloc_size c2) then None
      else
      let c3 := set_alloc c2 (wrap (alloc_size c2 - b_size b)) in
      do (c4, ev) <- delete_loop r c3;
      Some (c4, (if has_free c then [EvFree (b_data b) (b_size b)] else []) ++ ev)
  end.
Definition coarse_delete (c : coarse) : option (list event) :=
  do (c', ev) <- delete_loop (all_blocks c) c;
  if assert_fails (used_size c' =? 0) || assert_fails (alloc_size c' =? 0) then None
  else Some ev.

(* coarse.c:860-944  coarse_new with valid parameters *)
Definition coarse_new (page : Z) (s : strategy) (ha hf : bool) : coarse :=
  Coarse page s ha hf [] [] 0 0.

(* One API call. *)
Inductive call :=
| CAlloc (size alignment : Z) (o : alloc_oracle)
| CFree (p bytes : Z) (o : back_oracle)
| CSplit (p total first : Z) (s : result) (ok : bool)
| CMerge (lo hi total : Z) (m : result)
| CAddProvider (size : Z) (o : alloc_oracle) (f : back_oracle)
| CAddFixed (addr size : Z) (ok : bool) (f : back_oracle).
Definition step (c : coarse) (k : call) : option reply :=
  match k with
  | CAlloc size alignment o => coarse_alloc c size alignment o
  | CFree p bytes o => coarse_free c p bytes o
  | CSplit p total first s ok => coarse_split c p total first s ok
  | CMerge lo hi total m => coarse_merge c lo hi total m
  | CAddProvider size o f => coarse_add_memory_from_provider c size o f
  | CAddFixed addr size ok f => coarse_add_memory_fixed c addr size ok f
  end.

End Build.
