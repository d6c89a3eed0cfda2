(* Specification of the file provider: what the kernel does with the file and the
   mappings, and the histories of calls of a client of the provider, that is, of
   the coarse allocator with this provider behind its callbacks. *)
From Verif Require Import Base Model_Utils Model_OsProvider Spec_OsProvider Model_Coarse Spec_Coarse Model_FileProvider.

Definition mappings (l : list fsys) : list sys := flat_map (fun e => match e with Call c => [c] | Grow _ _ _ => [] end) l.
(* file size after posix_fallocate *)
Definition grown (n : Z) (e : fsys) : Z := match e with Grow start len true => Z.max n (start + len) | _ => n end.
Definition grown_all (n : Z) (l : list fsys) : Z := fold_left grown l n.

(* A file is shorter than 2^63: a call that would make it longer fails, and so does
   mapping it beyond that. *)
Definition files (l : list fsys) : Prop :=
  (forall start len, In (Grow start len true) l -> start + len < 2 ^ 63) /\
  (forall a len off, In (Call (Mmap a len (Some off))) l -> off + len <= 2 ^ 63).
(* the kernel leaves a hole before and after each new mapping *)
Fixpoint holes (page : Z) (m : memory) (l : list sys) : Prop :=
  match l with
  | [] => True
  | e :: r => match e with Mmap a len _ => m (a - 1) = None /\ m (a + up page len) = None | _ => True end /\ holes page (after page m e) r
  end.
Definition mmap_failed (l : list sys) : Prop := exists len off, In (MmapFail len off) l.

(* Restrictions on a history: holes around mappings; mmap never fails; sizes are
   multiples of the page size; the coarse allocator's internal memory does not run
   out once a callback was called.  [big] lifts a restriction: alignments above the page size. *)
Record mode := Mode { gaps : bool; no_fail : bool; whole : bool; enough : bool; big : bool }.

(* provider, address space, size of the file, mappings made so far (address,
   length) *)
Record fworld := FW { fs : filep; fm : memory; flen : Z; maps : list (Z * Z) }.
Definition new_maps (l : list sys) : list (Z * Z) := flat_map (fun e => match e with Mmap a len _ => [(a, len)] | _ => [] end) l.

(* The callback calls of one API call, answered by the provider. *)
Inductive served (dbg : bool) (page : Z) (mo : mode) : fworld -> list event -> fworld -> Prop :=
| sv_nil : forall w, served dbg page mo w [] w
| sv_alloc : forall s m n l size al a1 a2 r p ev s' rest w',
    file_alloc_cb dbg s size al a1 a2 = Some (r, p, ev, s') ->
    kernel page m (mappings ev) -> files ev ->
    (gaps mo = true -> holes page m (mappings ev)) ->
    (no_fail mo = true -> ~ mmap_failed (mappings ev)) ->
    (whole mo = true -> size mod page = 0) ->
    served dbg page mo (FW s' (after_all page m (mappings ev)) (grown_all n ev) (new_maps (mappings ev) ++ l)) rest w' ->
    served dbg page mo (FW s m n l) (EvAlloc size al r p :: rest) w'
| sv_split : forall s m n l p total first r s' rest w',
    file_allocation_split_cb s p total first = (r, s') ->
    served dbg page mo (FW s' m n l) rest w' ->
    served dbg page mo (FW s m n l) (EvSplit p total first r :: rest) w'
| sv_merge : forall s m n l lo hi total r s' rest w',
    file_allocation_merge_cb s lo hi total = (r, s') ->
    served dbg page mo (FW s' m n l) rest w' ->
    served dbg page mo (FW s m n l) (EvMerge lo hi total r :: rest) w'.

(* What a client may do: allocate with any size and with an alignment up to the
   page size (or any, if big), free, split, merge.  The conditions on the oracle are those of
   Spec_Coarse (internal memory of the coarse allocator); nothing is assumed about
   the callbacks. *)
Definition client (e : env) (page : Z) (big : bool) (k : call) : Prop :=
  match k with
  | CAlloc size alignment o =>
      0 < size < U64 /\ (0 <= alignment <= page \/ big = true /\ is_word alignment) /\
      o_junk o = false /\ o_elem (o_add1 o) = true /\ both (o_add2 o) /\ o_elem (o_back (o_re o)) = true /\
      (class_ok e = true -> both (o_add1 o) /\ both (o_back (o_re o))) /\ agrees e (o_re o)
  | CFree p bytes o => is_word p /\ is_word bytes /\ both (o_back o) /\ agrees e o
  | CSplit p total first _ _ => is_word p /\ is_word total /\ is_word first
  | CMerge lo hi total _ => is_word lo /\ is_word hi /\ is_word total
  | CAddProvider _ _ _ | CAddFixed _ _ _ _ => False
  end.

(* Histories of the whole provider.  Other mappings of the process come and go,
   but not over the provider's. *)
Inductive history (e : env) (page : Z) (mo : mode) (ipc dax : bool) : coarse -> view -> fworld -> Prop :=
| h_new : forall n s m, page = 2 ^ n -> 0 <= n < 63 -> (debug e = true -> class_ok e = true) ->
    history e page mo ipc dax (coarse_new page s true false) no_view (FW (file_created page ipc dax) m FSDAX_PAGE_SIZE_2MB [])
| h_call : forall c v w k r w', history e page mo ipc dax c v w ->
    client e page (big mo) k -> (enough mo = true -> no_oom c k) -> step (debug e) c k = Some r -> served (debug e) page mo w (r_ev r) w' ->
    history e page mo ipc dax (r_st r) (observe v k r) w'
| h_other : forall c v s m n l m', history e page mo ipc dax c v (FW s m n l) ->
    (forall a len x, In (a, len) l -> a <= x < a + len -> m' x = m x) ->
    history e page mo ipc dax c v (FW s m' n l).

(* the byte at x belongs to a live allocation *)
Definition held (v : view) (x : Z) : Prop := exists p n, live v p = Some n /\ inside x (p, n).
