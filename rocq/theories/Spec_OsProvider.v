(* Specification of the OS memory provider: what the kernel does with mmap and
   munmap, and legal histories of calls. *)
From Verif Require Import Base Model_OsNuma Model_OsProvider.

(* what a mapped byte shows: anonymous memory, or a byte of the provider's file *)
Inductive backing := Anon | File (off : Z).
(* an address space: what every address is mapped to, if anything *)
Definition memory := Z -> option backing.

(* len rounded up to pages *)
Definition up (page len : Z) : Z := (len + page - 1) / page * page.
Definition within (page a len x : Z) : bool := (a <=? x) && (x <? a + up page len).

(* effect of a kernel call *)
Definition after (page : Z) (m : memory) (e : sys) : memory :=
  match e with
  | Mmap a len off => fun x => if within page a len x then Some (match off with Some o => File (o + (x - a)) | None => Anon end) else m x
  | Munmap a len true => fun x => if within page a len x then None else m x
  | _ => m
  end.
Definition after_all (page : Z) (m : memory) (l : list sys) : memory := fold_left (after page) l m.

(* The kernel maps whole pages at a page-aligned address where nothing is mapped,
   refuses length 0 and file offsets that are not multiples of the page size, and
   keeps user space below 2^63. *)
Definition mmap_legal (page : Z) (m : memory) (e : sys) : Prop :=
  match e with
  | Mmap a len off =>
      0 < len /\ 0 < a /\ a mod page = 0 /\ a + up page len <= 2 ^ 63 /\
      match off with Some o => o mod page = 0 | None => True end /\ forall x, within page a len x = true -> m x = None
  | _ => True
  end.
(* every mmap among the calls was answered that way *)
Fixpoint kernel (page : Z) (m : memory) (l : list sys) : Prop :=
  match l with [] => True | e :: r => mmap_legal page m e /\ kernel page (after page m e) r end.

(* x, y: same contents *)
Definition same (m m' : memory) : Prop := forall x, m x = m' x.
(* m' is m with exactly the pages of [p, p+size) added *)
Definition gained (page : Z) (m m' : memory) (p size : Z) : Prop :=
  forall x, (within page p size x = true -> m x = None /\ m' x <> None) /\ (within page p size x = false -> m' x = m x).
(* ... removed *)
Definition lost (page : Z) (m m' : memory) (p size : Z) : Prop :=
  forall x, m' x = if within page p size x then None else m x.

(* A live allocation: address and size. *)
Definition block := (Z * Z)%type.
(* Histories: calls by one client that frees what it allocated, splits at page
   boundaries and merges neighbours; sizes are positive and small enough that
   nothing wraps.  Other mappings of the process come and go, but not over the
   provider's.  In a [strict] history moreover no alignment exceeds the page size,
   munmap does not fail, and merges only undo splits, that is, what is joined is
   contiguous in the file as well. *)
Record world := World { w_os : osp; w_mem : memory; w_live : list block }.
Definition covered (page : Z) (l : list block) (x : Z) : Prop := exists b, In b l /\ within page (fst b) (snd b) x = true.
Inductive step (dbg : bool) (page : Z) (strict : bool) : world -> world -> Prop :=
| st_alloc : forall s m live size alignment mm be r p ev s',
    0 < size -> 0 <= alignment -> size + alignment + page <= 2 ^ 63 -> (strict = true -> alignment <= page) ->
    os_alloc dbg page s size alignment mm be = Some (r, p, ev, s') -> kernel page m ev ->
    step dbg page strict (World s m live) (World s' (after_all page m ev) (if result_eqb r SUCCESS then (p, size) :: live else live))
| st_free : forall s m l1 p size l2 ok r ev s',
    (strict = true -> ok = true) -> os_free s p size ok = (r, ev, s') ->
    step dbg page strict (World s m (l1 ++ (p, size) :: l2)) (World s' (after_all page m ev) (if result_eqb r SUCCESS then l1 ++ l2 else l1 ++ (p, size) :: l2))
| st_split : forall s m l1 p size l2 first r s',
    0 < first < size -> first mod page = 0 -> os_allocation_split s p size first = (r, s') ->
    step dbg page strict (World s m (l1 ++ (p, size) :: l2)) (World s' m (if result_eqb r SUCCESS then l1 ++ (p, first) :: (p + first, size - first) :: l2 else l1 ++ (p, size) :: l2))
| st_merge : forall s m l1 p f g l2 r s', f mod page = 0 ->
    (strict = true -> forall o, m p = Some (File o) -> m (p + f) = Some (File (o + f))) ->
    os_allocation_merge s p (p + f) (f + g) = (r, s') ->
    step dbg page strict (World s m (l1 ++ (p, f) :: (p + f, g) :: l2)) (World s' m (if result_eqb r SUCCESS then l1 ++ (p, f + g) :: l2 else l1 ++ (p, f) :: (p + f, g) :: l2))
| st_order : forall s m l1 a b l2, step dbg page strict (World s m (l1 ++ a :: b :: l2)) (World s m (l1 ++ b :: a :: l2))
| st_reset : forall s m live, step dbg page strict (World s m live) (World (os_stats_reset s) m live)
| st_other : forall s m m' live, (forall x, covered page live x -> m' x = m x) -> step dbg page strict (World s m live) (World s m' live).
Inductive reached (dbg : bool) (page : Z) (strict : bool) (w0 : world) : world -> Prop :=
| reached_start : reached dbg page strict w0 w0
| reached_step : forall w w', reached dbg page strict w0 w -> step dbg page strict w w' -> reached dbg page strict w0 w'.
Definition fresh (shared : bool) (u : numa) (m : memory) : world := World (os_created shared u) m [].

(* histories in which the file grows only by allocations of whole pages *)
Inductive paged (dbg : bool) (page : Z) (strict : bool) (w0 : world) : world -> Prop :=
| paged_start : paged dbg page strict w0 w0
| paged_step : forall w w', paged dbg page strict w0 w -> step dbg page strict w w' ->
    (o_size (w_os w') = o_size (w_os w) \/ exists size al mm be r p ev, 0 < size /\ 0 <= al /\ size + al + page <= 2 ^ 63 /\ size mod page = 0 /\
      os_alloc dbg page (w_os w) size al mm be = Some (r, p, ev, w_os w')) ->
    paged dbg page strict w0 w'.

Definition sizes (l : list block) : Z := fold_right (fun b a => snd b + a) 0 l.
