(* What the internal allocators promise, in terms of the memory obtained from
   the OS and the live allocations. *)
From Coq Require Export Permutation.
From Verif Require Import Base Model_Utils Spec_Utils Model_BaseAlloc.

Definition apart (p n q m : Z) : Prop := p + n <= q \/ q + m <= p.
(* page size, room for the headers; the headers are multiples of 8 (structures) *)
Record machine (c : consts) : Prop := Machine {
  page_pow : power_of_two (k_page c) /\ 4096 <= k_page c <= 2 ^ 40;
  header_ok : exists h, k_header c = 8 * h /\ 8 <= k_header c <= 4096;
  lheader_ok : exists h, k_lheader c = 8 * h /\ 24 <= k_lheader c <= 2048;
  mutex_small : 0 <= k_mutex c <= 4096 }.

(* The OS: new memory is page aligned, does not wrap, is apart from the memory
   still held, and all of it fits into one address space. *)
Definition held_bytes (l : list (Z * Z)) : Z := fold_right (fun x s => snd x + s) 0 l.
Definition fresh_mem (page : Z) (held : list (Z * Z)) (p n : Z) : Prop :=
  0 < p /\ p + n < U64 /\ multiple_of p page /\ (forall q m, In (q, m) held -> apart p n q m) /\ n + held_bytes held < U64.
(* a released range leaves what is in front of it *)
Definition release (p n : Z) (held : list (Z * Z)) : list (Z * Z) :=
  flat_map (fun x => if (fst x =? p) && (snd x =? n) then [] else if (fst x <? p) && (fst x + snd x =? p + n) then [(fst x, p - fst x)] else [x]) held.
Definition os_step (held : list (Z * Z)) (e : event) : list (Z * Z) :=
  match e with OsAlloc p n => (p, n) :: held | OsFail _ => held | OsFree p n => release p n held end.
Fixpoint os_ok (page : Z) (held : list (Z * Z)) (evs : list event) : Prop :=
  match evs with
  | [] => True
  | OsAlloc p n :: r => fresh_mem page held p n /\ os_ok page ((p, n) :: held) r
  | e :: r => os_ok page (os_step held e) r
  end.
Definition held_after (held : list (Z * Z)) (evs : list event) : list (Z * Z) := fold_left os_step evs held.

(* ---- chunks of one size ---- *)
Record bview := BView { bv_mem : list (Z * Z); bv_live : list Z }.
(* 128 chunks and the headers fit into 64 bits *)
Definition fits (c : consts) (size : Z) : Prop := 0 < size /\ k_header c + k_mutex c + 128 * (size + 7) + k_page c <= U64.
Inductive bcall := BAlloc (os : option Z) | BFree (ptr : Z).
Definition bstep (dbg : bool) (c : consts) (b : ba) (k : bcall) : option (Z * list event * ba) :=
  match k with
  | BAlloc os => umf_ba_alloc dbg b os
  | BFree p => match umf_ba_free dbg c b p with Some b' => Some (0, [], b') | None => None end
  end.
Definition bobserve (v : bview) (k : bcall) (ptr : Z) (ev : list event) : bview :=
  match k with
  | BAlloc _ => BView (held_after (bv_mem v) ev) (if ptr =? 0 then bv_live v else ptr :: bv_live v)
  | BFree p => BView (held_after (bv_mem v) ev) (remove Z.eq_dec p (bv_live v))
  end.
Definition benv (v : bview) (k : bcall) : Prop := match k with BAlloc _ => True | BFree p => p = 0 \/ In p (bv_live v) end.
Inductive breached (dbg : bool) (c : consts) (size : Z) : ba -> bview -> Prop :=
| breached_new : forall os ev b, umf_ba_create dbg c size os true = Some (ev, Some b) -> os_ok (k_page c) [] ev -> breached dbg c size b (BView (held_after [] ev) [])
| breached_step : forall b v k ptr ev b', breached dbg c size b v -> benv v k -> bstep dbg c b k = Some (ptr, ev, b') -> os_ok (k_page c) (bv_mem v) ev ->
    breached dbg c size b' (bobserve v k ptr ev).
(* bytes per chunk *)
Definition chunk_bytes (size k : Z) : Prop := least_multiple_above size 8 k.
Definition in_mem (x : Z) (m : Z * Z) : bool := (fst m <=? x) && (x <? fst m + snd m).

(* ---- the linear allocator ---- *)
Record lview := LView { lv_mem : list (Z * Z); lv_live : list (Z * Z) }.
Inductive lcall := LAlloc (size : Z) (os : option Z) | LFree (ptr : Z).
Definition lstep (dbg : bool) (c : consts) (l : linear) (k : lcall) : option (Z * list event * linear) :=
  match k with LAlloc size os => umf_ba_linear_alloc dbg c l size os | LFree p => umf_ba_linear_free dbg c l p end.
Definition drop (p : Z) (live : list (Z * Z)) : list (Z * Z) := filter (fun x => negb (fst x =? p)) live.
Definition lobserve (v : lview) (k : lcall) (ptr : Z) (ev : list event) : lview :=
  match k with
  | LAlloc size _ => LView (held_after (lv_mem v) ev) (if ptr =? 0 then lv_live v else (ptr, size) :: lv_live v)
  | LFree p => LView (held_after (lv_mem v) ev) (drop p (lv_live v))
  end.
(* the size leaves room for a page and its header *)
Definition lenv (c : consts) (v : lview) (k : lcall) : Prop :=
  match k with LAlloc size _ => 0 <= size /\ size + 2 * k_page c <= U64 | LFree p => In p (map fst (lv_live v)) end.
Definition lfits (c : consts) (size : Z) : Prop := 0 <= size /\ size + k_lheader c + k_page c <= U64.
Inductive lreached (dbg : bool) (c : consts) (size : Z) : linear -> lview -> Prop :=
| lreached_new : forall os ev l, umf_ba_linear_create c size os true = (ev, Some l) -> os_ok (k_page c) [] ev -> lreached dbg c size l (LView (held_after [] ev) [])
| lreached_step : forall l v k ptr ev l', lreached dbg c size l v -> lenv c v k -> lstep dbg c l k = Some (ptr, ev, l') -> os_ok (k_page c) (lv_mem v) ev ->
    lreached dbg c size l' (lobserve v k ptr ev).
(* The call obtains a region from the OS although the newest region, which is
   not the first one, holds no live allocation: that region is given up. *)
Definition gives_up (v : lview) (ev : list event) : bool :=
  match lv_mem v, ev with
  | newest :: _ :: _, [OsAlloc _ _] => forallb (fun x => negb (in_mem (fst x) newest)) (lv_live v)
  | _, _ => false
  end.
(* as [lreached], counting the regions that were given up *)
Inductive lcounted (dbg : bool) (c : consts) (size : Z) : linear -> lview -> nat -> Prop :=
| lcounted_new : forall os ev l, umf_ba_linear_create c size os true = (ev, Some l) -> os_ok (k_page c) [] ev -> lcounted dbg c size l (LView (held_after [] ev) []) 0
| lcounted_step : forall l v n k ptr ev l', lcounted dbg c size l v n -> lenv c v k -> lstep dbg c l k = Some (ptr, ev, l') -> os_ok (k_page c) (lv_mem v) ev ->
    lcounted dbg c size l' (lobserve v k ptr ev) (if gives_up v ev then S n else n).

(* ---- the global allocator ---- *)
Record gview := GView { gv_mem : list (Z * Z); gv_live : list (Z * Z * Z) }.
Inductive gcall := GAlloc (size alignment : Z) (os : option Z) | GFree (ptr : Z).
Definition gstep (dbg : bool) (c : consts) (g : global) (k : gcall) : option (Z * list event * global) :=
  match k with
  | GAlloc size al os => umf_ba_global_aligned_alloc dbg g size al os
  | GFree p => match umf_ba_global_free dbg c g p with Some (ev, g') => Some (0, ev, g') | None => None end
  end.
Definition g_ptr (x : Z * Z * Z) : Z := fst (fst x).
Definition gobserve (v : gview) (k : gcall) (ptr : Z) (ev : list event) : gview :=
  match k with
  | GAlloc size al _ => GView (held_after (gv_mem v) ev) (if ptr =? 0 then gv_live v else (ptr, size, al) :: gv_live v)
  | GFree p => GView (held_after (gv_mem v) ev) (filter (fun x => negb (g_ptr x =? p)) (gv_live v))
  end.
(* the size, the metadata and the alignment together fit into 32 bits *)
Definition genv (v : gview) (k : gcall) : Prop :=
  match k with
  | GAlloc size al _ => 0 <= size /\ power_of_two al /\ size + 8 + al < 2 ^ 32
  | GFree p => p = 0 \/ In p (map g_ptr (gv_live v))
  end.
Inductive greached (dbg : bool) (c : consts) : global -> gview -> Prop :=
| greached_new : forall os ev g, length os = 5%nat -> umf_ba_create_global dbg c os = Some (ev, g) -> os_ok (k_page c) [] ev -> greached dbg c g (GView (held_after [] ev) [])
| greached_step : forall g v k ptr ev g', greached dbg c g v -> genv v k -> gstep dbg c g k = Some (ptr, ev, g') -> os_ok (k_page c) (gv_mem v) ev ->
    greached dbg c g' (gobserve v k ptr ev).
(* an address the OS may answer with *)
Definition os_answer (c : consts) (p : Z) : Prop := 0 < p /\ multiple_of p (k_page c) /\ p + 2 ^ 32 < U64.
