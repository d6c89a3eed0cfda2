(* What users of the disjoint pool expect: size classes, live allocations and
   memory obtained from the provider, without slabs, bitmaps, lists or counters. *)
From Verif Require Import Base Model_Utils Spec_Utils Model_Disjoint.

(* The size classes: powers of two from the smallest class up to 2 GB, and the
   values half way between them. *)
Definition smallest_class (P : params) (e : Z) : Prop :=
  0 <= e /\ ((min_bucket_size P <= 8 /\ e = 3) \/ (8 <= min_bucket_size P <= 2 ^ 31 /\ min_bucket_size P = 2 ^ e) \/ (2 ^ 31 <= min_bucket_size P /\ e = 31)).
Definition is_class (P : params) (c : Z) : Prop :=
  exists e k, smallest_class P e /\ e <= k <= 31 /\ (c = 2 ^ k \/ (k < 31 /\ c = 2 ^ k + 2 ^ (k - 1))).
(* the tightest class for n bytes *)
Definition class_for (P : params) (n c : Z) : Prop := is_class P c /\ n <= c /\ forall c', is_class P c' -> n <= c' -> c <= c'.

(* Memory obtained from the provider: [g_class]: for chunks of a size class, or
   for one large allocation.  Live allocations: address, bytes asked for. *)
Record region := Region { g_base : Z; g_size : Z; g_class : option Z }.
Record live := Live { l_ptr : Z; l_size : Z }.
(* [v_lost]: memory the provider refused to take back; [v_others]: memory kept
   by other pools that share the limit *)
Record view := View { v_regions : list region; v_lost : list region; v_live : list live; v_others : Z }.
Definition view_new : view := View [] [] [] 0.

Definition within (p n : Z) (g : region) : Prop := g_base g <= p /\ p + n <= g_base g + g_size g.
Definition apart (p n : Z) (q m : Z) : Prop := p + n <= q \/ q + m <= p.
Definition insideb (l : live) (g : region) : bool := (g_base g <=? l_ptr l) && (l_ptr l <? g_base g + g_size g).
(* live allocations in a region *)
Definition live_in (v : view) (g : region) : list live := filter (fun l => insideb l g) (v_live v).
(* memory the pool keeps although nothing is allocated in it *)
Definition kept (v : view) : list region := filter (fun g => match live_in v g with [] => true | _ => false end) (v_regions v).
Definition total_size (l : list region) : Z := fold_right (fun g n => g_size g + n) 0 l.
Definition of_class (c : Z) (g : region) : bool := match g_class g with Some d => c =? d | None => false end.
(* memory that must be asked for to serve class c; chunks in it *)
Definition slab_bytes (P : params) (c : Z) : Z := Z.max c (slab_min_size P).
Definition slab_chunks (P : params) (c : Z) : Z := Z.max 1 (slab_min_size P / c).

(* Configurations.  Slabs of 0 bytes and a poolable size above the largest
   class break the pool (see the refutations). *)
Record valid (P : params) : Prop := Valid {
  valid_words : is_word (slab_min_size P) /\ is_word (capacity P) /\ is_word (max_size P) /\ is_word (min_bucket_size P);
  valid_min : 0 < slab_min_size P;
  valid_pool : 0 <= max_poolable_size P <= 2 ^ 31;
  valid_bucket : power_of_two (min_bucket_size P);
  valid_page : page_size P = 0 \/ power_of_two (page_size P) }.

(* the bytes a chunk must have for a request *)
Definition demand (P : params) (size align : Z) : Z :=
  if align <=? 1 then size
  else if align <=? page_size P then (size + align - 1) / align * align
  else size + align - 1.
(* Alignments that work: up to the provider's page size or the slab size,
   unless the request is too large for the pool anyway. *)
Definition good_align (P : params) (size align : Z) : Prop :=
  align <= 1 \/
  (power_of_two align /\ size + align <= U64 /\
   (align <= page_size P \/ align <= slab_min_size P \/ max_poolable_size P < demand P size align)).

Definition call_env (P : params) (v : view) (c : call) : Prop :=
  match c with
  | CMalloc size _ => is_word size
  | CAligned size align _ => is_word size /\ is_word align /\ good_align P size align
  | CFree ptr _ => ptr = 0 \/ exists l, In l (v_live v) /\ l_ptr l = ptr
  | COthers d => 0 <= v_others v + d /\ v_others v + d + total_size (v_regions v) < U64
  end.

(* What a correct provider does: new memory is aligned as asked for and to the
   page size, does not wrap, and is apart from all memory it gave out before.
   All memory fits into one address space. *)
Fixpoint provider_ok (P : params) (others : Z) (l : list (Z * Z)) (evs : list event) : Prop :=
  match evs with
  | [] => True
  | PAlloc p n a :: r =>
      0 < p /\ p + n < U64 /\ (forall q m, In (q, m) l -> apart p n q m) /\
      (page_size P <> 0 -> multiple_of p (page_size P)) /\ (a <> 0 -> multiple_of p a) /\
      others + n + fold_right (fun x s => snd x + s) 0 l < U64 /\
      provider_ok P others ((p, n) :: l) r
  | PAllocFail _ _ :: r => provider_ok P others l r
  | PFree _ _ _ :: r => provider_ok P others l r
  end.
Definition spans (v : view) : list (Z * Z) := map (fun g => (g_base g, g_size g)) (v_regions v ++ v_lost v).

(* ---- what a call has done, from the request and the events ---- *)
Definition give_back (p n : Z) (l : list region) : list region := filter (fun g => negb ((g_base g =? p) && (g_size g =? n))) l.
Definition named (p n : Z) (l : list region) : list region := filter (fun g => (g_base g =? p) && (g_size g =? n)) l.
(* [cl]: the class the memory is for; [user]: the free was for the caller's own memory *)
Definition observe_event (cl : option Z) (failed : bool) (v : view) (e : event) : view :=
  match e with
  | PAlloc p n _ => View (Region p n cl :: v_regions v) (v_lost v) (v_live v) (v_others v)
  | PAllocFail _ _ => v
  | PFree p n SUCCESS => View (give_back p n (v_regions v)) (v_lost v) (v_live v) (v_others v)
  | PFree p n _ => if failed then v
                   else View (give_back p n (v_regions v)) (named p n (v_regions v) ++ v_lost v) (v_live v) (v_others v)
  end.
Fixpoint drop (p : Z) (l : list live) : list live :=
  match l with
  | [] => []
  | x :: r => if l_ptr x =? p then r else x :: drop p r
  end.
Definition observe (cl : option Z) (v : view) (c : call) (r : reply) : view :=
  let ok := match r_res r with SUCCESS => true | _ => false end in
  let v1 := match c with
            | CFree p _ => if ok then View (v_regions v) (v_lost v) (drop p (v_live v)) (v_others v) else v
            | COthers d => View (v_regions v) (v_lost v) (v_live v) (v_others v + d)
            | _ => v
            end in
  let is_free := match c with CFree _ _ => true | _ => false end in
  let v2 := fold_left (observe_event cl (is_free && negb ok)) (r_ev r) v1 in
  let alloc n := if r_ptr r =? 0 then v2 else View (v_regions v2) (v_lost v2) (Live (r_ptr r) n :: v_live v2) (v_others v2) in
  match c with
  | CMalloc n _ => alloc n
  | CAligned n _ _ => alloc n
  | _ => v2
  end.
(* the class served by a call: none if it goes to the provider *)
Definition serves (P : params) (c : call) (cl : option Z) : Prop :=
  let by_size n := (max_poolable_size P < n /\ cl = None) \/ (n <= max_poolable_size P /\ exists k, class_for P n k /\ cl = Some k) in
  match c with
  | CMalloc n _ => by_size n
  | CAligned n a _ => by_size (demand P n a)
  | _ => True
  end.

Inductive reached (dbg : bool) (P : params) : pool -> view -> Prop :=
| reached_new : forall s, disjoint_pool_initialize P true = (SUCCESS, Some s) -> reached dbg P s view_new
| reached_step : forall s v c r cl, reached dbg P s v -> call_env P v c -> step dbg P s c = Some r ->
    serves P c cl -> provider_ok P (v_others v) (spans v) (r_ev r) -> reached dbg P (r_st r) (observe cl v c r).

(* ---- the shared limit ---- *)
(* sizes are positive and the counter does not wrap *)
Definition sane (st : Z * list lbucket) : Prop := forall b, In b (snd st) -> 0 < k_size b /\ 0 <= k_max b /\ fst st + k_size b < U64.
Inductive lreach (max : Z) : Z * list lbucket -> Prop :=
| lr_new : lreach max (0, [])
| lr_step : forall a b, lreach max a -> lstep max a b -> sane a -> sane b -> lreach max b.
Definition kept_bytes (l : list lbucket) : Z := fold_right (fun b n => k_inpool b * k_size b + n) 0 l.
(* [lost]: the bytes that buckets still kept when they were destroyed (a step
   that shortens the list destroys a bucket); [announced]: the bytes that threads
   in the middle of a decision have added to the counter *)
Inductive lhist (max : Z) : Z * list lbucket -> Z -> Prop :=
| lh_new : lhist max (0, []) 0
| lh_step : forall a b lost, lhist max a lost -> lstep max a b -> sane a -> sane b ->
    lhist max b (if (length (snd b) <? length (snd a))%nat then lost + (kept_bytes (snd a) - kept_bytes (snd b)) else lost).
Definition announced (l : list lbucket) : Z := fold_right (fun b n => (match k_pending b with Some _ => k_size b | None => 0 end) + n) 0 l.
