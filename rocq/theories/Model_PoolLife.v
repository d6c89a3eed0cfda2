(* Model of creating and destroying pools, as far as the library's own memory is
   concerned: umfPoolCreateInternal and umfPoolDestroy (src/memory_pool.c:51-130),
   umfMemoryProviderCreate and Destroy (src/memory_provider.c:186-230) with
   umfTrackingMemoryProviderCreate, trackingInitialize and trackingFinalize
   (src/provider/provider_tracking.c:775-790, 832-841, 1152-1181), and the
   initialize and finalize functions of the four pool managers.

   A resource is a number: a block of the base allocator, an initialised mutex,
   a jemalloc arena, a TBB pool. Whether a request for one succeeds is an input.
   Simplifications: contents of the blocks are left out, except what they hold;
   entries of the IPC caches live in allocators of their own (C57, C18); memory
   of the upstream provider is left out (C54). *)
From Verif Require Import Base.

(* [h_ok]: answers to the requests to come (none left: they succeed);
   [h_bad]: something not held was given back, or NULL was dereferenced *)
Record heap := Heap { h_next : Z; h_live : list Z; h_bad : bool; h_ok : list bool }.

Definition answer (h : heap) : bool * heap :=
  match h_ok h with [] => (true, h) | b :: t => (b, Heap (h_next h) (h_live h) (h_bad h) t) end.
(* umf_ba_global_alloc, utils_mutex_init, je_mallctl("arenas.create"), pool_create_v1 *)
Definition get (h : heap) : option Z * heap :=
  let (ok, h) := answer h in
  if ok then (Some (h_next h), Heap (h_next h + 1) (h_next h :: h_live h) (h_bad h) (h_ok h)) else (None, h).
Fixpoint remove_one (x : Z) (l : list Z) : list Z :=
  match l with [] => [] | y :: t => if y =? x then t else y :: remove_one x t end.
Definition crash (h : heap) : heap := Heap (h_next h) (h_live h) true (h_ok h).
(* giving back: umf_ba_global_free, utils_mutex_destroy_not_free, "arena.%u.destroy", pool_destroy *)
Definition put (x : Z) (h : heap) : heap :=
  if existsb (Z.eqb x) (h_live h) then Heap (h_next h) (remove_one x (h_live h)) (h_bad h) (h_ok h) else crash h.
Definition puts (xs : list Z) (h : heap) : heap := fold_left (fun h x => put x h) xs h.

(* critnib: its struct, its mutex, and the nodes and leaves it ever allocated,
   which are kept until it is deleted (critnib.c:165-232) *)
Record crit := Crit { c_struct : Z; c_mutex : Z; c_blocks : list Z }.
Definition critnib_new (h : heap) : option crit * heap :=
  match get h with
  | (None, h) => (None, h)
  | (Some c, h) => match get h with (None, h) => (None, put c h) | (Some m, h) => (Some (Crit c m []), h) end
  end.
Definition critnib_delete (c : crit) (h : heap) : heap := put (c_struct c) (puts (c_blocks c) (put (c_mutex c) h)).

(* pool_disjoint.c:241-258: failure of utils_mutex_init is not looked at *)
Record bucket := Bucket { b_struct : Z; b_mutex : option Z; b_slabs : list Z }.
Definition create_bucket (h : heap) : option bucket * heap :=
  match get h with
  | (None, h) => (None, h)
  | (Some b, h) => let (m, h) := get h in (Some (Bucket b m []), h)
  end.
(* 260-277 *)
Definition destroy_bucket (b : bucket) (h : heap) : heap :=
  let h := puts (b_slabs b) h in
  let h := match b_mutex b with Some m => put m h | None => h end in
  put (b_struct b) h.
(* the loop at 640-649: every bucket is attempted *)
Fixpoint create_buckets (n : nat) (h : heap) : list (option bucket) * heap :=
  match n with
  | O => ([], h)
  | S n => let (b, h) := create_bucket h in let (bs, h) := create_buckets n h in (b :: bs, h)
  end.
Definition some {A} (o : option A) : bool := match o with Some _ => true | None => false end.
Fixpoint those {A} (l : list (option A)) : list A := match l with [] => [] | Some x :: t => x :: those t | None :: t => those t end.
Definition destroy_buckets (bs : list bucket) (h : heap) : heap := fold_left (fun h b => destroy_bucket b h) bs h.

(* [n]: number of buckets, computed from the parameters (C22) *)
Inductive manager := Disjoint (n : nat) | Proxy | Jemalloc | Scalable.
Inductive priv :=
| PDisjoint (p : Z) (slabs : crit) (limits array : Z) (bs : list bucket)
| PProxy (p : Z)
| PJemalloc (p arena : Z)
| PScalable (p tbb : Z).

(* disjoint_pool_initialize, pool_disjoint.c:589-686 *)
Definition disjoint_initialize (n : nat) (h : heap) : option priv * heap :=
  match get h with
  | (None, h) => (None, h)
  | (Some p, h) =>
      match critnib_new h with
      | (None, h) => (None, put p h)
      | (Some c, h) =>
          match get h with
          | (None, h) => (None, put p (critnib_delete c h))
          | (Some lim, h) =>
              match get h with
              | (None, h) => (None, put p (critnib_delete c (put lim h)))
              | (Some arr, h) =>
                  let (bs, h) := create_buckets n h in
                  if forallb some bs then (Some (PDisjoint p c lim arr (those bs)), h)
                  else (None, put p (critnib_delete c (put lim (put arr (destroy_buckets (those bs) h)))))
              end
          end
      end
  end.
(* op_initialize, pool_jemalloc.c:383-429: arenas.create, then the hooks *)
Definition jemalloc_initialize (h : heap) : option priv * heap :=
  match get h with
  | (None, h) => (None, h)
  | (Some p, h) =>
      match get h with
      | (None, h) => (None, put p h)
      | (Some a, h) => let (ok, h) := answer h in if ok then (Some (PJemalloc p a), h) else (None, put p (put a h))
      end
  end.
(* tbb_pool_initialize, pool_scalable.c:268-315: loading TBB, then pool_create_v1 *)
Definition scalable_initialize (h : heap) : option priv * heap :=
  match get h with
  | (None, h) => (None, h)
  | (Some p, h) =>
      let (ok, h) := answer h in
      if ok then match get h with (None, h) => (None, put p h) | (Some t, h) => (Some (PScalable p t), h) end else (None, put p h)
  end.
Definition initialize (m : manager) (h : heap) : option priv * heap :=
  match m with
  | Disjoint n => disjoint_initialize n h
  | Proxy => match get h with (Some p, h) => (Some (PProxy p), h) | (None, h) => (None, h) end (* pool_proxy.c:25-40 *)
  | Jemalloc => jemalloc_initialize h
  | Scalable => scalable_initialize h
  end.
(* disjoint_pool_finalize 913-930, proxy_pool_finalize 42, op_finalize 431-441,
   tbb_pool_finalize 317-321 *)
Definition finalize (p : priv) (h : heap) : heap :=
  match p with
  | PDisjoint p c lim arr bs => put p (critnib_delete c (put lim (destroy_buckets bs h)))
  | PProxy p => put p h
  | PJemalloc p a => put p (put a h)
  | PScalable p t => put p (put t h)
  end.

(* The tracking provider: its handle, its data, the cache of handles, the cache
   of opened handles (NULL if it could not be allocated, which is not looked at). *)
Record tracking := Tracking { t_handle : Z; t_priv : Z; t_cache : crit; t_opened : option Z }.
(* 1152-1181 with memory_provider.c:186-222 and trackingInitialize *)
Definition tracking_create (h : heap) : option tracking * heap :=
  match critnib_new h with
  | (None, h) => (None, h)
  | (Some c, h) =>
      let (o, h) := get h in
      match get h with
      | (None, h) => (None, h)
      | (Some hd, h) => match get h with (None, h) => (None, put hd h) | (Some p, h) => (Some (Tracking hd p c o), h) end
      end
  end.
(* memory_provider.c:225-230, trackingFinalize; umfIpcOpenedCacheDestroy reads
   through the pointer (ipc_cache.c:160-176) *)
Definition tracking_destroy (t : tracking) (h : heap) : heap :=
  let h := match t_opened t with Some o => put o h | None => crash h end in
  put (t_handle t) (put (t_priv t) (critnib_delete (t_cache t) h)).

Record pool := Pool { p_struct : Z; p_tracking : option tracking; p_lock : Z; p_priv : priv; p_owned : option Z }.
(* memory_pool.c:51-109; [tracked]: without UMF_POOL_CREATE_FLAG_DISABLE_TRACKING;
   [own]: the provider, if UMF_POOL_CREATE_FLAG_OWN_PROVIDER is given *)
Definition pool_create (m : manager) (tracked : bool) (own : option Z) (h : heap) : option pool * heap :=
  match get h with
  | (None, h) => (None, h)
  | (Some s, h) =>
      let (t, h) := if tracked then tracking_create h else (None, h) in
      if tracked && negb (some t) then (None, put s h)
      else
        let undo h := put s (match t with Some t => tracking_destroy t h | None => h end) in
        match get h with
        | (None, h) => (None, undo h)
        | (Some l, h) =>
            match initialize m h with
            | (None, h) => (None, undo (put l h))
            | (Some p, h) => (Some (Pool s t l p own), h)
            end
        end
  end.
(* 111-130 *)
Definition pool_destroy (p : pool) (h : heap) : heap :=
  let h := finalize (p_priv p) h in
  let h := match p_tracking p with Some t => tracking_destroy t h | None => h end in
  let h := match p_owned p with Some u => put u h | None => h end in
  put (p_struct p) (put (p_lock p) h).

(* What allocating and freeing do to these blocks: a map gets a node or a leaf,
   a bucket gets or loses a slab. Blocks of TBB and jemalloc are not the library's. *)
Inductive use := UseCache | UseSlabs | AddSlab (i : nat) | DropSlab (i : nat).
Definition grow (c : crit) (h : heap) : crit * heap :=
  match get h with (Some b, h) => (Crit (c_struct c) (c_mutex c) (b :: c_blocks c), h) | (None, h) => (c, h) end.
Fixpoint on_bucket (i : nat) (f : bucket -> heap -> bucket * heap) (bs : list bucket) (h : heap) : list bucket * heap :=
  match bs, i with
  | [], _ => ([], h)
  | b :: bs, O => let (b, h) := f b h in (b :: bs, h)
  | b :: bs, S i => let (bs, h) := on_bucket i f bs h in (b :: bs, h)
  end.
Definition add_slab (b : bucket) (h : heap) : bucket * heap := (* create_slab, 72-121 *)
  match get h with (Some s, h) => (Bucket (b_struct b) (b_mutex b) (s :: b_slabs b), h) | (None, h) => (b, h) end.
Definition drop_slab (b : bucket) (h : heap) : bucket * heap := (* destroy_slab, 123-136 *)
  match b_slabs b with s :: t => (Bucket (b_struct b) (b_mutex b) t, put s h) | [] => (b, h) end.
Definition use_pool (u : use) (p : pool) (h : heap) : pool * heap :=
  match u with
  | UseCache =>
      match p_tracking p with
      | Some t => let (c, h) := grow (t_cache t) h in
                  (Pool (p_struct p) (Some (Tracking (t_handle t) (t_priv t) c (t_opened t))) (p_lock p) (p_priv p) (p_owned p), h)
      | None => (p, h)
      end
  | UseSlabs =>
      match p_priv p with
      | PDisjoint q c lim arr bs => let (c, h) := grow c h in (Pool (p_struct p) (p_tracking p) (p_lock p) (PDisjoint q c lim arr bs) (p_owned p), h)
      | _ => (p, h)
      end
  | AddSlab i | DropSlab i =>
      match p_priv p with
      | PDisjoint q c lim arr bs =>
          let (bs, h) := on_bucket i (match u with AddSlab _ => add_slab | _ => drop_slab end) bs h in
          (Pool (p_struct p) (p_tracking p) (p_lock p) (PDisjoint q c lim arr bs) (p_owned p), h)
      | _ => (p, h)
      end
  end.
Definition use_all (us : list use) (p : pool) (h : heap) : pool * heap :=
  fold_left (fun ph u => use_pool u (fst ph) (snd ph)) us (p, h).
