(* Model of the error that umfPoolGetLastAllocationError (memory_pool.c:218-221)
   reports, for the four pool managers (src/pool/pool_disjoint.c, pool_proxy.c,
   pool_jemalloc.c, pool_scalable.c).

   What the memory provider, the tracker, jemalloc and TBB answer is an input of
   each call. Contents, sizes of buckets and statistics are left out. *)
From Verif Require Import Base.

Inductive kind := Disjoint | Proxy | Jemalloc | Scalable.

(* Thread-local variables, one set for each thread: pool_disjoint.c:42,
   pool_proxy.c:19, pool_jemalloc.c:38, pool_scalable.c:35-36. *)
Record tls := Tls { e_disjoint : result; e_proxy : result; e_jemalloc : result; e_scalable : result; e_free : result }.
Definition tls0 : tls := Tls SUCCESS SUCCESS SUCCESS SUCCESS SUCCESS.
Definition last_error (k : kind) (e : tls) : result :=
  match k with Disjoint => e_disjoint e | Proxy => e_proxy e | Jemalloc => e_jemalloc e | Scalable => e_scalable e end.
Definition set_error (k : kind) (r : result) (e : tls) : tls :=
  match k with
  | Disjoint => Tls r (e_proxy e) (e_jemalloc e) (e_scalable e) (e_free e)
  | Proxy => Tls (e_disjoint e) r (e_jemalloc e) (e_scalable e) (e_free e)
  | Jemalloc => Tls (e_disjoint e) (e_proxy e) r (e_scalable e) (e_free e)
  | Scalable => Tls (e_disjoint e) (e_proxy e) (e_jemalloc e) r (e_free e)
  end.
Definition set_free (r : result) (e : tls) : tls := Tls (e_disjoint e) (e_proxy e) (e_jemalloc e) (e_scalable e) r.

(* pointers are numbers, NULL is 0 *)
Inductive op :=
| Malloc (size : Z) | Calloc (num size : Z) | Realloc (ptr size : Z) | Aligned (size alignment : Z)
| Usable (ptr : Z) | Free (ptr : Z).

(* What the other parties answer during a call.
   [x_direct]: the request is above max_poolable_size and goes to the provider;
   [x_slab]: the pointer freed lies in a slab; [x_res], [x_ptr]: result and
   memory of the one call of the provider (or of jemalloc, or the chunk of a
   bucket); [x_info]: what umfMemoryTrackerGetAllocInfo returns;
   [x_raw]: results of the calls TBB makes of the provider (in order). *)
Record answers := Ans { x_direct : bool; x_slab : bool; x_res : result; x_ptr : Z; x_info : result; x_raw : list result }.

(* memory, or (for free) a result *)
Inductive out := Ptr (p : Z) | Res (r : result) | Size.

(* umfMemoryProviderAlloc and what is done with it: pool_disjoint.c:527-538, 745-757,
   pool_proxy.c:44-59 (which stores success too) *)
Definition from_provider (k : kind) (x : answers) (e : tls) : tls * out :=
  if result_eqb (x_res x) SUCCESS then (match k with Proxy => set_error Proxy SUCCESS e | _ => e end, Ptr (x_ptr x))
  else (set_error k (x_res x) e, Ptr 0).
(* a chunk of a bucket: pool_disjoint.c:541-553, 759-770 *)
Definition from_bucket (x : answers) (e : tls) : tls * out :=
  if x_ptr x =? 0 then (set_error Disjoint ERR_OUT_OF_HOST_MEMORY e, Ptr 0) else (e, Ptr (x_ptr x)).
(* pool_disjoint.c:520-571 *)
Definition disjoint_allocate (size : Z) (x : answers) (e : tls) : tls * out :=
  if size =? 0 then (e, Ptr 0) else if x_direct x then from_provider Disjoint x e else from_bucket x e.

(* a call of jemalloc: pool_jemalloc.c:294-302, 347-353, 372-380 *)
Definition from_jemalloc (x : answers) (e : tls) : tls * out :=
  if x_ptr x =? 0 then (set_error Jemalloc ERR_OUT_OF_HOST_MEMORY e, Ptr 0) else (e, Ptr (x_ptr x)).

(* tbb_raw_alloc_wrapper, pool_scalable.c:179-190, for each of TBB's calls *)
Fixpoint raw_allocs (rs : list result) (e : tls) : tls :=
  match rs with
  | [] => e
  | r :: t => raw_allocs t (if result_eqb r SUCCESS then e else set_error Scalable ERR_OUT_OF_HOST_MEMORY e)
  end.
(* tbb_malloc 323-335, tbb_calloc 337-348, tbb_realloc 350-362, tbb_aligned_malloc 364-377 *)
Definition from_tbb (x : answers) (e : tls) : tls * out :=
  let e := raw_allocs (x_raw x) (set_error Scalable SUCCESS e) in
  if x_ptr x =? 0 then (if result_eqb (e_scalable e) SUCCESS then set_error Scalable ERR_UNKNOWN e else e, Ptr 0)
  else (e, Ptr (x_ptr x)).
(* tbb_raw_free_wrapper, 192-200 *)
Fixpoint raw_frees (rs : list result) (e : tls) : tls :=
  match rs with [] => e | r :: t => raw_frees t (if result_eqb r SUCCESS then e else set_free r e) end.

Definition pool_call (k : kind) (o : op) (x : answers) (e : tls) : tls * out :=
  match k with
  | Disjoint =>
      match o with
      | Malloc n => disjoint_allocate n x e                                  (* 688-693 *)
      | Calloc _ _ | Realloc _ _ => (set_error Disjoint ERR_NOT_SUPPORTED e, Ptr 0) (* 695-713 *)
      | Aligned n a =>                                                       (* 715-794 *)
          if n =? 0 then (e, Ptr 0) else if a <=? 1 then disjoint_allocate n x e
          else if x_direct x then from_provider Disjoint x e else from_bucket x e
      | Usable _ => (e, Size)                                                (* 804-831 *)
      | Free p =>                                                            (* 833-905 *)
          if p =? 0 then (e, Res SUCCESS)
          else if x_slab x then (e, Res SUCCESS)
          else if negb (result_eqb (x_info x) SUCCESS) then (set_error Disjoint (x_info x) e, Res (x_info x))
          else if negb (result_eqb (x_res x) SUCCESS) then (set_error Disjoint (x_res x) e, Res (x_res x))
          else (e, Res SUCCESS)
      end
  | Proxy =>
      match o with
      | Malloc _ | Aligned _ _ => from_provider Proxy x e                    (* 44-65 *)
      | Calloc _ _ | Realloc _ _ => (set_error Proxy ERR_NOT_SUPPORTED e, Ptr 0) (* 67-91 *)
      | Usable _ => (set_error Proxy ERR_NOT_SUPPORTED e, Size)              (* 110-118 *)
      | Free _ => (e, Res (x_res x))                                         (* 93-108 *)
      end
  | Jemalloc =>
      match o with
      | Malloc _ | Calloc _ _ | Aligned _ _ => from_jemalloc x e             (* 288-303, 317-330, 364-381 *)
      | Realloc p n => if (n =? 0) && negb (p =? 0) then (set_error Jemalloc SUCCESS e, Ptr 0) else from_jemalloc x e (* 332-362 *)
      | Usable _ => (e, Size)
      | Free _ => (e, Res SUCCESS)                                           (* 305-315 *)
      end
  | Scalable =>
      match o with
      | Malloc _ | Calloc _ _ | Realloc _ _ | Aligned _ _ => from_tbb x e
      | Usable _ => (e, Size)
      | Free p =>                                                            (* 379-402 *)
          if p =? 0 then (e, Res SUCCESS)
          else
            let e := raw_frees (x_raw x) (set_free SUCCESS e) in
            if result_eqb (x_res x) SUCCESS (* pool_free returned true *) then (e, Res SUCCESS)
            else if negb (result_eqb (e_free e) SUCCESS) then (e, Res (e_free e)) else (e, Res ERR_UNKNOWN)
      end
  end.

(* All threads: a call by thread [c_thread] on pool [c_pool]. *)
Record call := Call { c_thread : Z; c_pool : Z; c_op : op; c_ans : answers }.
Definition world := Z -> tls.
Definition world0 : world := fun _ => tls0.
Definition put (w : world) (t : Z) (e : tls) : world := fun u => if u =? t then e else w u.
Definition step (kinds : Z -> kind) (w : world) (c : call) : world * out :=
  let (e, o) := pool_call (kinds (c_pool c)) (c_op c) (c_ans c) (w (c_thread c)) in (put w (c_thread c) e, o).
Definition run (kinds : Z -> kind) (w : world) (cs : list call) : world := fold_left (fun w c => fst (step kinds w c)) cs w.
(* umfPoolGetLastAllocationError(pool) called by thread [t] *)
Definition get_last (kinds : Z -> kind) (w : world) (t p : Z) : result := last_error (kinds p) (w t).
