(* What umfPoolGetLastAllocationError promises (include/umf/memory_pool.h:131-148). *)
From Verif Require Import Base Model_PoolError.

(* malloc, calloc, realloc or aligned_malloc asking for at least one byte *)
Definition asks (o : op) : Prop :=
  match o with
  | Malloc n | Aligned n _ | Realloc _ n => n <> 0
  | Calloc k n => k <> 0 /\ n <> 0
  | Usable _ | Free _ => False
  end.
(* the call failed *)
Definition fails (out_ : out) : Prop := out_ = Ptr 0.
(* The error names a failure; where the pool does nothing but forward the
   request to its provider it is the provider's; a call the manager lacks is
   reported as such; a failure of the provider below TBB, or of jemalloc, as
   lack of memory. *)
Definition explains (k : kind) (o : op) (x : answers) (r : result) : Prop :=
  r <> SUCCESS /\
  match k, o with
  | Proxy, Malloc _ | Proxy, Aligned _ _ => r = x_res x
  | Disjoint, Malloc _ | Disjoint, Aligned _ _ => x_direct x = true -> r = x_res x
  | Disjoint, _ | Proxy, _ => r = ERR_NOT_SUPPORTED
  | Jemalloc, _ => r = ERR_OUT_OF_HOST_MEMORY
  | Scalable, _ => (exists f, In f (x_raw x) /\ f <> SUCCESS) -> r = ERR_OUT_OF_HOST_MEMORY
  end.
(* Successful providers return memory. *)
Definition honest (x : answers) : Prop := x_res x = SUCCESS -> x_ptr x <> 0.
