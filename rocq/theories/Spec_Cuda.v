(* What users of the CUDA provider expect of it. *)
From Coq Require Import Permutation.
From Verif Require Import Base Model_Cuda.

(* the calls made between two states, newest first *)
Definition since (d d' : driver) (l : list (Z * call * Z)) : Prop := made d' = l ++ made d.
Definition about_context (c : call) : bool := match c with GetCurrent | SetCurrent _ => true | _ => false end.
Definition allocates (c : call) : bool := match c with AllocHost _ _ | AllocDevice _ | AllocManaged _ _ => true | _ => false end.
(* memory is allocated, freed or mapped *)
Definition acts (c : call) : bool :=
  match c with AllocHost _ _ | AllocDevice _ | AllocManaged _ _ | FreeHost _ | FreeDevice _ | IpcOpen _ => true | _ => false end.
Definition uses_memory (c : call) : bool := acts c || match c with IpcGet _ | IpcClose _ => true | _ => false end.
Definition failed (x : Z * call * Z) : Prop := snd x <> 0.
(* every call that says or sets the context succeeded *)
Definition context_calls_ok (l : list (Z * call * Z)) : Prop := forall c x e, In (c, x, e) l -> about_context x = true -> e = 0.
(* only allocations failed, if any call did *)
Definition only_allocations_fail (l : list (Z * call * Z)) : Prop := forall c x e, In (c, x, e) l -> e <> 0 -> allocates x = true.

Definition usable (pr : provider) : Prop := mtype pr = MT_HOST \/ mtype pr = MT_DEVICE \/ mtype pr = MT_SHARED.
(* memory handed out by a provider and not given back *)
Record holding := Holding { h_by : provider; h_ptr : Z; h_size : Z }.
Definition kind_of (pr : provider) : kind :=
  if mtype pr =? MT_HOST then KHost else if mtype pr =? MT_DEVICE then KDevice else KManaged.
Definition block_of (h : holding) : block := Block (h_ptr h) (kind_of (h_by h)) (context (h_by h)) (h_size h).
(* the driver function for the provider's type of memory *)
Definition wanted (pr : provider) (size : Z) : call :=
  match kind_of pr with KHost => AllocHost size (alloc_flags pr) | KDevice => AllocDevice size | KManaged => AllocManaged size (alloc_flags pr) end.
Definition aligned (p a : Z) : Prop := a = 0 \/ p mod a = 0.

(* what the user holds after a request *)
Inductive holds (H : list holding) : request -> result -> Z -> list holding -> Prop :=
| ho_alloc : forall pr s a p, aligned p a -> a <= min_alignment pr -> p <> 0 -> (forall h, In h H -> h_ptr h <> p) ->
    holds H (RAlloc pr s a) SUCCESS p (Holding pr p s :: H)
| ho_refused : forall pr s a r p, r <> SUCCESS -> holds H (RAlloc pr s a) r p H
| ho_free : forall pr p s q H1 H2, H = H1 ++ Holding pr p s :: H2 -> holds H (RFree pr p) SUCCESS q (H1 ++ H2)
| ho_null : forall pr q, holds H (RFree pr 0) SUCCESS q H
| ho_kept : forall pr p r q, r <> SUCCESS -> holds H (RFree pr p) r q H
| ho_other : forall o r q, match o with RAlloc _ _ _ | RFree _ _ => False | _ => True end -> holds H o r q H.
(* a request a correct user makes: providers made by umfMemoryProviderCreate, frees of held memory *)
Definition proper (H : list holding) (o : request) : Prop :=
  match o with
  | RAlloc pr s a => usable pr /\ 0 <= a
  | RFree pr p => usable pr /\ (p = 0 \/ exists s, In (Holding pr p s) H)
  | ROpen pr _ | RClose pr _ | RGet pr _ | RPage pr _ => usable pr
  | RContext _ => True
  end.
(* a history of proper requests *)
Inductive history (O : oracle) : driver -> list holding -> list request -> driver -> list holding -> Prop :=
| hi_nil : forall d H, history O d H [] d H
| hi_cons : forall d H o r p d1 H1 os d2 H2, proper H o -> serve O d o = Some (r, p, d1) -> holds H o r p H1 ->
    history O d1 H1 os d2 H2 -> history O d H (o :: os) d2 H2.
(* the driver's memory: what users hold, and [L] *)
Definition tied (d : driver) (H : list holding) (L : list block) : Prop :=
  Permutation (memory d) (map block_of H ++ L) /\ NoDup (map b_ptr (memory d)) /\ (forall b, In b (memory d) -> b_ptr b <> 0).

(* the provider of a request, if it has one *)
Definition of_request (o : request) : option provider :=
  match o with RAlloc pr _ _ | RFree pr _ | ROpen pr _ | RClose pr _ | RGet pr _ | RPage pr _ => Some pr | RContext _ => None end.
