(* What users of the Level Zero provider expect of it. *)
From Coq Require Import Permutation.
From Verif Require Import Base Model_LevelZero.

(* the calls made between two states, newest first, with their codes *)
Definition since (d d' : driver) (l : list (call * Z)) : Prop := made d' = l ++ made d.
Definition allocates (c : call) : bool :=
  match c with AllocHost _ _ _ | AllocDevice _ _ _ _ _ _ | AllocShared _ _ _ _ _ _ => true | _ => false end.
Definition makes_resident (c : call) : bool := match c with MakeResident _ _ _ _ => true | _ => false end.
Definition closes_fd (c : call) : bool := match c with CloseFd _ => true | _ => false end.
Definition frees (c : call) : bool := match c with Free _ _ | FreeExt _ _ _ => true | _ => false end.
(* no call of this sort failed *)
Definition all_ok (sort : call -> bool) (l : list (call * Z)) : Prop := forall c e, In (c, e) l -> sort c = true -> e = 0.

(* as made by umfMemoryProviderCreate over a driver that reports a limit *)
Definition usable (pr : provider) : Prop :=
  mtype pr = MT_HOST \/ ((mtype pr = MT_DEVICE \/ mtype pr = MT_SHARED) /\ device pr <> 0 /\ 0 < max_alloc pr).
Definition free_ready (ext : bool) (pr : provider) : Prop := policy pr = 0 \/ ext = true.
Record holding := Holding { h_by : provider; h_ptr : Z; h_size : Z }.
Definition kind_of (pr : provider) : kind :=
  if mtype pr =? MT_HOST then KHost else if mtype pr =? MT_DEVICE then KDevice else KShared.
Definition block_of (h : holding) : block := Block (h_ptr h) (kind_of (h_by h)) (context (h_by h)) (h_size h).
(* the driver function for the provider's type of memory; limits are relaxed for sizes above them *)
Definition wanted (pr : provider) (size align : Z) : call :=
  let rl := max_alloc pr <? size in
  match kind_of pr with
  | KHost => AllocHost (context pr) size align
  | KDevice => AllocDevice (context pr) (device pr) (ordinal pr) rl size align
  | KShared => AllocShared (context pr) (device pr) (ordinal pr) rl size align
  end.
(* the freeing function for the provider's policy *)
Definition wanted_free (pr : provider) (p : Z) : call :=
  if policy pr =? 0 then Free (context pr) p else FreeExt (context pr) (policy pr) p.

Inductive holds (H : list holding) : request -> result -> Z -> list holding -> Prop :=
| ho_alloc : forall pr s a p, p <> 0 -> (forall h, In h H -> h_ptr h <> p) -> holds H (RAlloc pr s a) SUCCESS p (Holding pr p s :: H)
| ho_refused : forall pr s a r p, r <> SUCCESS -> holds H (RAlloc pr s a) r p H
| ho_free : forall pr p s q H1 H2, H = H1 ++ Holding pr p s :: H2 -> holds H (RFree pr p) SUCCESS q (H1 ++ H2)
| ho_null : forall pr q, holds H (RFree pr 0) SUCCESS q H
| ho_kept : forall pr p r q, r <> SUCCESS -> holds H (RFree pr p) r q H
| ho_other : forall o r q, match o with RAlloc _ _ _ | RFree _ _ => False | _ => True end -> holds H o r q H.
Definition proper (ext : bool) (H : list holding) (o : request) : Prop :=
  match o with
  | RAlloc pr _ _ => usable pr
  | RFree pr p => usable pr /\ free_ready ext pr /\ (p = 0 \/ exists s, In (Holding pr p s) H)
  | RPage pr _ | RGet pr _ | RPut pr _ | ROpen pr _ | RClose pr _ => usable pr
  end.
Inductive history (O : oracle) (ext put : bool) (pid : Z) : driver -> list holding -> list request -> driver -> list holding -> Prop :=
| hi_nil : forall d H, history O ext put pid d H [] d H
| hi_cons : forall d H o r p d1 H1 os d2 H2, proper ext H o -> serve O ext put pid d o = Some (r, p, d1) -> holds H o r p H1 ->
    history O ext put pid d1 H1 os d2 H2 -> history O ext put pid d H (o :: os) d2 H2.
(* the driver's memory: what users hold, and [L] *)
Definition tied (d : driver) (H : list holding) (L : list block) : Prop :=
  Permutation (memory d) (map block_of H ++ L) /\ NoDup (map b_ptr (memory d)) /\ (forall b, In b (memory d) -> b_ptr b <> 0).

(* parameters that describe a provider: memory_provider_gpu.h and provider_level_zero.h *)
Definition valid (p : params) : Prop :=
  p_context p <> 0 /\ (p_type p = MT_HOST <-> p_device p = 0) /\ (p_count p <> 0 -> p_resident p <> None).
Definition listed (p : params) : list Z := match p_resident p with Some l => firstn (Z.to_nat (p_count p)) l | None => [] end.
Definition policy_flags (p : Z) : Z := if p =? 1 then 1 else if p =? 2 then 2 else 0.
