(* Specification of the NUMA binding, in terms of the calls of
   hwloc_set_area_membind: address, length and set of nodes. *)
From Verif Require Import Base Model_OsNuma.

(* the calls cover [addr, addr+size) in order, without gaps or overlap *)
Fixpoint tiles (addr size : Z) (l : list bind_call) : Prop :=
  match l with
  | [] => size = 0
  | c :: r => c_addr c = addr /\ 0 < c_len c /\ tiles (addr + c_len c) (size - c_len c) r
  end.
(* every call starts and ends at a page of the allocation *)
Definition whole_pages (page addr : Z) (l : list bind_call) : Prop :=
  forall c, In c l -> (c_addr c - addr) mod page = 0 /\ c_len c mod page = 0.
(* the byte at x is bound, among others, to node n *)
Definition bound_to (l : list bind_call) (x n : Z) : Prop :=
  exists c, In c l /\ c_addr c <= x < c_addr c + c_len c /\ In n (c_nodes c).

Fixpoint total (ws : list Z) : Z := match ws with [] => 0 | w :: r => w + total r end.
(* Partition i of an allocation of P pages is the interval from
   P*(w_0+..+w_(i-1))/W to P*(w_0+..+w_i)/W, in pages; W the sum of all weights.
   Page p belongs to it if a part of positive length does. *)
Definition in_share (ws : list Z) (P : Z) (i : nat) (p : Z) : Prop :=
  P * total (firstn i ws) < (p + 1) * total ws /\ p * total ws < P * total (firstn (S i) ws).

(* the partitions the caller configured: weight and node *)
Definition shares (q : params) : list (Z * Z) :=
  match q_parts q with [] => map (fun n => (1, n)) (q_nodes q) | l => l end.

(* the NUMA state of a provider after allocations of the given (page-rounded)
   sizes, oldest first *)
Inductive allocations (page : Z) : numa -> list Z -> numa -> Prop :=
| allocs_none : forall u, allocations page u [] u
| allocs_next : forall u h u1 addr size calls u2, allocations page u h u1 -> 0 < size < U64 -> size mod page = 0 ->
    os_bind u1 addr size page = Some (calls, u2) -> allocations page u (h ++ [size]) u2.

(* B is part rounded up to a multiple of page *)
Definition rounded_up (part page B : Z) : Prop := B mod page = 0 /\ part <= B < part + page.

(* which NUMA parameters make sense *)
Definition sensible (page : Z) (q : params) : Prop :=
  match q_mode q with
  | M_DEFAULT | M_LOCAL => q_nodes q = []
  | M_BIND | M_INTERLEAVE | M_SPLIT => q_nodes q <> []
  | M_PREFERRED => True
  end /\
  (forall w t, In (w, t) (q_parts q) -> w <> 0 /\ In t (q_nodes q)) /\
  (q_mode q = M_INTERLEAVE -> q_part q + page - 1 < U64).
