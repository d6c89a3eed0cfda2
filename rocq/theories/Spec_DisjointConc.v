(* What a disjoint pool used by several threads should guarantee. *)
From Verif Require Import Base Model_DisjointConc.

(* a sensible pool: positive sizes *)
Definition sane (g : cfg) : Prop := 0 < k_smin g /\ forall b, 0 < k_size g b.

(* the pointer a thread's call is about, and whether it is a free *)
Definition freeing (q : pc) : option Z :=
  match q with FFind p | FRead p _ | FWait p _ _ | FHold p _ _ | FDirect p => Some p | _ => None end.
Definition asking (q : pc) : option Z :=
  match q with UFind p | URead p _ | UDirect p | UDone p _ => Some p | _ => None end.

(* the caller: frees what it has, once, while nobody else uses it; asks about
   what it has while nobody frees it.  The pool's own side: aligning moves a
   pointer by less than slab_min_size (more is refuted by C22) *)
Definition proper (g : cfg) (s : dst) (a : act) : Prop :=
  match a with
  | AFree p => d_own s p <> None /\ (forall t, freeing (d_pc s t) <> Some p) /\ (forall t, asking (d_pc s t) <> Some p)
  | AUsable p => d_own s p <> None /\ (forall t, freeing (d_pc s t) <> Some p)
  | ATake _ _ off => off < k_smin g
  | _ => True
  end.

(* executions of any number of threads, each step satisfying [ok] *)
Inductive reach (g : cfg) (ok : dst -> Z -> act -> Prop) : dst -> Prop :=
| r_init : reach g ok dinit
| r_step s t a s' : reach g ok s -> proper g s a -> ok s t a -> dstep g s t a = Some s' -> reach g ok s'.

(* nothing bypasses the buckets *)
Definition pooled (s : dst) (t : Z) (a : act) : Prop := match a with ADirect _ _ => False | _ => True end.
(* a slab_t is freed only when no other thread that looked it up is still to
   read it *)
Definition settled (s : dst) (t : Z) (a : act) : Prop :=
  match a, d_pc s t with
  | AGo, FCell x _ => forall t' p, d_pc s t' <> FRead p x /\ d_pc s t' <> URead p x
  | _, _ => True
  end.
Definition any (s : dst) (t : Z) (a : act) : Prop := True.

(* no read of a freed slab_t, no failed assertion, no wrong free *)
Definition defined (s : dst) : Prop := d_bad s = false.
(* what the caller has lies in memory out of the provider, no two overlapping *)
Definition separate (s : dst) : Prop :=
  forall p n k, d_own s p = Some (n, k) ->
    0 < n
    /\ (exists m l o, In (m, l, o) (d_regs s) /\ m <= p /\ p + n <= m + l)
    /\ forall p' n' k', d_own s p' = Some (n', k') -> p' <> p -> p + n <= p' \/ p' + n' <= p.
(* a free that reaches a slab reaches the one its pointer is in, and the right
   chunk; one that reaches the provider has a pointer from there *)
Definition routed (g : cfg) (s : dst) : Prop :=
  (forall t p x b, d_pc s t = FHold p x b ->
     exists n i c, d_own s p = Some (n, Some (x, i)) /\ d_cells s x = Some c /\ c_bk c = b
       /\ (p - c_mem c) / k_size g b = i /\ In i (c_used c))
  /\ (forall t p, d_pc s t = FDirect p -> exists n, d_own s p = Some (n, None)).
(* the usable size is at least what was asked for, and that much really lies in
   memory out of the provider and overlaps nothing else the caller has *)
Definition sized (s : dst) : Prop :=
  forall t p v, d_pc s t = UDone p v ->
    (exists n k, d_own s p = Some (n, k) /\ n <= v)
    /\ (exists m l o, In (m, l, o) (d_regs s) /\ m <= p /\ p + v <= m + l)
    /\ forall p' n' k', d_own s p' = Some (n', k') -> p' <> p -> p + v <= p' \/ p' + n' <= p.
(* who holds a lock is never stuck *)
Definition live_locks (g : cfg) (s : dst) : Prop :=
  forall b t, d_lock s b = Some t -> exists a s', dstep g s t a = Some s'.
(* with no call under way nothing is leaked and no lock is held *)
Definition tidy (s : dst) : Prop :=
  (forall t, d_pc s t = Idle) ->
  (forall b, d_lock s b = None)
  /\ (forall x c, d_cells s x = Some c -> In (c_mem c, x) (d_mp s))
  /\ (forall m l o, In (m, l, o) (d_regs s) ->
        match o with Some x => In (m, x) (d_mp s) | None => d_own s m = Some (l, None) end).

Definition safe (g : cfg) (s : dst) : Prop :=
  defined s /\ separate s /\ routed g s /\ sized s /\ live_locks g s /\ tidy s.
