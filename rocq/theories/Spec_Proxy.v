(* What the malloc replacement promises, in terms of live blocks and of the answers of the
   system allocator, of the pool and of the OS. *)
From Verif Require Import Base Model_Utils Spec_Utils Model_BaseAlloc Spec_BaseAlloc Model_Proxy.

(* live blocks of the system and of the pool; of the bootstrap allocator, each with the
   linear block it lies in; memory of the bootstrap allocator; memory of the pool *)
Record view := View { v_live : list (owner * (Z * Z)); v_leak : list ((Z * Z) * (Z * Z)); v_mem : list (Z * Z); v_regions : list (Z * Z) }.
Definition v_start : view := View [] [] [] [].
Definition owner_eqb (a b : owner) : bool := match a, b with Sys, Sys => true | Pool, Pool => true | _, _ => false end.
(* the bytes asked for; the pool's calloc computes them in 64 bits *)
Definition bytes (o : owner) (r : request) : Z := match r with Malloc n => n | Calloc n s => match o with Sys => n * s | Pool => wrap (n * s) end | Aligned _ n => n end.
Definition fitting (r : request) (p : Z) : Prop := match r with Aligned al _ => multiple_of p al | _ => True end.
Definition without (o : owner) (p : Z) (l : list (owner * (Z * Z))) : list (owner * (Z * Z)) := filter (fun b => negb (owner_eqb (fst b) o && (fst (snd b) =? p))) l.
Definition apply (v : view) (a : act) : view :=
  match a with
  | AOs e => View (v_live v) (v_leak v) (os_step (v_mem v) e) (v_regions v)
  | AGot o r p => if p =? 0 then v else View ((o, (p, bytes o r)) :: v_live v) (v_leak v) (v_mem v) (v_regions v)
  | AMoved o p n q => if q =? 0 then v else View ((o, (q, n)) :: without o p (v_live v)) (v_leak v) (v_mem v) (v_regions v)
  | AGone o p => View (without o p (v_live v)) (v_leak v) (v_mem v) (v_regions v)
  | AMap rs => View (v_live v) (v_leak v) (v_mem v) rs
  | ALeak n p x s => View (v_live v) (((p, n), (x, s)) :: v_leak v) (v_mem v) (v_regions v)
  | ALeakGone p => View (v_live v) (filter (fun b => negb (fst (fst b) =? p)) (v_leak v)) (v_mem v) (v_regions v)
  | AAsked _ _ _ | ACopy _ _ _ | ALost _ => v
  end.
Definition applies (v : view) (l : list act) : view := fold_left apply l v.

(* a block occupies at least one byte *)
Definition extent (n : Z) : Z := Z.max 1 n.
Definition clear_of (p n : Z) (l : list (Z * Z)) : Prop := forall q m, In (q, m) l -> apart p n q m.
(* a new block of an owner, beside its live ones *)
Definition new_block (v : view) (live : list (owner * (Z * Z))) (o : owner) (p n : Z) : Prop :=
  0 < p /\ (forall q m, In (o, (q, m)) live -> apart p (extent n) q (extent m)) /\
  match o with Sys => clear_of p (extent n) (v_mem v) /\ clear_of p (extent n) (v_regions v) | Pool => True end.
(* What the system allocator, the pool and the OS guarantee. *)
Definition act_ok (page : Z) (v : view) (a : act) : Prop :=
  match a with
  | AOs e => os_ok page (v_mem v) [e] /\ match e with OsAlloc p n => clear_of p n (v_regions v) /\ (forall q m, In (Sys, (q, m)) (v_live v) -> apart p n q (extent m)) | _ => True end
  | AGot o r p => p = 0 \/ (new_block v (v_live v) o p (bytes o r) /\ fitting r p)
  | AMoved o p n q => q = 0 \/ new_block v (without o p (v_live v)) o q n
  | AAsked o p r => forall n, In (o, (p, n)) (v_live v) -> n <= r
  | AMap rs => (forall q m, In (q, m) rs -> clear_of q m (v_mem v) /\ forall p n, In (Sys, (p, n)) (v_live v) -> apart q m p (extent n)) /\
               (forall p n, In (Pool, (p, n)) (v_live v) -> exists q m, In (q, m) rs /\ q <= p /\ p + extent n <= q + m)
  | _ => True
  end.
Fixpoint acts_ok (page : Z) (v : view) (l : list act) : Prop := match l with [] => True | a :: r => act_ok page v a /\ acts_ok page (apply v a) r end.

(* every live block, and who made it *)
Inductive maker := By (o : owner) | Boot.
Definition made (v : view) (k : maker) (p n : Z) : Prop := match k with By o => In (o, (p, n)) (v_live v) | Boot => exists x s, In ((p, n), (x, s)) (v_leak v) end.
Definition alive (v : view) (p : Z) : Prop := exists k n, made v k p n.
(* legal calls: the sizes leave room for two pages *)
Definition room (c : consts) (n : Z) : Prop := 0 <= n /\ n + 2 * k_page c <= U64.
Definition call_ok (c : consts) (w : proxy) (v : view) (k : pcall) : Prop :=
  match k with
  | CMalloc _ n => room c n
  | CCalloc _ n s => 0 <= n /\ 0 <= s /\ room c (n * s)
  | CAligned _ al n => power_of_two al /\ 0 <= n /\ room c (n + al)
  | CFree p => p = 0 \/ alive v p
  | CRealloc _ p n => room c n /\ (p = 0 \/ alive v p)
  | CUsable p => alive v p
  | CThreshold n => x_thr w = 0 /\ 0 <= n
  | CPool => x_pool w = false
  | CDestroy => False
  end.
Inductive preached (dbg : bool) (c : consts) : proxy -> view -> Prop :=
| preached_start : preached dbg c x_start v_start
| preached_step : forall w v k a r l w', preached dbg c w v -> call_ok c w v k -> pstep dbg c w k a = Some (r, l, w') -> acts_ok (k_page c) v l -> preached dbg c w' (applies v l).

(* what a call did to blocks, without the traffic with the OS *)
Definition quiet (a : act) : bool := match a with AOs _ | AMap _ => true | _ => false end.
Definition deeds (l : list act) : list act := filter (fun a => negb (quiet a)) l.

(* the OS gives the bootstrap allocator its memory, and legal answers *)
Definition wanted (k : pcall) : Z := match k with CMalloc _ n => n | CCalloc _ n s => n * s | CAligned _ al n => n + al | CRealloc _ _ n => n | _ => 0 end.
Definition os_fair (dbg : bool) (c : consts) (w : proxy) (v : view) (k : pcall) (a : ans) : Prop :=
  (x_leak w = None -> exists p, a_os0 a = Some p) /\
  forall l e, ba_leak_init_once c w a = Some (l, e) -> acts_ok (k_page c) v e /\ (forall p, a_os1 a = Some p -> multiple_of p (k_page c)) /\
    forall x ev l', umf_ba_linear_alloc dbg c l (wanted k) (a_os1 a) = Some (x, ev, l') -> acts_ok (k_page c) (applies v e) (map AOs ev).
