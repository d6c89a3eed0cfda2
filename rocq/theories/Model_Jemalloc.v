(* Model of the jemalloc pool (src/pool/pool_jemalloc.c): the extent hooks
   (63-286), op_initialize (383-429), op_finalize (431-441), and the table
   pool_by_arena_index through which the hooks find the pool (40-48).

   jemalloc itself is a client that creates and destroys arenas and calls the
   hooks on behalf of live arenas, for extents it holds, as its manual says; it
   may give the index of a destroyed arena to a later one. Several threads create
   and destroy pools at once: each step below is one access to the table or one
   call into jemalloc. Simplifications: the provider's answers are inputs;
   contents (zeroing), commit and purge, which change no ownership, are left
   out; destroying an arena does not fail. *)
From Verif Require Import Base.

Definition range := (Z * Z)%type. (* address, size *)

(* [creating]: pool and arena, after "arenas.create"; [live]: after the table was
   set; [clearing]: arena index destroyed, its entry not yet reset.
   [exts]: arena and extent, what jemalloc holds. [allocs]: provider and range,
   what the providers gave out; [lost]: what they refused to take back though
   jemalloc gave it up. [crashed]: a hook found no pool. *)
Record jstate := JState { creating : list (Z * Z); live : list (Z * Z); clearing : list Z; table : Z -> option Z;
  exts : list (Z * range); allocs : list (Z * range); lost : list (Z * range); crashed : bool }.
Definition jstate0 : jstate := JState [] [] [] (fun _ => None) [] [] [] false.

Definition range_dec (a b : Z * range) : {a = b} + {a <> b}.
Proof. repeat decide equality. Defined.
Fixpoint drop (x : Z * range) (l : list (Z * range)) : list (Z * range) :=
  match l with [] => [] | y :: t => if range_dec y x then t else y :: drop x t end.
Definition held (x : Z * range) (l : list (Z * range)) : bool := if in_dec range_dec x l then true else false.

(* What jemalloc asks of arena [i], with the provider's answers. *)
Inductive hook :=
| Alloc (new_addr size : Z) (got : option Z) (freed : bool)
| Dalloc (r : range) (ok : bool)
| Destroy (r : range) (ok : bool)
| Split (r : range) (size_a : Z) (ok : bool)
| Merge (a b : range) (ok : bool).

Definition set_mem (s : jstate) (e a l : list (Z * range)) : jstate :=
  JState (creating s) (live s) (clearing s) (table s) e a l (crashed s).
Definition crash (s : jstate) : jstate :=
  JState (creating s) (live s) (clearing s) (table s) (exts s) (allocs s) (lost s) true.

(* The memory part of a hook: provider [v] called on behalf of arena [i]. *)
Definition run_hook (v i : Z) (h : hook) (s : jstate) : jstate :=
  match h with
  | Alloc na size got freed =>                                    (* 63-97 *)
      match got with
      | None => s
      | Some p =>
          if negb (na =? 0) && negb (p =? na)
          then set_mem s (exts s) (if freed then allocs s else (v, (p, size)) :: allocs s) (if freed then lost s else (v, (p, size)) :: lost s)
          else set_mem s ((i, (p, size)) :: exts s) ((v, (p, size)) :: allocs s) (lost s)
      end
  | Dalloc r ok =>                                                (* 127-142 *)
      if held (i, r) (exts s) && ok then set_mem s (drop (i, r) (exts s)) (drop (v, r) (allocs s)) (lost s) else s
  | Destroy r ok =>                                               (* 104-118 *)
      if held (i, r) (exts s) then
        set_mem s (drop (i, r) (exts s)) (if ok then drop (v, r) (allocs s) else allocs s) (if ok then lost s else (v, r) :: lost s)
      else s
  | Split (a, n) k ok =>                                          (* 233-248 *)
      if held (i, (a, n)) (exts s) && ok then
        set_mem s ((i, (a, k)) :: (i, (a + k, n - k)) :: drop (i, (a, n)) (exts s))
          ((v, (a, k)) :: (v, (a + k, n - k)) :: drop (v, (a, n)) (allocs s)) (lost s)
      else s
  | Merge (a, n) (b, m) ok =>                                     (* 256-268 *)
      if held (i, (a, n)) (exts s) && held (i, (b, m)) (drop (i, (a, n)) (exts s)) && ok then
        set_mem s ((i, (a, n + m)) :: drop (i, (b, m)) (drop (i, (a, n)) (exts s)))
          ((v, (a, n + m)) :: drop (v, (b, m)) (drop (v, (a, n)) (allocs s))) (lost s)
      else s
  end.
(* get_pool_by_arena_index, then pool->provider; [pv]: the provider of each pool *)
Definition call_hook (pv : Z -> Z) (i : Z) (h : hook) (s : jstate) : jstate :=
  match table s i with Some p => run_hook (pv p) i h s | None => crash s end.

Definition pair_dec (a b : Z * Z) : {a = b} + {a <> b}.
Proof. repeat decide equality. Defined.
Definition mine (i : Z) (l : list (Z * range)) : list range := map snd (filter (fun x => fst x =? i) l).
(* "arena.%u.destroy" discards every extent of the arena; [oks]: the answers *)
Fixpoint discard (pv : Z -> Z) (i : Z) (rs : list range) (oks : list bool) (s : jstate) : jstate :=
  match rs with
  | [] => s
  | r :: rs => discard pv i rs (tl oks) (call_hook pv i (Destroy r (hd true oks)) s)
  end.
Definition set_table (t : Z -> option Z) (i : Z) (x : option Z) : Z -> option Z := fun j => if j =? i then x else t j.

Inductive jev :=
| ArenaCreate (p i : Z)                       (* 401, by pool [p] *)
| TableSet (p i : Z)                          (* 421, then the pool is returned *)
| ArenaDestroy (p i : Z) (oks : list bool)    (* 435-436 *)
| TableClear (i : Z)                          (* 437 *)
| Hook (p i : Z) (h : hook).                  (* jemalloc serves a call on pool [p] *)

(* whether the step can be taken: jemalloc never gives out an index in use *)
Definition enabled (s : jstate) (e : jev) : Prop :=
  match e with
  | ArenaCreate p i => ~ In i (map snd (creating s)) /\ ~ In i (map snd (live s))
  | TableSet p i => In (p, i) (creating s)
  | ArenaDestroy p i _ => In (p, i) (live s)
  | TableClear i => In i (clearing s)
  | Hook p i _ => In (p, i) (live s)
  end.
Definition jstep (pv : Z -> Z) (s : jstate) (e : jev) : jstate :=
  match e with
  | ArenaCreate p i => JState ((p, i) :: creating s) (live s) (clearing s) (table s) (exts s) (allocs s) (lost s) (crashed s)
  | TableSet p i =>
      JState (remove pair_dec (p, i) (creating s)) ((p, i) :: live s) (clearing s) (set_table (table s) i (Some p)) (exts s) (allocs s) (lost s) (crashed s)
  | ArenaDestroy p i oks =>
      let s := discard pv i (mine i (exts s)) oks s in
      JState (creating s) (remove pair_dec (p, i) (live s)) (i :: clearing s) (table s) (exts s) (allocs s) (lost s) (crashed s)
  | TableClear i =>
      JState (creating s) (live s) (remove Z.eq_dec i (clearing s)) (set_table (table s) i None) (exts s) (allocs s) (lost s) (crashed s)
  | Hook _ i h => call_hook pv i h s
  end.

(* executions; [ok] restricts the steps taken *)
Inductive jreach (pv : Z -> Z) (ok : jstate -> jev -> Prop) : jstate -> Prop :=
| jr_init : jreach pv ok jstate0
| jr_step : forall s e, jreach pv ok s -> enabled s e -> ok s e -> jreach pv ok (jstep pv s e).
