(* What a client of a coarse-backed provider observes, and what it may expect.
   Nothing here refers to the allocator's internal state: a [view] is built from
   the calls made and the replies received. *)
From Verif Require Import Base Model_Coarse.

(* live p = Some n: the client holds the allocation [p, p+n).
   given: the memory regions the allocator has been handed, (address, size). *)
Record view := View { live : Z -> option Z; given : list (Z * Z) }.
Definition no_view : view := View (fun _ => None) [].

Definition upd_live (f : Z -> option Z) (p : Z) (o : option Z) : Z -> option Z :=
  fun q => if q =? p then o else f q.

(* regions obtained from the alloc callback during a call *)
Definition obtained (ev : list event) : list (Z * Z) :=
  flat_map (fun e => match e with EvAlloc s _ SUCCESS p => [(p, s)] | _ => [] end) ev.

(* The client's bookkeeping: only successful calls have an effect. *)
Definition observe (v : view) (k : call) (r : reply) : view :=
  match r_res r with
  | SUCCESS =>
      match k with
      | CAlloc size _ _ =>
          match r_ptr r with
          | Some p => View (upd_live (live v) p (Some size)) (given v ++ obtained (r_ev r))
          | None => v
          end
      | CFree p _ _ => if p =? 0 then v else View (upd_live (live v) p None) (given v)
      | CSplit p total first _ _ =>
          View (upd_live (upd_live (live v) p (Some first)) (p + first) (Some (total - first))) (given v)
      | CMerge lo hi total _ =>
          View (upd_live (upd_live (live v) hi None) lo (Some total)) (given v)
      | CAddProvider _ _ _ => View (live v) (given v ++ obtained (r_ev r))
      | CAddFixed addr size _ _ => View (live v) (given v ++ [(addr, size)])
      end
  | _ => v
  end.

Definition inside (x : Z) (r : Z * Z) : Prop := fst r <= x < fst r + snd r.
Definition disjoint (r1 r2 : Z * Z) : Prop := forall x, inside x r1 -> inside x r2 -> False.
Definition within_given (v : view) (x : Z) : Prop := exists r, In r (given v) /\ inside x r.

(* Memory handed to the allocator: non-null, inside the address space, not
   overlapping what it already has. *)
Definition fresh_region (v : view) (p n : Z) : Prop :=
  0 < p /\ 0 < n /\ p + n <= U64 /\ forall r, In r (given v) -> disjoint (p, n) r.

Definition both (o : add_oracle) : Prop := o_head o = true /\ o_elem o = true.

(* What a theorem assumes about the world around the allocator.
   debug: the build has assertions enabled.
   class_ok: creating a size class of the free list never runs out of memory
     (without it a free block can stay unlisted; a debug build then asserts).
   merges: the merge callback always agrees. *)
Record env := Env { debug : bool; class_ok : bool; merges : bool }.

Definition agrees (e : env) (o : back_oracle) : Prop :=
  merges e = true -> o_prev o = SUCCESS /\ o_next o = SUCCESS.

(* The environment of one allocation: the callback obeys its contract, fresh
   memory of the internal allocator reads as zero in the one field the code
   leaves uninitialised, and the listed internal allocations succeed. *)
Definition alloc_env (e : env) (page : Z) (v : view) (size alignment : Z) (o : alloc_oracle) : Prop :=
  0 < size < U64 /\ is_word alignment /\
  o_junk o = false /\
  o_elem (o_add1 o) = true /\ both (o_add2 o) /\ o_elem (o_back (o_re o)) = true /\
  (class_ok e = true -> both (o_add1 o) /\ both (o_back (o_re o))) /\
  agrees e (o_re o) /\
  (forall p, o_cb o = (SUCCESS, p) ->
     fresh_region v p size /\
     forall a, effective_alignment page alignment = Some a -> p mod a = 0).

Definition call_env (e : env) (page : Z) (v : view) (k : call) : Prop :=
  match k with
  | CAlloc size alignment o => alloc_env e page v size alignment o
  | CFree p bytes o => is_word p /\ is_word bytes /\ both (o_back o) /\ agrees e o
  | CSplit p total first _ _ => is_word p /\ is_word total /\ is_word first
  | CMerge lo hi total _ => is_word lo /\ is_word hi /\ is_word total
  | CAddProvider size o f =>
      is_word size /\ (size <> 0 -> alloc_env e page v size page o) /\ both (o_back f) /\ agrees e f
  | CAddFixed addr size _ f =>
      is_word addr /\ is_word size /\ both (o_back f) /\ agrees e f /\
      (addr <> 0 -> size <> 0 -> fresh_region v addr size)
  end.

(* Every state a client can bring the allocator into. *)
Inductive reached (e : env) : coarse -> view -> Prop :=
| reached_new : forall n s ha hf, 0 <= n < 64 -> (debug e = true -> class_ok e = true) ->
    reached e (coarse_new (2 ^ n) s ha hf) no_view
| reached_step : forall c v k r,
    reached e c v -> call_env e (page_size c) v k -> step (debug e) c k = Some r ->
    reached e (r_st r) (observe v k r).

(* The list L names every live allocation exactly once. *)
Definition lists_live (v : view) (L : list (Z * Z)) : Prop :=
  NoDup (map fst L) /\ forall p n, In (p, n) L <-> live v p = Some n.
Definition total (L : list (Z * Z)) : Z := fold_right (fun r n => snd r + n) 0 L.

(* What the provider behind the callbacks knows: the pieces (start -> size) that
   exist according to the callback calls it has answered.  [note] is its view of
   one call; None = the call names a piece that does not exist, or asks for an
   impossible cut. *)
Definition pieces := Z -> option Z.
Definition note (R : pieces) (e : event) : option pieces :=
  match e with
  | EvAlloc s _ SUCCESS p => Some (upd_live R p (Some s))
  | EvAlloc _ _ _ _ => Some R
  | EvFree p s =>
      match R p with
      | Some n => if n =? s then Some (upd_live R p None) else None
      | None => None
      end
  | EvSplit p total first r =>
      match R p with
      | Some n =>
          if (n =? total) && (0 <? first) && (first <? total) then
            match r with
            | SUCCESS => Some (upd_live (upd_live R p (Some first)) (p + first) (Some (total - first)))
            | _ => Some R
            end
          else None
      | None => None
      end
  | EvMerge lo hi total r =>
      match R lo, R hi with
      | Some n1, Some n2 =>
          if (hi =? lo + n1) && (total =? n1 + n2) then
            match r with
            | SUCCESS => Some (upd_live (upd_live R hi None) lo (Some total))
            | _ => Some R
            end
          else None
      | _, _ => None
      end
  end.
Fixpoint notes (R : pieces) (evs : list event) : option pieces :=
  match evs with
  | [] => Some R
  | e :: r => match note R e with Some R' => notes R' r | None => None end
  end.
(* memory that arrives without a callback *)
Definition note_fixed (R : pieces) (k : call) (r : reply) : pieces :=
  match k, r_res r with
  | CAddFixed addr size _ _, SUCCESS => upd_live R addr (Some size)
  | _, _ => R
  end.
(* no internal allocation fails where a callback has already been answered *)
Definition no_oom (c : coarse) (k : call) : Prop :=
  let alloc o := o_new1 o = true /\ o_new2 o = true /\ (o_newb o = true \/ has_free c = true) in
  match k with
  | CAlloc _ _ o | CAddProvider _ o _ => alloc o
  | CSplit _ _ _ _ ok => ok = true
  | _ => True
  end.

(* A history together with what the provider behind the callbacks knows. *)
Inductive watched (e : env) : coarse -> view -> pieces -> Prop :=
| watched_new : forall n s ha hf, 0 <= n < 64 -> (debug e = true -> class_ok e = true) ->
    watched e (coarse_new (2 ^ n) s ha hf) no_view (fun _ => None)
| watched_step : forall c v R k r R',
    watched e c v R -> call_env e (page_size c) v k -> no_oom c k -> step (debug e) c k = Some r ->
    notes (note_fixed R k r) (r_ev r) = Some R' ->
    watched e (r_st r) (observe v k r) R'.

(* a block nobody holds *)
Definition free_block (c : coarse) (b : block) : Prop := In b (all_blocks c) /\ b_used b = false.
