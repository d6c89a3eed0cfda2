(* Model of the memory tracker used by several threads at once
   (src/provider/provider_tracking.c): adding an allocation (trackingAlloc
   465-498 with umfMemoryTrackerAdd 177-233), removing it (trackingFree 720-773
   with umfMemoryTrackerRemove 235-277) and looking an address up
   (umfMemoryTrackerGetAllocInfo 357-409).

   A step is one access to the maps or to a tracker_alloc_info_t another thread
   may touch, one call of the allocator of these records, or one read or write
   of n_children (n_children++ is a read and a write, 154 and 271: it is neither
   atomic nor under a lock).

   Simplifications:
   - critnib operations take effect at one moment (the lookup returns the entry
     of the greatest key not above the address, see C70; inserting fails on a
     key that is there).
   - Addresses and sizes do not wrap.
   - Splitting and merging, the IPC cache and failing upstream frees are left
     out; the upstream free follows the last step of a removal.
   - The allocator of the records hands out what was freed last
     (base_alloc.c:224-237, 283-284) and never fails (a failing one ends the
     allocation as a failing insertion does). *)
From Verif Require Import Base.

(* provider_tracking.c:46-53 *)
Record tinfo := TInfo { ti_pool : Z; ti_size : Z; ti_nch : Z }.
(* [t_map]: alloc_segments_map by level, address to record; [t_info]: the
   records; [t_free], [t_next]: the free list of their allocator and the first
   one never used *)
Record tstate := TState { t_map : Z -> list (Z * Z); t_info : Z -> tinfo; t_free : list Z; t_next : Z }.
Definition tinit : tstate := TState (fun _ => []) (fun _ => TInfo 0 0 0) [] 0.

Definition upd {A} (f : Z -> A) (k : Z) (v : A) : Z -> A := fun x => if x =? k then v else f x.
Definition w_map (s : tstate) (l : Z) (m : list (Z * Z)) : tstate := TState (upd (t_map s) l m) (t_info s) (t_free s) (t_next s).
Definition w_info (s : tstate) (c : Z) (i : tinfo) : tstate := TState (t_map s) (upd (t_info s) c i) (t_free s) (t_next s).
Definition w_nch (s : tstate) (c n : Z) : tstate := w_info s c (TInfo (ti_pool (t_info s c)) (ti_size (t_info s c)) n).

(* critnib_find(..., FIND_LE) *)
Definition tfind (m : list (Z * Z)) (a : Z) : option (Z * Z) :=
  fold_right (fun x best => if fst x <=? a then match best with Some y => if fst y <=? fst x then Some x else best | None => Some x end else best) None m.
Definition tget (m : list (Z * Z)) (a : Z) : option Z := match find (fun x => fst x =? a) m with Some (_, c) => Some c | None => None end.
Definition tdel (m : list (Z * Z)) (a : Z) : list (Z * Z) := filter (fun x => negb (fst x =? a)) m.

Definition MAX_LEVELS : Z := 8. (* 31 *)

(* an allocation: address, size, pool *)
Record reg := Reg { r_ptr : Z; r_size : Z; r_pool : Z }.

(* where a call is; [l] the level, [par] the record of the parent found so far,
   [k] and [c] the address and record the last lookup returned *)
Inductive tpc :=
| AFind (r : reg) (l : Z) (par : option Z)              (* about to look up, 195-197 *)
| ASize (r : reg) (l : Z) (par : option Z) (k c : Z)    (* about to read the size found, 202 *)
| ANch (r : reg) (l : Z) (c : Z)                        (* inside [c], one level down; about to read its n_children, 224 *)
| ANew (r : reg) (l : Z) (par : option Z)               (* about to allocate and fill a record, 134-143 *)
| AIns (r : reg) (l : Z) (par : option Z) (c : Z)       (* about to insert it, 146 *)
| AIncR (r : reg) (p c : Z)                             (* about to read the parent's n_children, 154 *)
| AIncW (r : reg) (p n c : Z)                           (* about to write it back *)
| AUndo (r : reg) (c : Z)                               (* could not insert, about to free the record, 172 *)
| Live (r : reg) (c : Z)                                (* the allocation was returned to the caller *)
| RFind (r : reg) (l : Z) (par : option Z) (last : option (Z * Z)) (* removing: about to look up, 81-83 *)
| RSize (r : reg) (l : Z) (par : option Z) (k c : Z)    (* about to read the size, 88 *)
| RNch (r : reg) (l : Z) (par : option Z) (k c : Z)     (* inside; about to read n_children, 91 *)
| RNch2 (r : reg) (l : Z) (par : option Z) (k c : Z)    (* about to read it again, 100 *)
| RChk (r : reg) (l : Z) (par : option Z) (k c : Z)     (* out of the loop; about to check n_children, 106 *)
| RRem (r : reg) (l : Z) (par : option Z)               (* about to remove from the map, 258 *)
| RDecR (r : reg) (p c : Z)                             (* about to read the parent's n_children, 271 *)
| RDecW (r : reg) (p n c : Z)
| RFree (r : reg) (c : Z)                               (* about to free the record, 274 *)
| LFind (r : reg) (a l : Z) (top : option (Z * Z))      (* looking [a] up: about to search, 384 *)
| LSize (r : reg) (a l : Z) (top : option (Z * Z)) (k c : Z) (* about to read the size, 386 *)
| LNch (r : reg) (a l : Z) (k c : Z)                    (* about to read n_children, 389 *)
| LSize2 (r : reg) (a l : Z) (k c : Z)                  (* about to read the size again, 395 *)
| LNch2 (r : reg) (a l : Z) (k c : Z)                   (* about to read n_children again, 396 *)
| LOut (r : reg) (a k c : Z)                            (* about to read the size for the answer, 405 *)
| LOut2 (r : reg) (a k n c : Z)                         (* about to read the pool, 406 *)
| LDone (r : reg) (a : Z) (ans : option (Z * Z * Z))    (* base, size, pool; or not found *)
| Lost (r : reg).                                       (* removal did not find the allocation *)

(* the loop of a lookup is left: with an answer if something was found, 398-406 *)
Definition lout (r : reg) (a : Z) (top : option (Z * Z)) : tpc :=
  match top with Some (k, c) => LOut r a k c | None => LDone r a None end.
(* the loop of get_most_nested_alloc_segment is left, 102-108 *)
Definition rout (r : reg) (l : Z) (par : option Z) (last : option (Z * Z)) : tpc :=
  match last with Some (k, c) => if k =? r_ptr r then RChk r l par k c else Lost r | None => Lost r end.

(* One step. [ok]: does an insertion find memory. An empty list: the allocation
   failed, or the removal ended. *)
Definition tstep (s : tstate) (ok : bool) (t : tpc) : tstate * list tpc :=
  match t with
  | AFind r l par =>
      match tfind (t_map s l) (r_ptr r) with Some (k, c) => (s, [ASize r l par k c]) | None => (s, [ANew r l par]) end
  | ASize r l par k c =>
      let n := ti_size (t_info s c) in
      if r_ptr r <? k + n then
        if l =? MAX_LEVELS - 1 then (s, [])
        else if k + n <? r_ptr r + r_size r then (s, [])
        else (s, [ANch r (l + 1) c])
      else (s, [ANew r l par])
  | ANch r l c => if ti_nch (t_info s c) =? 0 then (s, [ANew r l (Some c)]) else (s, [AFind r l (Some c)])
  | ANew r l par =>
      match t_free s with
      | c :: f => (TState (t_map s) (upd (t_info s) c (TInfo (r_pool r) (r_size r) 0)) f (t_next s), [AIns r l par c])
      | [] => (TState (t_map s) (upd (t_info s) (t_next s) (TInfo (r_pool r) (r_size r) 0)) [] (t_next s + 1), [AIns r l par (t_next s)])
      end
  | AIns r l par c =>
      if ok && match tget (t_map s l) (r_ptr r) with Some _ => false | None => true end
      then (w_map s l ((r_ptr r, c) :: t_map s l), match par with Some p => [AIncR r p c] | None => [Live r c] end)
      else (s, [AUndo r c])
  | AIncR r p c => (s, [AIncW r p (ti_nch (t_info s p)) c])
  | AIncW r p n c => (w_nch s p (n + 1), [Live r c])
  | AUndo r c => (TState (t_map s) (upd (t_info s) c (TInfo (-1) (ti_size (t_info s c)) (ti_nch (t_info s c)))) (c :: t_free s) (t_next s), [])
  | Live _ _ => (s, [t])
  | RFind r l par last =>
      match tfind (t_map s l) (r_ptr r) with Some (k, c) => (s, [RSize r l par k c]) | None => (s, [rout r l par last]) end
  | RSize r l par k c => if r_ptr r <? k + ti_size (t_info s c) then (s, [RNch r l par k c]) else (s, [rout r l par (Some (k, c))])
  | RNch r l par k c =>
      if ti_nch (t_info s c) =? 0 then (s, [RNch2 r l par k c])
      else if l =? MAX_LEVELS - 1 then (s, [rout r l par (Some (k, c))])
      else (s, [RNch2 r (l + 1) (Some c) k c])
  | RNch2 r l par k c => if ti_nch (t_info s c) =? 0 then (s, [rout r l par (Some (k, c))]) else (s, [RFind r l par (Some (k, c))])
  | RChk r l par k c => if 0 <? ti_nch (t_info s c) then (s, [Lost r]) else (s, [RRem r l par])
  | RRem r l par =>
      match tget (t_map s l) (r_ptr r) with
      | Some c => (w_map s l (tdel (t_map s l) (r_ptr r)), match par with Some p => [RDecR r p c] | None => [RFree r c] end)
      | None => (s, [Lost r]) (* the assert at 259 *)
      end
  | RDecR r p c => (s, [RDecW r p (ti_nch (t_info s p)) c])
  | RDecW r p n c => (w_nch s p (n - 1), [RFree r c])
  | RFree r c => (* the link of the free list overwrites the pool *)
      (TState (t_map s) (upd (t_info s) c (TInfo (-1) (ti_size (t_info s c)) (ti_nch (t_info s c)))) (c :: t_free s) (t_next s), [])
  | LFind r a l top =>
      match tfind (t_map s l) a with Some (k, c) => (s, [LSize r a l top k c]) | None => (s, [lout r a top]) end
  | LSize r a l top k c => if a <? k + ti_size (t_info s c) then (s, [LNch r a l k c]) else (s, [lout r a top])
  | LNch r a l k c =>
      if (ti_nch (t_info s c) =? 0) || (l =? MAX_LEVELS - 1) then (s, [LOut r a k c]) else (s, [LSize2 r a (l + 1) k c])
  | LSize2 r a l k c => if a <? k + ti_size (t_info s c) then (s, [LNch2 r a l k c]) else (s, [LOut r a k c])
  | LNch2 r a l k c => if ti_nch (t_info s c) =? 0 then (s, [LOut r a k c]) else (s, [LFind r a l (Some (k, c))])
  | LOut r a k c => (s, [LOut2 r a k (ti_size (t_info s c)) c])
  | LOut2 r a k n c => (s, [LDone r a (Some (k, n, ti_pool (t_info s c)))])
  | LDone _ _ _ => (s, [t])
  | Lost _ => (s, [t])
  end.

(* memory the upstream providers consider allocated *)
Definition region (t : tpc) : list reg :=
  match t with
  | AFind r _ _ | ASize r _ _ _ _ | ANch r _ _ | ANew r _ _ | AIns r _ _ _ | AIncR r _ _ | AIncW r _ _ _ | AUndo r _ | Live r _
  | RFind r _ _ _ | RSize r _ _ _ _ | RNch r _ _ _ _ | RNch2 r _ _ _ _ | RChk r _ _ _ _ | RRem r _ _ | RDecR r _ _ | RDecW r _ _ _
  | RFree r _ | Lost r => [r]
  | _ => []
  end.
(* the allocation a lookup is about *)
Definition looks (t : tpc) : list reg :=
  match t with
  | LFind r _ _ _ | LSize r _ _ _ _ _ | LNch r _ _ _ _ | LSize2 r _ _ _ _ | LNch2 r _ _ _ _ | LOut r _ _ _ | LOut2 r _ _ _ _ => [r]
  | _ => []
  end.
(* the record a call looked up and will still read *)
Definition refers (t : tpc) : list Z :=
  match t with
  | ASize _ _ _ _ c | ANch _ _ c | RSize _ _ _ _ c | RNch _ _ _ _ c | RNch2 _ _ _ _ c | RChk _ _ _ _ c
  | LSize _ _ _ _ _ c | LNch _ _ _ _ c | LSize2 _ _ _ _ c | LNch2 _ _ _ _ c | LOut _ _ _ c | LOut2 _ _ _ _ c => [c]
  | _ => []
  end.

(* The upstream provider returns new memory ([where_] says what it may return);
   the holder of an allocation frees it (nobody looks it up meanwhile); somebody
   looks up an address inside an allocation; a thread takes a step. [may_free]
   says when a record may be given back to its allocator. *)
Inductive tmove (where_ : list tpc -> reg -> Prop) (may_free : list tpc -> Z -> Prop) : tstate * list tpc -> tstate * list tpc -> Prop :=
| t_alloc : forall s ts r, where_ ts r -> tmove where_ may_free (s, ts) (s, AFind r 0 None :: ts)
| t_dealloc : forall s l r' r c, ~ In r (flat_map looks (l ++ r')) ->
    tmove where_ may_free (s, l ++ Live r c :: r') (s, l ++ RFind r 0 None None :: r')
| t_look : forall s ts r c a, In (Live r c) ts -> r_ptr r <= a < r_ptr r + r_size r -> tmove where_ may_free (s, ts) (s, LFind r a 0 None :: ts)
| t_step : forall s s' l r' t q ok, tstep s ok t = (s', q) ->
    (forall r c, t = RFree r c \/ t = AUndo r c -> may_free (l ++ r') c) ->
    tmove where_ may_free (s, l ++ t :: r') (s', l ++ q ++ r').
Inductive treach (where_ : list tpc -> reg -> Prop) (may_free : list tpc -> Z -> Prop) : tstate * list tpc -> Prop :=
| tr_init : treach where_ may_free (tinit, [])
| tr_move : forall x y, treach where_ may_free x -> tmove where_ may_free x y -> treach where_ may_free y.
