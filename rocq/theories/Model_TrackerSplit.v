(* Model of the memory tracker when several threads split and merge tracked
   allocations beside allocations, frees and lookups
   (src/provider/provider_tracking.c): trackingAllocationSplit 500-603 and
   trackingAllocationMerge 605-718 with get_most_nested_alloc_segment 64-122 and
   umfMemoryTrackerAddAtLevel 124-175. Adding, removing and looking up are the
   steps of Model_TrackerConc.

   A step is one access to the maps or to a tracker_alloc_info_t another thread
   may touch, one call of the allocator of these records or of the upstream
   provider, or one operation on splitMergeMutex.

   Simplifications, beyond those of Model_TrackerConc:
   - A release build: the assert(0) at 705 is not compiled in, so a merge that
     is not given two allocations returns an error.
   - The mutex never fails.
   - Reading the pools, sizes and n_children of the two records to be merged
     (647-663) is one step.
   - The upstream provider only says whether it accepts; nothing is said about
     its own state (for the coarse provider see C06).
   - [held] and the first components of [Look] are ghosts: no step depends on
     them. *)
From Verif Require Import Base Model_TrackerConc.

(* critnib_insert(..., update = 1): 552, 572, 678 *)
Definition tput (m : list (Z * Z)) (k c : Z) : list (Z * Z) :=
  match tget m k with Some _ => map (fun x => if fst x =? k then (k, c) else x) m | None => (k, c) :: m end.

(* get_most_nested_alloc_segment 64-122 *)
Inductive gpc :=
| GFind (l : Z) (par : option Z) (last : option (Z * Z)) (* about to look up, 81-83 *)
| GSize (l : Z) (par : option Z) (k c : Z)               (* about to read the size, 88 *)
| GNch (l : Z) (par : option Z) (k c : Z)                (* inside; about to read n_children, 91 *)
| GNch2 (l : Z) (par : option Z) (k c : Z)               (* about to read it again, 100 *)
| GChk (l : Z) (par : option Z) (k c : Z)                (* about to check n_children, 106 *)
| GOut (ans : option (Z * option Z * Z)).                (* level, parent and record; or NULL *)
(* the loop is left, 102-108 *)
Definition gout (ptr : Z) (leaf : bool) (l : Z) (par : option Z) (last : option (Z * Z)) : gpc :=
  match last with
  | Some (k, c) => if k =? ptr then if leaf then GChk l par k c else GOut (Some (l, par, c)) else GOut None
  | None => GOut None
  end.
Definition gstep (s : tstate) (ptr : Z) (leaf : bool) (g : gpc) : gpc :=
  match g with
  | GFind l par last => match tfind (t_map s l) ptr with Some (k, c) => GSize l par k c | None => gout ptr leaf l par last end
  | GSize l par k c => if ptr <? k + ti_size (t_info s c) then GNch l par k c else gout ptr leaf l par (Some (k, c))
  | GNch l par k c =>
      if ti_nch (t_info s c) =? 0 then GNch2 l par k c
      else if l =? MAX_LEVELS - 1 then gout ptr leaf l par (Some (k, c))
      else GNch2 (l + 1) (Some c) k c
  | GNch2 l par k c => if ti_nch (t_info s c) =? 0 then gout ptr leaf l par (Some (k, c)) else GFind l par (Some (k, c))
  | GChk l par k c => if 0 <? ti_nch (t_info s c) then GOut None else GOut (Some (l, par, c))
  | GOut _ => g
  end.

(* why a call failed: the upstream provider refused; no memory; the tracker does
   not know the allocations as they were given *)
Inductive why := Refused | NoMem | NotThere.

(* the arguments of a split: the provider's pool, address, size, size of the first part *)
Record sargs := SArgs { sa_pool : Z; sa_ptr : Z; sa_size : Z; sa_first : Z }.
(* the arguments of a merge: the provider's pool, the addresses, the whole size *)
Record margs := MArgs { ma_pool : Z; ma_lo : Z; ma_hi : Z; ma_size : Z }.
Definition whole (x : sargs) : reg := Reg (sa_ptr x) (sa_size x) (sa_pool x).
Definition first (x : sargs) : reg := Reg (sa_ptr x) (sa_first x) (sa_pool x).
Definition second (x : sargs) : reg := Reg (sa_ptr x + sa_first x) (sa_size x - sa_first x) (sa_pool x).
Definition union (y : margs) : reg := Reg (ma_lo y) (ma_size y) (ma_pool y).
Definition lower (y : margs) : reg := Reg (ma_lo y) (ma_hi y - ma_lo y) (ma_pool y).
Definition upper (y : margs) : reg := Reg (ma_hi y) (ma_lo y + ma_size y - ma_hi y) (ma_pool y).

(* where a call is; [v] splitValue or mergedValue, [l], [par], [c] what the
   search returned (level, parent, record), [h] the record of the second part *)
Inductive spc :=
| Old (t : tpc)                                              (* adding or removing *)
| Look (p : Z) (g : list reg) (w : bool) (t : tpc)           (* looking an address up *)
| SNew (x : sargs)                                           (* about to allocate splitValue, 509-517 *)
| SLock (x : sargs) (v : Z)                                  (* 519 *)
| SFind (x : sargs) (v : Z) (g : gpc)                        (* 528-530 *)
| SCmp (x : sargs) (v l : Z) (par : option Z) (c : Z)        (* about to compare the sizes, 536 *)
| SUp (x : sargs) (v l : Z) (par : option Z) (c : Z)         (* about to call upstream, 543 *)
| SUpd (x : sargs) (v l : Z) (par : option Z) (c : Z)        (* about to replace the record in the map, 552 *)
| SHNew (x : sargs) (v l : Z) (par : option Z) (c : Z)       (* about to allocate the second record, 134-143 *)
| SHIns (x : sargs) (v l : Z) (par : option Z) (c h : Z)     (* about to insert it, 146 *)
| SIncR (x : sargs) (p c : Z)                                (* about to read the parent's n_children, 154 *)
| SIncW (x : sargs) (p n c : Z)
| SUndo (x : sargs) (v l c h : Z)                            (* could not insert: about to free it, 172 *)
| SRev (x : sargs) (v l c : Z)                               (* about to put the old record back, 572 *)
| SFree (x : sargs) (c : Z)                                  (* about to free the old record, 584 *)
| SUnl (x : sargs)                                           (* about to unlock, 585 *)
| SErr (x : sargs) (v : Z) (e : why)                         (* about to unlock, 594 *)
| SDrop (x : sargs) (v : Z) (e : why)                        (* about to free splitValue, 596 *)
| SDone (x : sargs) (e : option why)
| MNew (y : margs)                                           (* about to allocate mergedValue, 611-620 *)
| MLock (y : margs) (v : Z)                                  (* 626 *)
| MFindL (y : margs) (v : Z) (g : gpc)                       (* 631-633 *)
| MFindH (y : margs) (v ll lc : Z) (g : gpc)                 (* 639-641 *)
| MCmp (y : margs) (v ll lc lh hc : Z)                       (* about to compare levels, pools and sizes, 647-663 *)
| MUp (y : margs) (v l lc hc : Z)                            (* about to call upstream, 665 *)
| MUpd (y : margs) (v l lc hc : Z)                           (* about to replace the lower record in the map, 678 *)
| MFreeL (y : margs) (l lc hc : Z)                           (* about to free the old lower record, 685 *)
| MRem (y : margs) (l hc : Z)                                (* about to remove the upper record from the map, 687 *)
| MFreeH (y : margs) (c : Z)                                 (* about to free it, 691 *)
| MUnl (y : margs)                                           (* about to unlock, 693 *)
| MErr (y : margs) (v : Z) (e : why)                         (* about to unlock, 708 *)
| MDrop (y : margs) (v : Z) (e : why)                        (* about to free mergedValue, 711 *)
| MDone (y : margs) (e : option why).

Definition reg_eqb (a b : reg) : bool := (r_ptr a =? r_ptr b) && (r_size a =? r_size b) && (r_pool a =? r_pool b).
Definition hdel (r : reg) (h : list reg) : list reg := filter (fun q => negb (reg_eqb q r)) h.

(* umf_ba_alloc of a record, and filling it (134-143, 509-517, 611-620) *)
Definition rec_new (s : tstate) (i : tinfo) : tstate * Z :=
  match t_free s with
  | c :: f => (TState (t_map s) (upd (t_info s) c i) f (t_next s), c)
  | [] => (TState (t_map s) (upd (t_info s) (t_next s) i) [] (t_next s + 1), t_next s)
  end.
(* umf_ba_free: the link of the free list overwrites the pool *)
Definition rec_free (s : tstate) (c : Z) : tstate :=
  TState (t_map s) (upd (t_info s) c (TInfo (-1) (ti_size (t_info s c)) (ti_nch (t_info s c)))) (c :: t_free s) (t_next s).

(* the shared state: the tracker; is splitMergeMutex locked; the allocations as
   their callers know them *)
Record sworld := SWorld { w_tr : tstate; w_mtx : bool; held : list reg }.

(* One step; [ok]: does a call for memory or the upstream provider say yes.
   None: the mutex is taken. *)
Definition sstep (w : sworld) (ok : bool) (t : spc) : option (sworld * list spc) :=
  let s := w_tr w in
  let m := w_mtx w in
  let hd := held w in
  let go (q : spc) := Some (w, [q]) in
  let set (s' : tstate) (q : list spc) := Some (SWorld s' m hd, q) in
  match t with
  | Old o =>
      let '(s', q) := tstep s ok o in
      match q with
      | [Live r _] => Some (SWorld s' m (r :: hd), [])
      | _ => Some (SWorld s' m hd, map Old q)
      end
  | Look p g b o => let '(s', q) := tstep s ok o in Some (SWorld s' m hd, map (Look p g b) q)
  | SNew x => if ok then let '(s', v) := rec_new s (TInfo (sa_pool x) (sa_first x) 0) in set s' [SLock x v] else go (SDone x (Some NoMem))
  | SLock x v => if m then None else Some (SWorld s true hd, [SFind x v (GFind 0 None None)])
  | SFind x v (GOut (Some (l, par, c))) => go (SCmp x v l par c)
  | SFind x v (GOut None) => go (SErr x v NotThere)
  | SFind x v g => go (SFind x v (gstep s (sa_ptr x) true g))
  | SCmp x v l par c => if ti_size (t_info s c) =? sa_size x then go (SUp x v l par c) else go (SErr x v NotThere)
  | SUp x v l par c => if ok then go (SUpd x v l par c) else go (SErr x v Refused)
  | SUpd x v l par c => set (w_map s l (tput (t_map s l) (sa_ptr x) v)) [SHNew x v l par c]
  | SHNew x v l par c =>
      if ok then let '(s', h) := rec_new s (TInfo (sa_pool x) (sa_size x - sa_first x) 0) in set s' [SHIns x v l par c h]
      else go (SRev x v l c)
  | SHIns x v l par c h =>
      let k := sa_ptr x + sa_first x in
      if ok && match tget (t_map s l) k with Some _ => false | None => true end
      then Some (SWorld (w_map s l ((k, h) :: t_map s l)) m (first x :: second x :: hdel (whole x) hd),
                 [match par with Some p => SIncR x p c | None => SFree x c end])
      else go (SUndo x v l c h)
  | SIncR x p c => go (SIncW x p (ti_nch (t_info s p)) c)
  | SIncW x p n c => set (w_nch s p (n + 1)) [SFree x c]
  | SUndo x v l c h => set (rec_free s h) [SRev x v l c]
  | SRev x v l c => set (w_map s l (tput (t_map s l) (sa_ptr x) c)) [SErr x v NoMem]
  | SFree x c => set (rec_free s c) [SUnl x]
  | SUnl x => Some (SWorld s false hd, [SDone x None])
  | SErr x v e => Some (SWorld s false hd, [SDrop x v e])
  | SDrop x v e => set (rec_free s v) [SDone x (Some e)]
  | SDone _ _ => go t
  | MNew y => if ok then let '(s', v) := rec_new s (TInfo (ma_pool y) (ma_size y) 0) in set s' [MLock y v] else go (MDone y (Some NoMem))
  | MLock y v => if m then None else Some (SWorld s true hd, [MFindL y v (GFind 0 None None)])
  | MFindL y v (GOut (Some (l, _, c))) => go (MFindH y v l c (GFind 0 None None))
  | MFindL y v (GOut None) => go (MErr y v NotThere)
  | MFindL y v g => go (MFindL y v (gstep s (ma_lo y) false g))
  | MFindH y v ll lc (GOut (Some (l, _, c))) => go (MCmp y v ll lc l c)
  | MFindH y v ll lc (GOut None) => go (MErr y v NotThere)
  | MFindH y v ll lc g => go (MFindH y v ll lc (gstep s (ma_hi y) false g))
  | MCmp y v ll lc lh hc =>
      let a := t_info s lc in
      let b := t_info s hc in
      if (ll =? lh) && (ti_pool a =? ti_pool b) && (ti_size a + ti_size b =? ma_size y)
      then set (w_nch s v (ti_nch a + ti_nch b)) [MUp y v ll lc hc]
      else go (MErr y v NotThere)
  | MUp y v l lc hc => if ok then go (MUpd y v l lc hc) else go (MErr y v Refused)
  | MUpd y v l lc hc =>
      Some (SWorld (w_map s l (tput (t_map s l) (ma_lo y) v)) m (union y :: hdel (lower y) (hdel (upper y) hd)), [MFreeL y l lc hc])
  | MFreeL y l lc hc => set (rec_free s lc) [MRem y l hc]
  | MRem y l hc =>
      match tget (t_map s l) (ma_hi y) with
      | Some c => set (w_map s l (tdel (t_map s l) (ma_hi y))) [MFreeH y c]
      | None => go (MUnl y) (* umf_ba_free(NULL) *)
      end
  | MFreeH y c => set (rec_free s c) [MUnl y]
  | MUnl y => Some (SWorld s false hd, [MDone y None])
  | MErr y v e => Some (SWorld s false hd, [MDrop y v e])
  | MDrop y v e => set (rec_free s v) [MDone y (Some e)]
  | MDone _ _ => go t
  end.

(* memory that is being allocated or freed *)
Definition sregion (t : spc) : list reg := match t with Old o => region o | _ => [] end.
(* memory a call is about: first address and length *)
Definition about (t : spc) : list (Z * Z) :=
  match t with
  | Old _ | SDone _ _ | MDone _ _ => []
  | Look _ _ _ (LFind _ a _ _) | Look _ _ _ (LSize _ a _ _ _ _) | Look _ _ _ (LNch _ a _ _ _) | Look _ _ _ (LSize2 _ a _ _ _)
  | Look _ _ _ (LNch2 _ a _ _ _) | Look _ _ _ (LOut _ a _ _) | Look _ _ _ (LOut2 _ a _ _ _) => [(a, 1)]
  | Look _ _ _ _ => []
  | SNew x | SLock x _ | SFind x _ _ | SCmp x _ _ _ _ | SUp x _ _ _ _ | SUpd x _ _ _ _ | SHNew x _ _ _ _ | SHIns x _ _ _ _ _
  | SIncR x _ _ | SIncW x _ _ _ | SUndo x _ _ _ _ | SRev x _ _ _ | SFree x _ | SUnl x | SErr x _ _ | SDrop x _ _ => [(sa_ptr x, sa_size x)]
  | MNew y | MLock y _ | MFindL y _ _ | MFindH y _ _ _ _ | MCmp y _ _ _ _ _ | MUp y _ _ _ _ | MUpd y _ _ _ _ | MFreeL y _ _ _
  | MRem y _ _ | MFreeH y _ | MUnl y | MErr y _ _ | MDrop y _ _ => [(ma_lo y, ma_size y)]
  end.
Definition grefs (g : gpc) : list Z :=
  match g with GSize _ _ _ c | GNch _ _ _ c | GNch2 _ _ _ c | GChk _ _ _ c | GOut (Some (_, _, c)) => [c] | _ => [] end.
(* records a call looked up and will still read *)
Definition srefers (t : spc) : list Z :=
  match t with
  | Old o | Look _ _ _ o => refers o
  | SFind _ _ g | MFindL _ _ g => grefs g
  | MFindH _ _ _ lc g => lc :: grefs g
  | SCmp _ _ _ _ c => [c]
  | MCmp _ _ _ lc _ hc => [lc; hc]
  | _ => []
  end.
(* the record the next step gives back to its allocator *)
Definition gives (t : spc) : list Z :=
  match t with
  | Old (RFree _ c) | Old (AUndo _ c) => [c]
  | SUndo _ _ _ _ h => [h]
  | SFree _ c | MFreeL _ _ c _ | MFreeH _ c => [c]
  | SDrop _ v _ | MDrop _ v _ => [v]
  | _ => []
  end.
(* the parts of an allocation being split or merged, once upstream has agreed *)
Definition parts (t : spc) : list reg :=
  match t with
  | SUpd x _ _ _ _ | SHNew x _ _ _ _ | SHIns x _ _ _ _ _ | SUndo x _ _ _ _ | SRev x _ _ _ => [first x; second x]
  | MUpd y _ _ _ _ | MFreeL y _ _ _ | MRem y _ _ => [lower y; upper y]
  | _ => []
  end.
(* the second part of an allocation being split *)
Definition unfound (t : spc) : list reg :=
  match t with
  | SUpd x _ _ _ _ | SHNew x _ _ _ _ | SHIns x _ _ _ _ _ | SUndo x _ _ _ _ | SRev x _ _ _ => [second x]
  | _ => []
  end.
Definition within (a : Z) (r : reg) : bool := (r_ptr r <=? a) && (a <? r_ptr r + r_size r).
(* Ghost: when a lookup searches the map it notes the allocations, and parts of
   allocations being split or merged, that contain the address; and whether it
   is in the second part of one being split. *)
Definition note (hd : list reg) (ts : list spc) (t : spc) : spc :=
  match t with
  | Look p g b (LFind r a l top) =>
      Look p (g ++ filter (within a) (hd ++ flat_map parts ts)) (b || existsb (within a) (flat_map unfound ts)) (LFind r a l top)
  | _ => t
  end.

(* The upstream provider returns new memory; the holder of an allocation frees
   it; somebody looks an address up, splits or merges; a thread takes a step.
   [may_free] says when a record may be given back to its allocator. The
   upstream provider merges only what is adjacent. *)
Definition apart (r : reg) (z : Z * Z) : Prop := r_ptr r + r_size r <= fst z \/ fst z + snd z <= r_ptr r.
Definition covered (hd : list reg) (p a n : Z) : Prop :=
  forall x, a <= x < a + n -> exists q, In q hd /\ within x q = true /\ r_pool q = p.
Inductive smove (may_free : list spc -> Z -> Prop) : sworld * list spc -> sworld * list spc -> Prop :=
| m_alloc : forall w ts r, 0 < r_size r -> (forall q, In q (held w ++ flat_map sregion ts) -> apart r (r_ptr q, r_size q)) ->
    smove may_free (w, ts) (w, Old (AFind r 0 None) :: ts)
| m_dealloc : forall s m h1 h2 ts r, (forall z, In z (flat_map about ts) -> apart r z) ->
    smove may_free (SWorld s m (h1 ++ r :: h2), ts) (SWorld s m (h1 ++ h2), Old (RFind r 0 None None) :: ts)
| m_look : forall w ts p a, covered (held w) p a 1 ->
    smove may_free (w, ts) (w, Look p [] false (LFind (Reg a 1 p) a 0 None) :: ts)
| m_split : forall w ts x, 0 < sa_first x < sa_size x -> covered (held w) (sa_pool x) (sa_ptr x) (sa_size x) ->
    smove may_free (w, ts) (w, SNew x :: ts)
| m_merge : forall w ts y, ma_lo y < ma_hi y < ma_lo y + ma_size y -> covered (held w) (ma_pool y) (ma_lo y) (ma_size y) ->
    smove may_free (w, ts) (w, MNew y :: ts)
| m_step : forall w w' l r t q ok, sstep w ok (note (held w) (l ++ r) t) = Some (w', q) ->
    (forall c, In c (gives t) -> may_free (l ++ r) c) ->
    (forall y v lv lc hc, t = MUp y v lv lc hc -> ok = true -> exists p, In (Reg (ma_lo y) (ma_hi y - ma_lo y) p) (held w)) ->
    smove may_free (w, l ++ t :: r) (w', l ++ q ++ r).
Definition sinit : sworld := SWorld tinit false [].
Inductive sreach (may_free : list spc -> Z -> Prop) : sworld * list spc -> Prop :=
| sr_init : sreach may_free (sinit, [])
| sr_move : forall x y, sreach may_free x -> smove may_free x y -> sreach may_free y.
