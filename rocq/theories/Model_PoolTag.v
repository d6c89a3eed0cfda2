(* Model of the tag of a pool under concurrency (src/memory_pool.c: umfPoolSetTag,
   umfPoolGetTag).

   Simplifications that hold for the whole file:
   - Steps of any number of threads interleave (sequential consistency); locking,
     the copy of the old tag, the store, unlocking and returning are separate steps.
   - utils_mutex_lock and utils_mutex_unlock do not fail. *)
From Verif Require Import Base.

(* the two calls; [null]: hPool is NULL; [old], [out]: the output pointer is given *)
Inductive call := SetTag (null : bool) (tag : Z) (old : bool) | GetTag (null : bool) (out : bool).
(* where a thread is: outside; before the checks and the lock; before the copy; before
   the store (what was copied out); before unlocking; before returning *)
Inductive pc := Idle | Begin (c : call) | Held (c : call) | Copied (c : call) (v : option Z) | Stored (c : call) (v : option Z) | Out (v : option Z).
Inductive event := Call (t : Z) (c : call) | Return (t : Z) (r : result) (v : option Z).
Record pstate := PState { p_tag : Z; p_lock : option Z; p_pc : Z -> pc }.
Definition upd {T} (f : Z -> T) (t : Z) (x : T) : Z -> T := fun u => if u =? t then x else f u.
Definition at_pc (s : pstate) (t : Z) (p : pc) : pstate := PState (p_tag s) (p_lock s) (upd (p_pc s) t p).

(* memory_pool.c:223-233 and 235-242 *)
Definition advance (s : pstate) (t : Z) : option (pstate * option event) :=
  match p_pc s t with
  | Idle => None
  | Begin c =>
      let invalid := match c with SetTag null _ _ => null | GetTag null out => null || negb out end in
      if invalid then Some (at_pc s t Idle, Some (Return t ERR_INVALID_ARGUMENT None))
      else match p_lock s with Some _ => None | None => Some (PState (p_tag s) (Some t) (upd (p_pc s) t (Held c)), None) end
  | Held c =>
      match c with
      | SetTag _ _ old => Some (at_pc s t (Copied c (if old then Some (p_tag s) else None)), None)
      | GetTag _ _ => Some (at_pc s t (Stored c (Some (p_tag s))), None)
      end
  | Copied c v =>
      match c with
      | SetTag _ tag _ => Some (PState tag (p_lock s) (upd (p_pc s) t (Stored c v)), None)
      | GetTag _ _ => None
      end
  | Stored c v => Some (PState (p_tag s) None (upd (p_pc s) t (Out v)), None)
  | Out v => Some (at_pc s t Idle, Some (Return t SUCCESS v))
  end.
(* memory_pool.c:85 *)
Definition p_start : pstate := PState 0 None (fun _ => Idle).
