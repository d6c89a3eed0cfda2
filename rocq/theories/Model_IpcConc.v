(* Model of several threads opening and closing IPC handles at once, through
   the cache of opened handles (src/ipc_cache.c,
   src/provider/provider_tracking.c:982-1130).

   A call is a thread with a program counter. A step is one access to memory
   that another thread may access at the same time, or one call of the upstream
   provider; what a thread does alone (on its stack, on an entry nobody else can
   reach, or on data guarded by a lock it holds) is joined to a neighbouring
   step. Interleavings are sequentially consistent.

   Simplifications:
   - One tracking provider, so one hash table; all keys of the cache are its.
   - A key (remote process, remote base address) is a number.
   - Reference counts and handle numbers do not wrap (2^64 calls).
   - utils_mutex_init does not fail; the cache is not destroyed.
   - umfCloseIPCHandle (ipc.c:148-158) is called with the address opened, so the
     first lookup it makes (which finds the base of the mapping) is left out.
   - critnib_get, critnib_insert and critnib_remove on the tracker's map of
     opened segments take effect at one moment (property C46; writers hold the map's mutex). *)
From Verif Require Import Base.

(* memory shared by the threads. Entries of the cache are numbered:
   ipc_cache.c:30-39 gives [s_key], [s_ref], [s_hid]; the value inside
   (ipc_cache.h:26-30) gives [s_base] (0 is NULL) and [s_mlock] (is mmap_lock
   taken). [s_hash], [s_lru] (head first), [s_cap] (max_size) and [s_glock]
   (cache_lock) are ipc_cache.c:41-53; cur_size is the length of [s_lru].
   [s_next] is the entry the allocator gives next. [s_segs] is the tracker's
   ipc_segments_map (address to entry). [s_mapped]: what the upstream provider
   has mapped into this process. *)
Record cstate := CState {
  s_key : Z -> Z; s_ref : Z -> Z; s_hid : Z -> Z; s_base : Z -> Z; s_mlock : Z -> bool;
  s_hash : Z -> option Z; s_lru : list Z; s_cap : Z; s_glock : bool; s_next : Z;
  s_segs : Z -> option Z; s_mapped : list Z }.

Definition set {A} (f : Z -> A) (k : Z) (v : A) : Z -> A := fun x => if x =? k then v else f x.

Definition cinit (cap : Z) : cstate :=
  CState (fun _ => 0) (fun _ => 0) (fun _ => 0) (fun _ => 0) (fun _ => false) (fun _ => None) [] cap false 1 (fun _ => None) [].

Definition w_ref (s : cstate) (e r : Z) : cstate :=
  CState (s_key s) (set (s_ref s) e r) (s_hid s) (s_base s) (s_mlock s) (s_hash s) (s_lru s) (s_cap s) (s_glock s) (s_next s) (s_segs s) (s_mapped s).
Definition w_base (s : cstate) (e a : Z) : cstate :=
  CState (s_key s) (s_ref s) (s_hid s) (set (s_base s) e a) (s_mlock s) (s_hash s) (s_lru s) (s_cap s) (s_glock s) (s_next s) (s_segs s) (s_mapped s).
Definition w_mlock (s : cstate) (e : Z) (b : bool) : cstate :=
  CState (s_key s) (s_ref s) (s_hid s) (s_base s) (set (s_mlock s) e b) (s_hash s) (s_lru s) (s_cap s) (s_glock s) (s_next s) (s_segs s) (s_mapped s).
Definition w_glock (s : cstate) (b : bool) : cstate :=
  CState (s_key s) (s_ref s) (s_hid s) (s_base s) (s_mlock s) (s_hash s) (s_lru s) (s_cap s) b (s_next s) (s_segs s) (s_mapped s).
Definition w_lru (s : cstate) (l : list Z) : cstate :=
  CState (s_key s) (s_ref s) (s_hid s) (s_base s) (s_mlock s) (s_hash s) l (s_cap s) (s_glock s) (s_next s) (s_segs s) (s_mapped s).
Definition w_next (s : cstate) (n : Z) : cstate :=
  CState (s_key s) (s_ref s) (s_hid s) (s_base s) (s_mlock s) (s_hash s) (s_lru s) (s_cap s) (s_glock s) n (s_segs s) (s_mapped s).
Definition w_segs (s : cstate) (m : Z -> option Z) : cstate :=
  CState (s_key s) (s_ref s) (s_hid s) (s_base s) (s_mlock s) (s_hash s) (s_lru s) (s_cap s) (s_glock s) (s_next s) m (s_mapped s).
Definition w_mapped (s : cstate) (l : list Z) : cstate :=
  CState (s_key s) (s_ref s) (s_hid s) (s_base s) (s_mlock s) (s_hash s) (s_lru s) (s_cap s) (s_glock s) (s_next s) (s_segs s) l.

Definition without (x : Z) (l : list Z) : list Z := filter (fun y => negb (y =? x)) l.
Definition mem (x : Z) (l : list Z) : bool := existsb (Z.eqb x) l.

(* where a call is. [k] and [h] are the key and the number in the handle opened,
   [e] the cache entry the call works with. *)
Inductive pc :=
| OWant (k h : Z)              (* about to take cache_lock, ipc_cache.c:195 *)
| OFind (k h : Z)              (* holds it, about to look the key up, 197 *)
| OScan (k h : Z) (cs : list Z) (* holds it, candidates still to be looked at, 211-221 *)
| OAlloc (k h : Z)             (* holds it, about to allocate an entry, 234 *)
| OUntrack (k h e a : Z)       (* lock released, about to take the evicted mapping [a] out of the tracker, provider_tracking.c:991-993 *)
| OUnmap (k h e a : Z)         (* about to close the evicted mapping, 1003 *)
| OLoad (k h e : Z)            (* about to read mapped_base_ptr, 1088 *)
| OLock (k h e : Z)            (* about to take mmap_lock, 1091 *)
| OLoad2 (k h e : Z)           (* holds it, about to read mapped_base_ptr again, 1092 *)
| OOpen (k h e : Z)            (* holds it, about to call the upstream provider, 1017 *)
| OTrack (k h e a : Z)         (* holds it, about to add the mapping to the tracker, 1038 *)
| OUndo (k h e a : Z)          (* holds it, could not add it; about to close it, 1045 *)
| OStore (k h e a : Z)         (* holds it, about to publish mapped_base_ptr, 1055 *)
| OUnlock (k h e : Z) (ok : bool) (* about to read mapped_base_ptr and release mmap_lock, 1098-1099 *)
| Held (k h e a : Z)           (* the call returned [a]; not closed yet *)
| CGet (k h e a : Z)           (* umfCloseIPCHandle(a) about to look [a] up in the tracker, 1122 *)
| CDec (k h e a e' : Z)        (* found entry [e']; about to decrement its count, ipc_cache.c:287 *)
| Bad (k : Z).                 (* closing failed, or the assert at provider_tracking.c:1103 did *)

(* ipc_cache.c:224-257: [c] leaves its places (if [old]) and starts anew as the
   entry of [k] with count 1 (the increment at 262), then cache_lock is released *)
Definition install (s : cstate) (k h c : Z) (old : bool) : cstate :=
  CState (set (s_key s) c k) (set (s_ref s) c 1) (set (s_hid s) c h) (set (s_base s) c 0) (s_mlock s)
         (set (if old then set (s_hash s) (s_key s c) None else s_hash s) k (Some c))
         (c :: without c (s_lru s)) (s_cap s) false (s_next s) (s_segs s) (s_mapped s).

(* One step of a call. [ok] and [v]: does the allocation or upstream call of
   this step succeed, and the address an upstream open returns (a new one, not
   NULL; anything else counts as failure). None: the thread has to wait for a
   lock. An empty list: the call returned an error (opening) or SUCCESS
   (closing). *)
Definition pcstep (s : cstate) (ok : bool) (v : Z) (p : pc) : option (cstate * list pc) :=
  match p with
  | OWant k h => if s_glock s then None else Some (w_glock s true, [OFind k h])
  | OFind k h =>
      match s_hash s k with
      | Some e =>
          if s_hid s e =? h
          then (* hit, 198-203 and 262 *)
            Some (w_glock (w_ref (w_lru s (e :: without e (s_lru s))) e (s_ref s e + 1)) false, [OLoad k h e])
          else Some (install s k h e true, [OUntrack k h e (s_base s e)])
      | None =>
          if negb (s_cap s =? 0) && (s_cap s <=? Z.of_nat (length (s_lru s)))
          then Some (s, [OScan k h (rev (s_lru s))])
          else Some (s, [OAlloc k h])
      end
  | OScan k h [] => Some (s, [OAlloc k h])
  | OScan k h (c :: r) =>
      if s_ref s c =? 0 then Some (install s k h c true, [OUntrack k h c (s_base s c)])
      else Some (s, [OScan k h r])
  | OAlloc k h =>
      if ok then Some (install (w_next s (s_next s + 1)) k h (s_next s) false, [OLoad k h (s_next s)])
      else Some (w_glock s false, [])
  | OUntrack k h e a => (* nothing to take out if the entry had no mapping *)
      if a =? 0 then Some (s, [OUnmap k h e a]) else Some (w_segs s (set (s_segs s) a None), [OUnmap k h e a])
  | OUnmap k h e a => (* umfMemoryProviderCloseIPCHandle refuses NULL itself *)
      if a =? 0 then Some (s, [OLoad k h e]) else Some (w_mapped s (without a (s_mapped s)), [OLoad k h e])
  | OLoad k h e => if s_base s e =? 0 then Some (s, [OLock k h e]) else Some (s, [Held k h e (s_base s e)])
  | OLock k h e => if s_mlock s e then None else Some (w_mlock s e true, [OLoad2 k h e])
  | OLoad2 k h e => if s_base s e =? 0 then Some (s, [OOpen k h e]) else Some (s, [OUnlock k h e true])
  | OOpen k h e =>
      if ok && negb (v =? 0) && negb (mem v (s_mapped s)) then Some (w_mapped s (v :: s_mapped s), [OTrack k h e v])
      else Some (s, [OUnlock k h e false])
  | OTrack k h e a => (* critnib_insert without update fails on a key already there *)
      if ok && match s_segs s a with Some _ => false | None => true end
      then Some (w_segs s (set (s_segs s) a (Some e)), [OStore k h e a])
      else Some (s, [OUndo k h e a])
  | OUndo k h e a => Some (w_mapped s (without a (s_mapped s)), [OUnlock k h e false])
  | OStore k h e a => Some (w_base s e a, [OUnlock k h e true])
  | OUnlock k h e ok' =>
      Some (w_mlock s e false,
            if ok' then if s_base s e =? 0 then [Bad k] else [Held k h e (s_base s e)] else [])
  | Held _ _ _ _ => None
  | CGet k h e a => match s_segs s a with Some e' => Some (s, [CDec k h e a e']) | None => Some (s, [Bad k]) end
  | CDec k h e a e' => Some (w_ref s e' (s_ref s e' - 1), [])
  | Bad _ => None
  end.

Definition pc_key (p : pc) : Z :=
  match p with
  | OWant k _ | OFind k _ | OScan k _ _ | OAlloc k _ | OUntrack k _ _ _ | OUnmap k _ _ _ | OLoad k _ _ | OLock k _ _
  | OLoad2 k _ _ | OOpen k _ _ | OTrack k _ _ _ | OUndo k _ _ _ | OStore k _ _ _ | OUnlock k _ _ _ | Held k _ _ _
  | CGet k _ _ _ | CDec k _ _ _ _ | Bad k => k
  end.
Definition pc_hid (p : pc) : Z :=
  match p with
  | OWant _ h | OFind _ h | OScan _ h _ | OAlloc _ h | OUntrack _ h _ _ | OUnmap _ h _ _ | OLoad _ h _ | OLock _ h _
  | OLoad2 _ h _ | OOpen _ h _ | OTrack _ h _ _ | OUndo _ h _ _ | OStore _ h _ _ | OUnlock _ h _ _ | Held _ h _ _
  | CGet _ h _ _ | CDec _ h _ _ _ => h
  | Bad _ => 0
  end.

(* A call begins; a holder begins to close; a thread takes a step. [free]
   decides which calls may begin: the discipline the callers keep. *)
Inductive cmove (free : list pc -> Z -> Z -> Prop) : cstate * list pc -> cstate * list pc -> Prop :=
| m_open : forall s ps k h, free ps k h -> cmove free (s, ps) (s, OWant k h :: ps)
| m_close : forall s l r k h e a, cmove free (s, l ++ Held k h e a :: r) (s, l ++ CGet k h e a :: r)
| m_step : forall s s' l r p q ok v, pcstep s ok v p = Some (s', q) -> cmove free (s, l ++ p :: r) (s', l ++ q ++ r).

Inductive creach (free : list pc -> Z -> Z -> Prop) (cap : Z) : cstate * list pc -> Prop :=
| r_init : creach free cap (cinit cap, [])
| r_move : forall x y, creach free cap x -> cmove free x y -> creach free cap y.
