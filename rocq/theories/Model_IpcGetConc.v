(* Model of several threads getting IPC handles of one pool at once:
   trackingGetIpcHandle (src/provider/provider_tracking.c:896-971) and the part
   of trackingFree that gives a handle back (743-755).

   As in Model_IpcConc a step is one access to shared memory or one call of the
   upstream provider. Simplifications:
   - The provider-specific data of a handle is a number, the one the upstream
     provider gave out; a number is not given out again while it is outstanding.
   - critnib_get, critnib_insert and critnib_remove take effect at one moment.
   - IPC_HANDLE_ID does not wrap (2^64 handles). Other pools, which also
     increment it, are left out.
   - A value found in the cache is copied at the moment it is found; the copy
     races with nothing but a free of the memory the handle is for. *)
From Verif Require Import Base.

(* [g_cache]: pointer to (upstream data, handle number), the critnib ipcCache.
   [g_id]: IPC_HANDLE_ID. [g_up]: what the upstream provider gave out and did
   not get back; [g_lost]: those of them it refused to take back. *)
Record gstate := GState { g_cache : list (Z * (Z * Z)); g_id : Z; g_up : list Z; g_lost : list Z }.
Definition ginit : gstate := GState [] 0 [] [].

Definition gfind (c : list (Z * (Z * Z))) (p : Z) : option (Z * Z) :=
  match find (fun x => fst x =? p) c with Some (_, v) => Some v | None => None end.
Definition gdel (c : list (Z * (Z * Z))) (p : Z) : list (Z * (Z * Z)) := filter (fun x => negb (fst x =? p)) c.
Definition zdel (x : Z) (l : list Z) : list Z := filter (fun y => negb (y =? x)) l.

(* where a call is; [p] the memory, [n] how often it went round the loop *)
Inductive gpc :=
| GGet (p : Z) (n : nat)            (* about to look in the cache, 907 *)
| GSize (p : Z) (n : nat)           (* about to ask for the size and allocate, 912-924 *)
| GUp (p : Z) (n : nat)             (* about to call the upstream provider, 926 *)
| GInc (p : Z) (n : nat) (v : Z)    (* about to take a number, 934 *)
| GIns (p : Z) (n : nat) (v i : Z)  (* about to insert, 937 *)
| GPut (p : Z) (n : nat) (v : Z) (oom : bool) (* could not insert, about to give the handle back, 951 *)
| GDone (p v i : Z)                 (* returned SUCCESS with this data and number *)
| FPut (v : Z).                     (* a free took this out of the cache, about to give it back, 750 *)

(* One step; [ok] and [v] answer the call made in it. An empty list: the call
   returned an error, or the free went on. *)
Definition gstep (s : gstate) (ok : bool) (v : Z) (t : gpc) : gstate * list gpc :=
  match t with
  | GGet p n => match gfind (g_cache s) p with Some (w, i) => (s, [GDone p w i]) | None => (s, [GSize p n]) end
  | GSize p n => if ok then (s, [GUp p n]) else (s, [])
  | GUp p n =>
      if ok && negb (existsb (Z.eqb v) (g_up s)) then (GState (g_cache s) (g_id s) (v :: g_up s) (g_lost s), [GInc p n v])
      else (s, [])
  | GInc p n w => (GState (g_cache s) (g_id s + 1) (g_up s) (g_lost s), [GIns p n w (g_id s + 1)])
  | GIns p n w i =>
      if negb ok then (s, [GPut p n w true])  (* ENOMEM, checked first by critnib_insert *)
      else
        match gfind (g_cache s) p with
        | Some _ => (s, [GPut p n w false])   (* EEXIST *)
        | None => (GState ((p, (w, i)) :: g_cache s) (g_id s) (g_up s) (g_lost s), [GDone p w i])
        end
  | GPut p n w oom =>
      if ok then (GState (g_cache s) (g_id s) (zdel w (g_up s)) (g_lost s), if oom then [] else [GGet p (S n)])
      else (GState (g_cache s) (g_id s) (g_up s) (w :: g_lost s), [])
  | GDone _ _ _ => (s, [t])
  | FPut w =>
      if ok then (GState (g_cache s) (g_id s) (zdel w (g_up s)) (g_lost s), [])
      else (GState (g_cache s) (g_id s) (g_up s) (w :: g_lost s), [])
  end.

Definition gfor (p : Z) (t : gpc) : bool :=
  match t with
  | GGet q _ | GSize q _ | GUp q _ | GInc q _ _ | GIns q _ _ _ | GPut q _ _ _ | GDone q _ _ => q =? p
  | FPut _ => false
  end.
Definition gdone (t : gpc) : bool := match t with GDone _ _ _ => true | _ => false end.

(* A call begins; memory nobody is getting a handle of is freed, after which
   handles of it got earlier no longer count; a thread takes a step. *)
Inductive gmove : gstate * list gpc -> gstate * list gpc -> Prop :=
| g_call : forall s ts p, gmove (s, ts) (s, GGet p 0 :: ts)
| g_free : forall s ts p, forallb (fun t => negb (gfor p t) || gdone t) ts = true ->
    gmove (s, ts) (GState (gdel (g_cache s) p) (g_id s) (g_up s) (g_lost s),
                   match gfind (g_cache s) p with Some (w, _) => [FPut w] | None => [] end ++ filter (fun t => negb (gfor p t)) ts)
| g_step : forall s s' l r t q ok v, gstep s ok v t = (s', q) -> gmove (s, l ++ t :: r) (s', l ++ q ++ r).
Inductive greach : gstate * list gpc -> Prop :=
| gr_init : greach (ginit, [])
| gr_move : forall x y, greach x -> gmove x y -> greach y.
