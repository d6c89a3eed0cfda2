(* Model of the initialisation of the library (src/libumf.c: umfInit, umfTearDown;
   what they use of ipc_cache.c and ctl.c).

   Simplifications that hold for the whole file:
   - Not in the proxy library; logging, memspaces, topology, the base allocator and
     the loaded libraries are left out.
   - Steps of any number of threads interleave (sequential consistency).
   - Whether the tracker and the IPC cache can be created are oracles. *)
From Verif Require Import Base.

(* umfRefCount; TRACKER (trackers are numbered in the order of creation);
   IPC_OPENED_CACHE_GLOBAL is there; ctl_global_first_free (ctl.c:49); number of
   trackers created; trackers destroyed *)
Record global := Global { refs : Z; tracker : option Z; ipc : bool; slots : Z; made : Z; freed : list Z }.
(* where a thread is: outside; in umfInit before the creation of the tracker, of the
   IPC cache, before the registration, before returning; in umfTearDown before the
   destruction of the IPC cache, before taking the tracker, before destroying it *)
Inductive pc := Rest | ITracker | IIpc | ICtl | IRet (r : Z) | TIpc | TTake | TFree (t : option Z).
Inductive act := DoInit | DoTear | Go (ok : bool).

(* libumf.c:35-61, 63-97; ctl.c:433-442 (CTL_MAX_ENTRIES = 100, ctl.c:39); None: not
   a step of the thread, or a write outside the array of modules *)
Definition move (g : global) (p : pc) (a : act) : option (global * pc) :=
  match p, a with
  | Rest, DoInit => Some (Global (wrap (refs g + 1)) (tracker g) (ipc g) (slots g) (made g) (freed g), if refs g =? 0 then ITracker else IRet 0)
  | ITracker, Go true => Some (Global (refs g) (Some (made g)) (ipc g) (slots g) (made g + 1) (freed g), IIpc)
  | ITracker, Go false => Some (Global (refs g) None (ipc g) (slots g) (made g) (freed g), IRet (-1))
  | IIpc, Go true => Some (Global (refs g) (tracker g) true (slots g) (made g) (freed g), ICtl)
  | IIpc, Go false => Some (g, IRet (-1))
  | ICtl, Go _ => if slots g <? 100 then Some (Global (refs g) (tracker g) (ipc g) (slots g + 1) (made g) (freed g), IRet 0) else None
  | IRet _, Go _ => Some (g, Rest)
  | Rest, DoTear => Some (Global (wrap (refs g - 1)) (tracker g) (ipc g) (slots g) (made g) (freed g), if refs g =? 1 then TIpc else Rest)
  | TIpc, Go _ => Some (Global (refs g) (tracker g) false (slots g) (made g) (freed g), TTake)
  | TTake, Go _ => Some (Global (refs g) None (ipc g) (slots g) (made g) (freed g), TFree (tracker g))
  | TFree t, Go _ => Some (Global (refs g) (tracker g) (ipc g) (slots g) (made g) (match t with Some t => t :: freed g | None => freed g end), Rest)
  | _, _ => None
  end.

(* any number of threads *)
Definition upd (f : Z -> pc) (t : Z) (p : pc) : Z -> pc := fun u => if u =? t then p else f u.
Definition mstep (g : global) (ps : Z -> pc) (t : Z) (a : act) : option (global * (Z -> pc)) :=
  match move g (ps t) a with Some (g', p) => Some (g', upd ps t p) | None => None end.
Definition g_start : global := Global 0 None false 0 0 [].

(* a whole call while no other thread runs; its result (0 for umfTearDown) *)
Fixpoint finish (fuel : nat) (g : global) (p : pc) (tok iok : bool) : option (global * Z) :=
  match fuel with
  | O => None
  | S fuel =>
      match p with
      | Rest => Some (g, 0)
      | IRet r => Some (g, r)
      | _ => match move g p (Go (match p with ITracker => tok | _ => iok end)) with Some (g', p') => finish fuel g' p' tok iok | None => None end
      end
  end.
Definition call (g : global) (a : act) (tok iok : bool) : option (global * Z) :=
  match move g Rest a with Some (g', p) => finish 5 g' p tok iok | None => None end.
