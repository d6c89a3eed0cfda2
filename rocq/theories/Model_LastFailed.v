(* Model of the handle umfGetLastFailedMemoryProvider reports when providers and pools come
   and go: memory_provider.c:186-320, memory_pool.c:51-139,
   memory_provider_get_last_failed.c, and the forwarding functions of
   provider_tracking.c:845-883.

   Simplifications that hold for the whole file:
   - A handle is an address.  Where umf_ba_global_alloc puts a new one is an input; it may
     be an address that was freed before.
   - What a provider's function returns is an input.  Only the calls that record a failing
     provider are steps (not the IPC calls, see C34); their arguments are left out.
   - A pool is the providers it uses.  Which calls of its provider a pool's function makes,
     and which calls of the user's provider the tracking provider makes for each, are
     inputs.
   - Calls of several threads are ordered; a step belongs to one thread. *)
From Verif Require Import Base.
Open Scope Z_scope.

(* a live handle: a provider the user created, or the tracking provider of a pool *)
Inductive node := Plain | Tracking (upstream : Z).

Record world := mk_world {
  alive : Z -> option node;
  last : Z -> Z          (* lastFailedProvider of each thread; 0 is NULL *)
}.

Definition empty : world := mk_world (fun _ => None) (fun _ => 0).

Definition set_alive (w : world) (h : Z) (n : option node) : world :=
  mk_world (fun a => if a =? h then n else alive w a) (last w).

(* checkErrorAndSetLastProvider (memory_provider.c:232-238) *)
Definition check_error (w : world) (t h : Z) (r : result) : world :=
  match r with
  | SUCCESS => w
  | _ => mk_world (alive w) (fun t' => if t' =? t then h else last w t')
  end.

(* the providers of a pool: umfPoolCreate wraps the user's one unless told otherwise
   (memory_pool.c:73-81) *)
Record pool := mk_pool { tracked : bool; provider : Z; wrapper : Z }.
Definition pool_provider (p : pool) : Z := if tracked p then wrapper p else provider p.

(* a call of umfMemoryProviderAlloc and the like on a handle (memory_provider.c:240-354):
   for a tracking provider, the results of the calls it makes on the user's provider, then
   its own.  None: the handle, or the one behind it, has been freed. *)
Fixpoint upstream_calls (w : world) (t u : Z) (rs : list result) : world :=
  match rs with
  | [] => w
  | r :: rest => upstream_calls (check_error w t u r) t u rest
  end.

Definition provider_call (w : world) (t h : Z) (c : list result * result) : option world :=
  match alive w h with
  | None => None
  | Some Plain => Some (check_error w t h (snd c))
  | Some (Tracking u) =>
      match fst c, alive w u with
      | _ :: _, None => None
      | _, _ => Some (check_error (upstream_calls w t u (fst c)) t h (snd c))
      end
  end.

Fixpoint provider_calls (w : world) (t h : Z) (cs : list (list result * result)) :
  option world :=
  match cs with
  | [] => Some w
  | c :: rest =>
      match provider_call w t h c with
      | None => None
      | Some w' => provider_calls w' t h rest
      end
  end.

Inductive step :=
| NewProvider (h : Z)
| DropProvider (h : Z)
| Direct (t h : Z) (r : result)
| NewPool (t : Z) (p : pool) (calls : list (list result * result)) (ok : bool)
| PoolCall (t : Z) (p : pool) (calls : list (list result * result))
| DropPool (t : Z) (p : pool) (own : bool) (calls : list (list result * result)).

Definition exec (w : world) (s : step) : option world :=
  match s with
  | NewProvider h =>
      (* umfMemoryProviderCreate that succeeds, memory_provider.c:186-223 *)
      Some (set_alive w h (Some Plain))
  | DropProvider h =>
      (* umfMemoryProviderDestroy, memory_provider.c:225-230 *)
      Some (set_alive w h None)
  | Direct t h r => provider_call w t h ([], r)
  | NewPool t p calls ok =>
      (* umfPoolCreateInternal, memory_pool.c:51-115: [calls] are those of
         ops->initialize, [ok] is its success *)
      let w := if tracked p then set_alive w (wrapper p) (Some (Tracking (provider p)))
               else w in
      match provider_calls w t (pool_provider p) calls with
      | None => None
      | Some w =>
          Some (if negb ok && tracked p then set_alive w (wrapper p) None else w)
      end
  | PoolCall t p calls => provider_calls w t (pool_provider p) calls
  | DropPool t p own calls =>
      (* umfPoolDestroy, memory_pool.c:117-139: [calls] are those of ops.finalize *)
      match provider_calls w t (pool_provider p) calls with
      | None => None
      | Some w =>
          let w := if tracked p then set_alive w (wrapper p) None else w in
          Some (if own then set_alive w (provider p) None else w)
      end
  end.

(* whose name and native error a handle gives: trackingGetLastError and trackingName
   (provider_tracking.c:845-850, 879-883) ask the provider behind.  None: a freed handle is
   read. *)
Definition resolve (w : world) (h : Z) : option Z :=
  match alive w h with
  | None => None
  | Some Plain => Some h
  | Some (Tracking u) =>
      match alive w u with Some Plain => Some u | _ => None end
  end.
