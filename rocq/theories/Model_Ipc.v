(* Model of the producing side of IPC handles: umfGetIPCHandle (src/ipc.c) and
   the tracking provider's cache of upstream handles
   (src/provider/provider_tracking.c), on top of Model_Tracker.

   Simplifications:
   - Each API call is one atomic step (so critnib_insert never finds the key taken).
   - A pool and its tracking provider are the same number.
   - The provider-specific part of a handle is opaque to this code; the model
     records which memory the upstream provider was asked to describe.
   - IPC_HANDLE_ID does not wrap (2^64 handles).
   - The ipcCache critnibs of all pools are one association list keyed by pool
     and address. *)
From Verif Require Import Base Model_Tracker.

(* provider_tracking.c:48-52 with the opaque data [v_data] = (base, size) *)
Record cached := Cached { v_hid : Z; v_data : Z * Z }.
Definition pkey := (Z * Z)%type. (* pool, base *)
Definition pkey_eqb (a b : pkey) : bool := (fst a =? fst b) && (snd a =? snd b).
Record producer := Producer { q_tr : tracker; q_cache : list (pkey * cached); q_id : Z }.
Definition producer_new : producer := Producer umfMemoryTrackerCreate [] 0.

(* ipc_internal.h:21-29 *)
Record handle := Handle { d_hid : Z; d_base : Z; d_pid : Z; d_size : Z; d_offset : Z; d_data : Z * Z }.

(* calls to the upstream providers *)
Inductive ievent := IGet (pool base size : Z) | IPut (pool base : Z) | ITrack (e : event).

Definition cache_get (c : list (pkey * cached)) (k : pkey) : option cached :=
  match find (fun x => pkey_eqb (fst x) k) c with Some (_, v) => Some v | None => None end.
Definition cache_del (c : list (pkey * cached)) (k : pkey) : list (pkey * cached) := filter (fun x => negb (pkey_eqb (fst x) k)) c.

(* results of the calls that can fail: size of the handle (twice), two
   allocations, upstream get and put, allocation inside critnib_insert *)
Record get_oracle := GetOracle { g_hsize : result; g_mem : bool; g_usize : result; g_val : bool; g_up : result; g_put : result; g_ins : bool }.

(* provider_tracking.c:896-971 *)
Definition trackingGetIpcHandle (q : producer) (pool ptr size : Z) (o : get_oracle) : result * option cached * list ievent * producer :=
  match cache_get (q_cache q) (pool, ptr) with
  | Some v => (SUCCESS, Some v, [], q)
  | None =>
      match g_usize o with
      | SUCCESS =>
          if negb (g_val o) then (ERR_OUT_OF_HOST_MEMORY, None, [], q)
          else
            match g_up o with
            | SUCCESS =>
                let id := q_id q + 1 in
                let v := Cached id (ptr, size) in
                if g_ins o then (SUCCESS, Some v, [IGet pool ptr size], Producer (q_tr q) (((pool, ptr), v) :: q_cache q) id)
                else ((match g_put o with SUCCESS => ERR_OUT_OF_HOST_MEMORY | r => r end), None,
                      [IGet pool ptr size; IPut pool ptr], Producer (q_tr q) (q_cache q) id)
            | r => (r, None, [], q)
            end
      | r => (r, None, [], q)
      end
  end.

Record ireply := IReply { ir_res : result; ir_handle : option handle; ir_ev : list ievent; ir_st : producer }.

(* ipc.c:53-103 with umfPoolGetIPCHandleSize 23-51; [pid] is utils_getpid() *)
Definition umfGetIPCHandle (pid : Z) (q : producer) (ptr : Z) (o : get_oracle) : ireply :=
  if ptr =? 0 then IReply ERR_INVALID_ARGUMENT None [] q
  else
    match umfMemoryTrackerGetAllocInfo (q_tr q) ptr with
    | (SUCCESS, Some (base, size, pool)) =>
        match g_hsize o with
        | SUCCESS =>
            if negb (g_mem o) then IReply ERR_OUT_OF_HOST_MEMORY None [] q
            else
              match trackingGetIpcHandle q pool base size o with
              | (SUCCESS, Some v, evs, q') => IReply SUCCESS (Some (Handle (v_hid v) base pid size (wrap (ptr - base)) (v_data v))) evs q'
              | (r, _, evs, q') => IReply r None evs q'
              end
        | r => IReply r None [] q
        end
    | (r, _) => IReply r None [] q
    end.

(* the tracked calls of Model_Tracker; a free also gives the cached upstream
   handle back (provider_tracking.c:743-755), the result of which is ignored *)
Definition track (dbg : bool) (q : producer) (k : call) : option (reply * ireply) :=
  match step dbg (q_tr q) k with
  | None => None
  | Some r =>
      let plain := IReply (r_res r) None (map ITrack (r_ev r)) (Producer (r_st r) (q_cache q) (q_id q)) in
      match k with
      | TFree pool ptr _ _ _ =>
          match cache_get (q_cache q) (pool, ptr) with
          | Some _ => Some (r, IReply (r_res r) None (IPut pool ptr :: map ITrack (r_ev r)) (Producer (r_st r) (cache_del (q_cache q) (pool, ptr)) (q_id q)))
          | None => Some (r, plain)
          end
      | _ => Some (r, plain)
      end
  end.
