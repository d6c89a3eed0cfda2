(* Producing side of IPC handles, seen from outside. *)
From Verif Require Import Base Model_Tracker Spec_Tracker Model_Ipc.

(* allocated regions; upstream handles that were obtained and not given back;
   all handles ever issued *)
Record pview := PView { p_regions : list region; p_taken : list pkey; p_issued : list handle }.

Definition taken_after (T : list pkey) (e : ievent) : list pkey :=
  match e with
  | IGet p b _ => (p, b) :: T
  | IPut p b => filter (fun x => negb (pkey_eqb x (p, b))) T
  | ITrack _ => T
  end.
(* a handle is given back only if it was obtained, and obtained only once *)
Fixpoint ipc_ok (T : list pkey) (evs : list ievent) : Prop :=
  match evs with
  | [] => True
  | e :: r =>
      match e with IGet p b _ => ~ In (p, b) T | IPut p b => In (p, b) T | ITrack _ => True end /\ ipc_ok (taken_after T e) r
  end.

Definition region_key (g : region) : pkey := (g_pool g, g_base g).
Definition the_handle (pid hid x : Z) (g : region) : handle := Handle hid (g_base g) pid (g_size g) (x - g_base g) (g_base g, g_size g).

Section Env.
Variable dbg : bool.
(* upstream providers and callers, in addition to Spec_Tracker.call_env: a
   provider does not hand out an address its pool already has; frees, splits and
   merges are made through the pool that owns the memory; memory that a handle
   was taken of is not split or merged *)
Definition ipc_env (v : pview) (k : call) : Prop :=
  call_env dbg (p_regions v) k /\
  match k with
  | TAlloc pool _ _ up _ => forall g, In g (p_regions v) -> region_key g <> (pool, snd up)
  | TFree pool ptr _ _ _ => forall g, free_standing (p_regions v) ptr g -> g_pool g = pool
  | TSplit pool ptr _ _ _ _ _ _ => forall g, free_standing (p_regions v) ptr g -> g_pool g = pool /\ ~ In (pool, ptr) (p_taken v)
  | TMerge pool lo hi _ _ _ _ =>
      forall g, free_standing (p_regions v) lo g \/ free_standing (p_regions v) hi g -> g_pool g = pool /\ ~ In (pool, g_base g) (p_taken v)
  end.

Inductive produced_by (env : pview -> call -> Prop) (pid : Z) : producer -> pview -> Prop :=
| produced_new : produced_by env pid producer_new (PView [] [] [])
| produced_track : forall q v k r i, produced_by env pid q v -> env v k -> track dbg q k = Some (r, i) ->
    produced_by env pid (ir_st i) (PView (observe (p_regions v) k r) (fold_left taken_after (ir_ev i) (p_taken v)) (p_issued v))
| produced_get : forall q v x o, produced_by env pid q v -> is_word x ->
    let i := umfGetIPCHandle pid q x o in
    produced_by env pid (ir_st i) (PView (p_regions v) (fold_left taken_after (ir_ev i) (p_taken v))
                            (match ir_handle i with Some d => d :: p_issued v | None => p_issued v end)).
Definition produced := produced_by ipc_env.
End Env.
