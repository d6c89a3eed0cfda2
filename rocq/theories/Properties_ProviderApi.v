(* Theorems about the front end of memory providers. *)
From Verif Require Import Base Model_ProviderApi Spec_ProviderApi Proof_ProviderApi.

(* C34.  Creation succeeds exactly for a usable table, an output parameter, memory
   for the handle and a successful initialize; then initialize was called once and
   every function of the provider's table is set (its own where it has one).
   Otherwise no provider results, and memory taken for the handle is given back. *)
Theorem provider_create : forall u params out mem r, exists res eff t, umfMemoryProviderCreate u params out mem r = Some (res, eff, t) /\
  (res = SUCCESS <-> exists o, u = Some o /\ usable o /\ out <> 0 /\ mem = true /\ r = SUCCESS) /\
  (res = SUCCESS -> eff = [HandleAlloc; Up OInitialize [params]] /\ exists o o', u = Some o /\ t = Some o' /\ (forall x, o x <> Null -> o' x = o x) /\ (forall x, o x = Null -> o' x = Default)) /\
  (res <> SUCCESS -> t = None /\ (eff = [] \/ eff = [HandleAlloc; Up OInitialize [params]; HandleFree])).
Proof.
  intros u params out mem r. destruct (umfMemoryProviderCreate u params out mem r) as [[[res eff] t]|] eqn:E; [|destruct (create_total _ _ _ _ _ E)].
  exists res, eff, t. split; [reflexivity|]. exact (create_spec _ _ _ _ _ _ _ _ E).
Qed.
Print Assumptions provider_create.

(* C34.  For every sequence of calls by any threads on created providers (never a
   NULL function pointer): a call with unacceptable arguments is answered with
   invalid-argument; one the provider does not implement, with not-supported; any
   other with the provider's own result.  The providers receive exactly the
   acceptable calls they implement, with the caller's arguments, in order.  And the
   last failed provider of a thread is the one of its most recent failed call,
   where calls with unacceptable arguments and the IPC calls do not count.
   Missing: those (refuted below). *)
Theorem provider_calls_partial : forall tab l last, (forall h, created (tab h)) -> (forall t k r, In (t, k, r) l -> words k) ->
  exists es ups last', serve tab last l = Some (es, ups, last') /\
    Forall2 (fun x e => let '(_, k, r) := x in expected tab k r e) l es /\ received tab l ups /\
    (forall t, ((forall x, In x l -> ~ failed tab t x) /\ last' t = last t) \/
       exists pre u k r post, l = pre ++ (u, k, r) :: post /\ failed tab t (u, k, r) /\ (forall x, In x post -> ~ failed tab t x) /\ last' t = target k).
Proof. intros tab l last C. apply serve_spec. intros h x. apply created_full, C. Qed.
Print Assumptions provider_calls_partial.

(* Destroying calls finalize once and frees the handle; NULL is ignored. *)
Theorem provider_destroy : forall h o, created o -> umfMemoryProviderDestroy h o = Some (if h =? 0 then [] else [Up OFinalize []; HandleFree]).
Proof. intros h o C. unfold umfMemoryProviderDestroy. destruct (h =? 0); [reflexivity|]. pose proof (created_full o OFinalize C). destruct (o OFinalize); [contradiction| |]; reflexivity. Qed.
Print Assumptions provider_destroy.

(* ---- a concrete case ---- *)
(* no purge_force, no IPC, no ctl *)
Definition table : ops := fun x => match x with OForce | OIpcSize | OIpcGet | OIpcPut | OIpcOpen | OIpcClose | OCtl => Null | _ => User end.
Definition full_table : ops := assignOpsIpcDefaults (assignOpsExtDefaults table).
Definition ipc_table : ops := fun _ => User.
Example table_created : umfMemoryProviderCreate (Some table) 7 1 true SUCCESS = Some (SUCCESS, [HandleAlloc; Up OInitialize [7]], Some full_table).
Proof. reflexivity. Qed.
Example half_ipc : umfMemoryProviderCreate (Some (fun x => match x with OIpcOpen => Null | _ => User end)) 7 1 true SUCCESS = Some (ERR_INVALID_ARGUMENT, [], None).
Proof. reflexivity. Qed.
Definition tabs : Z -> ops := fun h => if h =? 100 then full_table else assignOpsIpcDefaults (assignOpsExtDefaults ipc_table).
Example tabs_created : forall h, created (tabs h).
Proof.
  intros h. unfold tabs. destruct (h =? 100).
  - exists (Some table), 7, 1, true, SUCCESS, [HandleAlloc; Up OInitialize [7]]. reflexivity.
  - exists (Some ipc_table), 7, 1, true, SUCCESS, [HandleAlloc; Up OInitialize [7]]. reflexivity.
Qed.
Definition sample : list (nat * pcall * result) :=
  [(0%nat, PAlloc 100 64 8 1, SUCCESS); (1%nat, PAlloc 200 64 8 1, ERR_OUT_OF_HOST_MEMORY); (0%nat, PForce 100 4096 64, SUCCESS); (0%nat, PMerge 200 4096 8192 4096, SUCCESS);
   (0%nat, PMerge 200 4096 8192 8192, SUCCESS); (1%nat, PSplit 100 4096 10 10, SUCCESS); (1%nat, PFree 100 4096 64, ERR_PROVIDER_SPECIFIC)].
Example sample_served : exists last', serve tabs (fun _ => 0) sample =
  Some ([SUCCESS; ERR_OUT_OF_HOST_MEMORY; ERR_NOT_SUPPORTED; ERR_INVALID_ARGUMENT; SUCCESS; ERR_INVALID_ARGUMENT; ERR_PROVIDER_SPECIFIC],
        [(100, OAlloc, [64; 8; 1]); (200, OAlloc, [64; 8; 1]); (200, OMerge, [4096; 8192; 8192]); (100, OFree, [4096; 64])], last') /\ last' 0%nat = 100 /\ last' 1%nat = 100.
Proof. eexists. split; [reflexivity|]. split; reflexivity. Qed.

(* C34, last failed provider: not every failing call counts.  A failing IPC call is
   not reported. *)
Theorem last_failed_ipc_refuted : ~ forall tab l last es ups last' t k r, (forall h, created (tab h)) -> (forall u k r, In (u, k, r) l -> words k) ->
  serve tab last (l ++ [(t, k, r)]) = Some (es, ups, last') -> List.last es SUCCESS <> SUCCESS -> last' t = target k.
Proof.
  intros H. specialize (H tabs [] (fun _ => 0)).
  assert (X : 0 = 200); [|discriminate]. refine (H [ERR_NOT_SUPPORTED] [(200, OIpcPut, [5])] _ 0%nat (PIpcPut 200 5) ERR_NOT_SUPPORTED tabs_created _ eq_refl _).
  - intros u k r [].
  - discriminate.
Qed.
Print Assumptions last_failed_ipc_refuted.
