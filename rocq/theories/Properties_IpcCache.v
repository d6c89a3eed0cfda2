(* C18, C19: the cache of opened IPC handles.

   [reached hsize limit one s v]: s is the cache after some sequence of legal
   calls and v what the outside world has seen: who holds which handle, and which
   mappings the upstream providers have open (folded over the calls made to
   them).  Legal: a handle stands for memory of one size; a close names memory
   someone holds; nobody opens a second handle for a remote address while an
   older one is held; with a limit, one provider opens everything; new mappings
   are placed away from open ones; no mutex creation fails. *)
From Verif Require Import Base Model_IpcCache Spec_IpcCache Proof_IpcCache Proof_IpcCacheStep Proof_IpcCacheProps.

(* ---- C18 ---- *)
(* whatever is held is still mapped, under its handle, address and size *)
Theorem ipc_held_mapping_stays_open : forall hsize limit one s v h, reached hsize limit one s v ->
  In h (v_holds v) -> h_base h <> 0 -> In (Mapping (h_key h) (h_hid h) (h_base h) (h_size h)) (v_maps v).
Proof. intros hsize limit one s v h R. exact (held_open _ _ _ s v h (reached_inv _ _ _ s v R)). Qed.
Print Assumptions ipc_held_mapping_stays_open.

(* opening a held handle again needs nothing from the provider, whatever it would
   answer and whatever allocation would fail, and gives the same mapping *)
Theorem ipc_reopen_same_mapping : forall hsize limit one s v h size offset up o, reached hsize limit one s v ->
  In h (v_holds v) -> h_base h <> 0 ->
  exists r, step s (COpen (h_key h) (h_hid h) size offset up o) = Some r /\ r_res r = SUCCESS /\ r_ptr r = wrap (h_base h + offset) /\ r_ev r = [].
Proof. intros hsize limit one s v h size offset up o R. exact (reopen_same _ _ _ s v h size offset up o (reached_inv _ _ _ s v R)). Qed.
Print Assumptions ipc_reopen_same_mapping.

(* every legal call is defined; every close that reaches a provider names a
   mapping that this provider has open at that moment, so nothing is closed twice *)
Theorem ipc_closes_only_open_mappings : forall hsize limit one s v c, reached hsize limit one s v -> call_env hsize limit one v c ->
  exists r, step s c = Some r /\ (opens_ok (v_maps v) (r_ev r) -> closes_ok (v_maps v) (r_ev r)).
Proof.
  intros hsize limit one s v c R CE. destruct (step_ok _ _ _ s v c (reached_inv _ _ _ s v R) CE) as (r & E & X). exists r. split; [exact E|]. intros OO. exact (proj2 (X OO)).
Qed.
Print Assumptions ipc_closes_only_open_mappings.

(* a legal close succeeds and leaves the mapping open; the close of a pointer in
   no open mapping is refused and changes nothing *)
Theorem ipc_close : forall hsize limit one s v p, reached hsize limit one s v ->
  (call_env hsize limit one v (CClose p) -> exists s', step s (CClose p) = Some (Reply SUCCESS 0 [] s' false)) /\
  ((forall m, In m (v_maps v) -> ~ mcovers p m) -> step s (CClose p) = Some (Reply ERR_INVALID_ARGUMENT 0 [] s false)).
Proof.
  intros hsize limit one s v p R. pose proof (reached_inv _ _ _ s v R) as I. split; [exact (close_legal _ _ _ s v p I)|exact (close_other _ _ _ s v p I)].
Qed.
Print Assumptions ipc_close.

(* ---- C19 ---- *)
(* with a limit, never more mappings than the limit or than the largest number
   of handles (failed opens included) that were held at the same time *)
Theorem ipc_cache_bounded : forall hsize limit one s v, reached hsize limit one s v -> limit <> 0 ->
  Z.of_nat (length (v_maps v)) <= Z.max limit (v_peak v).
Proof. intros hsize limit one s v R. exact (bounded _ _ _ s v (reached_inv _ _ _ s v R)). Qed.
Print Assumptions ipc_cache_bounded.

(* an open closes at most one older mapping, an idle one, through its own
   provider: either a stale mapping of the same remote memory, or, with a limit,
   the least recently used idle one; and it does close one if the handle is new,
   the limit is reached and some mapping is idle *)
Theorem ipc_evicts_least_recent_idle : forall hsize limit one s v k hid size offset up o r, reached hsize limit one s v ->
  call_env hsize limit one v (COpen k hid size offset up o) -> step s (COpen k hid size offset up o) = Some r ->
  exists evs own, r_ev r = evs ++ own /\
  (own = [] \/ own = [EvOpenFail k hid] \/ exists p, own = [EvOpen k hid p size] \/ own = [EvOpen k hid p size; EvClose (k_prov k) p size]) /\
  ((exists m, In m (v_maps v) /\ evs = [EvClose (k_prov (m_key m)) (m_base m) (m_size m)] /\ idle (v_holds v) (m_key m) /\
      (m_key m = k /\ m_hid m <> hid \/
       limit <> 0 /\ forall m', In m' (v_maps v) -> m' <> m -> idle (v_holds v) (m_key m') -> before (v_used v) (m_key m') (m_key m))) \/
   evs = [] /\
     (own = [] /\ r_res r <> SUCCESS \/ limit = 0 \/ Z.of_nat (length (v_maps v)) < limit \/ (forall m, In m (v_maps v) -> ~ idle (v_holds v) (m_key m)) \/
      (exists m, In m (v_maps v) /\ m_key m = k) \/ ~ idle (v_holds v) k)).
Proof. intros hsize limit one s v k hid size offset up o r R. exact (evicts _ _ _ s v k hid size offset up o r (reached_inv _ _ _ s v R)). Qed.
Print Assumptions ipc_evicts_least_recent_idle.

(* destroying a provider closes exactly its own mappings *)
Theorem ipc_destroy_closes_own : forall hsize limit one s v prov r m, reached hsize limit one s v -> call_env hsize limit one v (CDestroy prov) ->
  step s (CDestroy prov) = Some r -> (In m (after (v_maps v) (r_ev r)) <-> In m (v_maps v) /\ k_prov (m_key m) <> prov).
Proof.
  intros hsize limit one s v prov r m R CE E. injection E as <-. exact (destroy_closes _ _ _ s v prov m (reached_inv _ _ _ s v R) CE).
Qed.
Print Assumptions ipc_destroy_closes_own.

(* ---- where the code falls short ---- *)
Definition size1 (b p h : Z) : Z := 4096.
Definition all_good : open_oracle := OpenOracle true true true true.
Fixpoint play (s : istate) (v : view) (cs : list call) : option (istate * view) :=
  match cs with
  | [] => Some (s, v)
  | c :: r => match step s c with Some y => play (r_st y) (observe v c y) r | None => None end
  end.
Fixpoint legal (env : view -> call -> Prop) (s : istate) (v : view) (cs : list call) : Prop :=
  match cs with
  | [] => True
  | c :: r => match step s c with Some y => env v c /\ opens_ok (v_maps v) (r_ev y) /\ legal env (r_st y) (observe v c y) r | None => False end
  end.
Lemma play_reached : forall limit env cs s v s' v', reached_by limit env s v -> legal env s v cs -> play s v cs = Some (s', v') -> reached_by limit env s' v'.
Proof.
  intros limit env cs. induction cs as [|c cs IH]; intros s v s' v' R L P; cbn in *.
  - injection P as <- <-. exact R.
  - destruct (step s c) as [y|] eqn:E; [|discriminate]. destruct L as (CE & OO & L). eapply IH; [|exact L|exact P]. eapply reached_step; eassumption.
Qed.
Ltac history env limit cs R :=
  let p := eval vm_compute in (play (umfIpcCacheGlobalInit limit) (View [] [] [] 0) cs) in
  match p with
  | Some (?s, ?v) => assert (R : reached_by limit env s v); [apply (play_reached limit env cs (umfIpcCacheGlobalInit limit) (View [] [] [] 0)); [constructor; lia| |vm_compute; reflexivity]|]
  end.
Ltac call tac :=
  cbn [legal];
  match goal with |- context [step ?s ?c] =>
    let y := eval vm_compute in (step s c) in replace (step s c) with y by (vm_compute; reflexivity)
  end; cbn [r_st r_ev];
  try match goal with |- context [observe ?v ?c ?y] => let w := eval vm_compute in (observe v c y) in change (observe v c y) with w end;
  (split; [tac|split; [try solve [cbn; repeat split; trivial; try (unfold U64; lia); intros m M; cbn in M; unfold mapart; repeat (destruct M as [<-|M]; [cbn; lia|]); destruct M]|]]).
Ltac word := unfold is_word, U64, size1; lia.
Ltac open_legal := split; [repeat split; try reflexivity; try word; discriminate|].
Ltac no_clash_now := intros h H; cbn in H; repeat (destruct H as [<-|H]; [cbn; try congruence|]); try destruct H.
Ltac open_ok := open_legal; split; [no_clash_now|right; reflexivity].
Ltac close_ok := eexists; split; [left; reflexivity|cbn; lia].
Ltac close_ok2 := eexists; split; [right; left; reflexivity|cbn; lia].

Definition A : key := Key 100 1 7.
Definition B : key := Key 200 1 7.
Definition C : key := Key 300 1 7.
Definition D : key := Key 400 2 7.
Definition opn k hid off p := COpen k hid 4096 off (SUCCESS, p) all_good.

(* Without the rule about older handles, a mapping in use is closed: the owner
   frees its memory and allocates again at the same address, and the reader opens
   the new handle before it has closed the old one (ipc_cache.c:203-236 evicts
   the entry without looking at its reference count). *)
Definition env_clash (v : view) (c : call) : Prop :=
  match c with COpen k hid size offset up o => open_env size1 v k hid size offset up o | _ => call_env size1 0 1 v c end.
Theorem ipc_held_mapping_stays_open_refuted :
  ~ (forall s v h, reached_by 0 env_clash s v -> In h (v_holds v) -> h_base h <> 0 -> In (Mapping (h_key h) (h_hid h) (h_base h) (h_size h)) (v_maps v)).
Proof.
  intros F. history env_clash 0 [opn A 1 0 4096; opn A 2 0 65536] R.
  { call ltac:(repeat split; try reflexivity; try word; discriminate). call ltac:(repeat split; try reflexivity; try word; discriminate). exact Logic.I. }
  specialize (F _ _ (Hold A 1 4096 4096) R). cbn in F. destruct F as [X|[]]; [auto|discriminate|discriminate].
Qed.
Print Assumptions ipc_held_mapping_stays_open_refuted.

(* The limit is not restored when handles are closed: idle mappings beyond the
   limit stay. *)
Theorem ipc_cache_limit_refuted :
  ~ (forall s v, reached size1 1 1 s v -> Z.of_nat (length (v_maps v)) <= Z.max 1 (Z.of_nat (length (v_holds v)))).
Proof.
  intros F. history (call_env size1 1 1) 1 [opn A 1 0 4096; opn B 1 0 65536; CClose 4096; CClose 65536] R.
  { call open_ok. call open_ok. call close_ok2. call close_ok. exact Logic.I. }
  specialize (F _ _ R). cbn in F. lia.
Qed.
Print Assumptions ipc_cache_limit_refuted.

(* A failed open keeps its reference for ever: the mapping that a later, successful
   open makes is never evicted, although nobody holds it. *)
Theorem ipc_failed_open_pins_refuted :
  ~ (forall s v k hid size offset up o r, reached size1 1 1 s v -> call_env size1 1 1 v (COpen k hid size offset up o) ->
       step s (COpen k hid size offset up o) = Some r -> r_res r = SUCCESS -> (forall m, In m (v_maps v) -> m_key m <> k) ->
       1 <= Z.of_nat (length (v_maps v)) -> (forall h, In h (v_holds v) -> h_base h = 0) ->
       exists p b sz, In (EvClose p b sz) (r_ev r)).
Proof.
  intros F. history (call_env size1 1 1) 1 [COpen A 1 4096 0 (ERR_UNKNOWN, 0) all_good; opn A 1 0 4096; CClose 4096] R.
  { call open_ok. call open_ok. call close_ok. exact Logic.I. }
  assert (CE : call_env size1 1 1 (View [Hold A 1 0 4096] [Mapping A 1 4096 4096] [A] 1) (opn B 1 0 65536)) by open_ok.
  specialize (fun r => F _ _ B 1 4096 0 (SUCCESS, 65536) all_good r R CE). specialize (F _ eq_refl). vm_compute in F.
  destruct F as (p & b & sz & [X|[]]); try reflexivity; try discriminate.
  - intros m [<-|[]]. discriminate.
  - intros h [<-|[]]. reflexivity.
Qed.
Print Assumptions ipc_failed_open_pins_refuted.

(* With two providers and a limit, the victim is closed through the provider of
   the new handle (provider_tracking.c:982-1007 takes it from the new key). *)
Definition env_two (v : view) (c : call) : Prop :=
  match c with COpen k hid size offset up o => open_env size1 v k hid size offset up o /\ no_clash v k hid | _ => call_env size1 1 1 v c end.
Theorem ipc_closes_only_open_mappings_refuted :
  ~ (forall s v c r, reached_by 1 env_two s v -> env_two v c -> step s c = Some r -> opens_ok (v_maps v) (r_ev r) -> closes_ok (v_maps v) (r_ev r)).
Proof.
  intros F. history env_two 1 [opn A 1 0 4096; CClose 4096] R.
  { call ltac:(open_legal; no_clash_now). call close_ok. exact Logic.I. }
  assert (CE : env_two (View [] [Mapping A 1 4096 4096] [A] 1) (opn D 1 0 65536)) by (open_legal; no_clash_now).
  specialize (F _ _ _ _ R CE eq_refl). cbn in F. destruct F as ([X|(m & [<-|[]] & X)] & _); try discriminate.
  split; [trivial|]. split; [|trivial]. repeat split; try (unfold U64; lia). intros m [<-|[]]. unfold mapart. cbn. lia.
Qed.
Print Assumptions ipc_closes_only_open_mappings_refuted.

(* ---- concrete case: limit 2, three handles, eviction of the one used longest
   ago, a stale handle replaced, a second open of the same handle, destruction ---- *)
Definition demo : list call :=
  [ opn A 1 16 4096; opn A 1 32 99; opn B 1 0 65536; CClose 4112; CClose 65540; CClose 4128;
    opn C 1 8 131072; CClose 131072; opn B 2 0 262144; CClose 262145; CDestroy 1 ].
Example demo_run : exists s, reached size1 2 1 s (View [] [] [B; C; A] 2).
Proof.
  history (call_env size1 2 1) 2 demo R; [|eexists; exact R].
  unfold demo. call open_ok. call ltac:(open_legal; split; [intros h [<-|[]] _; reflexivity|right; reflexivity]). call open_ok. call ltac:(eexists; split; [right; left; reflexivity|cbn; lia]).
  call close_ok. call close_ok. call open_ok. call close_ok. call open_ok. call close_ok. call ltac:(intros h []). exact Logic.I.
Qed.
Fixpoint replies (s : istate) (cs : list call) : list (result * Z * list event) :=
  match cs with
  | [] => []
  | c :: r => match step s c with Some y => (r_res y, r_ptr y, r_ev y) :: replies (r_st y) r | None => [] end
  end.
Example demo_replies : replies (umfIpcCacheGlobalInit 2) demo =
  [ (SUCCESS, 4112, [EvOpen A 1 4096 4096]); (SUCCESS, 4128, []); (SUCCESS, 65536, [EvOpen B 1 65536 4096]);
    (SUCCESS, 0, []); (SUCCESS, 0, []); (SUCCESS, 0, []);
    (SUCCESS, 131080, [EvClose 1 4096 4096; EvOpen C 1 131072 4096]); (SUCCESS, 0, []);
    (SUCCESS, 262144, [EvClose 1 65536 4096; EvOpen B 2 262144 4096]); (SUCCESS, 0, []);
    (SUCCESS, 0, [EvClose 1 262144 4096; EvClose 1 131072 4096]) ].
Proof. vm_compute. reflexivity. Qed.
