(* C17, C52: IPC handles from the allocation they describe to the mapping of the
   process that opens them.

   [produced dbg pid q v]: q is the producing process after some sequence of
   tracked calls and umfGetIPCHandle calls; v lists the allocated regions, the
   upstream handles obtained and not yet given back, and the handles issued. *)
From Verif Require Import Base Model_Tracker Spec_Tracker Model_Ipc Spec_Ipc Proof_Ipc.
From Verif Require Model_IpcCache Spec_IpcCache Proof_IpcCache Proof_IpcCacheStep Proof_IpcCacheProps.

(* The handle of a pointer names the innermost allocated region that contains
   it: base, size, offset, and provider data for exactly that memory.  Pointers
   in no region get no handle.  If nothing runs out, there is a handle. *)
Theorem ipc_handle_describes_region : forall dbg pid q v x o, produced dbg pid q v -> is_word x ->
  let i := umfGetIPCHandle pid q x o in
  match ir_handle i with
  | Some d => exists g hid, owner (p_regions v) x = Some g /\ ir_res i = SUCCESS /\ d = the_handle pid hid x g
  | None => ir_res i <> SUCCESS
  end /\
  (x <> 0 -> owner (p_regions v) x <> None -> o = GetOracle SUCCESS true SUCCESS true SUCCESS SUCCESS true -> ir_res i = SUCCESS).
Proof.
  intros dbg pid q v x o P W i. destruct (get_ok dbg pid q v x o (produced_inv _ _ q v P) W) as (_ & _ & G & S). fold i in G, S. split; [|exact S].
  destruct G as [(-> & N)|(g & hid & O & R & -> & _)]; [exact N|exists g, hid; auto].
Qed.
Print Assumptions ipc_handle_describes_region.

(* Round trip.  The handle of x is opened in another process (any state of its
   cache, any upstream answer): a successful open returns base + (x - b) where
   base is the mapping of exactly this handle, open upstream; the address lies
   inside it.  Closing that address succeeds and gives up exactly this hold. *)
Theorem ipc_round_trip : forall dbg pid q v x o d hsize limit one s w prov up o' r,
  produced dbg pid q v -> is_word x -> ir_handle (umfGetIPCHandle pid q x o) = Some d ->
  Spec_IpcCache.reached hsize limit one s w ->
  let k := Model_IpcCache.Key (d_base d) prov pid in
  let c := Model_IpcCache.COpen k (d_hid d) (d_size d) (d_offset d) up o' in
  Spec_IpcCache.call_env hsize limit one w c -> Model_IpcCache.step s c = Some r -> Spec_IpcCache.opens_ok (Spec_IpcCache.v_maps w) (Model_IpcCache.r_ev r) -> Model_IpcCache.r_res r = SUCCESS ->
  exists g base, owner (p_regions v) x = Some g /\ d_base d = g_base g /\ d_data d = (g_base g, g_size g) /\
    In (Spec_IpcCache.Mapping k (d_hid d) base (g_size g)) (Spec_IpcCache.v_maps (Spec_IpcCache.observe w c r)) /\
    Model_IpcCache.r_ptr r = base + (x - g_base g) /\ base <= Model_IpcCache.r_ptr r < base + g_size g /\
    exists r2, Model_IpcCache.step (Model_IpcCache.r_st r) (Model_IpcCache.CClose (Model_IpcCache.r_ptr r)) = Some r2 /\ Model_IpcCache.r_res r2 = SUCCESS /\ Model_IpcCache.r_ev r2 = [] /\
      Spec_IpcCache.v_holds (Spec_IpcCache.observe (Spec_IpcCache.observe w c r) (Model_IpcCache.CClose (Model_IpcCache.r_ptr r)) r2) = Spec_IpcCache.v_holds w.
Proof.
  intros dbg pid q v x o d hsize limit one s w prov up o' r P W HD RC k c CE ST OO RS.
  destruct (ipc_handle_describes_region dbg pid q v x o P W) as (HG & _). rewrite HD in HG. destruct HG as (g & hid & O & _ & ->). cbn [the_handle d_base d_hid d_size d_offset d_data] in *.
  pose proof (Proof_TrackerProps.reached_nice dbg _ _ g (p_reached _ _ _ (produced_inv _ _ q v P)) (proj1 (find_some _ _ O))) as (P1 & P2 & P3 & _).
  assert (CV : g_base g <= x < g_base g + g_size g) by (pose proof (proj2 (find_some _ _ O)) as CV; unfold covers in CV; clear - CV; lia).
  pose proof (Proof_IpcCacheStep.reached_inv _ _ _ s w RC) as I0.
  assert (R1 : Spec_IpcCache.reached hsize limit one (Model_IpcCache.r_st r) (Spec_IpcCache.observe w c r)) by (eapply Spec_IpcCache.reached_step; eassumption).
  pose proof (Proof_IpcCacheStep.reached_inv _ _ _ _ _ R1) as I1.
  assert (H1 : exists base, base <> 0 /\ Model_IpcCache.r_ptr r = wrap (base + (x - g_base g)) /\ Spec_IpcCache.v_holds (Spec_IpcCache.observe w c r) = Spec_IpcCache.Hold k hid base (g_size g) :: Spec_IpcCache.v_holds w).
  { destruct CE as (OE & NC & ON). destruct (Proof_IpcCacheStep.open_shape hsize limit one s w k hid (g_size g) (x - g_base g) up o' I0 OE NC ON) as (r' & E & OP).
    cbn [Model_IpcCache.step c] in ST. rewrite ST in E. injection E as <-. destruct OP as [r SL _ _ NS|r s1 evs e1 G SL CASES]; [congruence|]. cbn [Spec_IpcCache.observe c]. rewrite SL, RS. cbn [Spec_IpcCache.v_holds].
    destruct CASES as [(B & _ & RP & EV & EST)|[(B & US & RE & _)|[(_ & _ & RE & _)|(B & US & _ & RP & EV & _)]]]; try congruence.
    - destruct G as ((rest & EL) & _ & _ & I2 & _). assert (IN : In e1 (Model_IpcCache.i_lru s1)) by (rewrite EL; left; reflexivity).
      destruct (Proof_IpcCache.entry_place _ _ _ _ _ I2 e1 IN B) as (Q1 & Q2 & Q3). exists (Model_IpcCache.c_base e1). split; [exact B|]. split; [exact RP|].
      rewrite RP, Proof_IpcCacheStep.wrap_back by lia. reflexivity.
    - rewrite EV in OO. apply (proj1 (Proof_IpcCacheStep.opens_ok_app hsize one _ _ _)) in OO. destruct OO as (_ & (Q1 & Q2 & Q3 & _) & _). exists (snd up). split; [lia|]. split; [exact RP|].
      rewrite RP, Proof_IpcCacheStep.wrap_back by lia. reflexivity. }
  destruct H1 as (base & B0 & RP & EH).
  assert (MIN : In (Spec_IpcCache.Mapping k hid base (g_size g)) (Spec_IpcCache.v_maps (Spec_IpcCache.observe w c r))).
  { apply (Proof_IpcCacheProps.held_open hsize limit one _ _ (Spec_IpcCache.Hold k hid base (g_size g)) I1); [rewrite EH; left; reflexivity|exact B0]. }
  pose proof (Proof_IpcCache.i_place _ _ _ _ _ I1 _ MIN) as (Q1 & Q2 & Q3). cbn [Spec_IpcCache.m_base Spec_IpcCache.m_size] in *.
  assert (RP2 : Model_IpcCache.r_ptr r = base + (x - g_base g)) by (rewrite RP; unfold wrap; apply Z.mod_small; lia).
  exists g, base. split; [exact O|]. split; [reflexivity|]. split; [reflexivity|]. split; [exact MIN|]. split; [exact RP2|]. split; [lia|].
  assert (CC : Spec_IpcCache.call_env hsize limit one (Spec_IpcCache.observe w c r) (Model_IpcCache.CClose (Model_IpcCache.r_ptr r))).
  { cbn [Spec_IpcCache.call_env]. rewrite EH. eexists. split; [left; reflexivity|]. cbn. split; [exact B0|]. lia. }
  destruct (Proof_IpcCacheProps.close_legal hsize limit one _ _ _ I1 CC) as (s2 & E2). eexists. split; [exact E2|]. split; [reflexivity|]. split; [reflexivity|].
  remember (Spec_IpcCache.observe w c r) as w1. cbn [Spec_IpcCache.observe Model_IpcCache.r_res Spec_IpcCache.v_holds]. rewrite EH. cbn [Spec_IpcCache.drop Spec_IpcCache.h_base Spec_IpcCache.h_size].
  rewrite (proj2 (Z.eqb_neq base 0) B0), (proj2 (Z.leb_le base (Model_IpcCache.r_ptr r))) by lia. rewrite (proj2 (Z.ltb_lt (Model_IpcCache.r_ptr r) (base + g_size g))) by lia. reflexivity.
Qed.
Print Assumptions ipc_round_trip.

(* Handle ids: handles with the same id describe the same memory, and a handle
   that had to be obtained anew has an id no earlier handle has.  Upstream
   handles are obtained once, and given back once, before their memory is freed;
   so memory allocated at a re-used address never shares an id with the old. *)
Theorem ipc_handle_ids : forall dbg pid q v, produced dbg pid q v ->
  (forall d d', In d (p_issued v) -> In d' (p_issued v) -> d_hid d = d_hid d' -> d_base d = d_base d' /\ d_size d = d_size d') /\
  (forall x o g d, is_word x -> owner (p_regions v) x = Some g -> ~ In (region_key g) (p_taken v) ->
     ir_handle (umfGetIPCHandle pid q x o) = Some d -> forall d', In d' (p_issued v) -> d_hid d' <> d_hid d) /\
  (forall x o, is_word x -> ipc_ok (p_taken v) (ir_ev (umfGetIPCHandle pid q x o))) /\
  (forall k r i, ipc_env dbg v k -> track dbg q k = Some (r, i) -> ipc_ok (p_taken v) (ir_ev i)) /\
  (forall pool p size up o r i, track dbg q (TFree pool p size up o) = Some (r, i) ->
     ~ In (pool, p) (fold_left taken_after (ir_ev i) (p_taken v)) /\ (In (pool, p) (p_taken v) -> exists evs, ir_ev i = IPut pool p :: evs)).
Proof.
  intros dbg pid q v P. pose proof (produced_inv _ _ q v P) as I. split; [|split; [|split; [|split]]].
  - intros d d' D D' E. pose proof (p_same _ _ _ I d d' D D' E) as X. injection X as -> ->. auto.
  - intros x o g d W O NT HD d' D'. destruct (get_ok dbg pid q v x o I W) as (_ & _ & G & _). destruct G as [(E & _)|(g' & hid & O' & _ & E & FR & _)]; [congruence|].
    rewrite O in O'. injection O' as <-. rewrite HD in E. injection E as ->. destruct (FR NT) as (-> & _). pose proof (p_ids _ _ _ I d' D'). cbn. lia.
  - intros x o W. exact (proj1 (proj2 (get_ok dbg pid q v x o I W))).
  - intros k r i EN T. exact (proj2 (track_ok dbg q v k r i I EN T)).
  - intros pool p size up o r i T. unfold track in T. destruct (step dbg (q_tr q) _) as [r0|]; [|discriminate].
    destruct (cache_get (q_cache q) (pool, p)) as [c|] eqn:CG; injection T as <- <-; cbn [ir_ev fold_left taken_after]; rewrite take_track.
    + split; [|eauto]. intros IN. apply filter_In in IN. destruct IN as (_ & IN). rewrite (proj2 (pkey_eqb_eq _ _) eq_refl) in IN. discriminate.
    + apply cache_get_none in CG. rewrite <- (p_take _ _ _ I) in CG. split; [exact CG|]. intros X. destruct (CG X).
Qed.
Print Assumptions ipc_handle_ids.

(* ---- where the code falls short ---- *)
Definition fine : get_oracle := GetOracle SUCCESS true SUCCESS true SUCCESS SUCCESS true.
Definition ok3 : add_oracle := AddOracle true true true.
Definition alloc (p size : Z) : call := TAlloc 1 size 0 (SUCCESS, p) ok3.

Inductive act := Do (k : call) | Get (x : Z).
Definition act_view (v : pview) (k : call) (r : reply) (i : ireply) : pview :=
  PView (observe (p_regions v) k r) (fold_left taken_after (ir_ev i) (p_taken v)) (p_issued v).
Definition get_view (v : pview) (i : ireply) : pview :=
  PView (p_regions v) (fold_left taken_after (ir_ev i) (p_taken v)) (match ir_handle i with Some d => d :: p_issued v | None => p_issued v end).
Fixpoint play (dbg : bool) (q : producer) (v : pview) (l : list act) : option (producer * pview) :=
  match l with
  | [] => Some (q, v)
  | Do k :: l' => match track dbg q k with Some (r, i) => play dbg (ir_st i) (act_view v k r i) l' | None => None end
  | Get x :: l' => let i := umfGetIPCHandle 7 q x fine in play dbg (ir_st i) (get_view v i) l'
  end.
Fixpoint legal (dbg : bool) (env : pview -> call -> Prop) (q : producer) (v : pview) (l : list act) : Prop :=
  match l with
  | [] => True
  | Do k :: l' => match track dbg q k with Some (r, i) => env v k /\ legal dbg env (ir_st i) (act_view v k r i) l' | None => False end
  | Get x :: l' => is_word x /\ let i := umfGetIPCHandle 7 q x fine in legal dbg env (ir_st i) (get_view v i) l'
  end.
Lemma play_produced : forall dbg env l q v q' v', produced_by dbg env 7 q v -> legal dbg env q v l -> play dbg q v l = Some (q', v') -> produced_by dbg env 7 q' v'.
Proof.
  intros dbg env l. induction l as [|[k|x] l IH]; intros q v q' v' P L E; cbn [play legal] in *.
  - injection E as <- <-. exact P.
  - destruct (track dbg q k) as [(r, i)|] eqn:T; [|discriminate]. destruct L as (EN & L). eapply IH; [|exact L|exact E]. eapply produced_track; eassumption.
  - destruct L as (W & L). eapply IH; [|exact L|exact E]. apply produced_get; assumption.
Qed.
Ltac history dbg env l R :=
  let p := eval vm_compute in (play dbg producer_new (PView [] [] []) l) in
  match p with
  | Some (?q, ?v) => assert (R : produced_by dbg env 7 q v); [apply (play_produced dbg env l producer_new (PView [] [] [])); [constructor| |vm_compute; reflexivity]|]
  end.
Ltac now_at :=
  match goal with |- legal ?d ?e ?q ?v ?l =>
    let q' := eval vm_compute in q in let v' := eval vm_compute in v in replace q with q' by (vm_compute; reflexivity); replace v with v' by (vm_compute; reflexivity) end.
Ltac do_call tac :=
  cbn [legal];
  match goal with |- context [track ?d ?q ?k] => let y := eval vm_compute in (track d q k) in replace (track d q k) with y by (vm_compute; reflexivity) end;
  cbv beta iota; split; [tac|cbn [ir_st]; try now_at].
Ltac do_get := cbn [legal]; split; [unfold is_word, U64; lia|cbv zeta; try now_at].
Ltac alloc_legal := split; [discriminate|]; cbn; intros _ _; split; [lia|]; split; [lia|]; split; [unfold U64; lia|]; intros h H; repeat (destruct H as [<-|H]; [right; unfold apart; cbn; lia|]); destruct H.

(* Without the rule about splits and merges, a handle can describe too little
   memory: a region whose handle was taken grows by a merge, and the handle of
   an address in the added part still carries the old provider data
   (provider_tracking.c:908-911 finds the old entry by address only). *)
Theorem ipc_handle_describes_region_refuted :
  ~ (forall q v x o g d, produced_by false (fun v k => fair_env (p_regions v) k) 7 q v -> is_word x -> owner (p_regions v) x = Some g ->
       ir_handle (umfGetIPCHandle 7 q x o) = Some d -> fst (d_data d) <= x < fst (d_data d) + snd (d_data d)).
Proof.
  intros F. history false (fun v k => fair_env (p_regions v) k) [Do (alloc 4096 4096); Do (alloc 8192 4096); Get 4096; Do (TMerge 1 4096 8192 8192 true true SUCCESS)] R.
  { do_call alloc_legal. do_call alloc_legal. do_get. do_call idtac; [|exact I].
    do 2 eexists. split; [split; [reflexivity|split; [reflexivity|]]; intros h [<-|[<-|[]]]; cbn; lia|].
    split; [split; [reflexivity|split; [reflexivity|]]; intros h [<-|[<-|[]]]; cbn; lia|]. repeat split; reflexivity. }
  specialize (fun d => F _ _ 9096 fine (Region 4096 8192 1) d R ltac:(unfold is_word, U64; lia) eq_refl).
  specialize (F (Handle 1 4096 7 8192 5000 (4096, 4096)) ltac:(vm_compute; reflexivity)). cbn in F. lia.
Qed.
Print Assumptions ipc_handle_describes_region_refuted.

(* ---- concrete case: two regions, three handles, a free, and a re-used address ---- *)
Definition demo : list act := [Do (alloc 4096 8192); Get 5000; Get 12287; Do (TFree 1 4096 8192 SUCCESS ok3); Do (alloc 4096 4096); Get 5000; Get 8192].
Ltac unique := let g := fresh in let H := fresh in intros g H; cbn in H; repeat (destruct H as [<-|H]; [discriminate|]); destruct H.
Example demo_legal : exists q v, produced true 7 q v /\ p_regions v = [Region 4096 4096 1] /\ p_taken v = [(1, 4096)] /\
  p_issued v = [Handle 2 4096 7 4096 904 (4096, 4096); Handle 1 4096 7 8192 8191 (4096, 8192); Handle 1 4096 7 8192 904 (4096, 8192)].
Proof.
  history true (ipc_env true) demo R.
  { unfold demo. do_call ltac:(split; [alloc_legal|unique]). do_get. do_get.
    do_call ltac:(split; [split; [unfold is_word, U64; lia|congruence]|intros g (O & _); injection O as <-; reflexivity]).
    do_call ltac:(split; [alloc_legal|unique]). do_get. do_get. exact I. }
  do 2 eexists. split; [exact R|]. cbn. auto.
Qed.
(* the consumer's side of the round trip: mapped at 65536, the pointer is 65536 + 904 *)
Example opened : exists r r2,
  Model_IpcCache.step (Model_IpcCache.umfIpcCacheGlobalInit 0) (Model_IpcCache.COpen (Model_IpcCache.Key 4096 3 7) 1 8192 904 (SUCCESS, 65536) (Model_IpcCache.OpenOracle true true true true)) = Some r /\
  Model_IpcCache.r_ptr r = 66440 /\ Model_IpcCache.step (Model_IpcCache.r_st r) (Model_IpcCache.CClose 66440) = Some r2 /\ Model_IpcCache.r_res r2 = SUCCESS.
Proof. do 2 eexists. split; [reflexivity|]. split; [reflexivity|]. split; reflexivity. Qed.
