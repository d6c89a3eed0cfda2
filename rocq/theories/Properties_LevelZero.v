(* C74, C75, C76: the Level Zero provider *)
From Coq Require Import Permutation.
From Verif Require Import Base Model_LevelZero Spec_LevelZero Proof_LevelZero.

Definition idle : driver := Driver [] [] [] [].

(* C74.  Any proper request, whatever the driver answers: it is served without an assertion
   or a NULL call, and either memory is handed out as asked (not NULL, not handed out before)
   or the request fails and the user holds what it held. *)
Theorem level_zero_answers : forall O ext put pid d H L o, proper ext H o -> tied d H L ->
  exists r p d' H', serve O ext put pid d o = Some (r, p, d') /\ holds H o r p H' /\ exists L', tied d' H' (L' ++ L).
Proof.
  intros O ext put pid d H L o P T. destruct (step_ok O ext put pid d H L o P T) as (r & p & d' & l & E & _ & (H' & HO) & K & _).
  destruct (K H' HO) as (L' & T' & _). exists r, p, d', H'. eauto.
Qed.
Print Assumptions level_zero_answers.

(* After any history the driver's memory is what the users hold, of the type and in the
   context of the provider it came from, and nothing else unless memory could not be made
   resident; no descriptor is left open unless close failed. *)
Theorem level_zero_history : forall O ext put pid os d' H', history O ext put pid idle [] os d' H' ->
  exists leaked, Permutation (memory d') (map block_of H' ++ leaked) /\
  (all_ok makes_resident (made d') -> leaked = []) /\ (all_ok closes_fd (made d') -> fds d' = []).
Proof.
  intros O ext put pid os d' H' HY.
  destruct (history_ok O ext put pid _ _ _ _ _ HY []) as (L & l & S & (P & _) & Q & F).
  { split; [reflexivity|]. split; [constructor | intros b []]. }
  exists L. rewrite app_nil_r in P. unfold since in S. cbn [made idle] in S. rewrite app_nil_r in S. rewrite S.
  split; [exact P|]. split; [exact Q|exact F].
Qed.
Print Assumptions level_zero_history.

(* An allocation asks the driver for nothing but the provider's type of memory, with the
   limit relaxed exactly for sizes above it, and makes it resident on the listed devices, all
   of them if it succeeds; it fails only if a call failed. *)
Theorem level_zero_alloc_call : forall O d pr s a r p d', usable pr -> ze_alloc O d pr s a = Some (r, p, d') ->
  exists l, since d d' l /\
  (forall c e, In (c, e) l -> c = wanted pr s a \/ exists dev, In dev (devices pr) /\ c = MakeResident (context pr) dev p s) /\
  (r = SUCCESS -> p <> 0 /\ memory d' = Block p (kind_of pr) (context pr) s :: memory d /\ In (wanted pr s a, 0) l /\
     forall dev, In dev (devices pr) -> In (dev, p) (resident d')) /\
  (r <> SUCCESS -> exists c e, In (c, e) l /\ e <> 0).
Proof.
  intros O d pr s a r p d' U E. destruct (alloc_spec O d pr s a U) as (r' & p' & d1 & l & E' & S & _ & C & K). rewrite E in E'. injection E' as <- <- <-.
  exists l. split; [exact S|]. split; [exact C|]. destruct K as [(X & M & V0 & VL & IW & R) | [(X & M & e & IW & N) | (X & M & V0 & VL & A)]].
  - split; [|intros Y; contradiction]. intros _. split; [exact V0|]. split; [exact M|]. split; [exact IW|]. intros dev I. exact (proj1 (R dev I)).
  - split; [intros Y; contradiction|]. intros _. eauto.
  - split; [intros Y; contradiction|]. intros _.
    destruct (existsb (fun x => negb (snd x =? 0)) l) eqn:B.
    + apply existsb_exists in B as ([c e] & I & N). exists c, e. split; [exact I|]. cbn [snd] in N. destruct (e =? 0) eqn:Z; [discriminate N|lia].
    + exfalso. apply A. intros c e I _. destruct (e =? 0) eqn:Z; [lia|]. enough (Y : existsb (fun x => negb (snd x =? 0)) l = true) by congruence.
      apply existsb_exists. exists (c, e). split; [exact I|]. cbn [snd]. rewrite Z. reflexivity.
Qed.
Print Assumptions level_zero_alloc_call.

(* C75.  When creation comes back, it either made a provider as the parameters say, ready to
   serve requests, whose probe of the page size is given back unless the free failed; or it
   failed and nothing is kept. *)
Theorem level_zero_create_partial : forall O d heap room1 room2 loaded ext ps r q heap' d',
  initialize O d heap room1 room2 loaded ext ps = Some (r, q, heap', d') ->
  exists l, since d d' l /\ fds d' = fds d /\ (all_ok frees l -> memory d' = memory d) /\
  match q with
  | None => r <> SUCCESS /\ heap' = heap /\ memory d' = memory d /\ resident d' = resident d
  | Some q => r = SUCCESS /\ exists p, ps = Some p /\ valid p /\ loaded = true /\ usable q /\ free_ready ext q /\
      context q = p_context p /\ device q = p_device p /\ mtype q = p_type p /\ devices q = listed p /\
      policy q = policy_flags (p_policy p) /\ ordinal q = p_ordinal p /\ heap' = heap + (if p_count p =? 0 then 1 else 2) /\
      (exists n, O n = (0, min_page q)) /\ (p_device p = 0 \/ O (length (made d)) = (0, max_alloc q))
  end.
Proof. exact create_spec. Qed.
Print Assumptions level_zero_create_partial.
(* With valid parameters, a memory type and a driver that answers, it makes a provider. *)
Theorem level_zero_created : forall O d heap ext p, valid p -> (p_type p = MT_HOST \/ p_type p = MT_DEVICE \/ p_type p = MT_SHARED) ->
  (policy_flags (p_policy p) = 0 \/ ext = true) ->
  (forall n, fst (O n) = 0 /\ 0 < snd (O n) /\ live_at (snd (O n)) (memory d) = false) ->
  exists q heap' d', initialize O d heap true true true ext (Some p) = Some (SUCCESS, Some q, heap', d').
Proof. exact create_answering. Qed.
Print Assumptions level_zero_created.

(* C76.  Memory is freed with the function for the provider's policy, and gone if that succeeds. *)
Theorem level_zero_free : forall O ext d pr p, free_ready ext pr -> p <> 0 -> exists r d' e,
  ze_free O ext d pr p = Some (r, d') /\ since d d' [(wanted_free pr p, e)] /\ (r = SUCCESS <-> e = 0) /\
  (e <> 0 -> memory d' = memory d /\ resident d' = resident d) /\
  (e = 0 -> memory d' = drop_block (context pr) p (memory d) /\ forall dev, ~ In (dev, p) (resident d')).
Proof.
  intros O ext d pr p F N. destruct (free_spec O ext d pr p F N) as (r & d' & e & A & B & _ & C & D & E). exists r, d', e. auto.
Qed.
Print Assumptions level_zero_free.
(* Opening a handle: a handle of this process is opened itself, any other through a
   descriptor duplicated from its process and closed afterwards; it fails only if a call failed. *)
Theorem level_zero_open : forall O d pid pr i r p d', ze_open_ipc O d pid pr i = (r, p, d') -> exists l, since d d' l /\ memory d' = memory d /\
  (all_ok closes_fd l -> fds d' = fds d) /\
  (r = SUCCESS -> exists h, In (OpenIpc (context pr) (device pr) h, 0) l /\ (if i_pid i =? pid then h = i_handle i else O (length (made d)) = (0, h) /\ exists e, l = [(CloseFd h, e); (OpenIpc (context pr) (device pr) h, 0); (DupFd (i_pid i) (i_handle i), 0)])) /\
  (r <> SUCCESS -> exists c e, In (c, e) l /\ e <> 0).
Proof.
  intros O d pid pr i r p d' E. destruct (open_spec _ _ _ _ _ _ _ _ E) as (l & A & B & C & _ & D & F). exists l. auto 6.
Qed.
Print Assumptions level_zero_open.

(* ---- what fails ---- *)
Definition gpu (devs : list Z) (pol : Z) : provider := Provider 9 5 MT_DEVICE devs pol (2 ^ 32) 4096 0.
(* answers by call number *)
Definition answers (l : list (Z * Z)) : oracle := fun n => nth n l (0, 0).

(* memory that cannot be made resident is neither handed out nor given back *)
Theorem level_zero_leak_refuted : exists O d pr s a r p d', usable pr /\ tied d [] [] /\
  ze_alloc O d pr s a = Some (r, p, d') /\ r <> SUCCESS /\ memory d' <> [].
Proof.
  exists (answers [(0, 4096); (1, 0)]), idle, (gpu [6] 0), 64, 0, ERR_PROVIDER_SPECIFIC, 4096. eexists.
  split; [right; split; [left; reflexivity|split; [discriminate|reflexivity]]|].
  split; [split; [reflexivity|split; [constructor|intros b []]]|]. split; [vm_compute; reflexivity|]. split; [discriminate|]. vm_compute. discriminate.
Qed.
Print Assumptions level_zero_leak_refuted.
(* valid parameters, a driver that is out of memory: undefined instead of an error; so are
   parameters whose memory type was never set *)
Theorem level_zero_create_refuted :
  (exists O p, valid p /\ p_type p = MT_DEVICE /\ forall heap ext, initialize O idle heap true true true ext (Some p) = None) /\
  (forall O heap ext p, valid p -> p_type p = 0 -> fst (O 0%nat) = 0 -> initialize O idle heap true true true ext (Some p) = None).
Proof.
  split.
  - exists (answers [(0, 2 ^ 32); (OOM, 0)]), (Params 9 5 MT_DEVICE None 0 0 0). split; [split; [discriminate|split; [split; discriminate|intros X; contradiction X; reflexivity]]|].
    split; [reflexivity|]. intros heap ext. reflexivity.
  - intros O heap ext p (V1 & V2 & V3) T A. unfold initialize. replace (p_context p =? 0) with false by lia. rewrite T. change (0 =? MT_HOST) with false.
    assert (N : p_device p <> 0). { intros X. apply V2 in X. rewrite T in X. discriminate X. }
    replace (p_device p =? 0) with false by lia. cbn [negb Bool.eqb].
    assert (E3 : negb (p_count p =? 0) && match p_resident p with None => true | _ => false end = false).
    { destruct (p_count p =? 0) eqn:C; [reflexivity|]. destruct (p_resident p); [reflexivity|]. exfalso. apply V3; [lia|reflexivity]. }
    rewrite E3. unfold drv. cbn [made idle length]. destruct (O 0%nat) as [c v]. cbn [fst] in A. subst c. cbn [andb Z.eqb negb]. rewrite andb_false_r. reflexivity.
Qed.
Print Assumptions level_zero_create_refuted.
(* a free policy the driver has no function for is accepted in a request: a call through NULL *)
Theorem level_zero_free_refuted : forall O d p, p <> 0 -> usable (gpu [] 1) /\ ze_free O false d (gpu [] 1) p = None.
Proof.
  intros O d p N. split; [right; split; [left; reflexivity|split; [discriminate|reflexivity]]|]. unfold ze_free. replace (p =? 0) with false by lia. reflexivity.
Qed.
Print Assumptions level_zero_free_refuted.
(* and so in creation, for parameters with that policy *)
Theorem level_zero_policy_refuted : exists p, valid p /\ p_type p = MT_HOST /\
  forall O heap, fst (O 0%nat) = 0 -> snd (O 0%nat) <> 0 -> initialize O idle heap true true true false (Some p) = None.
Proof.
  exists (Params 9 0 MT_HOST None 0 2 0). split; [split; [discriminate|split; [split; reflexivity|intros X; contradiction X; reflexivity]]|].
  split; [reflexivity|]. intros O heap A B. unfold initialize. cbn -[query_min_page_size]. unfold query_min_page_size, ze_alloc. cbn [mtype context devices MT_HOST Z.eqb Pos.eqb].
  unfold drv at 1. cbn [made idle length]. destruct (O 0%nat) as [c v]. cbn [fst snd] in A, B. subst c. cbn [Z.eqb andb live_at memory idle existsb orb].
  replace (v =? 0) with false by lia. cbn [Z.eqb negb make_resident is_success result_eqb].
  match goal with |- context [drv O ?d (AllocProps 9 v)] => destruct (drv O d (AllocProps 9 v)) as [[c2 v2] d2] end.
  unfold ze_free. replace (v =? 0) with false by lia. reflexivity.
Qed.
Print Assumptions level_zero_policy_refuted.

(* ---- examples ---- *)
(* device memory above the limit on two resident devices; one refused; one given back *)
Example some_history :
  let O := answers [(0, 4096); (0, 0); (0, 0); (OOM, 0); (0, 8192); (0, 0); (0, 0); (0, 0); (0, 33); (0, 70000); (0, 0)] in
  let dev := gpu [6; 7] 1 in
  exists d', history O true true 100 idle [] [RAlloc dev (2 ^ 33) 64; RAlloc dev 200 256; RAlloc dev 300 256; RFree dev 4096; ROpen dev (IpcData 101 12)] d' [Holding dev 8192 300]
  /\ memory d' = [Block 8192 KDevice 9 300] /\ resident d' = [(7, 8192); (6, 8192)] /\ fds d' = [] /\
  In (AllocDevice 9 5 0 true (2 ^ 33) 64, 0) (made d') /\ In (FreeExt 9 1 4096, 0) (made d').
Proof.
  assert (U : usable (gpu [6; 7] 1)) by (right; split; [left; reflexivity|split; [discriminate|reflexivity]]).
  eexists. split.
  - eapply hi_cons; [exact U | vm_compute; reflexivity | apply ho_alloc; [discriminate | intros h []]|].
    eapply hi_cons; [exact U | vm_compute; reflexivity | apply ho_refused; discriminate|].
    eapply hi_cons; [exact U | vm_compute; reflexivity | apply ho_alloc; [discriminate | intros h [<- | []]; discriminate]|].
    eapply hi_cons; [split; [exact U|split; [right; reflexivity|right; eexists; right; left; reflexivity]] | vm_compute; reflexivity | eapply (ho_free _ _ _ _ _ [_]); reflexivity|].
    eapply hi_cons; [exact U | vm_compute; reflexivity | apply ho_other; exact I|].
    apply hi_nil.
  - vm_compute. repeat split; tauto.
Qed.
Example created : exists d', initialize (answers [(0, 2 ^ 32); (0, 4096); (0, 0); (0, 0); (0, 65536); (0, 0)]) idle 0 true true true true
    (Some (Params 9 5 MT_SHARED (Some [6; 7]) 2 2 1)) = Some (SUCCESS, Some (Provider 9 5 MT_SHARED [6; 7] 2 (2 ^ 32) 65536 1), 2, d') /\ memory d' = [].
Proof. eexists. split; vm_compute; reflexivity. Qed.
