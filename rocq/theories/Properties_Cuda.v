(* C72, C73: the CUDA provider *)
From Coq Require Import Permutation.
From Verif Require Import Base Model_Cuda Spec_Cuda Proof_Cuda Proof_CudaHistory.

Definition idle (c : Z) : driver := Driver c [] [] [].

(* C72.  Any proper request, whatever the driver answers: it is served, memory is handed out
   as asked (aligned, not NULL, not handed out before) or the request fails and the user
   holds what it held. *)
Theorem cuda_answers : forall O d H L o, proper H o -> tied d H L ->
  exists r p d' H', serve O d o = Some (r, p, d') /\ holds H o r p H' /\ exists L', tied d' H' (L' ++ L).
Proof.
  intros O d H L o P T. destruct (step_ok O d H L o P T) as (r & p & d' & l & E & _ & (H' & HO) & K & _).
  destruct (K H' HO) as (L' & T' & _). exists r, p, d', H'. eauto.
Qed.
Print Assumptions cuda_answers.

(* After any history the driver's memory is what the users hold, of the type and in the
   context of the provider it came from, and nothing else unless a call other than an
   allocation failed. *)
Theorem cuda_history : forall O c os d' H', history O (idle c) [] os d' H' ->
  exists leaked, Permutation (memory d') (map block_of H' ++ leaked) /\ (only_allocations_fail (made d') -> leaked = []).
Proof.
  intros O c os d' H' HY.
  destruct (history_ok O _ _ _ _ _ HY []) as (L & l & S & (P & _) & Q).
  { split; [reflexivity|]. split; [constructor | intros b []]. }
  exists L. rewrite app_nil_r in P. split; [exact P|]. intros X. apply Q. unfold since in S. cbn [made idle] in S. rewrite app_nil_r in S. rewrite <- S. exact X.
Qed.
Print Assumptions cuda_history.

(* An allocation asks the driver for nothing but the provider's type of memory, with its
   flags; it fails only for an alignment the driver does not have or a failed call. *)
Theorem cuda_alloc_call : forall O d pr s a r p d', usable pr -> serve O d (RAlloc pr s a) = Some (r, p, d') ->
  exists l, since d d' l /\ (forall x y e, In (x, y, e) l -> allocates y = true -> y = wanted pr s) /\
  (r = SUCCESS -> In (context pr, wanted pr s, 0) l) /\
  (r <> SUCCESS -> min_alignment pr < a \/ (exists x, In x l /\ failed x) \/ (r = ERR_INVALID_ALIGNMENT /\ 0 < a)).
Proof. exact alloc_call. Qed.
Print Assumptions cuda_alloc_call.

(* Creation succeeds exactly for valid parameters when the library, memory and the driver
   are there; it changes nothing in the driver, and failures keep no memory. *)
Theorem cuda_create : forall O d heap room loaded ps r pr heap' d', initialize O d heap room loaded ps = (r, pr, heap', d') ->
  memory d' = memory d /\ current d' = current d /\
  (r = SUCCESS <-> exists p, ps = Some p /\ p_type p <> MT_UNKNOWN /\ p_type p <= MT_SHARED /\ p_context p <> 0 /\ 0 <= p_device p /\
                   loaded = true /\ room = true /\ fst (O (length (made d))) = 0) /\
  match pr with
  | None => r <> SUCCESS /\ heap' = heap
  | Some pr => r = SUCCESS /\ heap' = heap + 1 /\ exists p, ps = Some p /\
      context pr = p_context p /\ device pr = p_device p /\ mtype pr = p_type p /\
      made d' = (current d, Granularity (p_device p) false, 0) :: made d /\ snd (O (length (made d))) = min_alignment pr /\
      alloc_flags pr = (if (p_type p =? MT_SHARED) && (p_flags p =? 0) then CU_MEM_ATTACH_GLOBAL else p_flags p)
  end.
Proof.
  intros O d heap room loaded ps r pr heap' d' H. destruct (initialize_ok _ _ _ _ _ _ _ _ _ _ H) as (A & B & C).
  split; [exact A|]. split; [exact B|]. split; [exact (initialize_iff _ _ _ _ _ _ _ _ _ _ H)|].
  destruct pr as [pr|]; [|exact C]. destruct C as (C1 & C2 & p & D). split; [exact C1|]. split; [exact C2|]. exists p. intuition.
Qed.
Print Assumptions cuda_create.

(* The text of the last native error fits its buffer: the name, " - " and the description,
   cut to 1023 bytes. *)
Theorem cuda_message : forall name text dn dt sep nok tok,
  cu_message name text dn dt sep nok tok = Some (firstn 1023 ((if nok then name else dn) ++ sep ++ (if tok then text else dt))).
Proof. exact message_ok. Qed.
Print Assumptions cuda_message.

(* C73.  Memory is allocated, freed and mapped with the provider's context current, and the
   thread's context is the caller's again, if the calls about the context succeed. *)
Theorem cuda_context : forall O d H L o pr, proper H o -> tied d H L -> of_request o = Some pr ->
  exists r p d' l, serve O d o = Some (r, p, d') /\ since d d' l /\
  (context_calls_ok l -> current d' = current d) /\ (forall x y e, In (x, y, e) l -> acts y = true -> x = context pr).
Proof.
  intros O d H L o pr P T Q. destruct (step_ok O d H L o P T) as (r & p & d' & l & E & S & _ & _ & K).
  exists r, p, d', l. split; [exact E|]. split; [exact S|]. exact (K pr Q).
Qed.
Print Assumptions cuda_context.

(* ---- what fails ---- *)
Definition gpu (c t : Z) : provider := Provider c 0 t 512 0.
(* answers by call number *)
Definition answers (l : list (Z * Z)) : oracle := fun n => nth n l (0, 0).

(* an allocation succeeds and leaves the thread in the provider's context *)
Theorem cuda_context_refuted : exists O d pr s a p d', usable pr /\ tied d [] [] /\
  serve O d (RAlloc pr s a) = Some (SUCCESS, p, d') /\ current d' <> current d.
Proof.
  exists (answers [(0, 0); (0, 0); (0, 4096); (0, 0); (3, 0)]), (idle 7), (gpu 9 MT_DEVICE), 64, 0, 4096.
  eexists. split; [right; left; reflexivity|]. split; [split; [reflexivity|split; [constructor | intros b []]]|].
  split; [vm_compute; reflexivity|]. vm_compute. discriminate.
Qed.
Print Assumptions cuda_context_refuted.
(* an allocation fails and leaves its memory in the driver *)
Theorem cuda_leak_refuted : exists O d pr s a r p d', usable pr /\ tied d [] [] /\
  serve O d (RAlloc pr s a) = Some (r, p, d') /\ r <> SUCCESS /\ memory d' <> [].
Proof.
  exists (answers [(0, 0); (0, 4104); (0, 0); (3, 0)]), (idle 9), (gpu 9 MT_DEVICE), 64, 256, ERR_INVALID_ALIGNMENT, 0.
  eexists. split; [right; left; reflexivity|]. split; [split; [reflexivity|split; [constructor | intros b []]]|].
  split; [vm_compute; reflexivity|]. split; [discriminate|]. vm_compute. discriminate.
Qed.
Print Assumptions cuda_leak_refuted.
(* IPC handles are made and mappings closed in whatever context is current *)
Theorem cuda_ipc_context_refuted : exists O d pr p d1 d2, usable pr /\ serve O d (RGet pr p) = Some (SUCCESS, 0, d1) /\
  serve O d (RClose pr p) = Some (SUCCESS, 0, d2) /\
  made d1 = [(current d, IpcGet p, 0)] /\ made d2 = [(current d, IpcClose p, 0)] /\ current d <> context pr.
Proof.
  exists (answers []), (idle 7), (gpu 9 MT_DEVICE), 4096. do 2 eexists. split; [right; left; reflexivity|].
  split; [vm_compute; reflexivity|]. split; [vm_compute; reflexivity|]. split; [reflexivity|]. split; [reflexivity|]. discriminate.
Qed.
Print Assumptions cuda_ipc_context_refuted.
(* parameters that cannot be created because the library is not loaded are not given back *)
Theorem cuda_params_leak_refuted : exists O d heap room loaded r heap' d',
  params_create O d heap room loaded = (r, None, heap', d') /\ heap' <> heap.
Proof. exists (answers []), (idle 0), 0, true, false. do 3 eexists. split; [reflexivity|discriminate]. Qed.
Print Assumptions cuda_params_leak_refuted.

(* ---- examples ---- *)
(* host and device memory in two contexts, one misaligned answer, one block given back *)
Example two_providers :
  let O := answers [(0, 0); (0, 0); (0, 4096); (0, 0); (0, 0);      (* host memory in context 5, from context 1 *)
                    (0, 0); (0, 0); (0, 8200); (0, 0); (0, 0);      (* device memory in context 6: misaligned ... *)
                    (0, 0); (0, 0); (0, 0); (0, 0); (0, 0);         (* ... and given back *)
                    (0, 0); (0, 0); (0, 8192); (0, 0); (0, 0);      (* device memory, aligned *)
                    (0, 0); (0, 0); (0, 0); (0, 0); (0, 0)] in      (* the host memory is freed *)
  let host := gpu 5 MT_HOST in let dev := gpu 6 MT_DEVICE in
  exists d', history O (idle 1) [] [RAlloc host 100 64; RAlloc dev 200 256; RAlloc dev 300 256; RFree host 4096] d' [Holding dev 8192 300]
  /\ memory d' = [Block 8192 KDevice 6 300] /\ current d' = 1.
Proof.
  eexists. split.
  - eapply hi_cons; [split; [left; reflexivity|lia] | vm_compute; reflexivity | apply ho_alloc; [right; reflexivity | vm_compute; discriminate | discriminate | intros h []]|].
    eapply hi_cons; [split; [right; left; reflexivity|lia] | vm_compute; reflexivity | apply ho_refused; discriminate|].
    eapply hi_cons; [split; [right; left; reflexivity|lia] | vm_compute; reflexivity | apply ho_alloc; [right; reflexivity | vm_compute; discriminate | discriminate | intros h [<- | []]; discriminate]|].
    eapply hi_cons; [split; [left; reflexivity|right; eexists; right; left; reflexivity] | vm_compute; reflexivity | eapply (ho_free _ _ _ _ _ [_]); reflexivity|].
    apply hi_nil.
  - split; reflexivity.
Qed.
Example created : exists d', initialize (answers [(0, 512)]) (idle 1) 0 true true (Some (Params 5 0 MT_SHARED 0)) = (SUCCESS, Some (Provider 5 0 MT_SHARED 512 1), 1, d').
Proof. eexists. reflexivity. Qed.
Example refused : exists d', initialize (answers [(101, 0)]) (idle 1) 0 true true (Some (Params 5 0 MT_SHARED 0)) = (ERR_PROVIDER_SPECIFIC, None, 0, d').
Proof. eexists. reflexivity. Qed.
