(* C77, C78: IPC handles with several threads at once. *)
From Verif Require Import Base Model_IpcConc Spec_IpcConc Proof_IpcConc Model_IpcGetConc Spec_IpcGetConc Proof_IpcGetConc.

(* ---- C77: getting handles ---- *)

(* Calls for one piece of memory all return the same handle, calls for
   different pieces different ones, in every interleaving. *)
Theorem C77_one_handle : forall s ts p v i p' v' i',
  greach (s, ts) -> answered ts p v i -> answered ts p' v' i' ->
  (p = p' -> v = v' /\ i = i') /\ (p <> p' -> v <> v' /\ i <> i').
Proof. exact answers_agree. Qed.
Print Assumptions C77_one_handle.

(* What goes back to the upstream provider is a handle no caller was given. *)
Theorem C77_back_unused : forall s ts s' ts' v,
  greach (s, ts) -> gmove (s, ts) (s', ts') -> takes_back s s' v -> forall p i, ~ answered ts p v i.
Proof. exact back_safe. Qed.
Print Assumptions C77_back_unused.

(* When no call is in progress the upstream handles still out are the cached
   ones, one per piece of memory, and those it refused to take back. *)
Theorem C77_accounted : forall s ts, greach (s, ts) -> settled ts ->
  NoDup (g_up s) /\ forall v, In v (g_up s) <-> (exists p i, gfind (g_cache s) p = Some (v, i)) \/ In v (g_lost s).
Proof. exact settled_acc. Qed.
Print Assumptions C77_accounted.

(* The loop is left in its second round at the latest, by a cache hit; and a
   call fails only when something it calls fails (an allocation, the upstream
   provider). *)
Theorem C77_two_rounds : forall s ts t, greach (s, ts) -> In t ts ->
  (rounds t <= 1)%nat /\ forall p ok v, t = GGet p 1 -> exists w i, gstep s ok v t = (s, [GDone p w i]).
Proof.
  intros s ts t R J. split; [exact (rounds_bound s ts t R J)|]. intros p ok v ->. exact (second_round s ts p ok v R J).
Qed.
Print Assumptions C77_two_rounds.

Theorem C77_no_error : forall s t v s', gstep s true v t = (s', []) ->
  (exists p n, t = GUp p n /\ In v (g_up s)) \/ (exists p n w, t = GPut p n w true) \/ exists w, t = FPut w.
Proof. exact no_error. Qed.
Print Assumptions C77_no_error.

(* two threads miss the cache for 7 at the same time; the second one gives its
   handle back and returns the first one's; 8 gets a handle of its own *)
Definition get_run : list gact :=
  [ACall 7; ACall 7; AGo 0 true 0; AGo 1 true 0; AGo 0 true 0; AGo 1 true 0; AGo 0 true 50; AGo 1 true 60; AGo 1 true 0; AGo 0 true 0;
   AGo 1 true 0; AGo 0 true 0; AGo 0 true 0; AGo 0 true 0; ACall 8; AGo 0 true 0; AGo 0 true 0; AGo 0 true 50; AGo 0 true 0; AGo 0 true 0].
Example C77_witness : exists s, grun (ginit, []) get_run = Some (s, [GDone 8 50 3; GDone 7 60 1; GDone 7 60 1]) /\ g_up s = [50; 60].
Proof. eexists. split; [vm_compute; reflexivity|reflexivity]. Qed.
Example C77_witness_reach : exists s, greach (s, [GDone 8 50 3; GDone 7 60 1; GDone 7 60 1]).
Proof. destruct C77_witness as (s & E & _). exists s. exact (grun_reach get_run _ _ gr_init E). Qed.

(* ---- C78: opening and closing handles ---- *)

(* An address returned by an open call stays mapped until its holder's close
   call has dropped the reference, whatever other threads open and close. *)
Theorem C78_stays_mapped_partial : forall cap s ps k h a,
  creach one_handle cap (s, ps) -> holds ps k h a \/ closing ps k h a -> In a (s_mapped s).
Proof. exact held_mapped. Qed.
Print Assumptions C78_stays_mapped_partial.

(* Holders of one handle share one mapping; different memory has different
   mappings. *)
Theorem C78_shared_partial : forall cap s ps k h a k' h' a',
  creach one_handle cap (s, ps) -> holds ps k h a -> holds ps k' h' a' -> (k = k' <-> a = a') /\ (k = k' -> h = h').
Proof. exact held_shared. Qed.
Print Assumptions C78_shared_partial.

(* The upstream provider is told to unmap only what nobody holds or is about to
   close. *)
Theorem C78_unmap_unused_partial : forall cap s ps s' ps' a,
  creach one_handle cap (s, ps) -> cmove one_handle (s, ps) (s', ps') -> unmaps s s' a ->
  forall k h, ~ holds ps k h a /\ ~ closing ps k h a.
Proof. exact unmap_safe. Qed.
Print Assumptions C78_unmap_unused_partial.

(* Closing an address one holds never fails, and no assertion does. *)
Theorem C78_close_succeeds_partial : forall cap s ps k, creach one_handle cap (s, ps) -> ~ In (Bad k) ps.
Proof. exact never_bad. Qed.
Print Assumptions C78_close_succeeds_partial.

(* When nobody is inside a call, the mappings are exactly those of the cached
   entries, each once. *)
Theorem C78_accounted_partial : forall cap s ps, creach one_handle cap (s, ps) -> quiet ps ->
  NoDup (s_mapped s) /\ (forall a, In a (s_mapped s) <-> a <> 0 /\ exists k e, s_hash s k = Some e /\ s_base s e = a) /\ (length (s_mapped s) <= length (s_lru s))%nat.
Proof. exact quiet_map. Qed.
Print Assumptions C78_accounted_partial.

(* No deadlock: while a call is in progress, some call can take a step. *)
Theorem C78_progress : forall cap s ps p, creach one_handle cap (s, ps) -> In p ps -> inside p ->
  exists q, In q ps /\ inside q /\ forall ok v, pcstep s ok v q <> None.
Proof. exact progress. Qed.
Print Assumptions C78_progress.

(* a call on its own, from OWant to Held *)
Definition go (i : nat) (v : Z) (n : nat) : list act := repeat (AStep i true v) n.

(* Without the callers' discipline the claim is false: opening a newer handle of
   the same memory unmaps what the holder of the older one uses. *)
Theorem C78_stays_mapped_refuted : exists cap s ps k h a,
  creach (fun _ _ _ => True) cap (s, ps) /\ holds ps k h a /\ ~ In a (s_mapped s).
Proof.
  assert (R : exists s ps, crun (cinit 0, []) ([AOpen 1 1] ++ go 0 100 10 ++ [AOpen 1 2] ++ go 0 200 4) = Some (s, ps) /\
    ps = [OLoad 1 2 1; Held 1 1 1 100] /\ s_mapped s = []) by (do 2 eexists; split; [vm_compute; reflexivity|split; reflexivity]).
  destruct R as (s & ps & E & -> & M). exists 0, s, [OLoad 1 2 1; Held 1 1 1 100], 1, 1, 100. split; [|split].
  - eapply crun_reach; [apply r_init|exact E].
  - exists 1. right. left. reflexivity.
  - rewrite M. intros [].
Qed.
Print Assumptions C78_stays_mapped_refuted.

(* two threads open the same handle at once, with room for one entry; both get
   address 100; both close; a third opens another key, which evicts the entry *)
Definition open_run : list act :=
  [AOpen 1 1; AOpen 1 1] ++ go 0 0 4 ++ go 1 0 3 ++ go 0 0 2 ++ [AStep 0 true 100] ++ go 0 0 2 ++ [AStep 0 true 0] ++ go 1 0 3.
Example C78_witness : exists s, crun (cinit 1, []) open_run = Some (s, [Held 1 1 1 100; Held 1 1 1 100]) /\ s_mapped s = [100] /\ s_ref s 1 = 2.
Proof. eexists. split; [vm_compute; reflexivity|split; reflexivity]. Qed.
Definition evict_run : list act :=
  open_run ++ [AClose 0; AClose 1] ++ go 0 0 2 ++ go 0 0 2 ++ [AOpen 2 5] ++ go 0 0 6 ++ go 0 0 2 ++ [AStep 0 true 200] ++ go 0 0 3.
Example C78_witness_evict : exists s, crun (cinit 1, []) evict_run = Some (s, [Held 2 5 1 200]) /\ s_mapped s = [200] /\ s_segs s 100 = None.
Proof. eexists. split; [vm_compute; reflexivity|split; reflexivity]. Qed.
Example C78_witness_reach : exists s, creach one_handle 1 (s, [Held 2 5 1 200]).
Proof. destruct C78_witness_evict as (s & E & _). exists s. eapply crun_reach_one; [apply r_init|exact E|vm_compute; reflexivity]. Qed.
