(* C88: several threads split and merge tracked allocations
   (Model_TrackerSplit.v, Spec_TrackerSplit.v). *)
From Verif Require Import Base Model_TrackerConc Model_TrackerSplit Spec_TrackerSplit Proof_TrackerSplitRun.

(* A lookup inside memory that stays allocated to pool [p] meanwhile answers
   with an allocation of that pool that contains the address: one there was when
   the map was searched, or a part of one then being split or merged. It finds
   nothing only if the address was then in the second part of an allocation
   being split. Missing: nested pools, and records given back while another call
   still reads them; with the latter it is false (below). *)
Theorem C88_lookup_partial : forall w ts p g b r a ans, sreach sunread (w, ts) -> In (Look p g b (LDone r a ans)) ts ->
  good_answer g p a ans \/ (ans = None /\ b = true).
Proof. exact look_ok. Qed.
Print Assumptions C88_lookup_partial.

(* A removal always finds its allocation, also one that came from a split or a
   merge. Missing: as above. *)
Theorem C88_remove_partial : forall w ts r, sreach sunread (w, ts) -> ~ In (Old (Lost r)) ts.
Proof. exact never_lost. Qed.
Print Assumptions C88_remove_partial.

(* When all calls have returned the tracker says exactly what the callers were
   told: an entry for each allocation they hold, with its size and pool, and no
   other; no two entries for one address, and the allocations do not overlap.
   Missing: as above. *)
Theorem C88_exact_partial : forall w ts, sreach sunread (w, ts) -> s_rest ts ->
  (forall k n p, entry_of (w_tr w) k n p <-> In (Reg k n p) (held w)) /\ NoDup (map fst (t_map (w_tr w) 0)) /\
  (forall p q, In p (held w) -> In q (held w) -> p <> q -> apart p (r_ptr q, r_size q)).
Proof.
  intros w ts R Q. split; [intros k n p; exact (rest_exact w ts k n p R Q)|]. split; [exact (one_entry w ts R)|]. intros p q. exact (held_apart w ts p q R).
Qed.
Print Assumptions C88_exact_partial.

(* No record is lost: when all calls have returned, also those that failed, each
   record ever taken from the allocator is in one entry of the map or was given
   back, once. Missing: as above. *)
Theorem C88_records_partial : forall w ts, sreach sunread (w, ts) -> s_rest ts ->
  NoDup (map snd (t_map (w_tr w) 0) ++ t_free (w_tr w)) /\
  forall c, 0 <= c < t_next (w_tr w) -> In c (map snd (t_map (w_tr w) 0) ++ t_free (w_tr w)).
Proof. exact rest_records. Qed.
Print Assumptions C88_records_partial.

(* The upstream provider is asked to split only an allocation that exists, with
   its size, and to merge only two allocations of the pool whose sizes add up.
   Missing: as above. *)
Theorem C88_upstream_partial : forall w ts, sreach sunread (w, ts) ->
  (forall x v l par c, In (SUp x v l par c) ts -> In (whole x) (held w)) /\
  (forall y v l lc hc, In (MUp y v l lc hc) ts ->
    exists a b, In (Reg (ma_lo y) a (ma_pool y)) (held w) /\ In (Reg (ma_hi y) b (ma_pool y)) (held w) /\ a + b = ma_size y).
Proof. intros w ts R. split; [intros x v l par c; exact (split_asked w ts x v l par c R)|intros y v l lc hc; exact (merge_asked w ts y v l lc hc R)]. Qed.
Print Assumptions C88_upstream_partial.

(* A split fails as "not found" exactly if there is no such allocation; after
   any other failure it is whole. A merge fails so only if one of the two is not
   there. Missing: as above. *)
Theorem C88_failure_partial : forall w ts, sreach sunread (w, ts) ->
  (forall x v e, In (SErr x v e) ts -> (In (whole x) (held w) <-> e <> NotThere)) /\
  (forall y v, In (MErr y v NotThere) ts -> ~ (In (lower y) (held w) /\ In (upper y) (held w))).
Proof. intros w ts R. split; [intros x v e; exact (split_failed w ts x v e R)|intros y v; exact (merge_refused w ts y v R)]. Qed.
Print Assumptions C88_failure_partial.

(* When a split or merge reports success, both parts or the union are there.
   Missing: as above. *)
Theorem C88_success_partial : forall w l t r ok w' , sreach sunread (w, l ++ t :: r) -> returned t = false ->
  (forall x, sstep w ok (note (held w) (l ++ r) t) = Some (w', [SDone x None]) -> In (first x) (held w') /\ In (second x) (held w')) /\
  (forall y, sstep w ok (note (held w) (l ++ r) t) = Some (w', [MDone y None]) -> In (union y) (held w')).
Proof. intros w l t r ok w' R D. split; [intros x; exact (split_done w l t r ok w' x R D)|intros y; exact (merge_done w l t r ok w' y R D)]. Qed.
Print Assumptions C88_success_partial.

(* Neither the mutex nor waiting until a record is unread blocks everybody:
   while some call is not finished, one of them can take a step. *)
Theorem C88_progress : forall w ts t, sreach sunread (w, ts) -> In t ts -> returned t = false ->
  exists l o r w' q, ts = l ++ o :: r /\ returned o = false /\ smove sunread (w, l ++ o :: r) (w', l ++ q ++ r) /\
    sstep w false (note (held w) (l ++ r) o) = Some (w', q).
Proof. exact somebody. Qed.
Print Assumptions C88_progress.

Definition go (i k : nat) := repeat (XStep i true) k.
Definition one := XAlloc (Reg 1000 100 1) :: go 0 3.
Definition cut := SArgs 1 1000 100 40.
Definition two := one ++ XAlloc (Reg 1100 50 1) :: go 0 4.
Definition join := MArgs 1 1000 1100 150.

Lemma run_reach gate p y : xrun gate (sinit, []) p = Some y -> sreach (policy gate) y.
Proof. apply xrun_ok. constructor. Qed.

(* The second part of an allocation that is being split is not found, although
   it is allocated before, meanwhile and afterwards, also if records are given
   back only when unread: the split first shortens the entry and then adds the
   second one. Here the allocation of 100 bytes at 1000 is split at 1040, and
   1050 is looked up; the split then succeeds. *)
Theorem C88_lookup_refuted : exists w ts r, sreach sunread (w, ts) /\ In (Look 1 [whole cut; second cut] true (LDone r 1050 None)) ts /\
  In (SDone cut None) ts /\ In (second cut) (held w) /\ ~ good_answer [whole cut; second cut] 1 1050 None.
Proof.
  destruct (xrun true (sinit, []) (one ++ XSplit cut :: go 0 11 ++ XLook 1 1050 :: go 0 3 ++ go 1 4)) as [[w ts]|] eqn:E; [|vm_compute in E; discriminate].
  exists w, ts, (Reg 1050 1 1). split; [exact (run_reach true _ _ E)|]. vm_compute in E. injection E as <- <-. cbn. repeat split; auto.
  intros (k & n & X & _). discriminate.
Qed.
Print Assumptions C88_lookup_refuted.

(* Records given back as the code does: a lookup of 1120, in memory of pool 1
   that is meanwhile merged with its neighbour, answers with pool 2 and a size
   of 2000 bytes, those of an allocation elsewhere that took over the record. *)
Theorem C88_merge_refuted : exists w ts g r, sreach sat_once (w, ts) /\ In (Look 1 g false (LDone r 1120 (Some (1100, 2000, 2)))) ts /\
  In (MDone join None) ts /\ In (union join) (held w) /\ ~ good_answer g 1 1120 (Some (1100, 2000, 2)).
Proof.
  destruct (xrun false (sinit, []) (two ++ XLook 1 1120 :: go 0 1 ++ XMerge join :: go 0 19 ++ XAlloc (Reg 5000 2000 2) :: go 0 4 ++ go 1 5)) as [[w ts]|] eqn:E; [|vm_compute in E; discriminate].
  exists w, ts, [Reg 1100 50 1], (Reg 1120 1 1). split; [exact (run_reach false _ _ E)|]. vm_compute in E. injection E as <- <-. cbn. repeat split; auto.
  intros (k & n & X & _). discriminate.
Qed.
Print Assumptions C88_merge_refuted.

(* Non-vacuity: the same merge with the record kept until the lookup has
   answered; a split beside a merge that waits for the mutex and then does not
   find what it was to merge; and a split that runs out of memory after the
   upstream provider agreed, and leaves the entry whole. *)
Example C88_merge_ex : exists w ts, sreach sunread (w, ts) /\ In (MDone join None) ts /\ s_rest ts /\
  In (Look 1 [upper join] false (LDone (Reg 1120 1 1) 1120 (Some (1100, 50, 1)))) ts /\ held w = [union join].
Proof.
  destruct (xrun true (sinit, []) (two ++ XLook 1 1120 :: go 0 1 ++ XMerge join :: go 0 17 ++ go 1 5 ++ go 0 2)) as [[w ts]|] eqn:E; [|vm_compute in E; discriminate].
  exists w, ts. split; [exact (run_reach true _ _ E)|]. vm_compute in E. injection E as <- <-. cbn. repeat split; auto.
  intros t [<-|[<-|[]]]; reflexivity.
Qed.
Example C88_wait_ex : exists w ts, sreach sunread (w, ts) /\ ts = [MDone join (Some NotThere); SDone cut None] /\
  forall q, In q (held w) <-> q = first cut \/ q = second cut \/ q = Reg 1100 50 1.
Proof.
  destruct (xrun true (sinit, []) (two ++ XSplit cut :: go 0 5 ++ XMerge join :: go 0 1 ++ go 1 10 ++ go 0 15)) as [[w ts]|] eqn:E; [|vm_compute in E; discriminate].
  exists w, ts. split; [exact (run_reach true _ _ E)|]. vm_compute in E. injection E as <- <-. split; [reflexivity|]. intros q. cbn. intuition.
Qed.
Example C88_nomem_ex : exists w ts, sreach sunread (w, ts) /\ ts = [SDone cut (Some NoMem)] /\ held w = [whole cut] /\ entry_of (w_tr w) 1000 100 1.
Proof.
  destruct (xrun true (sinit, []) (one ++ XSplit cut :: go 0 11 ++ repeat (XStep 0 false) 4)) as [[w ts]|] eqn:E; [|vm_compute in E; discriminate].
  exists w, ts. split; [exact (run_reach true _ _ E)|]. vm_compute in E. injection E as <- <-. split; [reflexivity|]. split; [reflexivity|].
  exists 0. split; [left; reflexivity|reflexivity].
Qed.
