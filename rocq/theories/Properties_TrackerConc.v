(* C79: the tracker used by several threads (Model_TrackerConc.v,
   Spec_TrackerConc.v). *)
From Verif Require Import Base Model_TrackerConc Spec_TrackerConc Proof_TrackerConc.

(* A lookup inside an allocation that its holder keeps meanwhile answers with
   that allocation and its pool, whatever other threads allocate and free.
   Missing: nested pools, and records given back while another call still reads
   them; without either assumption it is false (below). *)
Theorem C79_lookup_partial : forall s ts r a ans, treach flat unread (s, ts) -> In (LDone r a ans) ts -> right_answer r ans.
Proof. exact lookup_right. Qed.
Print Assumptions C79_lookup_partial.

(* A removal always finds its allocation. Missing: as above. *)
Theorem C79_remove_partial : forall s ts r, treach flat unread (s, ts) -> ~ In (Lost r) ts.
Proof. exact never_lost. Qed.
Print Assumptions C79_remove_partial.

(* When all calls have returned the maps hold exactly the allocations held, each
   with its pool and size. Missing: as above. *)
Theorem C79_exact_partial : forall s ts, treach flat unread (s, ts) -> at_rest ts ->
  (forall k c, In (k, c) (t_map s 0) <-> exists r, In (Live r c) ts /\ k = r_ptr r) /\
  (forall r c, In (Live r c) ts -> t_info s c = TInfo (r_pool r) (r_size r) 0) /\ forall l, l <> 0 -> t_map s l = [].
Proof. exact rest_map. Qed.
Print Assumptions C79_exact_partial.

(* Waiting until a record is unread never blocks everybody: while some call is
   not finished, one of the unfinished calls can take a step. *)
Theorem C79_progress : forall s ts t, In t ts -> ~ ended t ->
  exists l o r s' q, ts = l ++ o :: r /\ ~ ended o /\ tstep s true o = (s', q) /\ tmove flat unread (s, ts) (s', l ++ q ++ r).
Proof. exact go_on. Qed.
Print Assumptions C79_progress.

Definition n (k i : nat) := repeat (IS i) k.

(* Three threads, no nesting, records given back as the code does. A thread adds
   X and has looked up Y below it; Y is freed; Z's record takes the place of
   Y's; the size read is Z's, so X is put below it, as a child. *)
Definition Y_ := Reg 100 10 1.
Definition X_ := Reg 200 10 2.
Definition Z_ := Reg 1000 5000 3.
Definition mixup := IA Y_ :: n 3 0 ++ IA X_ :: n 1 0 ++ IF 1 :: n 7 1 ++ IA Z_ :: n 3 0 ++ n 6 1.

Lemma once_reach p y : trun flatb onceb (tinit, []) p = Some y -> treach flat at_once y.
Proof. apply (trun_reach flat at_once flatb onceb p flatb_ok onceb_ok). constructor. Qed.
Lemma nested_reach p y : trun nestedb unreadb (tinit, []) p = Some y -> treach nested unread y.
Proof. apply (trun_reach nested unread nestedb unreadb p nestedb_ok unreadb_ok). constructor. Qed.
Lemma flat_reach p y : trun flatb unreadb (tinit, []) p = Some y -> treach flat unread y.
Proof. apply (trun_reach flat unread flatb unreadb p flatb_ok unreadb_ok). constructor. Qed.

Theorem C79_lookup_refuted : exists s ts, treach flat at_once (s, ts) /\ In (LDone X_ 205 None) ts /\ In (Live X_ 1) ts /\ ~ right_answer X_ None.
Proof.
  destruct (trun flatb onceb (tinit, []) (mixup ++ IL 1 205 :: n 3 0)) as [[s ts]|] eqn:E; [|vm_compute in E; discriminate].
  exists s, ts. split; [exact (once_reach _ _ E)|]. vm_compute in E. injection E as <- <-. cbn. repeat split; auto. discriminate.
Qed.
Print Assumptions C79_lookup_refuted.

(* Both allocations of that execution can then not be removed any more. *)
Theorem C79_remove_refuted : exists s ts, treach flat at_once (s, ts) /\ In (Lost X_) ts /\ In (Lost Z_) ts.
Proof.
  destruct (trun flatb onceb (tinit, []) (mixup ++ IF 0 :: n 9 0 ++ IF 1 :: n 9 1)) as [[s ts]|] eqn:E; [|vm_compute in E; discriminate].
  exists s, ts. split; [exact (once_reach _ _ E)|]. vm_compute in E. injection E as <- <-. cbn. auto.
Qed.
Print Assumptions C79_remove_refuted.

(* Nested pools, records given back only when unread: two threads allocate from
   one parent and one count of n_children is lost. After one of the two is
   freed, a lookup of the other answers with the parent, and it cannot be
   removed. *)
Definition P_ := Reg 1000 1000 1.
Definition A_ := Reg 1100 10 2.
Definition B_ := Reg 1200 10 3.
Definition lostcount := IA P_ :: n 3 0 ++ IA A_ :: IA B_ :: n 6 0 ++ n 7 1 ++ n 1 0 ++ IF 0 :: n 13 0.

Theorem C79_nested_refuted : exists s ts, treach nested unread (s, ts) /\
  In (Live P_ 0) ts /\ In (Live A_ 2) ts /\ In (LDone A_ 1105 (Some (1000, 1000, 1))) ts /\ ~ right_answer A_ (Some (1000, 1000, 1)).
Proof.
  destruct (trun nestedb unreadb (tinit, []) (lostcount ++ IL 0 1105 :: n 5 0)) as [[s ts]|] eqn:E; [|vm_compute in E; discriminate].
  exists s, ts. split; [exact (nested_reach _ _ E)|]. vm_compute in E. injection E as <- <-. cbn. repeat split; auto. discriminate.
Qed.
Print Assumptions C79_nested_refuted.

Theorem C79_nested_remove_refuted : exists s ts, treach nested unread (s, ts) /\ In (Lost A_) ts.
Proof.
  destruct (trun nestedb unreadb (tinit, []) (lostcount ++ IF 0 :: n 9 0)) as [[s ts]|] eqn:E; [|vm_compute in E; discriminate].
  exists s, ts. split; [exact (nested_reach _ _ E)|]. vm_compute in E. injection E as <- <-. cbn. auto.
Qed.
Print Assumptions C79_nested_remove_refuted.

(* the same schedule with the waiting: Y's record stays while it is read, and X is found *)
Example waiting_helps : exists s ts, treach flat unread (s, ts) /\ In (LDone X_ 205 (Some (200, 10, 2))) ts /\ In (Live Z_ 1) ts.
Proof.
  destruct (trun flatb unreadb (tinit, []) (IA Y_ :: n 3 0 ++ IA X_ :: n 1 0 ++ IF 1 :: n 6 1 ++ IA Z_ :: n 3 0 ++ n 3 1 ++ n 1 2 ++ IL 1 205 :: n 5 0))
    as [[s ts]|] eqn:E; [|vm_compute in E; discriminate].
  exists s, ts. split; [exact (flat_reach _ _ E)|]. vm_compute in E. injection E as <- <-. cbn. auto.
Qed.
(* and at the critical moment giving the record back is refused *)
Example waiting_waits : trun flatb unreadb (tinit, []) (IA Y_ :: n 3 0 ++ IA X_ :: n 1 0 ++ IF 1 :: n 7 1) = None.
Proof. reflexivity. Qed.
(* two holders at rest *)
Example two_at_rest : exists s ts, treach flat unread (s, ts) /\ at_rest ts /\ t_map s 0 = [(200, 1); (100, 0)].
Proof.
  destruct (trun flatb unreadb (tinit, []) (IA Y_ :: n 3 0 ++ IA X_ :: n 4 0)) as [[s ts]|] eqn:E; [|vm_compute in E; discriminate].
  exists s, ts. split; [exact (flat_reach _ _ E)|]. vm_compute in E. injection E as <- <-. split; [|reflexivity].
  intros t [<-|[<-|[]]]; eauto.
Qed.
