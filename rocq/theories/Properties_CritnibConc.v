(* C46: lock-free lookups in the radix map *)
From Verif Require Import Base Model_Critnib Spec_Map Model_CritnibConc Spec_CritnibConc Proof_CritnibConcSys.

(* Any sequence of inserts and removes, one after the other under the mutex and store by
   store, has a moment of effect for every operation ([effects]) such that every lookup, of
   every key, at every interleaving with them, answers with what the map held at one moment
   between its first load and its last.  The moments do not depend on the lookups.  The
   number of the writers' steps is below 2^64 - 16. *)
Theorem get_linearizable : forall h wl, empty_heap h ->
  Forall (fun a => is_write a = true /\ action_word a) wl -> Z.of_nat (length wl) + 16 < 2 ^ 64 ->
  exists E, effects h wl E /\
  forall k al n s r, is_word k -> (n <= length wl)%nat -> filter is_write al = firstn n wl ->
  sexec k (start h) al = Some s -> reader s = RDone r -> held h wl E (before al) n k r.
Proof.
  intros h wl He W B. destruct (history_exists h wl He W B) as (ST & E & M & H). exists E.
  split; [exact (effects_ok h wl ST E M H)|]. intros k al n s r Wk Hn F Es Er. exact (reader_result h wl ST E M H B k al n s r Wk Hn F Es Er).
Qed.
Print Assumptions get_linearizable.

(* No interleaving runs into a failed assertion or takes a free-list link for a value. *)
Theorem no_crash : forall h al k, empty_heap h -> Forall action_word al -> is_word k ->
  Z.of_nat (length al) + 16 < 2 ^ 64 -> exists s, sexec k (start h) al = Some s.
Proof.
  intros h al k He W Wk B.
  assert (L : (length (filter is_write al) <= length al)%nat) by (clear; induction al as [|a al IH]; [reflexivity|]; destruct a; cbn [filter is_write length]; lia).
  assert (W' : Forall (fun a => is_write a = true /\ action_word a) (filter is_write al)).
  { apply Forall_forall. intros a Ha. apply filter_In in Ha. split; [apply Ha|]. exact (proj1 (Forall_forall _ _) W a (proj1 Ha)). }
  assert (B' : Z.of_nat (length (filter is_write al)) + 16 < U64) by (change U64 with (2 ^ 64); lia).
  destruct (history_exists h _ He W' B') as (ST & E & M & H).
  destruct (reader_run h _ ST E M H B' k Wk al _ (Nat.le_refl _)) as (s & _ & Es & _); [rewrite firstn_all; reflexivity|]. exists s. exact Es.
Qed.
Print Assumptions no_crash.

(* A lookup that is left alone answers after at most 40 loads. *)
Theorem get_finishes : forall h wl k, empty_heap h ->
  Forall (fun a => is_write a = true /\ action_word a) wl -> Z.of_nat (length wl) + 16 < 2 ^ 64 ->
  exists j s r, (j <= 40)%nat /\ sexec k (start h) (wl ++ repeat RLoad j) = Some s /\ reader s = RDone r.
Proof. exact get_done. Qed.
Print Assumptions get_finishes.

(* a map to try: memory never used before *)
Definition fresh : heap :=
  Heap PNull (fun _ _ => PNull) (fun _ => 77) (fun _ => 3) (fun _ => 99) (fun _ => User 98) PNull None (fun _ => None) (fun _ => None) 0 0 0.
Definition stores (n : nat) : list action := repeat WStore n.
Definition ins (k v : Z) : list action := WBegin (OpInsert true true k v false) :: stores 40.
Definition rem (k : Z) : list action := WBegin (OpRemove k) :: stores 16.

Example fresh_empty : empty_heap fresh.
Proof. repeat split. Qed.
(* the key goes away in the middle of the lookup: the old value is a right answer *)
Example old_value :
  option_map (fun s => (reader s, length (log s)))
    (sexec 5 (start fresh) (ins 5 50 ++ ins 9 90 ++ repeat RLoad 5 ++ rem 5 ++ ins 5 51 ++ repeat RLoad 3)) =
  Some (RDone (Some (User 50)), 4%nat).
Proof. vm_compute. reflexivity. Qed.
(* in the middle of an insertion, between two of its stores *)
Example half_way :
  option_map (fun s => (reader s, length (todo s)))
    (sexec 5 (start fresh) (ins 5 50 ++ [WBegin (OpInsert true true 9 90 false)] ++ stores 4 ++ repeat RLoad 9)) =
  Some (RDone (Some (User 50)), 21%nat).
Proof. vm_compute. reflexivity. Qed.
(* so slow that the leaf was recycled for another key meanwhile: the lookup starts again *)
Fixpoint churn (n : nat) : list action := match n with O => [] | S n => ins 3 30 ++ rem 3 ++ churn n end.
Example recycled :
  let al := ins 5 50 ++ ins 9 90 ++ repeat RLoad 5 ++ rem 5 ++ churn 16 ++ ins 6 60 ++ ins 7 70 in
  option_map (fun s => (reader s, lkey (mem s) 0, lval (mem s) 0)) (sexec 5 (start fresh) al) = Some (RVal 0 0, 6, User 60) /\
  option_map reader (sexec 5 (start fresh) (al ++ repeat RLoad 2)) = Some RStart /\
  option_map reader (sexec 5 (start fresh) (al ++ repeat RLoad 10)) = Some (RDone None).
Proof. vm_compute. auto. Qed.
