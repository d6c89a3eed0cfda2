(* C83: the memory of a jemalloc pool comes from its own provider and goes back
   to it. *)
From Coq Require Import Permutation.
From Verif Require Import Base Model_Jemalloc Spec_Jemalloc Proof_Jemalloc.

(* Whatever the pools created, used and destroyed by several threads: if no arena
   index is used again before its entry in the table was reset, then every hook
   finds its pool, and what each provider has given out is what the arenas of its
   live pools hold, and what it refused to take back when an arena was destroyed
   or an extent not wanted. Partial: needs that restriction; without it see
   C83_overlap_refuted. *)
Theorem C83_own_provider_partial : forall pv s, jreach pv calm s ->
  crashed s = false /\ Permutation (allocs s) (of_pools pv s ++ lost s).
Proof. intros pv s R. pose proof (jreach_inv pv s R) as J. exact (conj (ji_crash pv s J) (account pv s J)). Qed.
Print Assumptions C83_own_provider_partial.

(* If the providers take back all that is freed, destroying every pool leaves
   them with nothing given out. Partial: same restriction. *)
Theorem C83_all_returned_partial : forall pv s, jreach pv (fun s e => calm s e /\ takes_back e) s ->
  Permutation (allocs s) (of_pools pv s) /\ (live s = [] -> allocs s = []).
Proof.
  intros pv s R. pose proof (account pv s (jreach_inv pv s (jreach_weaken pv _ calm s (fun _ _ H => proj1 H) R))) as A.
  rewrite (nothing_lost pv s R), app_nil_r in A. split; [exact A|]. intros L. unfold of_pools in A. rewrite L in A.
  apply Permutation_nil. symmetry. exact A.
Qed.
Print Assumptions C83_all_returned_partial.

(* An extent jemalloc wants at an address is at that address, or the memory is
   given back at once. *)
Theorem C83_place : forall v i na sz got fr s x, na <> 0 ->
  In x (exts (run_hook v i (Alloc na sz got fr) s)) -> In x (exts s) \/ x = (i, (na, sz)).
Proof. exact alloc_place. Qed.
Print Assumptions C83_place.

Fixpoint runs (pv : Z -> Z) (s : jstate) (es : list jev) : jstate :=
  match es with [] => s | e :: es => runs pv (jstep pv s e) es end.
Fixpoint allowed (pv : Z -> Z) (ok : jstate -> jev -> Prop) (s : jstate) (es : list jev) : Prop :=
  match es with [] => True | e :: es => enabled s e /\ ok s e /\ allowed pv ok (jstep pv s e) es end.
Lemma runs_reach pv ok : forall es s, jreach pv ok s -> allowed pv ok s es -> jreach pv ok (runs pv s es).
Proof. induction es as [|e es IH]; cbn; intros s R A; [exact R|]. apply IH; [constructor; tauto|tauto]. Qed.

(* Pool 1 is destroyed; before its thread resets the table, pool 2 is given the
   same arena index; then its entry is reset and its first hook finds no pool. *)
Definition overlap : list jev :=
  [ArenaCreate 1 7; TableSet 1 7; ArenaDestroy 1 7 []; ArenaCreate 2 7; TableSet 2 7; TableClear 7; Hook 2 7 (Alloc 0 4096 (Some 65536) true)].
Lemma overlap_allowed : allowed (fun p => p) (fun _ _ => True) jstate0 overlap.
Proof. cbv. intuition discriminate. Qed.
Theorem C83_overlap_refuted : ~ (forall pv s, jreach pv (fun _ _ => True) s -> crashed s = false).
Proof.
  intros H. specialize (H (fun p => p) (runs (fun p => p) jstate0 overlap) (runs_reach _ _ _ _ (jr_init _ _) overlap_allowed)).
  vm_compute in H. discriminate.
Qed.
Print Assumptions C83_overlap_refuted.

(* The destruction of a pool says nothing of a provider that would not take the
   memory back: it stays given out with no pool left to hold it. *)
Definition refused : list jev :=
  [ArenaCreate 1 7; TableSet 1 7; Hook 1 7 (Alloc 0 4096 (Some 65536) true); ArenaDestroy 1 7 [false]; TableClear 7].
Lemma refused_allowed : allowed (fun p => p) calm jstate0 refused.
Proof. cbv. intuition discriminate. Qed.
Theorem C83_refused_refuted : ~ (forall pv s, jreach pv calm s -> live s = [] -> allocs s = []).
Proof.
  intros H. specialize (H (fun p => p) (runs (fun p => p) jstate0 refused) (runs_reach _ _ _ _ (jr_init _ _) refused_allowed)).
  assert (E : live (runs (fun p => p) jstate0 refused) = []) by (vm_compute; reflexivity). specialize (H E). vm_compute in H. discriminate.
Qed.
Print Assumptions C83_refused_refuted.

(* Two pools on two providers; extents split, merged and dropped; one pool
   destroyed, its index used again after the reset. *)
Definition busy : list jev :=
  [ArenaCreate 1 7; TableSet 1 7; ArenaCreate 2 8; Hook 1 7 (Alloc 0 8192 (Some 65536) true); TableSet 2 8;
   Hook 2 8 (Alloc 0 4096 (Some 131072) true); Hook 1 7 (Split (65536, 8192) 4096 true); Hook 1 7 (Alloc 4096 4096 (Some 200000) true);
   Hook 1 7 (Dalloc (69632, 4096) true)].
Example C83_example_live : let s := runs (fun p => p * 100) jstate0 busy in
  jreach (fun p => p * 100) (fun s e => calm s e /\ takes_back e) s /\
  of_pools (fun p => p * 100) s = [(200, (131072, 4096)); (100, (65536, 4096))].
Proof. split; [apply runs_reach; [constructor|]|vm_compute; reflexivity]. cbv. intuition discriminate. Qed.
Example C83_example_end : let s := runs (fun p => p * 100) jstate0 (busy ++ [ArenaDestroy 1 7 []; TableClear 7; ArenaCreate 3 7; TableSet 3 7; ArenaDestroy 2 8 [true]]) in
  jreach (fun p => p * 100) (fun s e => calm s e /\ takes_back e) s /\ live s = [(3, 7)] /\ allocs s = [].
Proof. split; [apply runs_reach; [constructor|]|vm_compute; split; reflexivity]. cbv. intuition (try discriminate; repeat constructor). Qed.
