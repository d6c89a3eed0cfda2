(* C81: libraries loaded at run time (Model_Loader.v, Spec_Loader.v). *)
From Verif Require Import Base Model_Loader Spec_Loader Proof_Loader.

(* TBB must have the functions required of it; the others may lack any. *)
Definition supported (l : lib) (has : Z -> bool) : Prop := (l = tbb /\ complete tbb has) \/ l = cuda \/ l = level_zero.
Lemma supported_wf l has : supported l has -> wf l /\ (l_early l = false \/ complete l has).
Proof. intros [(-> & C)|[->| ->]]; (split; [first [apply wf_tbb|apply wf_cuda|apply wf_level_zero]|auto]). Qed.

(* As long as nothing is created after a tear-down, no call goes through a null
   pointer or into a library that is gone, whatever the application loads and
   unloads meanwhile, and UMF never closes a library it has not opened. Missing:
   functions that were not required, TBB libraries that lack a required
   function, and use after a tear-down; each is refuted below. *)
Theorem C81_calls_partial : forall l has es, supported l has -> proper l has lstate0 es ->
  one_period false es -> uses_required l es -> defined (snd (lrun l has lstate0 es)).
Proof. intros l has es S. destruct (supported_wf l has S). intros. apply defined_one; assumption. Qed.
Print Assumptions C81_calls_partial.

(* CUDA: every function used is required, so nothing has to be assumed about
   which are called. *)
Lemma proper_loaded l has x : forall es s, proper l has s es -> In (Use x) es -> In x (l_loaded l).
Proof.
  induction es as [|e es IH]; intros s P I; [destruct I|]. destruct P as (P & Q). destruct I as [->|I]; [apply P|exact (IH _ Q I)].
Qed.
Theorem C81_cuda_calls_partial : forall has es, proper cuda has lstate0 es -> one_period false es -> defined (snd (lrun cuda has lstate0 es)).
Proof.
  intros has es P O. apply C81_calls_partial; [right; left; reflexivity|exact P|exact O|].
  intros x X. left. exact (proper_loaded _ _ _ _ _ P X).
Qed.
Print Assumptions C81_cuda_calls_partial.

(* Over any history, if dlclose does not fail, tearing down leaves exactly the
   references the application took itself, and none of those is given up. *)
Theorem C81_refs_partial : forall l has es, supported l has -> closes_succeed es ->
  (let s := fst (lrun l has lstate0 (es ++ [TearDown true])) in refs s = user s) /\ ~ In OverClosed (snd (lrun l has lstate0 es)).
Proof. intros l has es S C. destruct (supported_wf l has S). split; [apply refs_back|apply never_over]; assumption. Qed.
Print Assumptions C81_refs_partial.

(* All creations of a process have the same outcome. *)
Theorem C81_same_outcome : forall l has es, ~ (In Created (snd (lrun l has lstate0 es)) /\ In Unavailable (snd (lrun l has lstate0 es))).
Proof. intros. apply same_run. reflexivity. Qed.
Print Assumptions C81_same_outcome.

(* The first creation succeeds if the library is mapped, or may be and can be
   loaded, and has the functions required. Missing: later creations. *)
Theorem C81_available_partial : forall l has es s ok cl, complete l has -> (forall ok cl, ~ In (Create ok cl) es) ->
  fst (lrun l has lstate0 es) = s -> 0 < refs s \/ (l_noload l = false /\ ok = true) -> In Created (snd (lstep l has s (Create ok cl))).
Proof.
  intros l has es s ok cl C N E A. destruct (not_created_fresh l has es lstate0 eq_refl eq_refl N) as (O & F). rewrite E in O, F.
  eapply first_create; eassumption.
Qed.
Print Assumptions C81_available_partial.

(* The full statements. *)
Definition calls_defined (l : lib) : Prop := forall has es, proper l has lstate0 es -> defined (snd (lrun l has lstate0 es)).
Definition available (l : lib) : Prop := forall has es s ok cl, complete l has -> fst (lrun l has lstate0 es) = s -> 0 < refs s ->
  In Created (snd (lstep l has s (Create ok cl))).
Definition all_but (n x : Z) : bool := negb (x =? n).
Definition everything (_ : Z) : bool := true.

(* TBB without pool_msize: the pool is created, umfPoolMallocUsableSize calls NULL. *)
Theorem C81_tbb_msize_refuted : ~ calls_defined tbb.
Proof. intros H. destruct (H (all_but 7) [Create true true; Use 7]) as (N & _); [cbn; intuition lia|]. apply N. vm_compute. auto. Qed.
Print Assumptions C81_tbb_msize_refuted.

(* Level Zero without zeMemFreeExt: the provider is created, freeing with a free
   policy calls NULL. *)
Theorem C81_free_ext_refuted : ~ calls_defined level_zero.
Proof. intros H. destruct (H (all_but 10) [Load true; Create true true; Use 10]) as (N & _); [cbn; intuition lia|]. apply N. vm_compute. auto. Qed.
Print Assumptions C81_free_ext_refuted.

(* TBB without a required function is closed when that is found out and again
   at the tear-down, which takes the application's own reference away. *)
Theorem C81_tbb_closed_twice_refuted :
  let es := [Load true; Create true true; TearDown true] in
  proper tbb (all_but 6) lstate0 es /\ one_period false es /\ In OverClosed (snd (lrun tbb (all_but 6) lstate0 es)) /\
  refs (fst (lrun tbb (all_but 6) lstate0 es)) = 0 /\ user (fst (lrun tbb (all_but 6) lstate0 es)) = 1.
Proof. cbn. intuition. Qed.
Print Assumptions C81_tbb_closed_twice_refuted.

(* Used again after a tear-down: TBB is gone, CUDA and Level Zero are no longer
   kept from being unloaded. *)
Definition again : list lev := [Create true true; Destroy; TearDown true; Create true true; Use 4].
Definition again_unload : list lev := [Load true; Create true true; Destroy; TearDown true; Create true true; Unload; Use 4].
Lemma uses_four l es : zin 4 (l_checked l) = true -> (forall x, In (Use x) es -> x = 4) -> uses_required l es.
Proof. intros Z H x X. rewrite (H x X). left. apply zin_in, Z. Qed.
Lemma again_four x : In (Use x) again \/ In (Use x) again_unload -> x = 4.
Proof. unfold again, again_unload. cbn [In]. intros [H|H]; repeat (destruct H as [H|H]; [congruence|]); destruct H. Qed.
Theorem C81_second_period_refuted :
  (proper tbb everything lstate0 again /\ uses_required tbb again /\ In CallUnmapped (snd (lrun tbb everything lstate0 again))) /\
  (forall l, l = cuda \/ l = level_zero ->
   proper l everything lstate0 again_unload /\ uses_required l again_unload /\ In CallUnmapped (snd (lrun l everything lstate0 again_unload))).
Proof.
  split; [|intros l L]; (split; [|split]).
  - vm_compute. intuition.
  - apply uses_four; [reflexivity|]. intros x X. apply again_four. left. exact X.
  - vm_compute. auto.
  - destruct L as [->| ->]; vm_compute; intuition.
  - apply uses_four; [destruct L as [->| ->]; reflexivity|]. intros x X. apply again_four. right. exact X.
  - destruct L as [->| ->]; vm_compute; auto.
Qed.
Print Assumptions C81_second_period_refuted.

(* A provider created before the application loads its library makes every later
   creation fail. *)
Theorem C81_available_refuted : forall l, l = cuda \/ l = level_zero -> ~ available l.
Proof.
  intros l L H. specialize (H everything [Create true true; Load true] _ true true ltac:(intros x _; reflexivity) eq_refl).
  destruct L as [->| ->]; cbn in H; destruct (H ltac:(lia)) as [C|[]]; discriminate.
Qed.
Print Assumptions C81_available_refuted.

(* A whole life with the application unloading the library in the middle. *)
Definition a_life : list lev := [Load true; Create true true; Use 0; Unload; Create true true; Use 3; Destroy; Destroy; TearDown true; TearDown true].
Example life_proper : proper cuda everything lstate0 a_life /\ one_period false a_life /\ closes_succeed a_life.
Proof. cbn. intuition. intros e H. cbn in H. repeat destruct H as [<-|H]; cbn; auto. destruct H. Qed.
Example life_seen : snd (lrun cuda everything lstate0 a_life) = [Created; Called; Created; Called; Closed].
Proof. reflexivity. Qed.
Example old_level_zero : snd (lrun level_zero (all_but 5) lstate0 [Load true; Create true true; Use 5; Use 2]) = [Created; NotSupported; Called].
Proof. reflexivity. Qed.
Example old_cuda : snd (lrun cuda (all_but 5) lstate0 [Load true; Create true true; TearDown true; Create true true]) = [Closed; Unavailable; Unavailable].
Proof. reflexivity. Qed.
