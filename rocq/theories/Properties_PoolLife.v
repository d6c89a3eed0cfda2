(* C82: creating and destroying pools (Model_PoolLife.v, Spec_PoolLife.v). *)
From Coq Require Import Permutation.
From Verif Require Import Base Model_PoolLife Spec_PoolLife Proof_PoolLife.

(* A creation that fails gives back everything it took. Missing: failures of the
   three requests made for the tracking provider (its cache of opened handles,
   its handle and its data); refuted below. *)
Theorem C82_failed_create_partial : forall m tracked own h h' l,
  (tracked = true -> granted h 3 /\ granted h 4 /\ granted h 5) ->
  holds h l -> pool_create m tracked own h = (None, h') -> holds h' l.
Proof.
  intros m tracked own h h' l N H E. apply has_holds. apply has_holds in H.
  apply (pool_create_has m tracked own h None h' l (fun t => proj1 (N t)) (fun _ t => proj2 (N t)) E H).
Qed.
Print Assumptions C82_failed_create_partial.

(* Failing at the tracking provider costs at most the three blocks of its IPC
   caches. Missing: the cache of opened handles itself. *)
Theorem C82_failed_create_bounded_partial : forall m tracked own h h' l, (tracked = true -> granted h 3) ->
  holds h l -> pool_create m tracked own h = (None, h') -> exists leak, (length leak <= 3)%nat /\ holds h' (leak ++ l).
Proof.
  intros m tracked own h h' l N H E. apply has_holds in H. destruct (pool_create_loses m tracked own h h' l N E H) as (leak & L & R).
  exists leak. split; [exact L|]. apply has_holds, R.
Qed.
Print Assumptions C82_failed_create_bounded_partial.

(* A proxy, jemalloc or scalable pool that was created, used in any way and
   destroyed leaves nothing behind, and takes the provider it owns with it.
   Missing: disjoint pools, and pools whose cache of opened handles could not be
   allocated; both are refuted below. *)
Theorem C82_life_partial : forall m tracked own h p h1 us p' h2 l, (forall n, m <> Disjoint n) -> (tracked = true -> granted h 3) ->
  holds h (with_own own l) -> pool_create m tracked own h = (Some p, h1) -> use_all us p h1 = (p', h2) -> holds (pool_destroy p' h2) l.
Proof.
  intros m tracked own h p h1 us p' h2 l D N H E U. destruct (whole_life _ _ _ _ _ _ _ _ _ _ N H E U) as (leak & L & R).
  destruct m; [elim (D n eq_refl)| | |]; (destruct leak; [exact R|discriminate]).
Qed.
Print Assumptions C82_life_partial.

(* The life of a disjoint pool costs exactly one block, whatever was done with it
   (the array of buckets, pool_disjoint.c:913-930). *)
Theorem C82_disjoint_loses_one : forall n tracked own h p h1 us p' h2 l, (tracked = true -> granted h 3) ->
  holds h (with_own own l) -> pool_create (Disjoint n) tracked own h = (Some p, h1) -> use_all us p h1 = (p', h2) ->
  exists b, holds (pool_destroy p' h2) (b :: l).
Proof.
  intros n tracked own h p h1 us p' h2 l N H E U. destruct (whole_life _ _ _ _ _ _ _ _ _ _ N H E U) as (leak & L & R).
  destruct leak as [|b [|]]; try discriminate. exists b. exact R.
Qed.
Print Assumptions C82_disjoint_loses_one.

(* The full statements. *)
Definition failed_create_clean (m : manager) : Prop := forall tracked own h h' l,
  holds h l -> pool_create m tracked own h = (None, h') -> holds h' l.
Definition life_clean (m : manager) : Prop := forall tracked own h p h1 us p' h2 l,
  holds h (with_own own l) -> pool_create m tracked own h = (Some p, h1) -> use_all us p h1 = (p', h2) -> holds (pool_destroy p' h2) l.
Definition fresh (ok : list bool) : heap := Heap 1 [] false ok.
Lemma fresh_holds ok : holds (fresh ok) [].
Proof. split; [reflexivity|constructor]. Qed.

Theorem C82_disjoint_leak_refuted : forall n, ~ life_clean (Disjoint n).
Proof.
  intros n H.
  destruct (pool_create (Disjoint n) false None (fresh [])) as [[p|] h1] eqn:E.
  - specialize (H false None (fresh []) p h1 [] p h1 [] (fresh_holds []) E eq_refl).
    destruct (C82_disjoint_loses_one n false None (fresh []) p h1 [] p h1 [] ltac:(discriminate) (fresh_holds []) E eq_refl) as (b & _ & B).
    destruct H as [_ H]. apply Permutation_sym in H. pose proof (Permutation_trans H B) as P. apply Permutation_nil in P. discriminate.
  - assert (X : forall k h, h_ok h = [] -> forallb some (fst (create_buckets k h)) = true).
    { induction k as [|k IH]; intros h K; [reflexivity|]. cbn [create_buckets]. unfold create_bucket, get, answer. rewrite K. cbn [h_ok]. rewrite K. cbn [h_ok].
      match goal with |- context [create_buckets k ?t] => specialize (IH t); destruct (create_buckets k t) end. cbn in *. apply IH. first [exact K|reflexivity]. }
    unfold pool_create in E. cbn in E. match type of E with context [create_buckets n ?t] => specialize (X n t eq_refl); destruct (create_buckets n t) end.
    cbn [fst] in X. rewrite X in E. discriminate.
Qed.
Print Assumptions C82_disjoint_leak_refuted.

(* When the handle of the tracking provider cannot be allocated, the two IPC
   caches made for it are lost (provider_tracking.c:1164-1180). *)
Lemma tracking_leak m : exists h', pool_create m true None (fresh [true; true; true; true; false]) = (None, h') /\ h_live h' <> [].
Proof. eexists. split; [vm_compute; reflexivity|discriminate]. Qed.
Theorem C82_tracking_leak_refuted : forall m, ~ failed_create_clean m.
Proof.
  intros m H. destruct (tracking_leak m) as (h' & E & N). destruct (H _ _ _ _ [] (fresh_holds _) E) as [_ P].
  apply Permutation_sym, Permutation_nil in P. exact (N P).
Qed.
Print Assumptions C82_tracking_leak_refuted.

(* When the cache of opened handles cannot be allocated the pool is created all
   the same, and destroying it dereferences NULL (provider_tracking.c:1170,
   ipc_cache.c:163). *)
Lemma null_cache : exists p h1, pool_create Proxy true None (fresh [true; true; true; false]) = (Some p, h1) /\ h_bad (pool_destroy p h1) = true.
Proof. eexists. eexists. split; [vm_compute; reflexivity|vm_compute; reflexivity]. Qed.
Theorem C82_null_cache_refuted : ~ life_clean Proxy.
Proof.
  intros H. destruct null_cache as (p & h1 & E & B). destruct (H true None _ p h1 [] p h1 [] (fresh_holds _) E eq_refl) as [N _].
  rewrite B in N. discriminate.
Qed.
Print Assumptions C82_null_cache_refuted.

(* A tracked disjoint pool with five buckets that gets slabs and IPC handles; a
   jemalloc pool owning its provider; a failure at the last bucket. *)
Definition start : heap := Heap 10 [3] false [].
Definition live_after (o : option pool * heap) (us : list use) : list Z :=
  match o with (Some p, h) => let (p, h) := use_all us p h in h_live (pool_destroy p h) | (None, h) => -1 :: h_live h end.
Example disjoint_life : live_after (pool_create (Disjoint 5) true None start) [AddSlab 1; UseSlabs; AddSlab 4; UseSlabs; DropSlab 1; UseCache] = [21; 3].
Proof. reflexivity. Qed.
Example jemalloc_life : live_after (pool_create Jemalloc true (Some 3) start) [UseCache; UseCache] = [].
Proof. reflexivity. Qed.
Example last_bucket : let o := pool_create (Disjoint 2) false None (Heap 10 [3] false (repeat true 9 ++ [false])) in
  fst o = None /\ h_live (snd o) = [3] /\ h_bad (snd o) = false.
Proof. repeat split. Qed.
