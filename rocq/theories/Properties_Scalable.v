(* C89: the memory of a scalable pool comes from its own provider and goes back
   to it; its objects never overlap others; its free tells of failures. *)
From Coq Require Import Permutation.
From Verif Require Import Base Model_Jemalloc Model_Scalable Spec_Scalable Proof_Scalable.

(* Whatever the pools created, used and destroyed by several threads, and whenever
   TBB calls back: no block is used after it was freed, nothing is given back to
   a provider that did not give it, and what the providers have given out is what
   TBB holds for their pools and what they refused to take back. Partial: TBB and
   the providers are assumed to keep their promises. *)
Theorem C89_own_provider_partial : forall s, sreach (fun _ => True) s ->
  bad s = false /\ Permutation (given s) (of_pools s ++ lost s).
Proof. intros s R. pose proof (sreach_inv _ s R) as I. exact (conj (si_bad s I) (si_perm s I)). Qed.
Print Assumptions C89_own_provider_partial.

(* Every object lies in memory that the provider of its own pool has given out
   and not taken back, and no two objects of any pools overlap. Partial: as
   above. *)
Theorem C89_objects_partial : forall s, sreach (fun _ => True) s ->
  (forall t o, In (t, o) (objs s) -> exists r d v, inside o r /\ In (t, r) (raws s) /\ In (v, r) (given s) /\
     (exists q, tb s t = Some (d, q)) /\ exists c, blk s d = Some (v, c)) /\
  ForallOrdPairs (fun x y => apart (snd x) (snd y)) (objs s).
Proof. intros s R. pose proof (sreach_inv _ s R) as I. split; [intros t o; apply objs_given, I|apply objs_apart, I]. Qed.
Print Assumptions C89_objects_partial.

(* If the providers take back all that is freed, they have given out just what
   TBB holds, and nothing once every pool is destroyed. Partial: as above. *)
Theorem C89_all_returned_partial : forall s, sreach takes_back s ->
  Permutation (given s) (of_pools s) /\ ((forall d, blk s d = None) -> given s = []).
Proof.
  intros s R. pose proof (sreach_inv _ s R) as I. pose proof (si_perm s I) as P. unfold Proof_Jemalloc.eqn in P. rewrite (sreach_lost s R), app_nil_r in P.
  split; [exact P|]. intros N. rewrite (no_pools_no_raws s I N) in P. apply Permutation_nil. symmetry. exact P.
Qed.
Print Assumptions C89_all_returned_partial.

(* A creation that fails leaves no block and no TBB pool of its own, and says so;
   one that succeeds leaves a pool that can be used at once. *)
Theorem C89_create : forall s th ret d t, sreach (fun _ => True) s -> enabled s (RInit th ret) -> pc s th = Some (KInit d t) ->
  let s' := fst (sstep s (RInit th ret)) in
  exists res, snd (sstep s (RInit th ret)) = Some res /\ given s' = given s /\
    (if ret =? 0 then res = SUCCESS /\ usable s' d t else res <> SUCCESS /\ blk s' d = None /\ tb s' t = None).
Proof.
  intros s th ret d t R E P. pose proof (sreach_inv _ s R) as I. cbn [sstep]. rewrite P.
  destruct (h_init _ _ _ (si_h _ I) _ _ _ P) as [[v Bd] _]. destruct (ret =? 0).
  - rewrite Bd. exists SUCCESS. split; [reflexivity|]. split; [reflexivity|]. split; [reflexivity|]. split; [exists v; cbn; apply up_eq|].
    intros th'. cbn. destruct (Z.eq_dec th' th) as [->|N]; [rewrite up_eq; discriminate|]. rewrite up_ne by exact N. intros F.
    destruct (h_fin _ _ _ (si_h _ I) _ _ _ F) as [[v' B'] _]. congruence.
  - exists ERR_PROVIDER_SPECIFIC. split; [reflexivity|]. split; [reflexivity|]. split; [discriminate|]. split; cbn; apply up_eq.
Qed.
Print Assumptions C89_create.

(* The policy given to TBB has the last granularity accepted and the last choice
   of keep_all_memory, or the defaults; the granularity is never 0. *)
Theorem C89_policy : (forall cs, policy (Some cs) = Params (last (grans cs) (2 * 1024 * 1024)) (last (keeps cs) false)) /\
  policy None = Params (2 * 1024 * 1024) false /\
  forall s t d q, sreach (fun _ => True) s -> tb s t = Some (d, q) -> p_gran q <> 0.
Proof.
  split; [|split]; [intros cs; exact (set_params_last cs params_create)|reflexivity|]. intros s t d q R. exact (si_pol s (sreach_inv _ s R) t d q).
Qed.
Print Assumptions C89_policy.

(* tbb_free returns success exactly when TBB does; otherwise it returns an error,
   and that is an error of a provider that refused memory during this very call,
   or UNKNOWN. *)
Theorem C89_free_result : forall s th ok, sreach (fun _ => True) s -> enabled s (RFree th ok) ->
  exists res, snd (sstep s (RFree th ok)) = Some res /\ (res = SUCCESS <-> ok = true) /\
    (ok = false -> In res (refusals s th) \/ (res = ERR_UNKNOWN /\ fe s th = SUCCESS)).
Proof.
  intros s th ok R E. pose proof (si_fe s (sreach_inv _ s R) th) as F. cbn [enabled] in E. cbn [sstep]. rewrite E. cbn [snd].
  exists (if ok then SUCCESS else match fe s th with SUCCESS => ERR_UNKNOWN | e => e end). split; [reflexivity|].
  destruct ok; [split; [tauto|discriminate]|]. destruct (fe s th); (split; [split; discriminate|]); intros _;
    [right; split; reflexivity|left; apply F; discriminate..].
Qed.
Print Assumptions C89_free_result.

(* An allocating call that returns NULL leaves an error for its thread, and only
   for its thread. *)
Theorem C89_null_error : forall s th e, enabled s e -> (e = RAlloc th None \/ e = RRealloc th None) ->
  ae (fst (sstep s e)) th <> SUCCESS /\ forall th', th' <> th -> ae (fst (sstep s e)) th' = ae s th'.
Proof.
  intros s th e E [->| ->]; cbn [enabled] in E; cbn [sstep].
  - destruct E as (t & n & P & _). rewrite P. cbn. rewrite up_eq. split; [apply null_error_ne|]. intros th' N. apply up_ne, N.
  - destruct E as (t & a & m & n & P & _). rewrite P. cbn. rewrite up_eq. split; [apply null_error_ne|]. intros th' N. apply up_ne, N.
Qed.
Print Assumptions C89_null_error.

(* A NULL result is explained: if a provider refused memory asked for in this call
   by this thread the error left is OUT_OF_HOST_MEMORY, else UNKNOWN, whatever
   other threads do meanwhile. *)
Theorem C89_null_explained : forall s th d k es, sreach (fun _ => True) s ->
  allowed (fun _ => True) s (BAlloc th d k :: es ++ [RAlloc th None]) -> callbacks_only th es ->
  ae (runs s (BAlloc th d k :: es ++ [RAlloc th None])) th = if existsb (refused_to th) es then ERR_OUT_OF_HOST_MEMORY else ERR_UNKNOWN.
Proof. exact null_explained. Qed.
Print Assumptions C89_null_explained.

(* An object has the size asked for: the product for calloc, if it is below
   2^64. Partial: see C40 for larger products. *)
Theorem C89_size_partial : forall s th d k es a, sreach (fun _ => True) s -> allowed (fun _ => True) s (BAlloc th d k :: es ++ [RAlloc th (Some a)]) ->
  callbacks_only th es ->
  exists t, In (t, (a, match k with Malloc n => n | Calloc num n => (num * n) mod 2 ^ 64 | Aligned n _ => n end))
    (objs (runs s (BAlloc th d k :: es ++ [RAlloc th (Some a)]))) /\ exists v, blk s d = Some (v, Some t).
Proof. exact alloc_size. Qed.
Print Assumptions C89_size_partial.

(* a pool on provider 7 with a large object of its own region *)
Definition made : list sev :=
  [BInit 1 7 None (Some 100) true 50; RInit 1 0; BAlloc 1 100 (Malloc 4000); CbAlloc 1 50 4096 (Some 65536); RAlloc 1 (Some 65600)].
(* its free, with the provider refusing the region *)
Definition hidden : list sev := made ++ [BFree 1 100 65600 4000; CbFree 1 50 (65536, 4096) ERR_OUT_OF_RESOURCES].
Lemma allowed_cons (ok : sev -> Prop) s e es : enabled s e -> ok e -> allowed ok (fst (sstep s e)) es -> allowed ok s (e :: es).
Proof. cbn [allowed]. auto. Qed.
Ltac step := match goal with
  | |- allowed _ _ [] => exact Logic.I
  | |- allowed _ _ (_ :: _) => apply allowed_cons; [|first [exact Logic.I|reflexivity]|] end.
Ltac neg := repeat match goal with |- forall _, _ => intro | |- ~ _ => intro end;
  match goal with H : pc _ ?th = Some _ |- _ =>
    destruct (Z.eq_dec th 1) as [->|]; [discriminate H|]; destruct (Z.eq_dec th 2) as [->|]; [first [discriminate H|injection H as <-]|];
    cbn in H; unfold up in H; repeat (rewrite (proj2 (Z.eqb_neq th _)) in H by assumption); try discriminate H end; try discriminate; cbn in *; try congruence.
Lemma hidden_allowed : allowed (fun _ => True) sstate0 hidden.
Proof.
  unfold hidden, made. cbn [app]. step. { cbn. repeat split. } step. { exists 100, 50. split; [reflexivity|]. intros H. elim H. reflexivity. }
  step. { split; [reflexivity|]. exists 50. split; [exists 7; reflexivity|neg]. }
  step. { split; [cbn; discriminate|]. cbn. tauto. }
  step. { exists 50, 4000. split; [reflexivity|]. intros a X. injection X as <-. split; [exists (65536, 4096); split; [left; reflexivity|unfold inside; cbn; lia]|cbn; tauto]. }
  step. { split; [reflexivity|]. exists 50. split; [split; [exists 7; reflexivity|neg]|left; reflexivity]. }
  step. { split; [left; reflexivity|]. cbn. tauto. }
  step.
Qed.
(* TBB frees the object and is not told that the provider refused the memory (the
   callback returns nothing): umfFree succeeds, the memory stays given out. *)
Theorem C89_hidden_refusal_refuted : ~ (forall s th, sreach (fun _ => True) s -> enabled s (RFree th true) ->
  snd (sstep s (RFree th true)) = Some SUCCESS -> refusals s th = []).
Proof.
  intros H. specialize (H (runs sstate0 hidden) 1 (runs_reach _ _ _ (sr_init _) hidden_allowed) eq_refl eq_refl). vm_compute in H. discriminate.
Qed.
Print Assumptions C89_hidden_refusal_refuted.

(* Destroying the pool then leaves the provider with memory given out that
   belongs to no pool, and nobody was told. *)
Lemma destroyed_allowed : allowed (fun _ => True) (runs sstate0 hidden) [RFree 1 true; BFin 1 100; RFin 1].
Proof.
  step. { reflexivity. } step. { split; [reflexivity|]. exists 50. split; [split; [exists 7; reflexivity|neg]|neg]. }
  step. { exists 100, 50. split; [reflexivity|]. intros r. vm_compute. tauto. } step.
Qed.
Theorem C89_refused_refuted : ~ (forall s, sreach (fun _ => True) s -> (forall d, blk s d = None) -> given s = []).
Proof.
  intros H. specialize (H (runs (runs sstate0 hidden) [RFree 1 true; BFin 1 100; RFin 1])
    (runs_reach _ _ _ (runs_reach _ _ _ (sr_init _) hidden_allowed) destroyed_allowed)).
  assert (E : forall d, blk (runs (runs sstate0 hidden) [RFree 1 true; BFin 1 100; RFin 1]) d = None).
  { intros d. cbn. unfold up. destruct (d =? 100); reflexivity. }
  specialize (H E). vm_compute in H. discriminate.
Qed.
Print Assumptions C89_refused_refuted.

(* Two pools on two providers, used by two threads at once. *)
Definition two : list sev :=
  made ++ [BInit 2 8 (Some [SetGranularity 0; SetGranularity 65536; SetKeepAllMemory true]) (Some 200) true 60; BAlloc 1 100 (Calloc 2 24);
           RInit 2 0; RAlloc 1 (Some 65536); BAlloc 2 200 (Aligned 100 64); CbAlloc 2 60 65536 (Some 131072); RAlloc 2 (Some 131072)].
Lemma two_allowed : allowed (fun e => takes_back e) sstate0 two.
Proof.
  unfold two, made. cbn [app]. step. { cbn. repeat split. } step. { exists 100, 50. split; [reflexivity|]. intros H. elim H. reflexivity. }
  step. { split; [reflexivity|]. exists 50. split; [exists 7; reflexivity|neg]. }
  step. { split; [cbn; discriminate|]. cbn. tauto. }
  step. { exists 50, 4000. split; [reflexivity|]. intros a X. injection X as <-. split; [exists (65536, 4096); split; [left; reflexivity|unfold inside; cbn; lia]|cbn; tauto]. }
  step. { split; [reflexivity|]. split; [intros d X; injection X as <-; reflexivity|reflexivity]. }
  step. { split; [reflexivity|]. exists 50. split; [exists 7; reflexivity|neg]. }
  step. { exists 200, 60. split; [reflexivity|]. intros H. elim H. reflexivity. }
  step. { exists 50, 48. split; [reflexivity|]. intros a X. injection X as <-. split.
    - exists (65536, 4096). split; [left; reflexivity|unfold inside; cbn; lia].
    - cbn. intros o' [X|[]]. injection X as <-. unfold apart. cbn. lia. }
  step. { split; [reflexivity|]. exists 60. split; [exists 8; reflexivity|neg]. }
  step. { split; [cbn; discriminate|]. intros a v r X. injection X as <-. cbn. intros [X|[]]. injection X as <- <-. unfold apart. cbn. lia. }
  step. { exists 60, 100. split; [reflexivity|]. intros a X. injection X as <-. split.
    - exists (131072, 65536). split; [left; reflexivity|unfold inside; cbn; lia].
    - cbn. intros o' [X|[X|[]]]; discriminate. }
  step.
Qed.
Example C89_two_ex : let s := runs sstate0 two in sreach takes_back s /\
  objs s = [(60, (131072, 100)); (50, (65536, 48)); (50, (65600, 4000))] /\ of_pools s = [(8, (131072, 65536)); (7, (65536, 4096))] /\
  given s = of_pools s /\ tb s 60 = Some (200, Params 65536 true).
Proof. split; [apply runs_reach; [constructor|apply two_allowed]|vm_compute; repeat split; reflexivity]. Qed.

(* A free that TBB reports as failed, with the error of the provider; the pools
   destroyed; a creation that TBB refuses. *)
Example C89_error_ex : snd (sstep (runs sstate0 hidden) (RFree 1 false)) = Some ERR_OUT_OF_RESOURCES.
Proof. reflexivity. Qed.
Definition over : list sev :=
  made ++ [BFree 1 100 65600 4000; CbFree 1 50 (65536, 4096) SUCCESS; RFree 1 true; BFin 1 100; RFin 1; BInit 1 7 None (Some 100) true 50; RInit 1 2].
Lemma over_allowed : allowed (fun e => takes_back e) sstate0 over.
Proof.
  unfold over, made. cbn [app]. step. { cbn. repeat split. } step. { exists 100, 50. split; [reflexivity|]. intros H. elim H. reflexivity. }
  step. { split; [reflexivity|]. exists 50. split; [exists 7; reflexivity|neg]. }
  step. { split; [cbn; discriminate|]. cbn. tauto. }
  step. { exists 50, 4000. split; [reflexivity|]. intros a X. injection X as <-. split; [exists (65536, 4096); split; [left; reflexivity|unfold inside; cbn; lia]|cbn; tauto]. }
  step. { split; [reflexivity|]. exists 50. split; [split; [exists 7; reflexivity|neg]|left; reflexivity]. }
  step. { split; [left; reflexivity|]. cbn. tauto. }
  step. { reflexivity. }
  step. { split; [reflexivity|]. exists 50. split; [split; [exists 7; reflexivity|neg]|neg]. }
  step. { exists 100, 50. split; [reflexivity|]. intros r. vm_compute. tauto. }
  step. { split; [reflexivity|]. split; [intros d X; injection X as <-; reflexivity|reflexivity]. }
  step. { exists 100, 50. split; [reflexivity|]. intros _ r. vm_compute. tauto. }
  step.
Qed.
Example C89_over_ex : let s := runs sstate0 over in sreach takes_back s /\ blk s 100 = None /\ tb s 50 = None /\ given s = [].
Proof. split; [apply runs_reach; [constructor|apply over_allowed]|vm_compute; repeat split; reflexivity]. Qed.
(* the provider refuses during another thread's call, then during this one's *)
Definition oom : list sev :=
  made ++ [BAlloc 1 100 (Malloc 8192); BAlloc 2 100 (Malloc 64); CbAlloc 1 50 12288 None; RAlloc 2 None; RAlloc 1 None].
Lemma oom_allowed : allowed (fun e => takes_back e) sstate0 oom.
Proof.
  unfold oom, made. cbn [app]. step. { cbn. repeat split. } step. { exists 100, 50. split; [reflexivity|]. intros H. elim H. reflexivity. }
  step. { split; [reflexivity|]. exists 50. split; [exists 7; reflexivity|neg]. }
  step. { split; [cbn; discriminate|]. cbn. tauto. }
  step. { exists 50, 4000. split; [reflexivity|]. intros a X. injection X as <-. split; [exists (65536, 4096); split; [left; reflexivity|unfold inside; cbn; lia]|cbn; tauto]. }
  step. { split; [reflexivity|]. exists 50. split; [exists 7; reflexivity|neg]. }
  step. { split; [reflexivity|]. exists 50. split; [exists 7; reflexivity|neg]. }
  step. { split; [cbn; discriminate|]. intros a v r X. discriminate. }
  step. { exists 50, 64. split; [reflexivity|discriminate]. }
  step. { exists 50, 8192. split; [reflexivity|discriminate]. }
  step.
Qed.
Example C89_oom_ex : ae (runs sstate0 oom) 1 = ERR_OUT_OF_HOST_MEMORY /\ ae (runs sstate0 oom) 2 = ERR_UNKNOWN.
Proof. split; reflexivity. Qed.
