(* C92: the provider umfGetLastFailedMemoryProvider reports can be asked about its failure. *)
From Verif Require Import Base Model_LastFailed Spec_LastFailed Proof_LastFailed.
Open Scope Z_scope.

(* In every history of correct clients the reported handle is that of the last provider
   that returned a failure to the thread, and no step uses a freed handle. *)
Theorem last_failed_exact :
  forall l w, reach l w ->
    (forall t, last w t = last_failure (flat_map (returns t) l)) /\
    (forall s, allowed w s -> exec w s <> None).
Proof.
  intros l w R. split; [intro t; exact (reach_last l w t R)|exact (exec_defined w)].
Qed.
Print Assumptions last_failed_exact.

(* As long as nothing frees that handle or the user's provider it stands for, asking it
   for its name and native error reaches exactly the user's provider that failed, also if
   it is the tracking provider of a pool.
   Missing: handles freed meanwhile (refuted below). *)
Theorem last_failed_usable_partial :
  forall l1 s l2 w t x a h r y,
    reach (l1 ++ s :: l2) w ->
    returns t s = x ++ (a, h, r) :: y -> r <> SUCCESS ->
    failures (y ++ flat_map (returns t) l2) = [] ->
    (forall s', In s' (s :: l2) -> ~ frees s' a /\ ~ frees s' h) ->
    last w t = a /\ resolve w a = Some h.
Proof. exact last_failed_usable. Qed.
Print Assumptions last_failed_usable_partial.

Definition tp : pool := mk_pool true 100 200.
Definition SPEC : list result * result := ([ERR_PROVIDER_SPECIFIC], ERR_PROVIDER_SPECIFIC).

(* pool creation fails because the provider does *)
Definition creation_fails : list step := [NewProvider 100; NewPool 1 tp [SPEC] false].

Definition w_new : world := set_alive empty 100 (Some Plain).

Lemma reach_new : reach [NewProvider 100] w_new.
Proof.
  apply (reach_snoc [] empty (NewProvider 100)); [exact reach_nil| |reflexivity].
  split; [discriminate|reflexivity].
Qed.

Lemma allowed_pool calls ok : allowed w_new (NewPool 1 tp calls ok).
Proof. split; [reflexivity|]. intros _. split; [discriminate|reflexivity]. Qed.

(* "After a failed call the reported provider can be asked": false although the client
   destroyed nothing.  When umfPoolCreate fails because the provider failed, the tracking
   provider that is reported has been freed before umfPoolCreate returns. *)
Theorem last_failed_pool_create_refuted :
  ~ forall l w t, reach l w ->
      (forall s, In s l -> match s with DropProvider _ | DropPool _ _ _ _ => False | _ => True end) ->
      last w t <> 0 -> resolve w (last w t) <> None.
Proof.
  intro H.
  destruct (exec w_new (NewPool 1 tp [SPEC] false)) as [w'|] eqn:E; [|discriminate E].
  assert (R : reach creation_fails w')
    by exact (reach_snoc _ _ _ _ reach_new (allowed_pool _ _) E).
  injection E as E. apply (H creation_fails w' 1 R); subst w'.
  - intros s [<-|[<-|[]]]; exact I.
  - discriminate.
  - reflexivity.
Qed.
Print Assumptions last_failed_pool_create_refuted.

(* "The reported provider is one that failed": false once a new provider has got the
   address of a destroyed pool's tracking provider. *)
Definition reused : list step :=
  [NewProvider 100; NewPool 1 tp [SPEC] false; NewProvider 200].

Theorem last_failed_reused_refuted :
  exists w, reach reused w /\ resolve w (last w 1) = Some 200 /\
    forall t s x y r, In s reused -> returns t s = x ++ (200, 200, r) :: y -> False.
Proof.
  destruct (exec w_new (NewPool 1 tp [SPEC] false)) as [w'|] eqn:E; [|discriminate E].
  assert (R : reach creation_fails w')
    by exact (reach_snoc _ _ _ _ reach_new (allowed_pool _ _) E).
  injection E as E.
  exists (set_alive w' 200 (Some Plain)). split; [|split].
  - apply (reach_snoc creation_fails w' (NewProvider 200)); [exact R| |reflexivity].
    split; [discriminate|]. subst w'. reflexivity.
  - subst w'. reflexivity.
  - intros t s x y r [<-|[<-|[<-|[]]]] X; cbn [returns] in X.
    + destruct x; discriminate X.
    + destruct (1 =? t); [|destruct x; discriminate X].
      assert (IN : In (200, 200, r) (x ++ (200, 200, r) :: y))
        by (apply in_or_app; right; left; reflexivity).
      rewrite <- X in IN.
      destruct IN as [IN|[IN|[]]]; discriminate IN.
    + destruct x; discriminate X.
Qed.
Print Assumptions last_failed_reused_refuted.

(* "The reported handle is the one the user created the pool with": false with tracking;
   only what it answers is that provider's. *)
Theorem last_failed_handle_refuted :
  exists l w, reach l w /\ last w 1 = 200 /\ resolve w 200 = Some 100 /\
    forall s h, In s l -> s = NewProvider h -> h = 100.
Proof.
  destruct (exec w_new (NewPool 1 tp [SPEC] true)) as [w'|] eqn:E; [|discriminate E].
  exists [NewProvider 100; NewPool 1 tp [SPEC] true], w'.
  split; [exact (reach_snoc _ _ _ _ reach_new (allowed_pool _ _) E)|].
  injection E as E. subst w'. split; [reflexivity|]. split; [reflexivity|].
  intros s h [<-|[<-|[]]] X; [injection X as <-; reflexivity|discriminate X].
Qed.
Print Assumptions last_failed_handle_refuted.

(* two threads, a tracked and an untracked pool: each thread has its own last failure *)
Definition busy : list step :=
  [NewPool 1 tp [([SUCCESS], SUCCESS)] true; PoolCall 2 (mk_pool false 100 0) [([], ERR_UNKNOWN)];
   PoolCall 1 tp [([SUCCESS; ERR_UNKNOWN], SUCCESS); ([], ERR_NOT_SUPPORTED); ([SUCCESS], SUCCESS)];
   Direct 1 100 SUCCESS].

Fixpoint execs (w : world) (l : list step) : option world :=
  match l with
  | [] => Some w
  | s :: r => match exec w s with Some w' => execs w' r | None => None end
  end.

Example busy_read : exists w, execs w_new busy = Some w /\
  (last w 1, last w 2, last w 3) = (200, 100, 0) /\
  (resolve w 200, resolve w 100, resolve w 300) = (Some 100, Some 100, None).
Proof. eexists. split; [reflexivity|]. split; reflexivity. Qed.
