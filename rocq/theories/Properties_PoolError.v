(* C80: the last allocation error of a pool (Model_PoolError.v, Spec_PoolError.v). *)
From Verif Require Import Base Model_PoolError Spec_PoolError Proof_PoolError.

(* Whatever happened before, when an allocation of at least one byte fails, and
   until the same thread calls a pool of the same manager again, the error
   reported explains the failure; other threads and pools of other managers
   never disturb it. Missing: requests of no bytes, and later calls by the same
   thread on other pools of the same manager or on the same pool that allocate
   nothing; each is refuted below. *)
Theorem C80_error_kept_partial : forall kinds before c after w out_, asks (c_op c) -> honest (c_ans c) ->
  step kinds (run kinds world0 before) c = (w, out_) -> fails out_ ->
  (forall d, In d after -> c_thread d <> c_thread c \/ kinds (c_pool d) <> kinds (c_pool c)) ->
  explains (kinds (c_pool c)) (c_op c) (c_ans c) (get_last kinds (run kinds world0 (before ++ c :: after)) (c_thread c) (c_pool c)).
Proof. exact error_kept. Qed.
Print Assumptions C80_error_kept_partial.

(* The full statement: no call of another pool, and no call of the same pool
   that is not an allocation, changes what is reported. *)
Definition error_kept_full (kinds : Z -> kind) : Prop := forall before c after w out_, honest (c_ans c) ->
  step kinds (run kinds world0 before) c = (w, out_) -> fails out_ ->
  (forall d, In d after -> c_thread d <> c_thread c \/ c_pool d <> c_pool c \/ exists p, c_op d = Usable p \/ c_op d = Free p) ->
  explains (kinds (c_pool c)) (c_op c) (c_ans c) (get_last kinds (run kinds world0 (before ++ c :: after)) (c_thread c) (c_pool c)).

Definition refused (r : result) : answers := Ans true false r 0 SUCCESS [r].
Definition granted (p : Z) : answers := Ans true true SUCCESS p SUCCESS [].

(* A success of another proxy pool makes the failure of the first look like success. *)
Theorem C80_other_pool_refuted : ~ error_kept_full (fun _ => Proxy).
Proof.
  intros H. specialize (H [] (Call 1 1 (Malloc 8) (refused ERR_OUT_OF_HOST_MEMORY)) [Call 1 2 (Malloc 8) (granted 4096)] _ _
    ltac:(discriminate) eq_refl eq_refl). destruct H as (H & _).
  - intros d [<-|[]]. right. left. discriminate.
  - apply H. reflexivity.
Qed.
Print Assumptions C80_other_pool_refuted.

(* The same for two scalable pools. *)
Theorem C80_other_scalable_pool_refuted : ~ error_kept_full (fun _ => Scalable).
Proof.
  intros H. specialize (H [] (Call 1 1 (Malloc 8) (refused ERR_PROVIDER_SPECIFIC)) [Call 1 2 (Malloc 8) (granted 4096)] _ _
    ltac:(discriminate) eq_refl eq_refl). destruct H as (H & _).
  - intros d [<-|[]]. right. left. discriminate.
  - apply H. reflexivity.
Qed.
Print Assumptions C80_other_scalable_pool_refuted.

(* Asking a proxy pool for the usable size replaces the provider's error. *)
Theorem C80_usable_size_refuted : ~ error_kept_full (fun _ => Proxy).
Proof.
  intros H. specialize (H [] (Call 1 1 (Malloc 8) (refused ERR_OUT_OF_HOST_MEMORY)) [Call 1 1 (Usable 4096) (granted 1)] _ _
    ltac:(discriminate) eq_refl eq_refl). destruct H as (_ & H).
  - intros d [<-|[]]. right. right. exists 4096. left. reflexivity.
  - discriminate.
Qed.
Print Assumptions C80_usable_size_refuted.

(* A failing free of a disjoint pool is reported as the last allocation error. *)
Theorem C80_free_refuted : ~ error_kept_full (fun _ => Disjoint).
Proof.
  intros H. specialize (H [] (Call 1 1 (Malloc 8) (refused ERR_OUT_OF_HOST_MEMORY)) [Call 1 1 (Free 4096) (refused ERR_INVALID_ARGUMENT)] _ _
    ltac:(discriminate) eq_refl eq_refl). destruct H as (_ & H).
  - intros d [<-|[]]. right. right. exists 4096. right. reflexivity.
  - specialize (H eq_refl). discriminate.
Qed.
Print Assumptions C80_free_refuted.

(* A disjoint pool asked for no bytes returns NULL and stores nothing. *)
Theorem C80_zero_size_refuted : exists x, honest x /\ forall e, pool_call Disjoint (Malloc 0) x e = (e, Ptr 0) /\ pool_call Disjoint (Aligned 0 8) x e = (e, Ptr 0).
Proof. exists (granted 1). split; [discriminate|]. intros e. split; reflexivity. Qed.
Print Assumptions C80_zero_size_refuted.

(* Four managers fail in one thread while another thread succeeds: all four
   errors are still there. *)
Definition kinds4 (p : Z) : kind := if p =? 1 then Disjoint else if p =? 2 then Proxy else if p =? 3 then Jemalloc else Scalable.
Definition busy : list call :=
  [Call 1 1 (Malloc 8) (refused ERR_PROVIDER_SPECIFIC); Call 1 2 (Aligned 8 8) (refused ERR_INVALID_ALIGNMENT);
   Call 1 3 (Calloc 2 4) (refused ERR_OUT_OF_HOST_MEMORY); Call 1 4 (Realloc 0 8) (refused ERR_OUT_OF_RESOURCES);
   Call 2 1 (Malloc 8) (granted 64); Call 2 2 (Malloc 8) (granted 64); Call 2 4 (Malloc 8) (granted 64)].
Example four_errors : map (get_last kinds4 (run kinds4 world0 busy) 1) [1; 2; 3; 4] =
  [ERR_PROVIDER_SPECIFIC; ERR_INVALID_ALIGNMENT; ERR_OUT_OF_HOST_MEMORY; ERR_OUT_OF_HOST_MEMORY].
Proof. reflexivity. Qed.
Example small_request : get_last kinds4 (run kinds4 world0 [Call 1 1 (Malloc 8) (Ans false false SUCCESS 0 SUCCESS [])]) 1 1 = ERR_OUT_OF_HOST_MEMORY.
Proof. reflexivity. Qed.
