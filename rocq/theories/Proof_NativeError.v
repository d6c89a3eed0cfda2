From Coq Require Import String.
From Verif Require Import Base Model_NativeError Spec_NativeError.
Open Scope Z_scope.

Ltac num i := exists i; split; reflexivity.

Lemma kind_eqb_eq a b : kind_eqb a b = true <-> a = b.
Proof. destruct a, b; cbn; split; congruence. Qed.

Lemma bind_all_result binds : forall r r', fst (bind_all binds r) = fst (bind_all binds r').
Proof.
  induction binds as [|[e|] rest IH]; intros r r'; cbn [bind_all]; auto.
Qed.

Lemma do_call_result c r : fst (do_call c r) = result_of c.
Proof.
  unfold result_of. destruct c; cbn [do_call];
    repeat (match goal with
            | |- context [match ?o with Some _ => _ | None => _ end] => destruct o
            | |- context [if ?b then _ else _] => destruct b
            end; try reflexivity).
  apply bind_all_result.
Qed.

Lemma bind_all_ordinary binds : forall r,
  (forall e, In (Some e) binds -> e <> 38 /\ e <> 0) ->
  (fst (bind_all binds r) = ERR_PROVIDER_SPECIFIC ->
   snd (bind_all binds r) = mk_tls OS_BIND_FAILED (first_failed binds)) /\
  (fst (bind_all binds r) <> ERR_PROVIDER_SPECIFIC -> snd (bind_all binds r) = r).
Proof.
  induction binds as [|[e|] rest IH]; intros r ORD; cbn [bind_all first_failed].
  - split; [intro E; discriminate E|reflexivity].
  - destruct (ORD e (or_introl eq_refl)) as [N1 N2]. unfold ENOSYS.
    apply Z.eqb_neq in N1, N2. rewrite N1, N2. cbn [negb andb fst snd].
    split; [reflexivity|intro E; exfalso; apply E; reflexivity].
  - apply IH. intros e IN. apply ORD. right. exact IN.
Qed.

(* an ordinary call keeps the record unless it gives the provider-specific error *)
Lemma do_call_keeps c r : ordinary c -> ~ specific c -> snd (do_call c r) = r.
Proof.
  unfold specific. rewrite <- (do_call_result c r). intros ORD NS.
  destruct c; cbn [do_call ordinary] in *;
    repeat (match goal with
            | |- context [match ?o with Some _ => _ | None => _ end] => destruct o
            | |- context [if ?b then _ else _] => destruct b eqn:?
            end; cbn [fst snd] in *; try reflexivity; try (exfalso; apply NS; reflexivity)).
  - apply bind_all_ordinary; tauto.
  - destruct ORD as [E|E]; subst; [discriminate|exfalso; apply NS; reflexivity].
Qed.

(* and else it writes the code of the event and the errno *)
Lemma do_call_writes c r : possible c -> ordinary c -> specific c ->
  numbered (kind_of c) (fst (went_wrong c)) (native_error (snd (do_call c r))) /\
  errno_value (snd (do_call c r)) = snd (went_wrong c).
Proof.
  unfold specific. rewrite <- (do_call_result c r). intros POS ORD SP.
  destruct c; cbn [do_call ordinary possible kind_of went_wrong] in *.
  - destruct POS as [P1 P2]. destruct early; cbn [fst snd] in *; [congruence|].
    destruct topology; cbn [fst snd] in *; [contradiction|]. split; [num 6%nat|reflexivity].
  - destruct early; cbn [fst snd] in *; [congruence|].
    destruct mapped; cbn [negb fst snd] in *; [|split; [num 0%nat|reflexivity]].
    destruct aligned; cbn [negb fst snd] in *; [|split; [num 1%nat|reflexivity]].
    destruct policy; cbn [negb fst snd] in *; [|discriminate].
    destruct size_ok; cbn [negb fst snd] in *; [|discriminate].
    destruct ORD as [-> ORD]. cbn [negb] in *.
    destruct (bind_all_ordinary binds r ORD) as [W _]. rewrite (W SP).
    split; [num 2%nat|reflexivity].
  - destruct null; cbn [fst snd] in *; [discriminate|].
    destruct munmap; cbn [fst snd] in *; [|discriminate]. split; [num 3%nat|reflexivity].
  - destruct madvise; cbn [fst snd] in *; [|discriminate]. split; [num 4%nat|reflexivity].
  - destruct POS as [P1 P2].
    destruct early; cbn [fst snd] in *; [congruence|].
    destruct (result_eqb aligned_alloc SUCCESS); cbn [fst snd] in *; [contradiction|].
    split; [num 0%nat|reflexivity].
  - destruct madvise; cbn [fst snd] in *; [|discriminate].
    destruct k; (split; [|reflexivity]); [num 5%nat|num 3%nat|num 2%nat|num 0%nat].
  - destruct POS as [P1 [P2 P3]].
    destruct early; cbn [fst snd] in *; [congruence|].
    destruct mmap; cbn [fst snd] in *; [|contradiction].
    destruct k; [| | |congruence]; (split; [|reflexivity]); num 0%nat.
  - destruct enabled; cbn [negb fst snd] in *; [|discriminate].
    destruct munmap; cbn [fst snd] in *; [|discriminate].
    destruct (0 <? size); cbn [fst snd] in *; [|discriminate].
    destruct k; [| | |congruence]; (split; [|reflexivity]); [num 3%nat|num 2%nat|num 1%nat].
Qed.

Lemma put_same m t k r : put m t k r t k = r.
Proof.
  unfold put. rewrite Z.eqb_refl.
  replace (kind_eqb k k) with true by (destruct k; reflexivity). reflexivity.
Qed.

Lemma put_other m t k r t' k' : (t', k') <> (t, k) -> put m t k r t' k' = m t' k'.
Proof.
  intro N. unfold put. destruct (t' =? t) eqn:E1; cbn [andb]; [|reflexivity].
  destruct (kind_eqb k' k) eqn:E2; [|reflexivity].
  apply Z.eqb_eq in E1. apply kind_eqb_eq in E2. subst. contradiction.
Qed.

Lemma run_app h1 : forall h2 m, run (h1 ++ h2) m = run h2 (run h1 m).
Proof. induction h1 as [|[t c] r IH]; intros h2 m; cbn [run app]; auto. Qed.

(* a property of a record that every call of the thread on the kind keeps *)
Lemma run_keeps (P : tls -> Prop) t k h : forall m,
  (forall c r, In (t, c) h -> kind_of c = k -> P r -> P (snd (do_call c r))) ->
  P (m t k) -> P (run h m t k).
Proof.
  induction h as [|[t' c] rest IH]; intros m K B; cbn [run]; [exact B|].
  apply IH.
  - intros c' r IN. apply K. right. exact IN.
  - destruct (Z.eq_dec t' t) as [->|NT].
    + destruct (kind_eqb (kind_of c) k) eqn:E.
      * apply kind_eqb_eq in E. subst k. rewrite put_same.
        apply K; [left; reflexivity|reflexivity|exact B].
      * rewrite put_other; [exact B|]. intro X. injection X as X. subst k.
        destruct (kind_of c); discriminate E.
    + rewrite put_other; [exact B|]. congruence.
Qed.

Lemma numbered_words k e code : numbered k e code ->
  str_at k (code - first_code k) = Some (words e).
Proof.
  intros [i [N ->]]. unfold str_at.
  replace (fst (header k) + 1 + Z.of_nat i - first_code k) with (Z.of_nat (S i))
    by (destruct k; cbn [header fst first_code]; lia).
  destruct (Z.of_nat (S i) <? 0) eqn:L; [lia|]. rewrite Nat2Z.id.
  destruct k; cbn [header snd native_error_str nth_error] in *;
    repeat (destruct i as [|i]; cbn [nth_error] in *;
            [injection N as <-; reflexivity|]);
    destruct i; discriminate N.
Qed.

Lemma substring_all s : forall n, (String.length s <= n)%nat -> substring 0 n s = s.
Proof.
  induction s as [|a s IH]; intros [|n] L; cbn in *; try reflexivity; try lia.
  rewrite IH by lia. reflexivity.
Qed.

Lemma words_length e : Z.of_nat (String.length (words e)) <= 40.
Proof. destruct e; vm_compute; discriminate. Qed.

Lemma get_last_message text k e r : short text -> numbered k e (native_error r) ->
  get_last text k r = Some (native_error r, message text e (errno_value r)).
Proof.
  intros SH N. unfold get_last. rewrite (numbered_words _ _ _ N). unfold message.
  destruct (errno_value r =? 0); [reflexivity|].
  pose proof (words_length e). pose proof (SH (errno_value r)).
  unfold TLS_MSG_BUF_LEN. cbv zeta.
  destruct (1024 <? Z.of_nat (String.length (words e)) + 2 + 1) eqn:L; [lia|].
  unfold strerror_into. rewrite substring_all by lia. reflexivity.
Qed.

Lemma native_last text h t k c :
  short text ->
  (forall c', In (t, c') h -> kind_of c' = k -> possible c' /\ ordinary c') ->
  last_specific h t k c ->
  exists code,
    numbered k (fst (went_wrong c)) code /\
    get_last text k (run h records_zero t k) =
      Some (code, message text (fst (went_wrong c)) (snd (went_wrong c))).
Proof.
  intros SH ORD [before [after [-> [K [SP AFTER]]]]]. subst k.
  set (m := run before records_zero).
  set (r := snd (do_call c (m t (kind_of c)))).
  assert (FIN : run (before ++ (t, c) :: after) records_zero t (kind_of c) = r).
  { rewrite run_app. cbn [run]. fold m. fold r.
    apply (run_keeps (fun x => x = r)).
    - intros c' x IN K' ->. apply do_call_keeps.
      + apply ORD; [apply in_or_app; right; right; exact IN|exact K'].
      + apply AFTER; assumption.
    - apply put_same. }
  destruct (ORD c) as [PC OC]; [apply in_or_app; right; left; reflexivity|reflexivity|].
  destruct (do_call_writes c (m t (kind_of c)) PC OC SP) as [N E]. fold r in N, E.
  exists (native_error r). split; [exact N|].
  rewrite FIN, <- E. apply get_last_message; assumption.
Qed.

(* whatever follows, a record that was written can be read *)
Definition readable (k : kind) (r : tls) : Prop := exists e, numbered k e (native_error r).

Lemma bind_all_readable binds : forall r,
  snd (bind_all binds r) = r \/ exists e, snd (bind_all binds r) = mk_tls OS_BIND_FAILED e.
Proof.
  induction binds as [|[e|] rest IH]; intros r; cbn [bind_all]; [left; reflexivity| |apply IH].
  right. destruct (negb (e =? ENOSYS) && negb (e =? 0)); [exists e; reflexivity|].
  destruct (IH (mk_tls OS_BIND_FAILED e)) as [E|[e' E]]; rewrite E; eauto.
Qed.

Lemma do_call_cases c r : possible c ->
  snd (do_call c r) = r \/ readable (kind_of c) (snd (do_call c r)).
Proof.
  intro POS. unfold readable.
  destruct c; cbn [do_call kind_of possible] in *;
    repeat (match goal with
            | |- context [match ?o with Some _ => _ | None => _ end] => destruct o
            | |- context [if ?b then _ else _] => destruct b eqn:?
            end; cbn [fst snd] in *; try (left; reflexivity)).
  - right. exists TopologyFailed. num 6%nat.
  - right. exists AllocationFailed. num 0%nat.
  - right. exists NotAligned. num 1%nat.
  - destruct (bind_all_readable binds r) as [E|[e E]]; rewrite E; [left; reflexivity|].
    right. exists BindingFailed. num 2%nat.
  - right. exists DeallocationFailed. num 3%nat.
  - right. exists LazyPurgeFailed. num 4%nat.
  - right. exists AllocationFailed. num 0%nat.
  - right. exists ForcePurgeFailed. destruct k; [num 5%nat|num 3%nat|num 2%nat|num 0%nat].
  - right. exists AllocationFailed. destruct k; [num 0%nat|num 0%nat|num 0%nat|tauto].
  - right. exists DeallocationFailed. destruct k; [num 3%nat|num 2%nat|num 1%nat|tauto].
Qed.

Lemma readable_get text k r : short text -> readable k r -> get_last text k r <> None.
Proof.
  intros SH [e N]. rewrite (get_last_message text k e r SH N). discriminate.
Qed.

Lemma native_defined text h t k c :
  short text ->
  (forall c', In (t, c') h -> kind_of c' = k -> possible c') ->
  In (t, c) h -> kind_of c = k -> specific c -> ordinary c ->
  get_last text k (run h records_zero t k) <> None.
Proof.
  intros SH POS IN K SP ORD.
  apply readable_get; [exact SH|].
  destruct (in_split _ _ IN) as [h1 [h2 ->]]. rewrite run_app. cbn [run].
  apply run_keeps.
  - intros c' r IN' K' R. destruct (do_call_cases c' r) as [E|E].
    + apply POS; [apply in_or_app; right; right; exact IN'|exact K'].
    + rewrite E. exact R.
    + rewrite <- K'. exact E.
  - subst k. rewrite put_same.
    destruct (do_call_writes c (run h1 records_zero t (kind_of c))) as [N _]; eauto.
    eexists. exact N.
Qed.
