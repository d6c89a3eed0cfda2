(* C91: what umfMemoryProviderGetLastNativeError reports. *)
From Coq Require Import String.
From Verif Require Import Base Model_NativeError Spec_NativeError Proof_NativeError.
Open Scope Z_scope.

(* In every history of calls of any number of threads, the code and the message a thread
   gets for a kind of provider are those of its own last call on such a provider that gave
   the provider-specific error, whatever the other threads and the other kinds did in
   between.
   Missing: the calls [ordinary] excludes (refuted below), Level Zero and CUDA, system
   texts of more than 900 characters. *)
Theorem native_last_error_partial :
  forall text h t k c,
    short text ->
    (forall c', In (t, c') h -> kind_of c' = k -> possible c' /\ ordinary c') ->
    last_specific h t k c ->
    exists code,
      numbered k (fst (went_wrong c)) code /\
      get_last text k (run h records_zero t k) =
        Some (code, message text (fst (went_wrong c)) (snd (went_wrong c))).
Proof. exact native_last. Qed.
Print Assumptions native_last_error_partial.

(* Once a thread has had such an error, reading it is defined for good, also after calls
   the theorem above excludes. *)
Theorem native_error_stays_defined :
  forall text h t k c,
    short text ->
    (forall c', In (t, c') h -> kind_of c' = k -> possible c') ->
    In (t, c) h -> kind_of c = k -> specific c -> ordinary c ->
    get_last text k (run h records_zero t k) <> None.
Proof. exact native_defined. Qed.
Print Assumptions native_error_stays_defined.

(* "Fetches the last error of the provider": false of a thread that had none.  With every
   kind of provider the read is outside the table of texts. *)
Theorem native_error_fresh_refuted :
  ~ forall text h t k, short text ->
      (forall t' c, In (t', c) h -> possible c) ->
      get_last text k (run h records_zero t k) <> None.
Proof.
  intro H. apply (H (fun _ => ""%string) [] 1 FILE).
  - intro e. cbn. lia.
  - intros t' c [].
  - reflexivity.
Qed.
Print Assumptions native_error_fresh_refuted.

(* "The last call that gave the provider-specific error is the one reported": false
   without [ordinary], in two ways.  An allocation whose node set could not be allocated
   gives that error and writes no record, so an earlier error is reported; and one where
   binding is not implemented succeeds and still writes its record. *)
Theorem native_last_error_refuted :
  (exists text h t c, short text /\
     (forall t' c', In (t', c') h -> possible c') /\ last_specific h t OS c /\
     get_last text OS (run h records_zero t OS) = Some (1005, "lazy purging failed: text")%string /\
     c = OsAlloc None true true true true false []) /\
  (exists text h t c, short text /\
     (forall t' c', In (t', c') h -> possible c') /\ last_specific h t OS c /\
     get_last text OS (run h records_zero t OS) =
       Some (1003, "binding memory to NUMA node failed: text")%string /\
     went_wrong c = (LazyPurgeFailed, 22)).
Proof.
  split.
  - exists (fun _ => "text"%string),
      [(1, OsPurgeLazy (Some 22)); (1, OsAlloc None true true true true false [])], 1,
      (OsAlloc None true true true true false []).
    split; [intro e; cbn; lia|]. split.
    { intros t' c' [E|[E|[]]]; injection E as <- <-; cbn; [exact I|discriminate]. }
    split; [|split; reflexivity].
    exists [(1, OsPurgeLazy (Some 22))], [].
    split; [reflexivity|]. split; [reflexivity|]. split; [reflexivity|]. intros c' [].
  - exists (fun _ => "text"%string),
      [(1, OsPurgeLazy (Some 22)); (1, OsAlloc None true true true true true [Some 38])], 1,
      (OsPurgeLazy (Some 22)).
    split; [intro e; cbn; lia|]. split.
    { intros t' c' [E|[E|[]]]; injection E as <- <-; cbn; [exact I|discriminate]. }
    split; [|split; reflexivity].
    exists [], [(1, OsAlloc None true true true true true [Some 38])].
    split; [reflexivity|]. split; [reflexivity|]. split; [reflexivity|].
    intros c' [E|[]] _; injection E as <-. intro SP. discriminate SP.
Qed.
Print Assumptions native_last_error_refuted.

(* A call that gives the provider-specific error makes the record readable: false.  The
   same allocation as a thread's first failure leaves the read outside the table. *)
Theorem native_error_recorded_refuted :
  ~ forall text h t k c, short text ->
      (forall t' c', In (t', c') h -> possible c') -> last_specific h t k c ->
      get_last text k (run h records_zero t k) <> None.
Proof.
  intro H.
  apply (H (fun _ => ""%string) [(7, OsAlloc None true true true true false [])] 7 OS
           (OsAlloc None true true true true false [])).
  - intro e. cbn. lia.
  - intros t' c' [E|[]]; injection E as <- <-; cbn; discriminate.
  - exists [], []. split; [reflexivity|]. split; [reflexivity|]. split; [reflexivity|].
    intros c' [].
  - reflexivity.
Qed.
Print Assumptions native_error_recorded_refuted.

(* A refused allocation of the file provider (any other error) replaces the record. *)
Theorem native_file_record_refuted :
  ~ forall text h t c, short text ->
      (forall t' c', In (t', c') h -> possible c') -> last_specific h t FILE c ->
      exists code,
        get_last text FILE (run h records_zero t FILE) =
          Some (code, message text (fst (went_wrong c)) (snd (went_wrong c))).
Proof.
  intro H.
  destruct (H (fun _ => "text"%string)
              [(1, PurgeForce FILE (Some 22)); (1, FileAlloc None ERR_INVALID_ARGUMENT SUCCESS)]
              1 (PurgeForce FILE (Some 22))) as [code E].
  - intro e. cbn. lia.
  - intros t' c' [E|[E|[]]]; injection E as <- <-; cbn; [exact I|].
    split; discriminate.
  - exists [], [(1, FileAlloc None ERR_INVALID_ARGUMENT SUCCESS)].
    split; [reflexivity|]. split; [reflexivity|]. split; [reflexivity|].
    intros c' [E|[]] _; injection E as <-. intro SP. discriminate SP.
  - vm_compute in E. discriminate E.
Qed.
Print Assumptions native_file_record_refuted.

(* With Level Zero the message is whatever the caller's pointer held: no text is the one
   reported for a code. *)
Theorem native_level_zero_message_refuted :
  ~ exists describe : Z -> string,
      forall code before, snd (ze_get_last code before) = describe code.
Proof.
  intros [d H]. pose proof (H 0 "a"%string) as A. pose proof (H 0 "b"%string) as B.
  cbn in A, B. rewrite <- B in A. discriminate A.
Qed.
Print Assumptions native_level_zero_message_refuted.

(* two threads and two kinds of provider, interleaved *)
Definition story : list (Z * call) :=
  [(1, OsFree false (Some 22)); (2, OsAlloc None false true false true true []);
   (1, PurgeForce DEVDAX (Some 12)); (2, CloseIpc FILE true 4096 (Some 22));
   (1, OsAlloc None true true true true true [None; Some 1; Some 2]);
   (1, OsFree false None); (2, OsPurgeLazy None)].

Example story_read :
  let m := run story records_zero in
  let text := fun e => if e =? 1 then "EPERM"%string else "other"%string in
  (get_last text OS (m 1 OS), get_last text DEVDAX (m 1 DEVDAX), get_last text OS (m 2 OS),
   get_last text FILE (m 2 FILE), get_last text FIXED (m 2 FIXED)) =
  (Some (1003, "binding memory to NUMA node failed: EPERM")%string,
   Some (2004, "force purging failed: other")%string,
   Some (1001, "memory allocation failed")%string,
   Some (3002, "memory deallocation failed: other")%string, None).
Proof. reflexivity. Qed.

Example story_last : last_specific story 1 OS
  (OsAlloc None true true true true true [None; Some 1; Some 2]).
Proof.
  exists [(1, OsFree false (Some 22)); (2, OsAlloc None false true false true true []);
          (1, PurgeForce DEVDAX (Some 12)); (2, CloseIpc FILE true 4096 (Some 22))],
    [(1, OsFree false None); (2, OsPurgeLazy None)].
  split; [reflexivity|]. split; [reflexivity|]. split; [reflexivity|].
  intros c' [E|[E|[]]] _; [|discriminate E].
  injection E as <-. intro SP. discriminate SP.
Qed.
