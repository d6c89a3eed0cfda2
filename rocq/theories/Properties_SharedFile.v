(* C93: opening an IPC handle of shared OS memory gives the memory it was made for. *)
From Verif Require Import Base Model_SharedFile Spec_SharedFile Proof_SharedFile.
Open Scope Z_scope.

(* Without a name: whatever happened since, also if the provider has been destroyed, the
   handle of a provider opens exactly its own file if the kernel grants it. *)
Theorem anonymous_handle_opens :
  forall l k p, history l k -> In p (made k) -> p_name p = None ->
    snd (open_ipc_handle k (get_ipc_handle p) true true) = Some (p_file p).
Proof. intros l k p H. exact (anonymous_open k p (history_inv l k H)). Qed.
Print Assumptions anonymous_handle_opens.

(* With a name: so does the first opening, if no provider was made with the same name
   since, successfully or not.
   Missing: later openings and reused names (refuted below). *)
Theorem named_handle_opens_partial :
  forall l k pid n fd opened sized p later,
    history l k -> valid k (Create pid (Some n) fd opened sized) ->
    snd (create k pid (Some n) fd opened sized) = CODE_SUCCESS ->
    made (exec k (Create pid (Some n) fd opened sized)) = p :: made k ->
    (forall s, In s later -> ~ takes n s) ->
    snd (open_ipc_handle
           (fold_left exec later (exec k (Create pid (Some n) fd opened sized)))
           (get_ipc_handle p) true true) = Some (p_file p).
Proof.
  intros l k pid n fd opened sized p later _ [P _]. exact (named_open k pid n fd opened sized later p P).
Qed.
Print Assumptions named_handle_opens_partial.

(* In every history, an opened handle shows the file of some provider that was made with
   the same name, without a name its own; and different providers have different files. *)
Theorem opened_file_origin :
  forall l k, history l k ->
    (forall p opens maps f, In p (made k) ->
       snd (open_ipc_handle k (get_ipc_handle p) opens maps) = Some f ->
       exists q, In q (made k) /\ p_file q = f /\ p_name q = p_name p /\
         (p_name p = None -> q = p)) /\
    (forall p q, In p (made k) -> In q (made k) -> p_file p = p_file q -> p = q).
Proof.
  intros l k H. pose proof (history_inv l k H) as I. split.
  - intros p opens maps f. exact (open_origin k p opens maps f I).
  - exact (inv_distinct k I).
Qed.
Print Assumptions opened_file_origin.

Definition first : step := Create 1 (Some 7) 3 true true.
Definition mine : prov := mk_prov 1 (Some 7) 3 0.
Definition k1 : kern := exec boot first.

Lemma history_first : history [first] k1.
Proof. apply (history_snoc [] boot first); [exact history_nil|split; reflexivity]. Qed.

(* "A handle can be opened by every consumer": false with a name.  The first opening
   removes it. *)
Theorem named_handle_twice_refuted :
  ~ forall l k p, history l k -> In p (made k) ->
      snd (open_ipc_handle k (get_ipc_handle p) true true) <> None.
Proof.
  intro H.
  apply (H [first; Open (get_ipc_handle mine) true true]
           (exec k1 (Open (get_ipc_handle mine) true true)) mine).
  - apply (history_snoc [first] k1); [exact history_first|exact I].
  - left. reflexivity.
  - reflexivity.
Qed.
Print Assumptions named_handle_twice_refuted.

(* "An opened handle shows its own provider's memory": false with a name.  A second
   provider made with the same name takes it away from the first, without an error, and
   the first one's handles open the second one's memory. *)
Theorem named_handle_file_refuted :
  ~ forall l k p f, history l k -> In p (made k) ->
      snd (open_ipc_handle k (get_ipc_handle p) true true) = Some f -> f = p_file p.
Proof.
  intro H.
  assert (E : 1 = 0); [|discriminate E].
  apply (H [first; Create 2 (Some 7) 5 true true] (exec k1 (Create 2 (Some 7) 5 true true))
           mine 1).
  - apply (history_snoc [first] k1); [exact history_first|split; reflexivity].
  - right. left. reflexivity.
  - reflexivity.
Qed.
Print Assumptions named_handle_file_refuted.

(* "Creation returns a code of umf_result_t": false.  If the named file cannot be made the
   code is -1. *)
Theorem shared_create_code_refuted :
  ~ forall l k pid name fd opened sized, history l k ->
      valid k (Create pid name fd opened sized) ->
      result_code (snd (create k pid name fd opened sized)).
Proof.
  intro H. specialize (H [] boot 1 (Some 7) 3 false true history_nil (conj eq_refl eq_refl)).
  destruct H as [[H _]|H]; [vm_compute in H; apply H; reflexivity|discriminate H].
Qed.
Print Assumptions shared_create_code_refuted.

(* every other code is one *)
Theorem shared_create_code_partial :
  forall k pid name fd opened sized,
    (name = None \/ opened = true /\ sized = true /\ 0 < fd) ->
    result_code (snd (create k pid name fd opened sized)).
Proof.
  intros k pid name fd opened sized [->|[-> [-> P]]]; unfold result_code, create.
  - destruct opened, sized; cbn; unfold CODE_SUCCESS, CODE_INVALID_ARGUMENT, CODE_UNKNOWN; lia.
  - destruct name as [n|]; cbn [utils_shm_create negb].
    + destruct (fd =? -1) eqn:E; [lia|]. cbn. unfold CODE_SUCCESS. lia.
    + cbn. unfold CODE_SUCCESS. lia.
Qed.
Print Assumptions shared_create_code_partial.

(* two processes, a named and an anonymous provider, a destroyed one *)
Definition anon : prov := mk_prov 2 None 5 1.
Definition k3 : kern :=
  fold_left exec [Create 2 None 5 true true; Destroy anon; Create 2 (Some 8) 6 true false] k1.

Lemma history_k3 : history
  [first; Create 2 None 5 true true; Destroy anon; Create 2 (Some 8) 6 true false] k3.
Proof.
  apply (history_snoc [first; Create 2 None 5 true true; Destroy anon]); [|split; reflexivity].
  apply (history_snoc [first; Create 2 None 5 true true]); [|exact I].
  apply (history_snoc [first] k1); [exact history_first|split; reflexivity].
Qed.

Example k3_opens :
  made k3 = [anon; mine] /\
  snd (open_ipc_handle k3 (get_ipc_handle anon) true true) = Some 1 /\
  snd (open_ipc_handle k3 (get_ipc_handle mine) true true) = Some 0 /\
  snd (open_ipc_handle k3 (get_ipc_handle mine) true false) = None /\
  fds k3 2 6 = None /\ names k3 8 = None.
Proof. repeat split. Qed.
