(* C35: the life of pools and of the providers beneath them. *)
From Verif Require Import Base Model_PoolApi Spec_PoolApi Proof_PoolApi.

(* Nothing is released twice and no NULL or dangling pointer is followed, whatever
   providers and pools are created and destroyed, and whatever fails on the way.
   Partial: for the allocation of the IPC cache of a pool, see
   [pool_ipc_cache_null_refuted]. *)
Theorem pool_calls_partial : forall lucky l v m, history lucky l v -> allowed lucky v m -> exists r h l', perform l m = Some (r, h, l').
Proof. exact history_safe. Qed.
Print Assumptions pool_calls_partial.

(* After any history the library holds exactly the resources of the providers and
   pools that the client has created and not yet destroyed.  Partial: for the
   allocation of the tracking provider itself, see [pool_tracking_leak_refuted]. *)
Theorem pool_resources_partial : forall l v, history true l v -> forall k, count l k = due v k.
Proof. exact history_counts. Qed.
Print Assumptions pool_resources_partial.

(* A provider is finalized when its client destroys it or when the pool that owns it
   is destroyed, and at no other time; and only once. *)
Theorem pool_finalize_once_partial : forall lucky l v, history lucky l v ->
  l_final l = gone v /\ NoDup (l_final l) /\ forall h, In h (mine v) -> ~ In h (l_final l).
Proof. exact history_final. Qed.
Print Assumptions pool_finalize_once_partial.

(* A failed creation gives no handle, keeps nothing, finalizes nothing, and leaves the
   client with the same providers and pools. *)
Theorem pool_failed_create_partial : forall l v m r h l', history true l v -> allowed true v m ->
  (match m with MProvider _ _ | MPool _ _ _ _ _ => True | _ => False end) -> perform l m = Some (r, h, l') -> r <> SUCCESS ->
  h = None /\ (forall k, count l' k = count l k) /\ l_final l' = l_final l /\ noted v m h = v.
Proof. exact failed_create. Qed.
Print Assumptions pool_failed_create_partial.

Definition fine := Luck true true true true true true SUCCESS.

(* Destroying everything leaves nothing *)
Corollary pool_all_destroyed_partial : forall l v, history true l v -> mine v = [] -> pools v = [] -> h_objs (l_heap l) = [].
Proof.
  intros l v H M P. destruct (h_objs (l_heap l)) as [|(i & k) xs] eqn:O; [reflexivity|]. pose proof (history_counts l v H k) as C. unfold count in C. rewrite O in C. cbn [filter snd] in C.
  destruct (kind_eq_dec k k); [|contradiction]. cbn [List.length] in C. unfold due, owning, tracked in C. rewrite M, P in C. cbn in C. destruct k; discriminate.
Qed.
Print Assumptions pool_all_destroyed_partial.

(* playing a history *)
Definition allowedb (lucky : bool) (v : ledger) (m : move) : bool :=
  let used h := existsb (fun x => let '(_, (u, _, _)) := x in u =? h) (pools v) in
  let has h := existsb (Z.eqb h) (mine v) in
  match m with
  | MProvider _ _ => true
  | MDestroy h => has h && negb (used h)
  | MPool up own _ _ k => has up && (negb own || negb (used up)) && k_cache k && (negb lucky || k_handle k && k_track k)
  | MPoolDestroy p => existsb (fun x => fst x =? p) (pools v)
  end.
Fixpoint play (lucky : bool) (l : lib) (v : ledger) (ms : list move) : option (lib * ledger) :=
  match ms with
  | [] => Some (l, v)
  | m :: ms => if allowedb lucky v m then match perform l m with Some (_, h, l') => play lucky l' (noted v m h) ms | None => None end else None
  end.
Lemma allowedb_ok : forall lucky v m, allowedb lucky v m = true -> allowed lucky v m.
Proof.
  intros lucky v m H. assert (US : forall h, existsb (fun x : Z * (Z * bool * bool) => let '(_, (u, _, _)) := x in u =? h) (pools v) = false -> ~ uses v h).
  { intros h Q (p & own & tr & Y). assert (existsb (fun x : Z * (Z * bool * bool) => let '(_, (u, _, _)) := x in u =? h) (pools v) = true) by (apply existsb_exists; exists (p, (h, own, tr)); split; [exact Y|apply Z.eqb_refl]). congruence. }
  assert (HA : forall h, existsb (Z.eqb h) (mine v) = true -> In h (mine v)) by (intros h Q; apply existsb_exists in Q; destruct Q as (y & Y1 & Y2); apply Z.eqb_eq in Y2; subst; exact Y1).
  destruct m as [mem ini|h|up own untracked out k|p]; cbn [allowed allowedb] in *.
  - exact Logic.I.
  - apply andb_true_iff in H. destruct H as (H1 & H2). split; [exact (HA h H1)|]. apply US. apply negb_true_iff. exact H2.
  - apply andb_true_iff in H. destruct H as (H & H4). apply andb_true_iff in H. destruct H as (H & H3). apply andb_true_iff in H. destruct H as (H1 & H2). split; [exact (HA up H1)|].
    split; [intros ->; apply US, negb_true_iff; exact H2|]. split; [exact H3|]. intros ->. cbn [negb orb] in H4. apply andb_true_iff in H4. exact H4.
  - apply existsb_exists in H. destruct H as ((q & x) & Y1 & Y2). apply Z.eqb_eq in Y2. cbn [fst] in Y2. subst q. exists x. exact Y1.
Qed.
Lemma play_ok : forall lucky ms l v l' v', history lucky l v -> play lucky l v ms = Some (l', v') -> history lucky l' v'.
Proof.
  intros lucky ms. induction ms as [|m ms IH]; cbn [play]; intros l v l' v' H P; [injection P as <- <-; exact H|].
  destruct (allowedb lucky v m) eqn:W; [|discriminate]. destruct (perform l m) as [((r & h) & l1)|] eqn:Q; [|discriminate]. apply (IH l1 (noted v m h) l' v'); [|exact P].
  exact (h_move lucky l v m r h l1 H (allowedb_ok _ _ _ W) Q).
Qed.

Definition start := Lib (Heap 1 []) [] [] true [].
Definition nothing := Ledger [] [] [].
Definition moves := [MProvider true SUCCESS; MProvider true ERR_NOT_SUPPORTED; MPool 1 false false true fine; MPool 1 false true true fine;
  MProvider true SUCCESS; MPool 1 false false true (Luck true true true true true true ERR_NOT_SUPPORTED); MPool 1 false false true (Luck true true true true true false SUCCESS)].

Definition ending (ms : list move) : lib * ledger := match play true start nothing ms with Some x => x | None => (start, nothing) end.
Definition plays (ms : list move) : bool := match play true start nothing ms with Some _ => true | None => false end.
Lemma ending_ok : forall ms, plays ms = true -> history true (fst (ending ms)) (snd (ending ms)).
Proof.
  intros ms H. unfold plays, ending in *. destruct (play true start nothing ms) as [(l & v)|] eqn:P; [|discriminate]. cbn [fst snd]. exact (play_ok _ _ _ _ _ _ (h_new true true) P).
Qed.

(* Two providers, a tracked and an untracked pool on the first; then a third pool,
   tracked, owns the second; then everything is destroyed. *)
Definition second := List.nth 0 (mine (snd (ending moves))) 0.
Definition more := moves ++ [MPool second true false true fine].
Definition rest := more ++ List.map (fun x => MPoolDestroy (fst x)) (pools (snd (ending more))) ++ [MDestroy 1].
Example two_pools : let (l, v) := ending moves in plays moves = true /\ List.length (mine v) = 2%nat /\ List.length (pools v) = 2%nat /\ count l KProvider = 3%nat /\ count l KCritnib = 1%nat /\ l_final l = [].
Proof. vm_compute. repeat split. Qed.
Example owner : let (l, v) := ending more in plays more = true /\ mine v = [1] /\ List.length (pools v) = 3%nat /\ count l KProvider = 4%nat.
Proof. vm_compute. repeat split. Qed.
Example all_gone : let (l, v) := ending rest in plays rest = true /\ mine v = [] /\ pools v = [] /\ h_objs (l_heap l) = [] /\ l_final l = [1; second].
Proof. vm_compute. repeat split. Qed.

(* If the tracking provider cannot be allocated (its handle, or its private data), the
   creation of the pool fails and its critnib and its IPC cache stay behind. *)
Definition no_handle := MPool 1 false false true (Luck true true true false true true SUCCESS).
Definition leaky := match perform (fst (ending moves)) no_handle with Some (_, _, l) => l | None => start end.
Theorem pool_tracking_leak_refuted : exists l v m r l', history true l v /\ allowed false v m /\ perform l m = Some (r, None, l') /\ r <> SUCCESS /\
  count l' KCritnib = S (count l KCritnib) /\ count l' KIpcCache = S (count l KIpcCache).
Proof.
  exists (fst (ending moves)), (snd (ending moves)), no_handle, ERR_OUT_OF_HOST_MEMORY, leaky. split; [apply ending_ok; vm_compute; reflexivity|].
  split; [apply allowedb_ok; vm_compute; reflexivity|]. split; [vm_compute; reflexivity|]. split; [discriminate|]. split; vm_compute; reflexivity.
Qed.
Print Assumptions pool_tracking_leak_refuted.

(* If the IPC cache cannot be allocated, the pool is created all the same, and
   destroying it follows the NULL pointer. *)
Definition no_cache := Luck true true false true true true SUCCESS.
Definition uncached := match pool_create (fst (ending moves)) 1 false false true no_cache with Some (_, Some p, l) => (p, l) | _ => (0, start) end.
Theorem pool_ipc_cache_null_refuted : exists l v k p l', history true l v /\ In 1 (mine v) /\ k_cache k = false /\
  pool_create l 1 false false true k = Some (SUCCESS, Some p, l') /\ pool_destroy l' p = None.
Proof.
  exists (fst (ending moves)), (snd (ending moves)), no_cache, (fst uncached), (snd uncached). split; [apply ending_ok; vm_compute; reflexivity|].
  split; [vm_compute; auto|]. split; [reflexivity|]. split; vm_compute; reflexivity.
Qed.
Print Assumptions pool_ipc_cache_null_refuted.
