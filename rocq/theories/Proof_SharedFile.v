From Verif Require Import Base Model_SharedFile Spec_SharedFile.
Open Scope Z_scope.

Record inv (k : kern) : Prop := mk_inv {
  inv_fds : forall p, In p (made k) -> fds k (p_pid p) (p_fd p) = Some (p_file p);
  inv_names : forall n f, names k n = Some f ->
    exists p, In p (made k) /\ p_name p = Some n /\ p_file p = f;
  inv_fresh : forall p, In p (made k) -> p_file p < next_file k;
  inv_distinct : forall p q, In p (made k) -> In q (made k) -> p_file p = p_file q -> p = q
}.

Lemma inv_boot : inv boot.
Proof. constructor; cbn; try contradiction. discriminate. Qed.

Lemma set_fd_keeps k pid fd f p d v :
  fds k pid fd = None -> fds k p d = Some v -> fds (set_fd k pid fd f) p d = Some v.
Proof.
  intros N S. cbn [set_fd fds]. destruct ((p =? pid) && (d =? fd)) eqn:E; [|exact S].
  apply andb_true_iff in E. destruct E as [E1 E2]. apply Z.eqb_eq in E1, E2. congruence.
Qed.

Lemma set_fd_same k pid fd f : fds (set_fd k pid fd f) pid fd = f.
Proof. cbn [set_fd fds]. rewrite !Z.eqb_refl. reflexivity. Qed.

(* a state with the same providers and descriptors for them, and fewer names *)
Lemma inv_less k k' :
  inv k -> made k' = made k -> next_file k <= next_file k' ->
  (forall p d v, fds k p d = Some v -> fds k' p d = Some v) ->
  (forall n f, names k' n = Some f -> names k n = Some f) -> inv k'.
Proof.
  intros [F N R D] M NF FD NM. constructor; rewrite ?M.
  - intros p IN. apply FD. apply F. exact IN.
  - intros n f E. apply N. apply NM. exact E.
  - intros p IN. pose proof (R p IN). lia.
  - exact D.
Qed.

(* a new provider with the next file *)
Lemma inv_more k k' p :
  inv k -> made k' = p :: made k -> next_file k' = next_file k + 1 ->
  p_file p = next_file k ->
  (forall a d v, fds k a d = Some v -> fds k' a d = Some v) ->
  fds k' (p_pid p) (p_fd p) = Some (p_file p) ->
  (forall n f, names k' n = Some f ->
     names k n = Some f \/ (p_name p = Some n /\ p_file p = f)) -> inv k'.
Proof.
  intros [F N R D] M NF PF FD FP NM. constructor; rewrite ?M.
  - intros q [<-|IN]; [exact FP|]. apply FD. apply F. exact IN.
  - intros n f E. destruct (NM n f E) as [X|[X1 X2]].
    + destruct (N n f X) as [q [IN Q]]. exists q. split; [right; exact IN|exact Q].
    + exists p. split; [left; reflexivity|auto].
  - intros q [<-|IN]; [lia|]. pose proof (R q IN). lia.
  - intros q q' [<-|IN] [<-|IN'] E; try reflexivity.
    + pose proof (R q' IN'). lia.
    + pose proof (R q IN). lia.
    + apply D; assumption.
Qed.

Lemma set_name_less k n m f : names (set_name k n None) m = Some f -> names k m = Some f.
Proof. cbn [set_name names]. destruct (m =? n); [discriminate|auto]. Qed.

Lemma exec_inv k s : inv k -> valid k s -> inv (exec k s).
Proof.
  intros I V. destruct s as [pid name fd opened sized|h opens maps|p]; cbn [exec].
  - destruct V as [V0 V]. unfold create. destruct name as [n|].
    + unfold utils_shm_create. destruct opened; cbn [negb].
      * destruct sized.
        -- destruct (fd =? -1) eqn:E; [apply Z.eqb_eq in E; lia|]. cbn [fst].
           eapply (inv_more k); [exact I|reflexivity|reflexivity|reflexivity| | |].
           ++ intros a d v X. cbn [add_prov fds]. apply set_fd_keeps; [exact V|exact X].
           ++ cbn [add_prov fds p_pid p_fd p_file]. apply set_fd_same.
           ++ intros m f. cbn. destruct (m =? n) eqn:E2; [|left; assumption].
              intro X. right. apply Z.eqb_eq in E2. subst m. injection X as <-. auto.
        -- cbn [fst Z.eqb]. replace (-1 =? -1) with true by reflexivity. cbn [fst].
           apply (inv_less k); [exact I|reflexivity|cbn; lia| |].
           ++ intros a d v X. cbn. destruct ((a =? pid) && (d =? fd)) eqn:E; [|exact X].
              apply andb_true_iff in E. destruct E as [E1 E2]. apply Z.eqb_eq in E1, E2.
              congruence.
           ++ intros m f. cbn. destruct (m =? n); [discriminate|auto].
      * replace (-1 =? -1) with true by reflexivity. cbn [fst].
        apply (inv_less k); [exact I|reflexivity|cbn; lia|auto|].
        intros m f. apply set_name_less.
    + destruct opened; cbn [negb fst]; [|exact I]. destruct sized; cbn [fst].
      * eapply (inv_more k); [exact I|reflexivity|reflexivity|reflexivity| | |].
        -- intros a d v X. cbn [add_prov fds]. apply set_fd_keeps; [exact V|exact X].
        -- cbn [add_prov fds p_pid p_fd p_file]. apply set_fd_same.
        -- intros m f X. left. exact X.
      * apply (inv_less k); [exact I|reflexivity|cbn; lia| |auto].
        intros a d v X. cbn. destruct ((a =? pid) && (d =? fd)) eqn:E; [|exact X].
        apply andb_true_iff in E. destruct E as [E1 E2]. apply Z.eqb_eq in E1, E2.
        congruence.
  - unfold open_ipc_handle. destruct (h_name h) as [n|].
    + destruct (if opens then names k n else None); cbn [fst]; [|exact I].
      apply (inv_less k); [exact I|reflexivity|cbn; lia|auto|].
      intros m f. apply set_name_less.
    + destruct (if opens then fds k (h_pid h) (h_fd h) else None); exact I.
  - exact I.
Qed.

Lemma history_inv l k : history l k -> inv k.
Proof. induction 1; [exact inv_boot|apply exec_inv; assumption]. Qed.

Lemma anonymous_open k p : inv k -> In p (made k) -> p_name p = None ->
  snd (open_ipc_handle k (get_ipc_handle p) true true) = Some (p_file p).
Proof.
  intros I IN NM. unfold open_ipc_handle, get_ipc_handle. cbn [h_name h_pid h_fd].
  rewrite NM. rewrite (inv_fds k I p IN). reflexivity.
Qed.

Lemma open_origin k p opens maps f : inv k -> In p (made k) ->
  snd (open_ipc_handle k (get_ipc_handle p) opens maps) = Some f ->
  exists q, In q (made k) /\ p_file q = f /\ p_name q = p_name p /\
    (p_name p = None -> q = p).
Proof.
  intros I IN. unfold open_ipc_handle, get_ipc_handle. cbn [h_name h_pid h_fd].
  destruct (p_name p) as [n|] eqn:NM.
  - destruct opens; [|discriminate]. destruct (names k n) as [g|] eqn:E; [|discriminate].
    cbn [snd]. destruct maps; [|discriminate]. intro X. injection X as <-.
    destruct (inv_names k I n g E) as [q [Q1 [Q2 Q3]]]. exists q.
    repeat split; auto. discriminate.
  - destruct opens; [|discriminate]. rewrite (inv_fds k I p IN). cbn [snd].
    destruct maps; [|discriminate]. intro X. injection X as <-. exists p. auto.
Qed.

(* a step that does not take the name leaves it *)
Lemma exec_name k s n : ~ takes n s -> names (exec k s) n = names k n.
Proof.
  intro NT. destruct s as [pid name fd opened sized|h opens maps|p]; cbn [exec takes] in *.
  - unfold create. destruct name as [m|].
    + assert (E : n =? m = false) by (apply Z.eqb_neq; congruence).
      unfold utils_shm_create. destruct opened; cbn [negb].
      * destruct sized; destruct (_ =? -1); cbn; rewrite ?E; reflexivity.
      * destruct (_ =? -1); cbn; rewrite ?E; reflexivity.
    + destruct opened; [|reflexivity]. destruct sized; reflexivity.
  - unfold open_ipc_handle. destruct (h_name h) as [m|].
    + assert (E : n =? m = false) by (apply Z.eqb_neq; congruence).
      destruct (if opens then names k m else None); cbn; rewrite ?E; reflexivity.
    + destruct (if opens then fds k (h_pid h) (h_fd h) else None); reflexivity.
  - reflexivity.
Qed.

Lemma create_named k pid n fd opened sized :
  0 < fd -> snd (create k pid (Some n) fd opened sized) = CODE_SUCCESS ->
  names (fst (create k pid (Some n) fd opened sized)) n = Some (next_file k).
Proof.
  intro P. unfold create, utils_shm_create. destruct opened, sized; cbn [negb];
    destruct (_ =? -1) eqn:E; cbn [snd]; try (unfold CODE_SUCCESS; intro X; discriminate X);
    intros _; cbn; rewrite ?Z.eqb_refl; try reflexivity;
    discriminate E.
Qed.

Lemma fold_name n l : forall k, (forall s, In s l -> ~ takes n s) ->
  names (fold_left exec l k) n = names k n.
Proof.
  induction l as [|s l IH]; intros k NT; cbn [fold_left]; [reflexivity|].
  rewrite IH by (intros s' IN; apply NT; right; exact IN).
  apply exec_name. apply NT. left. reflexivity.
Qed.

(* the first opening of a named handle *)
Lemma named_open k pid n fd opened sized l p :
  0 < fd -> snd (create k pid (Some n) fd opened sized) = CODE_SUCCESS ->
  made (exec k (Create pid (Some n) fd opened sized)) = p :: made k ->
  (forall s, In s l -> ~ takes n s) ->
  snd (open_ipc_handle (fold_left exec l (exec k (Create pid (Some n) fd opened sized)))
         (get_ipc_handle p) true true) = Some (p_file p).
Proof.
  intros P C M NT.
  assert (E : p = mk_prov pid (Some n) fd (next_file k)).
  { revert C M. cbn [exec]. unfold create, utils_shm_create.
    destruct opened, sized; cbn [negb]; destruct (_ =? -1) eqn:E; cbn [snd];
      try (unfold CODE_SUCCESS; intro X; discriminate X); try discriminate E;
      intros _; cbn; intro M; injection M as <-; reflexivity. }
  pose proof (create_named k pid n fd opened sized P C) as NM.
  subst p. unfold open_ipc_handle, get_ipc_handle. cbn [h_name p_name p_file].
  rewrite fold_name by exact NT. cbn [exec]. rewrite NM. reflexivity.
Qed.
