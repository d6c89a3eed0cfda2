(* The records and the map of the tracker under the single steps of a split or
   a merge. *)
From Verif Require Import Base Model_TrackerConc Spec_TrackerConc Proof_TrackerConc Model_TrackerSplit.
From Coq Require Import Permutation.

Definition recs (s : tstate) : list Z := map snd (t_map s 0).
Definition keys (s : tstate) : list Z := map fst (t_map s 0).
Lemma recs_in s k c : In (k, c) (t_map s 0) -> In c (recs s).
Proof. intros H. apply in_map_iff. exists (k, c). auto. Qed.

(* ---- records: each is in the map, in one thread's hands, or free ---- *)
Record RI (s : tstate) (own refs : list Z) : Prop := mkRI {
  ri_keys : NoDup (keys s);
  ri_slots : NoDup (recs s ++ own ++ t_free s);
  ri_next : forall c, In c (recs s ++ own ++ t_free s) -> c < t_next s;
  ri_ref : forall c, In c refs -> ~ In c (t_free s) /\ c < t_next s;
  ri_all : forall c, 0 <= c < t_next s -> In c (recs s ++ own ++ t_free s) }.

Lemma RI_sub s own refs own' refs' : RI s own refs -> Permutation own own' ->
  (forall c, In c refs' -> In c refs \/ In c (recs s) \/ In c own) -> RI s own' refs'.
Proof.
  intros [A B C D AL] P S.
  assert (Q : Permutation (recs s ++ own ++ t_free s) (recs s ++ own' ++ t_free s)) by (apply Permutation_app_head, Permutation_app_tail, P).
  constructor; auto.
  - eapply Permutation_NoDup; [exact Q|exact B].
  - intros c H. apply C. eapply Permutation_in; [symmetry; exact Q|exact H].
  - intros c H. destruct (S c H) as [R|R]; [apply D, R|]. assert (J : In c (recs s ++ own)) by (apply in_or_app; tauto). split.
    + intros F. rewrite app_assoc in B. clear - B J F. revert J B. induction (recs s ++ own) as [|x m IH]; intros J B; [destruct J|].
      inversion B; subst. destruct J as [->|J]; [apply H1, in_or_app; auto|auto].
    + apply C. rewrite app_assoc. apply in_or_app. auto.
  - intros c H. eapply Permutation_in; [exact Q|apply AL, H].
Qed.
Lemma nodup_app {A} (l m : list A) x : NoDup (l ++ m) -> In x l -> In x m -> False.
Proof.
  induction l as [|y l IH]; intros ND I J; [destruct I|]. inversion ND; subst. destruct I as [->|I]; [apply H1, in_or_app; auto|auto].
Qed.

(* a new record *)
Lemma RI_new s own refs i s' c : RI s own refs -> rec_new s i = (s', c) ->
  RI s' (c :: own) refs /\ t_map s' = t_map s /\ t_info s' = upd (t_info s) c i /\
  ~ In c (recs s) /\ ~ In c own /\ ~ In c refs.
Proof.
  intros [A B C D AL]. unfold rec_new. rewrite app_assoc in B.
  assert (NF : forall x, In x (t_free s) -> ~ In x (recs s) /\ ~ In x own).
  { intros x F. split; intros X; apply (nodup_app _ _ x B); auto; apply in_or_app; auto. }
  destruct (t_free s) as [|f fr] eqn:FR; intros E; injection E as <- <-; cbn [t_map t_info].
  - assert (NX : forall x, In x (recs s ++ own) -> x < t_next s) by (intros x X; apply C; rewrite app_nil_r; exact X).
    assert (N1 : ~ In (t_next s) (recs s)) by (intros X; generalize (NX (t_next s) (in_or_app _ _ _ (or_introl X))); lia).
    assert (N2 : ~ In (t_next s) own) by (intros X; generalize (NX (t_next s) (in_or_app _ _ _ (or_intror X))); lia).
    split; [|repeat split; auto].
    + constructor; unfold recs, keys in *; cbn [t_map t_free t_next]; auto.
      * apply NoDup_cons with (x := t_next s) in B; [|rewrite app_nil_r; intros X; apply in_app_or in X; tauto].
        eapply Permutation_NoDup; [|exact B]. rewrite !app_nil_r. apply Permutation_middle.
      * intros x X. apply in_app_or in X. destruct X as [X|X]; [|destruct X as [X|X]].
        -- generalize (NX x (in_or_app _ _ _ (or_introl X))). lia.
        -- lia.
        -- rewrite app_nil_r in X. generalize (NX x (in_or_app _ _ _ (or_intror X))). lia.
      * intros x X. destruct (D x X) as (_ & L). split; [intros []|lia].
      * intros x X. destruct (Z.eq_dec x (t_next s)) as [->|NE]; [apply in_or_app; right; left; reflexivity|].
        specialize (AL x ltac:(lia)). apply in_app_or in AL. apply in_or_app. cbn. tauto.
    + intros X. generalize (proj2 (D _ X)). lia.
  - destruct (NF f (or_introl eq_refl)) as (N1 & N2). split; [|repeat split; auto].
    + constructor; unfold recs, keys in *; cbn [t_map t_free t_next]; auto.
      * eapply Permutation_NoDup; [|exact B]. rewrite <- app_assoc. apply Permutation_app_head. symmetry. apply Permutation_middle.
      * intros x X. apply C. apply in_app_or in X. apply in_or_app. destruct X as [X|[X|X]]; [auto| |].
        -- right. apply in_or_app. right. left. exact X.
        -- right. apply in_app_or in X. apply in_or_app. destruct X; [auto|right; right; auto].
      * intros x X. destruct (D x X) as (F & L). split; [intros Y; apply F; right; exact Y|exact L].
      * intros x X. specialize (AL x X). rewrite !in_app_iff in *. cbn in *. tauto.
    + intros X. apply (proj1 (D f X)). left. reflexivity.
Qed.
(* a record given back *)
Lemma RI_free s own refs c : RI s (c :: own) refs -> ~ In c refs ->
  RI (rec_free s c) own refs /\ ~ In c (recs s) /\ ~ In c own.
Proof.
  intros [A B C D AL] N. cbn [app] in *. pose proof B as B'.
  eapply Permutation_NoDup in B'; [|symmetry; apply Permutation_middle]. inversion B' as [|? ? NI ND]; subst.
  split; [|split; intros X; apply NI; apply in_or_app; [left; exact X|right; apply in_or_app; left; exact X]].
  constructor; unfold recs, keys, rec_free in *; cbn [t_map t_free t_next]; auto.
  - eapply Permutation_NoDup; [|exact B]. apply Permutation_app_head. apply Permutation_middle.
  - intros x X. apply C. eapply Permutation_in; [|exact X]. apply Permutation_app_head. symmetry. apply Permutation_middle.
  - intros x X. destruct (D x X) as (F & L). split; [|exact L]. intros [->|Y]; [exact (N X)|exact (F Y)].
  - intros x X. specialize (AL x X). rewrite !in_app_iff in *. cbn in *. rewrite in_app_iff in AL. tauto.
Qed.
(* a record inserted under a new address *)
Lemma RI_ins s own refs k c : RI s (c :: own) refs -> tget (t_map s 0) k = None -> RI (w_map s 0 ((k, c) :: t_map s 0)) own refs.
Proof.
  intros [A B C D AL] G.
  assert (P : Permutation (recs s ++ (c :: own) ++ t_free s) ((c :: recs s) ++ own ++ t_free s)) by (symmetry; apply (Permutation_middle (recs s) (own ++ t_free s) c)).
  constructor; unfold recs, keys in *; cbn [w_map t_map t_free t_next upd Z.eqb map fst snd]; auto.
  - constructor; [|exact A]. intros X. apply in_map_iff in X. destruct X as ([k' x] & E & X). cbn in E. subst k'. exact (tget_none _ _ _ G X).
  - eapply Permutation_NoDup; [exact P|exact B].
  - intros x X. apply C. eapply Permutation_in; [symmetry; exact P|exact X].
  - intros x X. eapply Permutation_in; [exact P|apply AL, X].
Qed.
Lemma tput_keys m k c c0 : In (k, c0) m -> map fst (tput m k c) = map fst m.
Proof.
  intros I. unfold tput. destruct (tget m k) eqn:G; [|exfalso; exact (tget_none _ _ _ G I)]. clear.
  induction m as [|[x d] m IH]; [reflexivity|]. cbn. destruct (Z.eqb_spec x k); cbn; [subst|]; f_equal; exact IH.
Qed.
Lemma tput_in m k c c0 k' c' : In (k, c0) m -> In (k', c') (tput m k c) <-> (k' = k /\ c' = c) \/ (k' <> k /\ In (k', c') m).
Proof.
  intros I. unfold tput. destruct (tget m k) eqn:G; [|exfalso; exact (tget_none _ _ _ G I)]. clear G. rewrite in_map_iff. split.
  - intros ([x d] & E & X). cbn in E. destruct (Z.eqb_spec x k); [injection E as <- <-; auto|]. injection E as <- <-. auto.
  - intros [(-> & ->)|(N & X)]; [exists (k, c0); cbn; rewrite Z.eqb_refl; auto|].
    exists (k', c'). cbn. destruct (Z.eqb_spec k' k); [contradiction|auto].
Qed.
Lemma tput_recs m k c c0 : NoDup (map fst m) -> In (k, c0) m -> Permutation (c0 :: map snd (tput m k c)) (c :: map snd m).
Proof.
  intros ND I. unfold tput. destruct (tget m k) eqn:G; [|exfalso; exact (tget_none _ _ _ G I)]. clear G.
  induction m as [|[x d] m IH]; [destruct I|]. cbn in *. inversion ND; subst. destruct I as [E|I].
  - injection E as -> ->. rewrite Z.eqb_refl. cbn.
    replace (map (fun x => if fst x =? k then (k, c) else x) m) with m; [apply perm_swap|].
    clear - H1. induction m as [|[q w] m IH]; [reflexivity|]. cbn in *. destruct (Z.eqb_spec q k) as [->|N]; [tauto|]. f_equal. apply IH. tauto.
  - destruct (Z.eqb_spec x k) as [->|N]; [exfalso; apply H1, in_map_iff; exists (k, c0); auto|]. cbn.
    etransitivity; [apply perm_swap|]. etransitivity; [apply perm_skip, (IH H2 I)|]. apply perm_swap.
Qed.
(* a record replaced *)
Lemma RI_put s own refs k c c0 : RI s (c :: own) refs -> In (k, c0) (t_map s 0) -> RI (w_map s 0 (tput (t_map s 0) k c)) (c0 :: own) refs.
Proof.
  intros [A B C D AL] I. pose proof (tput_recs _ _ c _ A I) as P. fold (recs s) in P.
  assert (Q : Permutation (recs s ++ (c :: own) ++ t_free s) (map snd (tput (t_map s 0) k c) ++ (c0 :: own) ++ t_free s)).
  { cbn [app]. etransitivity; [symmetry; apply Permutation_middle|]. etransitivity; [|apply Permutation_middle].
    change (c :: recs s ++ own ++ t_free s) with ((c :: recs s) ++ own ++ t_free s).
    change (c0 :: map snd (tput (t_map s 0) k c) ++ own ++ t_free s) with ((c0 :: map snd (tput (t_map s 0) k c)) ++ own ++ t_free s).
    apply Permutation_app_tail. symmetry. exact P. }
  constructor; unfold recs, keys in *; cbn [w_map t_map t_free t_next upd Z.eqb]; auto.
  - rewrite (tput_keys _ _ _ _ I). exact A.
  - eapply Permutation_NoDup; [exact Q|exact B].
  - intros x X. apply C. eapply Permutation_in; [symmetry; exact Q|exact X].
  - intros x X. eapply Permutation_in; [exact Q|apply AL, X].
Qed.
(* a record removed *)
Lemma RI_del s own refs k c : RI s own refs -> In (k, c) (t_map s 0) -> RI (w_map s 0 (tdel (t_map s 0) k)) (c :: own) refs.
Proof.
  intros [A B C D AL] I. pose proof (tdel_perm _ _ _ A I) as P.
  assert (Q : Permutation (recs s ++ own ++ t_free s) (map snd (tdel (t_map s 0) k) ++ (c :: own) ++ t_free s)).
  { cbn [app]. etransitivity; [|apply Permutation_middle]. apply (Permutation_map snd) in P. exact (Permutation_app_tail (own ++ t_free s) P). }
  constructor; unfold recs, keys in *; cbn [w_map t_map t_free t_next upd Z.eqb]; auto.
  - apply (Permutation_map fst) in P. eapply Permutation_NoDup in A; [|exact P]. inversion A; assumption.
  - eapply Permutation_NoDup; [exact Q|exact B].
  - intros x X. apply C. eapply Permutation_in; [symmetry; exact Q|exact X].
  - intros x X. eapply Permutation_in; [exact Q|apply AL, X].
Qed.

(* ---- what the map says ---- *)
Definition rinfo (r : reg) : tinfo := TInfo (r_pool r) (r_size r) 0.
Definition MI (s : tstate) (T : reg -> Prop) : Prop :=
  (forall k c, In (k, c) (t_map s 0) -> exists r, k = r_ptr r /\ t_info s c = rinfo r /\ T r) /\
  (forall r, T r -> exists c, In (r_ptr r, c) (t_map s 0) /\ t_info s c = rinfo r).
Lemma MI_iff s T T' : MI s T -> (forall r, T r <-> T' r) -> MI s T'.
Proof.
  intros (A & B) E. split.
  - intros k c H. destruct (A k c H) as (r & X & Y & Z0). exists r. rewrite <- E. auto.
  - intros r H. apply B, E, H.
Qed.
Lemma MI_info s s' T : MI s T -> t_map s' 0 = t_map s 0 -> (forall c, In c (recs s) -> t_info s' c = t_info s c) -> MI s' T.
Proof.
  intros (A & B) E F. split.
  - intros k c H. rewrite E in H. destruct (A k c H) as (r & X & Y & Z0). exists r. rewrite F by (eapply recs_in, H). auto.
  - intros r H. destruct (B r H) as (c & X & Y). exists c. rewrite E, F by (eapply recs_in, X). auto.
Qed.
Lemma MI_ins s T r c : MI s T -> t_info s c = rinfo r -> MI (w_map s 0 ((r_ptr r, c) :: t_map s 0)) (fun q => T q \/ q = r).
Proof.
  intros (A & B) E. split; cbn [w_map t_map t_info upd Z.eqb].
  - intros k x [H|H]; [injection H as <- <-; exists r; auto|]. destruct (A k x H) as (q & X & Y & Z0). exists q. auto.
  - intros q [H| ->]; [|exists c; cbn; auto]. destruct (B q H) as (x & X & Y). exists x. cbn. auto.
Qed.
Lemma MI_put s T r c c0 : MI s T -> In (r_ptr r, c0) (t_map s 0) -> t_info s c = rinfo r ->
  MI (w_map s 0 (tput (t_map s 0) (r_ptr r) c)) (fun q => (T q /\ r_ptr q <> r_ptr r) \/ q = r).
Proof.
  intros (A & B) I E. split; cbn [w_map t_map t_info upd Z.eqb].
  - intros k x H. apply (tput_in _ _ _ c0) in H; [|exact I]. destruct H as [(-> & ->)|(N & H)]; [exists r; auto|].
    destruct (A k x H) as (q & X & Y & Z0). exists q. subst k. auto.
  - intros q [(H & N)| ->]; [|exists c; split; [apply (tput_in _ _ _ c0); auto|exact E]]. destruct (B q H) as (x & X & Y). exists x. split; [|exact Y]. apply (tput_in _ _ _ c0); auto.
Qed.
Lemma MI_del s T k : MI s T -> MI (w_map s 0 (tdel (t_map s 0) k)) (fun q => T q /\ r_ptr q <> k).
Proof.
  intros (A & B). split; cbn [w_map t_map t_info upd Z.eqb].
  - intros j x H. apply tdel_in in H. destruct H as (H & N). destruct (A j x H) as (q & X & Y & Z0). exists q. subst j. auto.
  - intros q (H & N). destruct (B q H) as (x & X & Y). exists x. split; [|exact Y]. apply tdel_in. auto.
Qed.
