(* Proofs about creating and destroying pools. *)
From Coq Require Import Permutation.
From Verif Require Import Base Model_PoolLife Spec_PoolLife.

Definition cnt (l : list Z) (z : Z) : nat := count_occ Z.eq_dec l z.
Lemma cnt_cons x l z : cnt (x :: l) z = (cnt [x] z + cnt l z)%nat.
Proof. unfold cnt. cbn [count_occ]. destruct (Z.eq_dec x z); lia. Qed.
Lemma cnt_app a b z : cnt (a ++ b) z = (cnt a z + cnt b z)%nat.
Proof. apply count_occ_app. Qed.
Lemma cnt_nil z : cnt [] z = 0%nat.
Proof. reflexivity. Qed.

Definition has (h : heap) (l : list Z) : Prop := h_bad h = false /\ forall z, cnt (h_live h) z = cnt l z.
Lemma has_holds h l : has h l <-> holds h l.
Proof. unfold has, holds. rewrite (Permutation_count_occ Z.eq_dec). reflexivity. Qed.
Lemma has_eq h l l' : has h l -> (forall z, cnt l z = cnt l' z) -> has h l'.
Proof. intros [A B] E. split; [exact A|]. intros z. rewrite B. apply E. Qed.

Lemma answer_has h b h' l : answer h = (b, h') -> has h l -> has h' l.
Proof. unfold answer. destruct (h_ok h); intros E; injection E as <- <-; auto. Qed.
Lemma answer_ok h b h' : answer h = (b, h') -> b = nth 0 (h_ok h) true /\ h_ok h' = skipn 1 (h_ok h).
Proof. unfold answer. destruct (h_ok h) eqn:K; intros E; injection E as <- <-; cbn; auto. Qed.
Lemma get_some h x h' l : get h = (Some x, h') -> has h l -> has h' (x :: l).
Proof.
  unfold get. destruct (answer h) as [b h0] eqn:A. intros G H. apply (answer_has _ _ _ l A) in H. destruct b; [|discriminate].
  injection G as <- <-. destruct H as [H1 H2]. split; [exact H1|]. intros z. cbn [h_live]. rewrite cnt_cons, (cnt_cons _ l), H2. reflexivity.
Qed.
Lemma get_none h h' l : get h = (None, h') -> has h l -> has h' l.
Proof. unfold get. destruct (answer h) as [b h0] eqn:A. intros G H. destruct b; [discriminate|]. injection G as <-. eapply answer_has; eassumption. Qed.
Lemma get_ok h o h' : get h = (o, h') -> some o = nth 0 (h_ok h) true /\ h_ok h' = skipn 1 (h_ok h).
Proof.
  unfold get. destruct (answer h) as [b h0] eqn:A. destruct (answer_ok _ _ _ A) as [-> K].
  destruct (nth 0 (h_ok h) true); intros E; injection E as <- <-; cbn; auto.
Qed.

Lemma remove_one_cnt x l z : (0 < cnt l x)%nat -> (cnt (remove_one x l) z + cnt [x] z = cnt l z)%nat.
Proof.
  induction l as [|y l IH]; intros P; [cbn in P; lia|]. cbn [remove_one]. destruct (Z.eqb_spec y x) as [->|N].
  - rewrite (cnt_cons x l). lia.
  - rewrite cnt_cons, (cnt_cons y l). rewrite cnt_cons in P.
    assert (cnt [y] x = 0%nat) by (unfold cnt; cbn; destruct (Z.eq_dec y x); congruence). rewrite <- IH; lia.
Qed.
Lemma put_has x h l : has h (x :: l) -> has (put x h) l.
Proof.
  intros [B C]. unfold put.
  assert (P : (0 < cnt (h_live h) x)%nat).
  { rewrite C, cnt_cons. unfold cnt. cbn. destruct (Z.eq_dec x x); [lia|congruence]. }
  assert (E : existsb (Z.eqb x) (h_live h) = true).
  { apply existsb_exists. exists x. split; [|apply Z.eqb_refl]. apply (count_occ_In Z.eq_dec). exact P. }
  rewrite E. split; [exact B|]. intros z. cbn [h_live]. pose proof (remove_one_cnt x (h_live h) z P) as R. specialize (C z). rewrite cnt_cons in C. lia.
Qed.
Lemma puts_has xs : forall h l, has h (xs ++ l) -> has (puts xs h) l.
Proof. induction xs as [|x xs IH]; intros h l H; [exact H|]. unfold puts. cbn [fold_left]. apply IH. apply put_has. exact H. Qed.
Lemma puts_ok xs : forall h, h_ok (puts xs h) = h_ok h.
Proof. induction xs as [|x xs IH]; intros h; [reflexivity|]. unfold puts. cbn [fold_left]. fold (puts xs (put x h)). rewrite IH. unfold put. destruct (existsb _ _); reflexivity. Qed.

Ltac cs := intros ?z; repeat (rewrite ?cnt_app, ?cnt_nil; match goal with |- context [cnt (?x :: ?l) ?z] => lazymatch l with [] => fail | _ => rewrite (cnt_cons x l z) end end); rewrite ?cnt_app, ?cnt_nil; lia.

Definition crit_own (c : crit) : list Z := c_mutex c :: c_struct c :: c_blocks c.
Lemma critnib_new_has h o h' l : critnib_new h = (o, h') -> has h l -> has h' (match o with Some c => crit_own c ++ l | None => l end).
Proof.
  unfold critnib_new. destruct (get h) as [[c|] h1] eqn:G; intros E H.
  - apply (get_some _ _ _ _ G) in H. destruct (get h1) as [[m|] h2] eqn:G2.
    + injection E as <- <-. apply (get_some _ _ _ _ G2) in H. exact H.
    + injection E as <- <-. apply (get_none _ _ _ G2) in H. apply put_has, H.
  - injection E as <- <-. eapply get_none; eassumption.
Qed.
Lemma critnib_new_ok h o h' : critnib_new h = (o, h') -> some o = true -> h_ok h' = skipn 2 (h_ok h).
Proof.
  unfold critnib_new. destruct (get h) as [[c|] h1] eqn:G; intros E S; [|injection E as <- <-; discriminate].
  destruct (get h1) as [[m|] h2] eqn:G2; injection E as <- <-; [|discriminate].
  apply get_ok in G. apply get_ok in G2. destruct G as [_ G], G2 as [_ G2]. rewrite G2, G. destruct (h_ok h); reflexivity.
Qed.
Lemma critnib_delete_has c h l : has h (crit_own c ++ l) -> has (critnib_delete c h) l.
Proof.
  intros H. unfold critnib_delete. apply put_has, puts_has, put_has. eapply has_eq; [exact H|]. unfold crit_own. cs.
Qed.

Definition bucket_own (b : bucket) : list Z := b_struct b :: match b_mutex b with Some m => [m] | None => [] end ++ b_slabs b.
Lemma create_bucket_has h o h' l : create_bucket h = (o, h') -> has h l -> has h' (match o with Some b => bucket_own b ++ l | None => l end).
Proof.
  unfold create_bucket. destruct (get h) as [[b|] h1] eqn:G; intros E H.
  - apply (get_some _ _ _ _ G) in H. destruct (get h1) as [[m|] h2] eqn:G2; injection E as <- <-.
    + apply (get_some _ _ _ _ G2) in H. eapply has_eq; [exact H|]. unfold bucket_own. cbn [b_struct b_mutex b_slabs]. cs.
    + apply (get_none _ _ _ G2) in H. exact H.
  - injection E as <- <-. eapply get_none; eassumption.
Qed.
Lemma destroy_bucket_has b h l : has h (bucket_own b ++ l) -> has (destroy_bucket b h) l.
Proof.
  intros H. unfold destroy_bucket. apply put_has. unfold bucket_own in H. destruct (b_mutex b) as [m|].
  - apply put_has, puts_has. eapply has_eq; [exact H|]. cs.
  - apply puts_has. eapply has_eq; [exact H|]. cs.
Qed.
Definition buckets_own (bs : list bucket) : list Z := flat_map bucket_own bs.
Lemma create_buckets_has n : forall h bs h' l, create_buckets n h = (bs, h') -> has h l -> has h' (buckets_own (those bs) ++ l).
Proof.
  induction n as [|n IH]; intros h bs h' l E H; cbn [create_buckets] in E; [injection E as <- <-; exact H|].
  destruct (create_bucket h) as [b h1] eqn:C. destruct (create_buckets n h1) as [t h2] eqn:D. injection E as <- <-.
  apply (create_bucket_has _ _ _ _ C) in H. apply (IH _ _ _ _ D) in H. destruct b as [b|]; cbn [those]; [|exact H].
  eapply has_eq; [exact H|]. unfold buckets_own. cbn [flat_map]. cs.
Qed.
Lemma destroy_buckets_has bs : forall h l, has h (buckets_own bs ++ l) -> has (destroy_buckets bs h) l.
Proof.
  induction bs as [|b bs IH]; intros h l H; [exact H|]. unfold destroy_buckets. cbn [fold_left]. apply IH, destroy_bucket_has.
  unfold buckets_own in H. cbn [flat_map] in H. rewrite <- app_assoc in H. exact H.
Qed.

Definition priv_own (p : priv) : list Z :=
  match p with
  | PDisjoint p c lim arr bs => p :: crit_own c ++ lim :: arr :: buckets_own bs
  | PProxy p => [p]
  | PJemalloc p a => [p; a]
  | PScalable p t => [p; t]
  end.
(* what finalize forgets *)
Definition priv_lost (p : priv) : list Z := match p with PDisjoint _ _ _ arr _ => [arr] | _ => [] end.

Lemma disjoint_initialize_has n h o h' l : disjoint_initialize n h = (o, h') -> has h l -> has h' (match o with Some p => priv_own p ++ l | None => l end).
Proof.
  unfold disjoint_initialize. destruct (get h) as [[p|] h1] eqn:G; intros E H; [|injection E as <- <-; eapply get_none; eassumption].
  apply (get_some _ _ _ _ G) in H. destruct (critnib_new h1) as [[c|] h2] eqn:C; apply (critnib_new_has _ _ _ _ C) in H; cbv iota in H;
    [|injection E as <- <-; apply put_has, H].
  destruct (get h2) as [[lim|] h3] eqn:G2.
  2:{ injection E as <- <-. apply (get_none _ _ _ G2) in H. apply put_has, critnib_delete_has, H. }
  apply (get_some _ _ _ _ G2) in H. destruct (get h3) as [[arr|] h4] eqn:G3.
  2:{ injection E as <- <-. apply (get_none _ _ _ G3) in H. apply put_has, critnib_delete_has, put_has, H. }
  apply (get_some _ _ _ _ G3) in H. destruct (create_buckets n h4) as [bs h5] eqn:B. apply (create_buckets_has _ _ _ _ _ B) in H.
  destruct (forallb some bs); injection E as <- <-.
  - eapply has_eq; [exact H|]. cbn [priv_own]. cs.
  - apply put_has, critnib_delete_has, put_has, put_has, destroy_buckets_has, H.
Qed.
Lemma initialize_has m h o h' l : initialize m h = (o, h') -> has h l -> has h' (match o with Some p => priv_own p ++ l | None => l end).
Proof.
  destruct m as [n| | |]; cbn [initialize].
  - apply disjoint_initialize_has.
  - destruct (get h) as [[p|] h1] eqn:G; intros E H; injection E as <- <-; [apply (get_some _ _ _ _ G) in H; exact H|eapply get_none; eassumption].
  - unfold jemalloc_initialize. destruct (get h) as [[p|] h1] eqn:G; intros E H; [|injection E as <- <-; eapply get_none; eassumption].
    apply (get_some _ _ _ _ G) in H. destruct (get h1) as [[a|] h2] eqn:G2.
    2:{ injection E as <- <-. apply (get_none _ _ _ G2) in H. apply put_has, H. }
    apply (get_some _ _ _ _ G2) in H. destruct (answer h2) as [b h3] eqn:A. apply (answer_has _ _ _ _ A) in H.
    destruct b; injection E as <- <-; [|apply put_has, put_has, H]. eapply has_eq; [exact H|]. cbn [priv_own]. cs.
  - unfold scalable_initialize. destruct (get h) as [[p|] h1] eqn:G; intros E H; [|injection E as <- <-; eapply get_none; eassumption].
    apply (get_some _ _ _ _ G) in H. destruct (answer h1) as [b h2] eqn:A. apply (answer_has _ _ _ _ A) in H.
    destruct b; [|injection E as <- <-; apply put_has, H].
    destruct (get h2) as [[t|] h3] eqn:G2; injection E as <- <-.
    + apply (get_some _ _ _ _ G2) in H. eapply has_eq; [exact H|]. cbn [priv_own]. cs.
    + apply (get_none _ _ _ G2) in H. apply put_has, H.
Qed.
Lemma finalize_has p h l : has h (priv_own p ++ l) -> has (finalize p h) (priv_lost p ++ l).
Proof.
  destruct p as [p c lim arr bs|p|p a|p t]; cbn [priv_own priv_lost finalize]; intros H.
  - apply put_has, critnib_delete_has, put_has, destroy_buckets_has. eapply has_eq; [exact H|]. cs.
  - apply put_has, H.
  - apply put_has, put_has. eapply has_eq; [exact H|]. cs.
  - apply put_has, put_has. eapply has_eq; [exact H|]. cs.
Qed.

Definition tracking_own (t : tracking) : list Z :=
  t_handle t :: t_priv t :: crit_own (t_cache t) ++ match t_opened t with Some o => [o] | None => [] end.
Lemma tracking_create_has h t h' l : tracking_create h = (Some t, h') -> has h l -> has h' (tracking_own t ++ l).
Proof.
  unfold tracking_create. destruct (critnib_new h) as [[c|] h1] eqn:C; [|discriminate]. intros E H. apply (critnib_new_has _ _ _ _ C) in H.
  destruct (get h1) as [o h2] eqn:G. assert (H2 : has h2 (match o with Some x => [x] | None => [] end ++ crit_own c ++ l)).
  { destruct o; [apply (get_some _ _ _ _ G) in H; exact H|apply (get_none _ _ _ G) in H; exact H]. }
  destruct (get h2) as [[hd|] h3] eqn:G2; [|discriminate]. apply (get_some _ _ _ _ G2) in H2.
  destruct (get h3) as [[p|] h4] eqn:G3; [|discriminate]. apply (get_some _ _ _ _ G3) in H2. injection E as <- <-.
  eapply has_eq; [exact H2|]. unfold tracking_own. cbn [t_handle t_priv t_cache t_opened]. cs.
Qed.
Lemma skipn_nth {A} n i (l : list A) d : nth i (skipn n l) d = nth (n + i) l d.
Proof. revert l. induction n as [|n IH]; intros [|x l]; cbn; try reflexivity; [destruct i; reflexivity|apply IH]. Qed.
Lemma tracking_create_cache h t h' : tracking_create h = (Some t, h') -> nth 2 (h_ok h) true = true -> t_opened t <> None.
Proof.
  unfold tracking_create. destruct (critnib_new h) as [[c|] h1] eqn:C; [|discriminate]. intros E N. apply critnib_new_ok in C; [|reflexivity].
  destruct (get h1) as [o h2] eqn:G. apply get_ok in G. destruct G as [G _]. rewrite C, skipn_nth in G. cbn [Nat.add] in G.
  destruct (get h2) as [[hd|] h3]; [|discriminate]. destruct (get h3) as [[p|] h4]; [|discriminate]. injection E as <- <-. cbn. destruct o; [discriminate|cbn in G; congruence].
Qed.
Lemma tracking_create_fail h h' l : tracking_create h = (None, h') -> nth 3 (h_ok h) true = true -> nth 4 (h_ok h) true = true -> has h l -> has h' l.
Proof.
  unfold tracking_create. destruct (critnib_new h) as [[c|] h1] eqn:C; intros E N3 N4 H.
  - apply critnib_new_ok in C; [|reflexivity]. destruct (get h1) as [o h2] eqn:G. apply get_ok in G. destruct G as [_ G].
    destruct (get h2) as [o2 h3] eqn:G2. apply get_ok in G2. destruct G2 as [A2 G2]. rewrite G, C, !skipn_nth in A2. cbn [Nat.add] in A2.
    destruct o2 as [hd|]; [|cbn in A2; congruence]. destruct (get h3) as [o3 h4] eqn:G3. apply get_ok in G3. destruct G3 as [A3 _].
    rewrite G2, G, C, !skipn_nth in A3. cbn [Nat.add] in A3. destruct o3; [discriminate|cbn in A3; congruence].
  - injection E as <-. apply (critnib_new_has _ _ _ _ C H).
Qed.
Lemma tracking_destroy_has t h l : t_opened t <> None -> has h (tracking_own t ++ l) -> has (tracking_destroy t h) l.
Proof.
  intros N H. unfold tracking_destroy. unfold tracking_own in H. destruct (t_opened t) as [o|]; [|congruence].
  apply put_has, put_has, critnib_delete_has, put_has. eapply has_eq; [exact H|]. cs.
Qed.

Definition opt_own (t : option tracking) : list Z := match t with Some t => tracking_own t | None => [] end.
Definition usable (t : option tracking) : Prop := match t with Some t => t_opened t <> None | None => True end.
Definition pool_own (p : pool) : list Z := p_struct p :: opt_own (p_tracking p) ++ p_lock p :: priv_own (p_priv p).

Lemma undo_has s t h l : usable t -> has h (s :: opt_own t ++ l) -> has (put s (match t with Some t => tracking_destroy t h | None => h end)) l.
Proof.
  intros U H. apply put_has. destruct t as [t|]; [apply tracking_destroy_has; [exact U|]|exact H]. eapply has_eq; [exact H|]. cbn [opt_own]. cs.
Qed.
Lemma pool_create_has m tracked own h o h' l : (tracked = true -> granted h 3) -> (o = None -> tracked = true -> granted h 4 /\ granted h 5) ->
  pool_create m tracked own h = (o, h') -> has h l ->
  match o with Some p => has h' (pool_own p ++ l) /\ usable (p_tracking p) /\ p_owned p = own | None => has h' l end.
Proof.
  unfold pool_create, granted. intros N3 N45 E H. destruct (get h) as [[s|] h1] eqn:G; [|injection E as <- <-; eapply get_none; eassumption].
  apply (get_some _ _ _ _ G) in H. apply get_ok in G. destruct G as [_ G].
  destruct (if tracked then tracking_create h1 else (None, h1)) as [t h2] eqn:T.
  assert (Q : (tracked = true -> t = None -> o = None /\ h' = put s h2) /\ (tracked && negb (some t) = false -> usable t /\ has h2 (s :: opt_own t ++ l))).
  { destruct tracked.
    - split; [intros _ ->; cbn in E; injection E as <- <-; auto|]. intros X. destruct t as [t|]; [|discriminate]. split.
      + eapply tracking_create_cache; [exact T|]. rewrite G, skipn_nth. apply N3. reflexivity.
      + apply (tracking_create_has _ _ _ _ T) in H. eapply has_eq; [exact H|]. cbn [opt_own]. cs.
    - injection T as <- <-. split; [discriminate|]. intros _. split; [exact I|exact H]. }
  destruct Q as [Q1 Q2]. destruct (tracked && negb (some t)) eqn:TN.
  - injection E as <- <-. apply andb_true_iff in TN. destruct TN as [-> TN]. destruct t; [discriminate|]. destruct (N45 eq_refl eq_refl) as [A B].
    apply put_has. eapply tracking_create_fail; [exact T|rewrite G, skipn_nth; exact A|rewrite G, skipn_nth; exact B|exact H].
  - destruct (Q2 eq_refl) as [U H2]. clear Q1 Q2. destruct (get h2) as [[k|] h3] eqn:G2.
    + apply (get_some _ _ _ _ G2) in H2. destruct (initialize m h3) as [[p|] h4] eqn:J; injection E as <- <-; apply (initialize_has _ _ _ _ _ J) in H2; cbn [app] in H2.
      * split; [|split; [exact U|reflexivity]]. eapply has_eq; [exact H2|]. unfold pool_own. cbn [p_struct p_tracking p_lock p_priv]. cs.
      * apply undo_has; [exact U|]. apply put_has. exact H2.
    + injection E as <- <-. apply (get_none _ _ _ G2) in H2. apply undo_has; assumption.
Qed.

(* a failed creation loses at most the IPC caches: the critnib, its mutex and the
   cache of opened handles *)
Lemma tracking_create_loses h h' l : tracking_create h = (None, h') -> has h l -> exists leak, (length leak <= 3)%nat /\ has h' (leak ++ l).
Proof.
  unfold tracking_create. destruct (critnib_new h) as [[c|] h1] eqn:C; intros E H.
  - assert (B : c_blocks c = []).
    { clear - C. unfold critnib_new in C. destruct (get h) as [[x|] h2]; [|discriminate]. destruct (get h2) as [[m|] h3]; [|discriminate]. injection C as <- <-. reflexivity. }
    apply (critnib_new_has _ _ _ _ C) in H. destruct (get h1) as [o h2] eqn:G.
    assert (H2 : has h2 ((match o with Some x => [x] | None => [] end ++ crit_own c) ++ l)).
    { rewrite <- app_assoc. destruct o; [apply (get_some _ _ _ _ G) in H; exact H|apply (get_none _ _ _ G) in H; exact H]. }
    assert (L : (length (match o with Some x => [x] | None => [] end ++ crit_own c) <= 3)%nat) by (unfold crit_own; rewrite B; destruct o; cbn; lia).
    eexists. split; [exact L|]. destruct (get h2) as [[hd|] h3] eqn:G2.
    + apply (get_some _ _ _ _ G2) in H2. destruct (get h3) as [[p|] h4] eqn:G3; [discriminate|]. injection E as <-.
      apply (get_none _ _ _ G3) in H2. apply put_has. exact H2.
    + injection E as <-. apply (get_none _ _ _ G2) in H2. exact H2.
  - injection E as <-. exists []. split; [cbn; lia|]. apply (critnib_new_has _ _ _ _ C H).
Qed.
Lemma pool_create_loses m tracked own h h' l : (tracked = true -> granted h 3) ->
  pool_create m tracked own h = (None, h') -> has h l -> exists leak, (length leak <= 3)%nat /\ has h' (leak ++ l).
Proof.
  unfold pool_create, granted. intros N3 E H. destruct (get h) as [[s|] h1] eqn:G.
  2: { injection E as <-. exists []. split; [cbn; lia|]. eapply get_none; eassumption. }
  apply (get_some _ _ _ _ G) in H. apply get_ok in G. destruct G as [_ G].
  destruct (if tracked then tracking_create h1 else (None, h1)) as [t h2] eqn:T.
  destruct (tracked && negb (some t)) eqn:TN.
  - injection E as <-. apply andb_true_iff in TN. destruct TN as [-> TN]. destruct t; [discriminate|].
    destruct (tracking_create_loses _ _ _ T H) as (leak & L & H2). exists leak. split; [exact L|]. apply put_has. eapply has_eq; [exact H2|]. cs.
  - assert (Q : usable t /\ has h2 (s :: opt_own t ++ l)).
    { destruct tracked.
      - destruct t as [t|]; [|discriminate]. split.
        + eapply tracking_create_cache; [exact T|]. rewrite G, skipn_nth. apply N3. reflexivity.
        + apply (tracking_create_has _ _ _ _ T) in H. eapply has_eq; [exact H|]. cbn [opt_own]. cs.
      - injection T as <- <-. split; [exact I|exact H]. }
    destruct Q as [U H2]. exists []. split; [cbn; lia|]. cbn [app]. destruct (get h2) as [[k|] h3] eqn:G2.
    + apply (get_some _ _ _ _ G2) in H2. destruct (initialize m h3) as [[p|] h4] eqn:J; [discriminate|]. injection E as <-. apply (initialize_has _ _ _ _ _ J) in H2; cbn [app] in H2.
      apply undo_has; [exact U|]. apply put_has. exact H2.
    + injection E as <-. apply (get_none _ _ _ G2) in H2. apply undo_has; assumption.
Qed.

Lemma pool_destroy_has p h l : usable (p_tracking p) -> has h (pool_own p ++ with_own (p_owned p) l) -> has (pool_destroy p h) (priv_lost (p_priv p) ++ l).
Proof.
  intros U H. unfold pool_destroy. apply put_has, put_has.
  assert (X : has (finalize (p_priv p) h) (opt_own (p_tracking p) ++ with_own (p_owned p) (p_lock p :: p_struct p :: priv_lost (p_priv p) ++ l))).
  { eapply has_eq; [apply finalize_has; eapply has_eq; [exact H|]|].
    - instantiate (1 := opt_own (p_tracking p) ++ with_own (p_owned p) (p_lock p :: p_struct p :: l)).
      unfold pool_own, with_own. destruct (p_owned p); cs.
    - unfold with_own. destruct (p_owned p); cs. }
  assert (Y : has (match p_tracking p with Some t => tracking_destroy t (finalize (p_priv p) h) | None => finalize (p_priv p) h end)
                (with_own (p_owned p) (p_lock p :: p_struct p :: priv_lost (p_priv p) ++ l))).
  { destruct (p_tracking p) as [t|]; [apply tracking_destroy_has; [exact U|exact X]|exact X]. }
  destruct (p_owned p); [apply put_has, Y|exact Y].
Qed.

Lemma grow_has c h c' h' l : grow c h = (c', h') -> has h (crit_own c ++ l) -> has h' (crit_own c' ++ l).
Proof.
  unfold grow. destruct (get h) as [[b|] h1] eqn:G; intros E H; injection E as <- <-; [|eapply get_none; eassumption].
  apply (get_some _ _ _ _ G) in H. eapply has_eq; [exact H|]. unfold crit_own. cbn [c_struct c_mutex c_blocks]. cs.
Qed.
Lemma on_bucket_has f : (forall b h b' h' l, f b h = (b', h') -> has h (bucket_own b ++ l) -> has h' (bucket_own b' ++ l)) ->
  forall bs i h bs' h' l, on_bucket i f bs h = (bs', h') -> has h (buckets_own bs ++ l) -> has h' (buckets_own bs' ++ l).
Proof.
  intros F. induction bs as [|b bs IH]; intros i h bs' h' l E H; [destruct i; injection E as <- <-; exact H|].
  unfold buckets_own in *. cbn [flat_map] in H. rewrite <- app_assoc in H. destruct i as [|i]; cbn [on_bucket] in E.
  - destruct (f b h) as [b' h1] eqn:G. injection E as <- <-. apply (F _ _ _ _ _ G) in H. cbn [flat_map]. rewrite <- app_assoc. exact H.
  - destruct (on_bucket i f bs h) as [t h1] eqn:G. injection E as <- <-.
    assert (H' : has h (flat_map bucket_own bs ++ bucket_own b ++ l)) by (eapply has_eq; [exact H|]; cs).
    apply (IH _ _ _ _ _ G) in H'. eapply has_eq; [exact H'|]. cbn [flat_map]. cs.
Qed.
Lemma add_slab_has b h b' h' l : add_slab b h = (b', h') -> has h (bucket_own b ++ l) -> has h' (bucket_own b' ++ l).
Proof.
  unfold add_slab. destruct (get h) as [[x|] h1] eqn:G; intros E H; injection E as <- <-; [|eapply get_none; eassumption].
  apply (get_some _ _ _ _ G) in H. eapply has_eq; [exact H|]. unfold bucket_own. cbn [b_struct b_mutex b_slabs]. cs.
Qed.
Lemma drop_slab_has b h b' h' l : drop_slab b h = (b', h') -> has h (bucket_own b ++ l) -> has h' (bucket_own b' ++ l).
Proof.
  unfold drop_slab. destruct (b_slabs b) as [|x t] eqn:B; intros E H; injection E as <- <-; [exact H|].
  apply put_has. eapply has_eq; [exact H|]. unfold bucket_own. cbn [b_struct b_mutex b_slabs]. rewrite B. cs.
Qed.
Definition same_lost (p p' : priv) : Prop := priv_lost p = priv_lost p'.
Lemma use_has u p h p' h' l : use_pool u p h = (p', h') -> has h (pool_own p ++ l) -> usable (p_tracking p) ->
  has h' (pool_own p' ++ l) /\ usable (p_tracking p') /\ p_owned p' = p_owned p /\ priv_lost (p_priv p') = priv_lost (p_priv p).
Proof.
  intros E H U.
  assert (SL : forall f, (forall b h b' h' l, f b h = (b', h') -> has h (bucket_own b ++ l) -> has h' (bucket_own b' ++ l)) -> forall i,
    match p_priv p with
    | PDisjoint q c lim arr bs => let (bs, h) := on_bucket i f bs h in (Pool (p_struct p) (p_tracking p) (p_lock p) (PDisjoint q c lim arr bs) (p_owned p), h)
    | _ => (p, h) end = (p', h') ->
    has h' (pool_own p' ++ l) /\ usable (p_tracking p') /\ p_owned p' = p_owned p /\ priv_lost (p_priv p') = priv_lost (p_priv p)).
  { intros f F i E1. destruct (p_priv p) as [q c lim arr bs| | |] eqn:P; try (injection E1 as <- <-; rewrite ?P; auto; fail).
    destruct (on_bucket i f bs h) as [bs' h1] eqn:G. injection E1 as <- <-. split; [|auto].
    assert (H' : has h (buckets_own bs ++ p_struct p :: opt_own (p_tracking p) ++ p_lock p :: q :: crit_own c ++ lim :: arr :: l)).
    { eapply has_eq; [exact H|]. unfold pool_own. rewrite P. cbn [priv_own]. cs. }
    apply (on_bucket_has f F _ _ _ _ _ _ G) in H'. eapply has_eq; [exact H'|]. unfold pool_own. cbn [p_struct p_tracking p_lock p_priv priv_own]. cs. }
  destruct u as [| |i|i]; cbn [use_pool] in E.
  - destruct (p_tracking p) as [t|] eqn:T; [|injection E as <- <-; rewrite T; auto].
    destruct (grow (t_cache t) h) as [c h1] eqn:G. injection E as <- <-. split; [|auto].
    assert (H' : has h (crit_own (t_cache t) ++ p_struct p :: t_handle t :: t_priv t :: match t_opened t with Some o => [o] | None => [] end ++ p_lock p :: priv_own (p_priv p) ++ l)).
    { eapply has_eq; [exact H|]. unfold pool_own. rewrite T. cbn [opt_own]. unfold tracking_own. destruct (t_opened t); cs. }
    apply (grow_has _ _ _ _ _ G) in H'. eapply has_eq; [exact H'|]. unfold pool_own. cbn [p_struct p_tracking p_lock p_priv opt_own]. unfold tracking_own. cbn [t_handle t_priv t_cache t_opened]. destruct (t_opened t); cs.
  - destruct (p_priv p) as [q c lim arr bs| | |] eqn:P; try (injection E as <- <-; rewrite ?P; auto; fail).
    destruct (grow c h) as [c' h1] eqn:G. injection E as <- <-. split; [|auto].
    assert (H' : has h (crit_own c ++ p_struct p :: opt_own (p_tracking p) ++ p_lock p :: q :: lim :: arr :: buckets_own bs ++ l)).
    { eapply has_eq; [exact H|]. unfold pool_own. rewrite P. cbn [priv_own]. cs. }
    apply (grow_has _ _ _ _ _ G) in H'. eapply has_eq; [exact H'|]. unfold pool_own. cbn [p_struct p_tracking p_lock p_priv priv_own]. cs.
  - apply (SL add_slab add_slab_has i E).
  - apply (SL drop_slab drop_slab_has i E).
Qed.
Lemma use_all_has us : forall p h p' h' l, use_all us p h = (p', h') -> has h (pool_own p ++ l) -> usable (p_tracking p) ->
  has h' (pool_own p' ++ l) /\ usable (p_tracking p') /\ p_owned p' = p_owned p /\ priv_lost (p_priv p') = priv_lost (p_priv p).
Proof.
  induction us as [|u us IH]; intros p h p' h' l E H U; [injection E as <- <-; auto|]. unfold use_all in E. cbn [fold_left fst snd] in E.
  destruct (use_pool u p h) as [p1 h1] eqn:G. destruct (use_has _ _ _ _ _ _ G H U) as (A & B & C & D).
  destruct (IH p1 h1 p' h' l E A B) as (A' & B' & C' & D'). rewrite C', D'. auto.
Qed.

Definition managed (m : manager) (p : priv) : Prop := match m, p with Disjoint _, PDisjoint _ _ _ _ _ | Proxy, PProxy _ | Jemalloc, PJemalloc _ _ | Scalable, PScalable _ _ => True | _, _ => False end.
Lemma initialize_managed m h p h' : initialize m h = (Some p, h') -> managed m p.
Proof.
  destruct m as [n| | |]; cbn [initialize]; unfold disjoint_initialize, jemalloc_initialize, scalable_initialize;
    repeat match goal with
    | |- context [match get ?h with _ => _ end] => destruct (get h) as [[]  ?]
    | |- context [match critnib_new ?h with _ => _ end] => destruct (critnib_new h) as [[] ?]
    | |- context [let (_, _) := create_buckets ?n ?h in _] => destruct (create_buckets n h)
    | |- context [let (_, _) := answer ?h in _] => destruct (answer h)
    | |- context [if ?b then _ else _] => destruct b
    end; intros E; try discriminate; injection E as <- <-; exact I.
Qed.
Lemma pool_create_managed m tracked own h p h' : pool_create m tracked own h = (Some p, h') -> managed m (p_priv p).
Proof.
  unfold pool_create. destruct (get h) as [[s|] h1]; [|discriminate]. destruct (if tracked then tracking_create h1 else (None, h1)) as [t h2].
  destruct (tracked && negb (some t)); [discriminate|]. destruct (get h2) as [[k|] h3]; [|discriminate].
  destruct (initialize m h3) as [[q|] h4] eqn:J; [|discriminate]. intros E. injection E as <- <-. cbn. eapply initialize_managed, J.
Qed.
Definition lost (m : manager) : nat := match m with Disjoint _ => 1 | _ => 0 end.
Lemma managed_lost m p : managed m p -> length (priv_lost p) = lost m.
Proof. destruct m, p; cbn; tauto. Qed.

Lemma whole_life m tracked own h p h1 us p' h2 l : (tracked = true -> granted h 3) -> holds h (with_own own l) ->
  pool_create m tracked own h = (Some p, h1) -> use_all us p h1 = (p', h2) ->
  exists leak, length leak = lost m /\ holds (pool_destroy p' h2) (leak ++ l).
Proof.
  intros N H E U. apply has_holds in H.
  destruct (pool_create_has m tracked own h (Some p) h1 _ N ltac:(discriminate) E H) as (A & B & C).
  destruct (use_all_has us p h1 p' h2 _ U A B) as (A' & B' & C' & D').
  exists (priv_lost (p_priv p')). split; [rewrite D'; apply managed_lost; eapply pool_create_managed, E|].
  apply has_holds, pool_destroy_has; [exact B'|]. rewrite C', C. exact A'.
Qed.
