(* Invariant of concurrent umfGetIPCHandle calls. *)
From Verif Require Import Base Model_IpcGetConc Spec_IpcGetConc.
From Coq Require Import Permutation.

Definition gown (t : gpc) : list Z := match t with GInc _ _ v | GIns _ _ v _ | GPut _ _ v _ | FPut v => [v] | _ => [] end.
Definition gids (t : gpc) : list Z := match t with GIns _ _ _ i => [i] | _ => [] end.
Definition ctok (c : list (Z * (Z * Z))) : list Z := map (fun x => fst (snd x)) c.
Definition cids (c : list (Z * (Z * Z))) : list Z := map (fun x => snd (snd x)) c.

Definition gloc (s : gstate) (t : gpc) : Prop :=
  match t with
  | GGet p n => n = 0%nat \/ (n = 1%nat /\ gfind (g_cache s) p <> None)
  | GSize _ n | GUp _ n | GInc _ n _ | GIns _ n _ _ | GPut _ n _ true => n = 0%nat
  | GPut p n _ false => n = 0%nat /\ gfind (g_cache s) p <> None
  | GDone p v i => gfind (g_cache s) p = Some (v, i)
  | FPut _ => True
  end.

Record ginv (s : gstate) (ts : list gpc) : Prop := GInv {
  n_keys : NoDup (map fst (g_cache s));
  n_up : Permutation (g_up s) (ctok (g_cache s) ++ flat_map gown ts ++ g_lost s);
  n_nd : NoDup (g_up s);
  n_ids : NoDup (cids (g_cache s) ++ flat_map gids ts);
  n_le : forall i, In i (cids (g_cache s) ++ flat_map gids ts) -> i <= g_id s;
  n_loc : forall t, In t ts -> gloc s t }.

Lemma ginv_perm s a b : Permutation a b -> ginv s a -> ginv s b.
Proof.
  intros P I. destruct I. constructor; auto.
  - rewrite n_up0. apply Permutation_app_head, Permutation_app_tail, Permutation_flat_map, P.
  - eapply Permutation_NoDup; [|exact n_ids0]. apply Permutation_app_head, Permutation_flat_map, P.
  - intros i H. apply n_le0. eapply Permutation_in; [|exact H]. apply Permutation_app_head, Permutation_flat_map. symmetry. exact P.
  - intros t J. apply n_loc0. eapply Permutation_in; [symmetry; exact P|exact J].
Qed.

Lemma gfind_in c p v : gfind c p = Some v -> In (p, v) c.
Proof.
  unfold gfind. destruct (find _ c) as [[q w]|] eqn:F; [|discriminate]. intros E. injection E as <-.
  apply find_some in F. destruct F as (I & E). cbn in E. apply Z.eqb_eq in E. subst. exact I.
Qed.
Lemma gfind_of c p v : NoDup (map fst c) -> In (p, v) c -> gfind c p = Some v.
Proof.
  unfold gfind. induction c as [|[q w] c IH]; intros ND I; [destruct I|]. cbn. cbn in ND. inversion ND; subst.
  destruct (Z.eqb_spec q p) as [->|N].
  - destruct I as [E|I]; [congruence|]. exfalso. apply H1. apply in_map_iff. exists (p, v). auto.
  - destruct I as [E|I]; [congruence|]. apply IH; auto.
Qed.
Lemma gfind_none c p : gfind c p = None -> ~ In p (map fst c).
Proof.
  unfold gfind. destruct (find _ c) as [[q w]|] eqn:F; [discriminate|]. intros _ I. apply in_map_iff in I. destruct I as ([q w] & E & I).
  cbn in E. subst. generalize (find_none _ _ F _ I). cbn. rewrite Z.eqb_refl. discriminate.
Qed.
Lemma gdel_other c p q : q <> p -> gfind (gdel c p) q = gfind c q.
Proof.
  intros N. unfold gfind, gdel. induction c as [|[x w] c IH]; [reflexivity|]. cbn. destruct (Z.eqb_spec x p) as [->|D]; cbn.
  - destruct (Z.eqb_spec p q); [congruence|exact IH].
  - destruct (x =? q); [reflexivity|exact IH].
Qed.
Lemma gdel_perm c p v : NoDup (map fst c) -> gfind c p = Some v -> Permutation c ((p, v) :: gdel c p).
Proof.
  intros ND F. apply gfind_in in F. induction c as [|[q w] c IH]; [destruct F|]. cbn in ND. inversion ND; subst. unfold gdel. cbn.
  destruct (Z.eqb_spec q p) as [->|N]; cbn.
  - assert (E : (p, w) = (p, v)). { destruct F as [F|F]; [exact F|]. exfalso. apply H1. apply in_map_iff. exists (p, v). auto. }
    rewrite E. apply perm_skip. replace (filter (fun x => negb (fst x =? p)) c) with c; [reflexivity|].
    clear - H1. induction c as [|[q w'] c IH]; [reflexivity|]. cbn in *. destruct (Z.eqb_spec q p) as [->|N]; [tauto|]. cbn. f_equal. apply IH. tauto.
  - destruct F as [F|F]; [congruence|]. fold (gdel c p). rewrite (IH H2 F) at 1. apply perm_swap.
Qed.
Lemma gdel_none c p : gfind c p = None -> gdel c p = c.
Proof.
  intros F. apply gfind_none in F. unfold gdel. induction c as [|[q w] c IH]; [reflexivity|]. cbn in *.
  destruct (Z.eqb_spec q p) as [->|N]; [tauto|]. cbn. f_equal. apply IH. tauto.
Qed.
Lemma gdel_keys c p : NoDup (map fst c) -> NoDup (map fst (gdel c p)).
Proof.
  unfold gdel. induction c as [|[q w] c IH]; intros ND; [constructor|]. cbn in *. inversion ND; subst. destruct (Z.eqb_spec q p); cbn; auto.
  constructor; auto. intros I. apply H1. apply in_map_iff in I. destruct I as (x & E & I). apply filter_In in I. apply in_map_iff. exists x. tauto.
Qed.
Lemma zdel_in x y l : In x (zdel y l) <-> In x l /\ x <> y.
Proof. unfold zdel. rewrite filter_In, negb_true_iff, Z.eqb_neq. tauto. Qed.
Lemma zdel_perm y l : NoDup l -> In y l -> Permutation l (y :: zdel y l).
Proof.
  induction l as [|x l IH]; intros ND I; [destruct I|]. inversion ND; subst. unfold zdel. cbn. destruct (Z.eqb_spec x y) as [->|N]; cbn.
  - apply perm_skip. fold (zdel y l). replace (zdel y l) with l; [reflexivity|]. clear - H1. unfold zdel. induction l as [|x l IH]; [reflexivity|].
    cbn in *. destruct (Z.eqb_spec x y) as [->|N]; [tauto|]. cbn. f_equal. apply IH. tauto.
  - destruct I as [->|I]; [congruence|]. fold (zdel y l). rewrite (IH H2 I) at 1. apply perm_swap.
Qed.
Lemma zmem_in x l : existsb (Z.eqb x) l = true <-> In x l.
Proof. rewrite existsb_exists. split; [intros (y & I & E); apply Z.eqb_eq in E; subst; exact I|intros I; exists x; rewrite Z.eqb_refl; auto]. Qed.

(* a thread's view only depends on the cache; adding to the cache is fine *)
Lemma gloc_ext s s' t : (forall p, gfind (g_cache s) p <> None -> gfind (g_cache s') p = gfind (g_cache s) p) -> gloc s t -> gloc s' t.
Proof.
  intros H. destruct t; cbn; auto.
  - intros [L|(L & M)]; [auto|right]. rewrite H; auto.
  - destruct oom; [auto|]. intros (L & M). rewrite H; auto.
  - intros L. rewrite H; [exact L|congruence].
Qed.

Lemma giv_back s s' t q r : ginv s (t :: r) -> gids t = [] ->
  forall w, gown t = [w] ->
  flat_map gown q = [] -> flat_map gids q = [] -> (forall o, In o q -> gloc s o) ->
  (s' = GState (g_cache s) (g_id s) (zdel w (g_up s)) (g_lost s) \/ s' = GState (g_cache s) (g_id s) (g_up s) (w :: g_lost s)) ->
  ginv s' (q ++ r).
Proof.
  intros I GI w OW OQ IQ LQ E. destruct I. cbn [flat_map] in *. rewrite OW in n_up0. rewrite GI in n_ids0, n_le0. cbn [app] in *.
  assert (LO : forall o, In o (q ++ r) -> gloc s o).
  { intros o J. apply in_app_or in J. destruct J as [J|J]; [auto|]. apply n_loc0. right. exact J. }
  assert (P : Permutation (g_up s) (w :: ctok (g_cache s) ++ flat_map gown r ++ g_lost s)).
  { rewrite n_up0. symmetry. apply Permutation_middle. }
  assert (WI : In w (g_up s)) by (eapply Permutation_in; [symmetry; exact P|left; reflexivity]).
  destruct E as [->| ->]; constructor; cbn [g_cache g_id g_up g_lost]; rewrite ?flat_map_app, ?OQ, ?IQ; cbn [app]; auto.
  - apply (Permutation_cons_inv (a := w)). rewrite <- P. symmetry. apply zdel_perm; assumption.
  - unfold zdel. apply NoDup_filter, n_nd0.
  - rewrite n_up0. apply Permutation_app_head. cbn. apply Permutation_middle.
Qed.

Lemma gstep_inv s ok v t r s' q : ginv s (t :: r) -> gstep s ok v t = (s', q) -> ginv s' (q ++ r).
Proof.
  intros I S. pose proof (n_loc _ _ I t (or_introl eq_refl)) as LT.
  assert (LR : forall o, In o r -> gloc s o) by (intros o J; apply (n_loc _ _ I); right; exact J).
  assert (LOCAL : forall q, flat_map gown q = gown t -> flat_map gids q = gids t -> (forall o, In o q -> gloc s o) -> ginv s (q ++ r)).
  { intros q' O D L. destruct I. constructor; auto; rewrite ?flat_map_app, ?O, ?D; auto.
    - intros o J. apply in_app_or in J. destruct J; auto. }
  destruct t; cbn [gstep] in S; cbn [gloc] in LT.
  - destruct (gfind (g_cache s) p) as [[w i]|] eqn:F; injection S as <- <-; apply LOCAL; auto; intros o [<-|[]]; cbn; auto.
    destruct LT as [L|(_ & L)]; [exact L|congruence].
  - destruct ok; injection S as <- <-; apply LOCAL; auto; [intros o [<-|[]]; exact LT|intros o []].
  - destruct (ok && _) eqn:C; injection S as <- <-.
    + apply andb_true_iff in C. destruct C as (_ & C). apply negb_true_iff in C.
      assert (NI : ~ In v (g_up s)) by (rewrite <- zmem_in, C; discriminate).
      destruct I. constructor; cbn [g_cache g_id g_up g_lost app flat_map gown gids] in *; auto.
      * rewrite n_up0. apply Permutation_middle.
      * constructor; assumption.
      * intros o [<-|J]; [exact LT|]. apply (gloc_ext s); auto.
    + apply LOCAL; auto. intros o [].
  - injection S as <- <-. destruct I. constructor; cbn [g_cache g_id g_up g_lost app flat_map gown gids] in *; auto.
    + eapply Permutation_NoDup; [apply Permutation_middle|]. constructor; [|exact n_ids0]. intros J. specialize (n_le0 _ J). lia.
    + intros i J. apply in_app_or in J. destruct J as [J|[<-|J]]; [|lia|]; assert (i <= g_id s); try lia; apply n_le0; apply in_or_app; auto.
    + intros o [<-|J]; [exact LT|]. apply (gloc_ext s); auto.
  - destruct (negb ok); [injection S as <- <-|].
    + destruct I. constructor; cbn [app flat_map gown gids] in *; auto.
      * apply NoDup_remove_1 in n_ids0. exact n_ids0.
      * intros j J. apply n_le0. apply in_app_or in J. apply in_or_app. cbn. tauto.
      * intros o [<-|J]; [exact LT|auto].
    + destruct (gfind (g_cache s) p) as [x|] eqn:F; injection S as <- <-.
      * destruct I. constructor; cbn [app flat_map gown gids] in *; auto.
        -- apply NoDup_remove_1 in n_ids0. exact n_ids0.
        -- intros j J. apply n_le0. apply in_app_or in J. apply in_or_app. cbn. tauto.
        -- intros o [<-|J]; [|auto]. cbn. rewrite F. split; [exact LT|discriminate].
      * destruct I. constructor; cbn [g_cache g_id g_up g_lost app flat_map gown gids map ctok cids fst snd] in *; auto.
        -- constructor; [apply gfind_none, F|exact n_keys0].
        -- rewrite n_up0. symmetry. apply Permutation_middle.
        -- eapply Permutation_NoDup; [|exact n_ids0]. symmetry. apply Permutation_middle.
        -- intros j J. apply n_le0. apply (Permutation_in _ (Permutation_middle _ _ _)). exact J.
        -- assert (X : forall x, gfind (g_cache s) x <> None -> gfind ((p, (v0, i)) :: g_cache s) x = gfind (g_cache s) x).
           { intros x X. unfold gfind. cbn. destruct (Z.eqb_spec p x) as [->|N]; [contradiction|reflexivity]. }
           intros o [<-|J]; [cbn; unfold gfind; cbn; rewrite Z.eqb_refl; reflexivity|]. apply (gloc_ext s); auto.
  - destruct ok; injection S as <- <-; eapply (giv_back s _ (GPut p n v0 oom)); eauto; try reflexivity.
    + destruct oom; reflexivity.
    + destruct oom; reflexivity.
    + destruct oom; intros o []; [subst o; cbn; destruct LT as (-> & L); auto|contradiction].
    + intros o [].
  - injection S as <- <-. apply LOCAL; auto. intros o [<-|[]]. exact LT.
  - destruct ok; injection S as <- <-; eapply (giv_back s _ (FPut v0)); eauto; try reflexivity; intros o [].
Qed.

Lemma gmove_inv s ts s' ts' : ginv s ts -> gmove (s, ts) (s', ts') -> ginv s' ts'.
Proof.
  intros I M. inversion M; subst.
  - destruct I. constructor; auto. intros t [<-|J]; [left; reflexivity|auto].
  - match goal with H : forallb _ _ = true |- _ => rename H into H2 end. destruct I.
    assert (OW : flat_map gown (filter (fun t => negb (gfor p t)) ts) = flat_map gown ts /\ flat_map gids (filter (fun t => negb (gfor p t)) ts) = flat_map gids ts).
    { rewrite forallb_forall in H2. clear - H2. induction ts as [|t ts IH]; [auto|]. destruct IH as (A & B); [intros x X; apply H2; right; exact X|].
      specialize (H2 t (or_introl eq_refl)). cbn. destruct (gfor p t); cbn in *; [|rewrite A, B; auto].
      destruct t; try discriminate. cbn. auto. }
    destruct OW as (OW & OI).
    assert (LR : forall o, In o (filter (fun t => negb (gfor p t)) ts) -> gloc (GState (gdel (g_cache s) p) (g_id s) (g_up s) (g_lost s)) o).
    { intros o J. apply filter_In in J. destruct J as (J & N). specialize (n_loc0 o J). destruct o; cbn in *; auto; try (apply negb_true_iff, Z.eqb_neq in N; rewrite gdel_other by exact N; exact n_loc0). }
    destruct (gfind (g_cache s) p) as [[w i]|] eqn:F.
    + generalize (gdel_perm _ _ _ n_keys0 F). intros P.
      assert (PT : Permutation (ctok (g_cache s)) (w :: ctok (gdel (g_cache s) p))) by exact (Permutation_map _ P).
      assert (PI : Permutation (cids (g_cache s)) (i :: cids (gdel (g_cache s) p))) by exact (Permutation_map _ P).
      constructor; cbn [g_cache g_id g_up g_lost app flat_map gown gids] in *.
      * apply gdel_keys, n_keys0.
      * rewrite OW. etransitivity; [exact n_up0|]. etransitivity; [apply Permutation_app_tail, PT|]. apply Permutation_middle.
      * exact n_nd0.
      * rewrite OI. eapply Permutation_NoDup in n_ids0; [|apply Permutation_app_tail, PI]. cbn in n_ids0. inversion n_ids0; assumption.
      * intros j J. apply n_le0. rewrite OI in J. eapply Permutation_in; [symmetry; apply Permutation_app_tail, PI|]. right. exact J.
      * intros o [<-|J]; [exact Logic.I|auto].
    + rewrite (gdel_none _ _ F) in *. constructor; cbn [g_cache g_id g_up g_lost app] in *; rewrite ?OW, ?OI; auto.
  - eapply ginv_perm; [|eapply gstep_inv; [|eassumption]].
    + apply Permutation_app_swap_app.
    + eapply ginv_perm; [|exact I]. symmetry. apply Permutation_middle.
Qed.

Lemma ginit_inv : ginv ginit [].
Proof. constructor; cbn; try constructor; intros; contradiction. Qed.
Lemma greach_inv x : greach x -> ginv (fst x) (snd x).
Proof. induction 1 as [|[s ts] [s' ts'] R IH M]; [apply ginit_inv|]. eapply gmove_inv; [exact IH|exact M]. Qed.

Lemma nodup_map_inj {A} (f : A -> Z) l x y : NoDup (map f l) -> In x l -> In y l -> f x = f y -> x = y.
Proof.
  induction l as [|z l IH]; intros ND X Y E; [destruct X|]. cbn in ND. inversion ND; subst. destruct X as [->|X], Y as [->|Y]; auto.
  - exfalso. apply H1. rewrite E. apply in_map, Y.
  - exfalso. apply H1. rewrite <- E. apply in_map, X.
Qed.
Lemma nodup_app_l {A} (a b : list A) : NoDup (a ++ b) -> NoDup a.
Proof. induction a as [|x a IH]; cbn; intros H; [constructor|]. inversion H; subst. constructor; auto. intros I. apply H2. apply in_or_app. auto. Qed.

Lemma answers_agree s ts p v i p' v' i' : greach (s, ts) -> answered ts p v i -> answered ts p' v' i' ->
  (p = p' -> v = v' /\ i = i') /\ (p <> p' -> v <> v' /\ i <> i').
Proof.
  intros R A A'. pose proof (greach_inv _ R) as I. cbn in I. generalize (n_loc _ _ I _ A) (n_loc _ _ I _ A'). cbn. intros F F'. split.
  - intros <-. rewrite F in F'. injection F' as <- <-. auto.
  - intros N. apply gfind_in in F. apply gfind_in in F'.
    assert (NT : NoDup (ctok (g_cache s))) by (eapply nodup_app_l, Permutation_NoDup; [exact (n_up _ _ I)|exact (n_nd _ _ I)]).
    assert (NI : NoDup (cids (g_cache s))) by (eapply nodup_app_l, (n_ids _ _ I)).
    split; intros E.
    + generalize (nodup_map_inj _ _ _ _ NT F F' E). congruence.
    + generalize (nodup_map_inj _ _ _ _ NI F F' E). congruence.
Qed.

Lemma back_safe s ts s' ts' v : greach (s, ts) -> gmove (s, ts) (s', ts') -> takes_back s s' v -> forall p i, ~ answered ts p v i.
Proof.
  intros R M (U & C) p i A. pose proof (greach_inv _ R) as I. cbn in I.
  assert (O : exists t, In t ts /\ In v (gown t)).
  { inversion M; subst; cbn in C; try tauto. exists t. split; [apply in_elt|].
    match goal with H : gstep _ _ _ _ = _ |- _ => rename H into S end.
    destruct t; cbn [gstep] in S; repeat match type of S with context [match ?x with _ => _ end] => destruct x eqn:? end;
      injection S; intros; subst; cbn in C; try tauto.
    - rewrite zdel_in in C. left. destruct (Z.eq_dec v v1); [congruence|tauto].
    - rewrite zdel_in in C. left. destruct (Z.eq_dec v v1); [congruence|tauto].
    - left. tauto.
    - rewrite zdel_in in C. left. destruct (Z.eq_dec v v1); [congruence|tauto].
    - left. tauto. }
  destruct O as (t & J & O). generalize (n_loc _ _ I _ A). cbn. intros F. apply gfind_in in F.
  assert (ND : NoDup (ctok (g_cache s) ++ flat_map gown ts ++ g_lost s)) by (eapply Permutation_NoDup; [exact (n_up _ _ I)|exact (n_nd _ _ I)]).
  assert (X : In v (ctok (g_cache s))) by (unfold ctok; apply in_map_iff; exists (p, (v, i)); auto).
  assert (Y : In v (flat_map gown ts ++ g_lost s)) by (apply in_or_app; left; apply in_flat_map; exists t; auto).
  revert X Y ND. generalize (ctok (g_cache s)) (flat_map gown ts ++ g_lost s). clear. induction l as [|x l IH]; intros m X Y ND; [destruct X|].
  cbn in ND. inversion ND; subst. destruct X as [->|X]; [apply H1, in_or_app; auto|eauto].
Qed.

Lemma settled_acc s ts : greach (s, ts) -> settled ts ->
  NoDup (g_up s) /\ forall v, In v (g_up s) <-> (exists p i, gfind (g_cache s) p = Some (v, i)) \/ In v (g_lost s).
Proof.
  intros R Q. pose proof (greach_inv _ R) as I. cbn in I. split; [apply (n_nd _ _ I)|].
  assert (O : flat_map gown ts = []).
  { clear - Q. induction ts as [|t ts IH]; [reflexivity|]. cbn. rewrite IH by (intros x X; apply Q; right; exact X).
    specialize (Q t (or_introl eq_refl)). destruct t; try discriminate. reflexivity. }
  generalize (n_up _ _ I). rewrite O. cbn [app]. intros P v. split.
  - intros H. apply (Permutation_in _ P) in H. apply in_app_or in H. destruct H as [H|H]; [left|auto]. unfold ctok in H. apply in_map_iff in H.
    destruct H as ([p [w i]] & E & H). cbn in E. subst. exists p, i. apply gfind_of; [apply (n_keys _ _ I)|exact H].
  - intros H. apply (Permutation_in _ (Permutation_sym P)). apply in_or_app. destruct H as [(p & i & F)|H]; [left|auto].
    apply gfind_in in F. unfold ctok. apply in_map_iff. exists (p, (v, i)). auto.
Qed.

Lemma rounds_bound s ts t : greach (s, ts) -> In t ts -> (rounds t <= 1)%nat.
Proof.
  intros R J. generalize (n_loc _ _ (greach_inv _ R) _ J). destruct t; cbn; try lia. destruct oom; lia.
Qed.
Lemma second_round s ts p ok v : greach (s, ts) -> In (GGet p 1) ts -> exists w i, gstep s ok v (GGet p 1) = (s, [GDone p w i]).
Proof.
  intros R J. generalize (n_loc _ _ (greach_inv _ R) _ J). cbn. intros [H|(_ & H)]; [discriminate|]. destruct (gfind (g_cache s) p) as [[w i]|]; [eauto|congruence].
Qed.
(* a call only fails when something it called did *)
Lemma no_error s t v s' : gstep s true v t = (s', []) -> (exists p n, t = GUp p n /\ In v (g_up s)) \/ (exists p n w, t = GPut p n w true) \/ exists w, t = FPut w.
Proof.
  destruct t; cbn; intros H; repeat match type of H with context [match ?x with _ => _ end] => destruct x eqn:? end; try discriminate; eauto 6.
  left. exists p, n. split; [reflexivity|]. apply zmem_in. apply negb_false_iff. exact Heqb.
Qed.

(* ---- runs given as lists, for examples ---- *)
Inductive gact := ACall (p : Z) | AFree (p : Z) | AGo (i : nat) (ok : bool) (v : Z).
Definition grun1 (x : gstate * list gpc) (a : gact) : option (gstate * list gpc) :=
  let (s, ts) := x in
  match a with
  | ACall p => Some (s, GGet p 0 :: ts)
  | AFree p =>
      if forallb (fun t => negb (gfor p t) || gdone t) ts
      then Some (GState (gdel (g_cache s) p) (g_id s) (g_up s) (g_lost s),
                 match gfind (g_cache s) p with Some (w, _) => [FPut w] | None => [] end ++ filter (fun t => negb (gfor p t)) ts)
      else None
  | AGo i ok v =>
      match nth_error ts i with
      | Some t => let (s', q) := gstep s ok v t in Some (s', firstn i ts ++ q ++ skipn (S i) ts)
      | None => None
      end
  end.
Fixpoint grun (x : gstate * list gpc) (l : list gact) : option (gstate * list gpc) :=
  match l with [] => Some x | a :: r => match grun1 x a with Some y => grun y r | None => None end end.
Lemma gnth_split {A} (l : list A) i p : nth_error l i = Some p -> l = firstn i l ++ p :: skipn (S i) l.
Proof. revert i. induction l as [|x l IH]; intros [|i] H; try discriminate; cbn in *; [congruence|]. f_equal. apply IH, H. Qed.
Lemma grun_reach l : forall x y, greach x -> grun x l = Some y -> greach y.
Proof.
  induction l as [|a l IH]; cbn; intros x y R H; [congruence|]. destruct (grun1 x a) as [z|] eqn:E; [|discriminate].
  apply (IH z y); [|exact H]. eapply gr_move; [exact R|]. destruct x as [s ts]. destruct a; cbn in E.
  - injection E as <-. constructor.
  - destruct (forallb _ ts) eqn:F; [|discriminate]. injection E as <-. constructor. exact F.
  - destruct (nth_error ts i) as [t|] eqn:N; [|discriminate]. destruct (gstep s ok v t) as [s' q] eqn:S. injection E as <-.
    rewrite (gnth_split _ _ _ N) at 1. econstructor. exact S.
Qed.
