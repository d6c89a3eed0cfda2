(* Proofs about scalable pools. *)
From Coq Require Import Permutation.
From Verif Require Import Base Model_Jemalloc Model_Scalable Spec_Scalable.
From Verif Require Proof_Jemalloc.

Lemma up_eq {X} (f : Z -> X) k x : up f k x k = x.
Proof. unfold up. rewrite Z.eqb_refl. reflexivity. Qed.
Lemma up_ne {X} (f : Z -> X) k x j : j <> k -> up f k x j = f j.
Proof. unfold up. intros N. destruct (Z.eqb_spec j k); [contradiction|reflexivity]. Qed.

(* handles: blocks, TBB pools and the threads that create and destroy them *)
Record hinv (b : Z -> option (Z * option Z)) (t0 : Z -> option (Z * params)) (p : Z -> option call) : Prop := HInv {
  h_tb : forall t d q, t0 t = Some (d, q) -> exists v o, b d = Some (v, o);
  h_blk : forall d v t, b d = Some (v, Some t) -> exists q, t0 t = Some (d, q);
  h_inj : forall t t' d q q', t0 t = Some (d, q) -> t0 t' = Some (d, q') -> t = t';
  h_init : forall th d t, p th = Some (KInit d t) -> (exists v, b d = Some (v, None)) /\ (exists q, t0 t = Some (d, q));
  h_init1 : forall th th' d t t', p th = Some (KInit d t) -> p th' = Some (KInit d t') -> th = th';
  h_fin : forall th d t, p th = Some (KFin d t) -> (exists v, b d = Some (v, Some t)) /\ (exists q, t0 t = Some (d, q));
  h_fin1 : forall th th' d t t', p th = Some (KFin d t) -> p th' = Some (KFin d t') -> th = th' }.

Definition plain (c : option call) : Prop :=
  match c with Some (KInit _ _) | Some (KFin _ _) => False | _ => True end.
Lemma hinv_pc b t0 p th c : hinv b t0 p -> plain c -> hinv b t0 (up p th c).
Proof.
  intros [A B C D E F G] P. split; try assumption; intros th1.
  - intros d t. destruct (Z.eq_dec th1 th) as [->|N]; [rewrite up_eq|rewrite up_ne by exact N; apply D].
    intros ->. destruct P.
  - intros th2 d t t'. destruct (Z.eq_dec th1 th) as [->|N]; [rewrite up_eq; intros ->; destruct P|]. rewrite (up_ne p th c th1) by exact N.
    destruct (Z.eq_dec th2 th) as [->|N2]; [rewrite up_eq; intros _ ->; destruct P|]. rewrite up_ne by exact N2. apply E.
  - intros d t. destruct (Z.eq_dec th1 th) as [->|N]; [rewrite up_eq|rewrite up_ne by exact N; apply F].
    intros ->. destruct P.
  - intros th2 d t t'. destruct (Z.eq_dec th1 th) as [->|N]; [rewrite up_eq; intros ->; destruct P|]. rewrite (up_ne p th c th1) by exact N.
    destruct (Z.eq_dec th2 th) as [->|N2]; [rewrite up_eq; intros _ ->; destruct P|]. rewrite up_ne by exact N2. apply G.
Qed.

Lemma hinv_begin b t0 p th d t v q : hinv b t0 p -> p th = None -> b d = None -> t0 t = None ->
  hinv (up b d (Some (v, None))) (up t0 t (Some (d, q))) (up p th (Some (KInit d t))).
Proof.
  intros [A B C D E F G] P Bd Tt.
  assert (U : forall t1 d1 q1, t0 t1 = Some (d1, q1) -> d1 <> d) by (intros t1 d1 q1 H ->; destruct (A _ _ _ H) as (? & ? & K); congruence).
  assert (W : forall t1 d1 q1, t0 t1 = Some (d1, q1) -> t1 <> t) by (intros t1 d1 q1 H ->; congruence).
  split.
  - intros t1 d1 q1. destruct (Z.eq_dec t1 t) as [->|N].
    + rewrite up_eq. intros H. injection H as <- <-. rewrite up_eq. eauto.
    + rewrite up_ne by exact N. intros H. rewrite up_ne by (eapply U, H). eapply A, H.
  - intros d1 v1 t1. destruct (Z.eq_dec d1 d) as [->|N]; [rewrite up_eq; discriminate|]. rewrite up_ne by exact N.
    intros H. destruct (B _ _ _ H) as [q1 K]. exists q1. rewrite up_ne; [exact K|eapply W, K].
  - intros t1 t2 d1 q1 q2. destruct (Z.eq_dec t1 t) as [->|N]; destruct (Z.eq_dec t2 t) as [->|N2]; [reflexivity| | |].
    + rewrite up_eq, up_ne by exact N2. intros H K. injection H as <- <-. elim (U _ _ _ K). reflexivity.
    + rewrite up_eq, up_ne by exact N. intros K H. injection H as <- <-. elim (U _ _ _ K). reflexivity.
    + rewrite !up_ne by assumption. apply C.
  - intros th1 d1 t1. destruct (Z.eq_dec th1 th) as [->|N].
    + rewrite up_eq. intros H. injection H as <- <-. rewrite !up_eq. eauto.
    + rewrite up_ne by exact N. intros H. destruct (D _ _ _ H) as [[v1 K] [q1 L]].
      rewrite (up_ne b) by (eapply U, L). rewrite up_ne by (eapply W, L). eauto.
  - intros th1 th2 d1 t1 t2. destruct (Z.eq_dec th1 th) as [->|N]; destruct (Z.eq_dec th2 th) as [->|N2]; [reflexivity| | |].
    + rewrite up_eq, up_ne by exact N2. intros H K. injection H as <- <-. destruct (D _ _ _ K) as [_ [q1 L]]. elim (U _ _ _ L). reflexivity.
    + rewrite up_eq, up_ne by exact N. intros K H. injection H as <- <-. destruct (D _ _ _ K) as [_ [q1 L]]. elim (U _ _ _ L). reflexivity.
    + rewrite !up_ne by assumption. apply E.
  - intros th1 d1 t1. destruct (Z.eq_dec th1 th) as [->|N]; [rewrite up_eq; discriminate|].
    rewrite up_ne by exact N. intros H. destruct (F _ _ _ H) as [[v1 K] [q1 L]].
    rewrite (up_ne b) by (eapply U, L). rewrite up_ne by (eapply W, L). eauto.
  - intros th1 th2 d1 t1 t2. destruct (Z.eq_dec th1 th) as [->|N]; [rewrite up_eq; discriminate|]. rewrite up_ne by exact N.
    destruct (Z.eq_dec th2 th) as [->|N2]; [rewrite up_eq; discriminate|]. rewrite up_ne by exact N2. apply G.
Qed.

Lemma hinv_created b t0 p th d t v : hinv b t0 p -> p th = Some (KInit d t) -> b d = Some (v, None) ->
  hinv (up b d (Some (v, Some t))) t0 (up p th None).
Proof.
  intros [A B C D E F G] P Bd. destruct (D _ _ _ P) as [_ [q Tt]]. split.
  - intros t1 d1 q1 H. destruct (Z.eq_dec d1 d) as [->|N]; [rewrite up_eq|rewrite up_ne by exact N]; eauto.
  - intros d1 v1 t1. destruct (Z.eq_dec d1 d) as [->|N]; [rewrite up_eq; intros H; injection H as <- <-; eauto|rewrite up_ne by exact N; apply B].
  - exact C.
  - intros th1 d1 t1. destruct (Z.eq_dec th1 th) as [->|N]; [rewrite up_eq; discriminate|]. rewrite up_ne by exact N. intros H.
    destruct (D _ _ _ H) as [K L]. rewrite up_ne; [auto|]. intros ->. apply N. eapply E; eassumption.
  - intros th1 th2 d1 t1 t2. destruct (Z.eq_dec th1 th) as [->|N]; [rewrite up_eq; discriminate|]. rewrite up_ne by exact N.
    destruct (Z.eq_dec th2 th) as [->|N2]; [rewrite up_eq; discriminate|]. rewrite up_ne by exact N2. apply E.
  - intros th1 d1 t1. destruct (Z.eq_dec th1 th) as [->|N]; [rewrite up_eq; discriminate|]. rewrite up_ne by exact N. intros H.
    destruct (F _ _ _ H) as [[v1 K] L]. rewrite up_ne; [eauto|]. intros ->. congruence.
  - intros th1 th2 d1 t1 t2. destruct (Z.eq_dec th1 th) as [->|N]; [rewrite up_eq; discriminate|]. rewrite up_ne by exact N.
    destruct (Z.eq_dec th2 th) as [->|N2]; [rewrite up_eq; discriminate|]. rewrite up_ne by exact N2. apply G.
Qed.

Lemma hinv_end b t0 p th d t q : hinv b t0 p -> (p th = Some (KInit d t) \/ p th = Some (KFin d t)) -> t0 t = Some (d, q) ->
  hinv (up b d None) (up t0 t None) (up p th None).
Proof.
  intros [A B C D E F G] P Tt.
  assert (U : forall t1 d1 q1, t1 <> t -> t0 t1 = Some (d1, q1) -> d1 <> d) by (intros t1 d1 q1 N H ->; apply N; eapply C; eassumption).
  assert (Q : forall th1 d1 t1 (c : call), th1 <> th -> (p th1 = Some (KInit d1 t1) \/ p th1 = Some (KFin d1 t1)) -> d1 <> d).
  { intros th1 d1 t1 _ N H ->. apply N. destruct P as [P|P]; destruct H as [H|H].
    - eapply E; eassumption.
    - destruct (D _ _ _ P) as [[v1 K] _]. destruct (F _ _ _ H) as [[v2 L] _]. congruence.
    - destruct (F _ _ _ P) as [[v1 K] _]. destruct (D _ _ _ H) as [[v2 L] _]. congruence.
    - eapply G; eassumption. }
  split.
  - intros t1 d1 q1. destruct (Z.eq_dec t1 t) as [->|N]; [rewrite up_eq; discriminate|]. rewrite up_ne by exact N. intros H.
    rewrite up_ne by (eapply U; eassumption). eapply A, H.
  - intros d1 v1 t1. destruct (Z.eq_dec d1 d) as [->|N]; [rewrite up_eq; discriminate|]. rewrite up_ne by exact N. intros H.
    destruct (B _ _ _ H) as [q1 K]. exists q1. rewrite up_ne; [exact K|]. intros ->. congruence.
  - intros t1 t2 d1 q1 q2. destruct (Z.eq_dec t1 t) as [->|N]; [rewrite up_eq; discriminate|]. destruct (Z.eq_dec t2 t) as [->|N2]; [rewrite up_eq; discriminate|].
    rewrite !up_ne by assumption. apply C.
  - intros th1 d1 t1. destruct (Z.eq_dec th1 th) as [->|N]; [rewrite up_eq; discriminate|]. rewrite up_ne by exact N. intros H.
    destruct (D _ _ _ H) as [K [q1 L]]. pose proof (Q th1 d1 t1 KFree N (or_introl H)) as M. rewrite up_ne by exact M. split; [exact K|].
    exists q1. rewrite up_ne; [exact L|]. intros ->. congruence.
  - intros th1 th2 d1 t1 t2. destruct (Z.eq_dec th1 th) as [->|N]; [rewrite up_eq; discriminate|]. rewrite up_ne by exact N.
    destruct (Z.eq_dec th2 th) as [->|N2]; [rewrite up_eq; discriminate|]. rewrite up_ne by exact N2. apply E.
  - intros th1 d1 t1. destruct (Z.eq_dec th1 th) as [->|N]; [rewrite up_eq; discriminate|]. rewrite up_ne by exact N. intros H.
    destruct (F _ _ _ H) as [K [q1 L]]. pose proof (Q th1 d1 t1 KFree N (or_intror H)) as M. rewrite up_ne by exact M. split; [exact K|].
    exists q1. rewrite up_ne; [exact L|]. intros ->. congruence.
  - intros th1 th2 d1 t1 t2. destruct (Z.eq_dec th1 th) as [->|N]; [rewrite up_eq; discriminate|]. rewrite up_ne by exact N.
    destruct (Z.eq_dec th2 th) as [->|N2]; [rewrite up_eq; discriminate|]. rewrite up_ne by exact N2. apply G.
Qed.

Lemma hinv_fin b t0 p th d t v : hinv b t0 p -> b d = Some (v, Some t) -> (forall th', p th' <> Some (KFin d t)) ->
  hinv b t0 (up p th (Some (KFin d t))).
Proof.
  intros [A B C D E F G] Bd NF. split; try assumption.
  - intros th1 d1 t1. destruct (Z.eq_dec th1 th) as [->|N]; [rewrite up_eq; discriminate|rewrite up_ne by exact N; apply D].
  - intros th1 th2 d1 t1 t2. destruct (Z.eq_dec th1 th) as [->|N]; [rewrite up_eq; discriminate|]. rewrite up_ne by exact N.
    destruct (Z.eq_dec th2 th) as [->|N2]; [rewrite up_eq; discriminate|]. rewrite up_ne by exact N2. apply E.
  - intros th1 d1 t1. destruct (Z.eq_dec th1 th) as [->|N]; [rewrite up_eq|rewrite up_ne by exact N; apply F].
    intros H. injection H as <- <-. split; [eauto|eapply B, Bd].
  - assert (X : forall th1 t1, p th1 = Some (KFin d t1) -> False).
    { intros th1 t1 H. destruct (F _ _ _ H) as [[v1 K] _]. rewrite Bd in K. injection K as <- <-. exact (NF _ H). }
    intros th1 th2 d1 t1 t2. destruct (Z.eq_dec th1 th) as [->|N]; destruct (Z.eq_dec th2 th) as [->|N2]; [reflexivity| | |].
    + rewrite up_eq, up_ne by exact N2. intros H K. injection H as <- <-. destruct (X _ _ K).
    + rewrite up_eq, up_ne by exact N. intros K H. injection H as <- <-. destruct (X _ _ K).
    + rewrite !up_ne by assumption. apply G.
Qed.

Lemma drop_keep (x y : Z * range) l : In y l -> y <> x -> In y (drop x l).
Proof.
  induction l as [|z l IH]; intros I N; [destruct I|]. cbn [drop]. destruct (range_dec z x) as [->|M].
  - destruct I as [<-|I]; [contradiction|exact I].
  - destruct I as [<-|I]; [left; reflexivity|right; auto].
Qed.
Lemma pairs_drop (R : Z * range -> Z * range -> Prop) x l : ForallOrdPairs R l -> ForallOrdPairs R (drop x l).
Proof.
  induction 1 as [|y l F P IH]; cbn [drop]; [constructor|]. destruct (range_dec y x); [exact P|]. constructor; [|exact IH].
  rewrite Forall_forall in *. intros z I. apply F. eapply Proof_Jemalloc.drop_in, I.
Qed.
Lemma pairs_filter {X} (R : X -> X -> Prop) f l : ForallOrdPairs R l -> ForallOrdPairs R (filter f l).
Proof.
  induction 1 as [|y l F P IH]; cbn [filter]; [constructor|]. destruct (f y); [|exact IH]. constructor; [|exact IH].
  rewrite Forall_forall in *. intros z I. apply filter_In in I. apply F, I.
Qed.
Lemma apart_sym x y : apart x y -> apart y x.
Proof. unfold apart. tauto. Qed.
Lemma inside_apart x y r q : inside x r -> inside y q -> apart r q -> apart x y.
Proof. unfold inside, apart. lia. Qed.
Lemma pairs_in {X} (R : X -> X -> Prop) l x y : (forall a b, R a b -> R b a) -> ForallOrdPairs R l -> In x l -> In y l -> x <> y -> R x y.
Proof.
  intros S. induction 1 as [|z l F P IH]; intros I J N; [destruct I|]. rewrite Forall_forall in F.
  destruct I as [<-|I]; destruct J as [<-|J]; [contradiction|apply F, J|apply S, F, I|auto].
Qed.

Definition same_pool_apart (x y : Z * range) : Prop := fst x = fst y -> apart (snd x) (snd y).
Record sinv (s : sstate) : Prop := SInv {
  si_h : hinv (blk s) (tb s) (pc s);
  si_raw : forall t r, In (t, r) (raws s) -> tb s t <> None;
  si_perm : Proof_Jemalloc.eqn (owner s) (raws s) (given s) (lost s);
  si_rawd : ForallOrdPairs (fun x y => apart (snd x) (snd y)) (raws s);
  si_obj : forall t o, In (t, o) (objs s) -> exists r, In (t, r) (raws s) /\ inside o r;
  si_objd : ForallOrdPairs same_pool_apart (objs s);
  si_bad : bad s = false;
  si_fe : forall th, fe s th <> SUCCESS -> In (fe s th) (refusals s th);
  si_pol : forall t d q, tb s t = Some (d, q) -> p_gran q <> 0 }.

Lemma set_params_gran cs : forall p, p_gran p <> 0 -> p_gran (set_params p cs) <> 0.
Proof.
  induction cs as [|c cs IH]; intros p P; [exact P|]. cbn [set_params]. apply IH. destruct c as [g|b]; cbn; [|exact P].
  destruct (Z.eqb_spec g 0); cbn; assumption.
Qed.
Lemma policy_gran par : p_gran (policy par) <> 0.
Proof. destruct par as [cs|]; cbn [policy]; [apply set_params_gran|]; cbn; discriminate. Qed.

Lemma sinv0 : sinv sstate0.
Proof.
  split; cbn; try (constructor; discriminate); try constructor; try discriminate; intros; try discriminate; try tauto; try constructor.
Qed.

(* steps that change neither handles nor memory *)
Lemma sinv_objs s s' : sinv s -> hinv (blk s') (tb s') (pc s') -> blk s' = blk s -> tb s' = tb s -> raws s' = raws s -> given s' = given s -> lost s' = lost s ->
  (forall t o, In (t, o) (objs s') -> exists r, In (t, r) (raws s) /\ inside o r) -> ForallOrdPairs same_pool_apart (objs s') -> bad s' = bad s ->
  (forall th, fe s' th <> SUCCESS -> In (fe s' th) (refusals s' th)) -> sinv s'.
Proof.
  intros [H R P D O OD B F L] H' Eb Et Er Eg El O' OD' Eba F'. split; auto.
  - rewrite Er, Et. exact R.
  - assert (E : owner s' = owner s) by (unfold owner; rewrite Eb, Et; reflexivity). rewrite E, Er, Eg, El. exact P.
  - rewrite Er. exact D.
  - rewrite Er. exact O'.
  - congruence.
  - rewrite Et. exact L.
Qed.
(* steps that change the handles only, of pools without raw memory *)
Lemma sinv_handles s b t0 p : sinv s -> hinv b t0 p ->
  (forall t d q, In t (map fst (raws s)) -> tb s t = Some (d, q) -> t0 t = Some (d, q) /\ option_map fst (b d) = option_map fst (blk s d)) ->
  (forall t d q, t0 t = Some (d, q) -> p_gran q <> 0) ->
  sinv (SState b t0 (raws s) (objs s) (given s) (lost s) (ae s) (fe s) (refusals s) p (bad s)).
Proof.
  intros [H R P D O OD B F L] H' K L'. split; cbn; auto.
  - intros t r I. destruct (tb s t) as [[d q]|] eqn:E; [|elim (R _ _ I E)].
    destruct (K t d q) as [-> _]; [apply in_map with (f := fst) in I; exact I|exact E|discriminate].
  - eapply Proof_Jemalloc.eqn_ext; [|exact P]. intros [t r] I. cbn [fst]. unfold owner. cbn.
    destruct (tb s t) as [[d q]|] eqn:E; [|elim (R _ _ I E)].
    destruct (K t d q) as [-> M]; [apply in_map with (f := fst) in I; exact I|exact E|].
    destruct (b d) as [[? ?]|]; destruct (blk s d) as [[? ?]|]; cbn in M; congruence.
Qed.

Lemma fits_obj s t o : sinv s -> fits s t o ->
  (forall t' o', In (t', o') ((t, o) :: objs s) -> exists r, In (t', r) (raws s) /\ inside o' r) /\ ForallOrdPairs same_pool_apart ((t, o) :: objs s).
Proof.
  intros I [[r [Ir Io]] A]. split.
  - intros t' o' [E|J]; [injection E as <- <-; eauto|eapply si_obj; eassumption].
  - constructor; [|apply si_objd, I]. rewrite Forall_forall. intros [t' o'] J E. cbn in *. subst. apply A, J.
Qed.

Lemma null_error_ne e : null_error e <> SUCCESS.
Proof. destruct e; discriminate. Qed.

Lemma sstep_inv s e : sinv s -> enabled s e -> sinv (fst (sstep s e)).
Proof.
  intros I E. destruct e as [th v par od lib t|th ret|th d k|th got|th d a m n|th got|th d a m|th ok|th d|th|th t bytes got|th t r ret]; cbn [enabled] in E; cbn [sstep].
  - destruct E as (Pc & Fr & Tt). destruct od as [d|]; [|exact I]. specialize (Fr d eq_refl). destruct lib; cbn [fst].
    + apply (sinv_handles s (up (blk s) d (Some (v, None))) (up (tb s) t (Some (d, policy par))) (up (pc s) th (Some (KInit d t)))); [exact I|apply hinv_begin; [apply si_h, I|assumption..]| |].
      * intros t1 d1 q1 J T. split; [rewrite up_ne; [exact T|congruence]|]. rewrite up_ne; [reflexivity|].
        intros ->. destruct (h_tb _ _ _ (si_h _ I) _ _ _ T) as (? & ? & X). cbn in *. congruence.
      * intros t1 d1 q1. destruct (Z.eq_dec t1 t) as [->|N]; cbn; [rewrite up_eq; intros H; injection H as <- <-; apply policy_gran|].
        rewrite up_ne by exact N. apply (si_pol _ I).
    + assert (X : forall d', up (blk s) d None d' = blk s d') by (intros d'; destruct (Z.eq_dec d' d) as [->|N]; [rewrite up_eq; auto|apply up_ne, N]).
      apply (sinv_handles s (up (blk s) d None) (tb s) (pc s)); [exact I| | |apply (si_pol _ I)].
      * destruct (si_h _ I) as [A B C D E F G]. split; [| |exact C| |exact E| |exact G]; intros *; rewrite ?X; intros H; rewrite ?X; eauto.
      * intros t1 d1 q1 _ T. rewrite X. auto.
  - destruct E as (d & t & Pc & Em). rewrite Pc. destruct (h_init _ _ _ (si_h _ I) _ _ _ Pc) as [[v Bd] [q Tt]]. destruct (Z.eqb_spec ret 0) as [->|N].
    + rewrite Bd. cbn [fst]. apply (sinv_handles s (up (blk s) d (Some (v, Some t))) (tb s) (up (pc s) th None)); [exact I| | |apply (si_pol _ I)].
      * apply hinv_created; [apply si_h, I|exact Pc|exact Bd].
      * intros t1 d1 q1 _ T. split; [exact T|]. destruct (Z.eq_dec d1 d) as [->|M]; [rewrite up_eq, Bd; reflexivity|rewrite up_ne by exact M; reflexivity].
    + cbn [fst]. specialize (Em N). apply (sinv_handles s (up (blk s) d None) (up (tb s) t None) (up (pc s) th None)); [exact I| | |].
      * eapply hinv_end; [apply si_h, I|left; exact Pc|exact Tt].
      * intros t1 d1 q1 J T. assert (t1 <> t). { intros ->. apply in_map_iff in J. destruct J as [[t2 r] [<- J]]. exact (Em _ J). }
        rewrite up_ne by assumption. split; [exact T|]. rewrite up_ne; [reflexivity|]. intros ->. apply H. eapply (h_inj _ _ _ (si_h _ I)); eassumption.
      * intros t1 d1 q1. destruct (Z.eq_dec t1 t) as [->|M]; [rewrite up_eq; discriminate|]. rewrite up_ne by exact M. apply (si_pol _ I).
  - destruct E as (Pc & t & [v Bd] & NF). rewrite Bd. cbn [fst].
    eapply (sinv_objs s); [exact I|cbn; apply hinv_pc; [apply si_h, I|exact Logic.I]|reflexivity..|exact (si_obj s I)|exact (si_objd s I)|reflexivity|exact (si_fe s I)].
  - destruct E as (t & n & Pc & Fi). rewrite Pc. destruct got as [a|]; cbn [fst].
    + destruct (fits_obj s t (a, n) I (Fi a eq_refl)) as [O OD].
      eapply (sinv_objs s); [exact I|cbn; apply hinv_pc; [apply si_h, I|exact Logic.I]|reflexivity..|exact O|exact OD|reflexivity|exact (si_fe s I)].
    + eapply (sinv_objs s); [exact I|cbn; apply hinv_pc; [apply si_h, I|exact Logic.I]|reflexivity..|exact (si_obj s I)|exact (si_objd s I)|reflexivity|exact (si_fe s I)].
  - destruct E as (Pc & t & ([v Bd] & NF) & Io). rewrite Bd. cbn [fst].
    eapply (sinv_objs s); [exact I|cbn; apply hinv_pc; [apply si_h, I|exact Logic.I]|reflexivity..| |apply pairs_drop, si_objd, I|reflexivity|exact (si_fe s I)].
    intros t1 o1 J. eapply si_obj; [exact I|]. eapply Proof_Jemalloc.drop_in, J.
  - destruct E as (t & a & m & n & Pc & Fi & Fo). rewrite Pc. destruct got as [b|]; cbn [fst].
    + destruct (fits_obj s t (b, n) I (Fi b eq_refl)) as [O OD].
      eapply (sinv_objs s); [exact I|cbn; apply hinv_pc; [apply si_h, I|exact Logic.I]|reflexivity..|exact O|exact OD|reflexivity|exact (si_fe s I)].
    + destruct (Z.eqb_spec n 0) as [->|N].
      * eapply (sinv_objs s); [exact I|cbn; apply hinv_pc; [apply si_h, I|exact Logic.I]|reflexivity..|exact (si_obj s I)|exact (si_objd s I)|reflexivity|exact (si_fe s I)].
      * destruct (fits_obj s t (a, m) I (Fo eq_refl N)) as [O OD].
        eapply (sinv_objs s); [exact I|cbn; apply hinv_pc; [apply si_h, I|exact Logic.I]|reflexivity..|exact O|exact OD|reflexivity|exact (si_fe s I)].
  - destruct E as (Pc & t & ([v Bd] & NF) & Io). rewrite Bd. cbn [fst].
    eapply (sinv_objs s); [exact I|cbn; apply hinv_pc; [apply si_h, I|exact Logic.I]|reflexivity..| |apply pairs_drop, si_objd, I|reflexivity|].
    + intros t1 o1 J. eapply si_obj; [exact I|]. eapply Proof_Jemalloc.drop_in, J.
    + intros th1. cbn. destruct (Z.eq_dec th1 th) as [->|N]; [rewrite !up_eq; intros H; elim H; reflexivity|rewrite !up_ne by exact N; apply (si_fe s I)].
  - rewrite E. cbn [fst].
    eapply (sinv_objs s); [exact I|cbn; apply hinv_pc; [apply si_h, I|exact Logic.I]|reflexivity..|exact (si_obj s I)|exact (si_objd s I)|reflexivity|exact (si_fe s I)].
  - destruct E as (Pc & t & ([v Bd] & NF) & NU). rewrite Bd. cbn [fst].
    eapply (sinv_objs s); [exact I|cbn; eapply hinv_fin; [apply si_h, I|exact Bd|exact NF]|reflexivity..| |cbn; apply pairs_filter, si_objd, I|reflexivity|exact (si_fe s I)].
    intros t1 o1 J. apply filter_In in J. eapply si_obj; [exact I|apply J].
  - destruct E as (d & t & Pc & Em). rewrite Pc. cbn [fst]. destruct (h_fin _ _ _ (si_h _ I) _ _ _ Pc) as [[v Bd] [q Tt]].
    apply (sinv_handles s (up (blk s) d None) (up (tb s) t None) (up (pc s) th None)); [exact I| | |].
    + eapply hinv_end; [apply si_h, I|right; exact Pc|exact Tt].
    + intros t1 d1 q1 J T. assert (t1 <> t). { intros ->. apply in_map_iff in J. destruct J as [[t2 r] [<- J]]. exact (Em _ J). }
      rewrite up_ne by assumption. split; [exact T|]. rewrite up_ne; [reflexivity|]. intros ->. apply H. eapply (h_inj _ _ _ (si_h _ I)); eassumption.
    + intros t1 d1 q1. destruct (Z.eq_dec t1 t) as [->|M]; [rewrite up_eq; discriminate|]. rewrite up_ne by exact M. apply (si_pol _ I).
  - destruct E as (Tt & Ap). destruct (tb s t) as [[d q]|] eqn:T; [|contradiction]. destruct (h_tb _ _ _ (si_h _ I) _ _ _ T) as (v & o & Bd). rewrite Bd.
    destruct got as [a|]; cbn [fst].
    2: { eapply (sinv_objs s); [exact I|exact (si_h s I)|reflexivity..|exact (si_obj s I)|exact (si_objd s I)|reflexivity|exact (si_fe s I)]. }
    assert (Ow : owner s t = v) by (unfold owner; rewrite T, Bd; reflexivity).
    split; cbn; [apply si_h, I| | | | |exact (si_objd s I)|apply si_bad, I|apply si_fe, I|apply (si_pol _ I)].
    + intros t1 r1 [X|X]; [injection X as <- _; congruence|eapply si_raw; eassumption].
    + change (owner _) with (owner s). rewrite <- Ow. apply Proof_Jemalloc.eqn_add, si_perm, I.
    + constructor; [|apply si_rawd, I]. rewrite Forall_forall. intros [t1 r1] J. cbn [snd].
      apply (Ap a (owner s t1) r1 eq_refl). eapply Permutation_in; [symmetry; exact (si_perm _ I)|]. apply in_or_app. left.
      change (owner s t1, r1) with (Proof_Jemalloc.own (owner s) (t1, r1)). apply in_map, J.
    + intros t1 o1 J. destruct (si_obj _ I _ _ J) as (r1 & J1 & J2). eauto.
  - destruct E as (Ir & No). destruct (tb s t) as [[d q]|] eqn:T; [|elim (si_raw _ I _ _ Ir T)]. destruct (h_tb _ _ _ (si_h _ I) _ _ _ T) as (v & o & Bd). rewrite Bd.
    assert (Ow : owner s t = v) by (unfold owner; rewrite T, Bd; reflexivity).
    assert (Ig : In (v, r) (given s)).
    { eapply Permutation_in; [symmetry; exact (si_perm _ I)|]. apply in_or_app. left. rewrite <- Ow.
      change (owner s t, r) with (Proof_Jemalloc.own (owner s) (t, r)). apply in_map, Ir. }
    assert (X : held (v, r) (given s) = true) by (apply Proof_Jemalloc.held_in, Ig). rewrite X.
    assert (Rw : forall t1 r1, In (t1, r1) (drop (t, r) (raws s)) -> tb s t1 <> None) by (intros t1 r1 J; eapply si_raw; [exact I|eapply Proof_Jemalloc.drop_in, J]).
    assert (Ob : forall t1 o1, In (t1, o1) (objs s) -> exists r1, In (t1, r1) (drop (t, r) (raws s)) /\ inside o1 r1).
    { intros t1 o1 J. destruct (si_obj _ I _ _ J) as (r1 & J1 & J2). exists r1. split; [|exact J2]. apply drop_keep; [exact J1|].
      intros Y. injection Y as -> ->. exact (No _ J J2). }
    assert (Y : sinv (set_mem s (drop (t, r) (raws s)) (drop (v, r) (given s)) (lost s))).
    { split; cbn; [apply si_h, I|exact Rw| |apply pairs_drop, si_rawd, I|exact Ob|exact (si_objd s I)|apply si_bad, I|apply si_fe, I|apply (si_pol _ I)].
      change (owner _) with (owner s). rewrite <- Ow. apply Proof_Jemalloc.eqn_drop; [exact Ir|apply si_perm, I]. }
    assert (W : ret <> SUCCESS -> sinv (set_fe (set_mem s (drop (t, r) (raws s)) (given s) ((v, r) :: lost s)) th ret (ret :: refusals s th))).
    { intros NS. split; cbn; [apply si_h, I|exact Rw| |apply pairs_drop, si_rawd, I|exact Ob|exact (si_objd s I)|apply si_bad, I| |apply (si_pol _ I)].
      - change (owner _) with (owner s). rewrite <- Ow. apply Proof_Jemalloc.eqn_lose; [exact Ir|apply si_perm, I].
      - intros th1. destruct (Z.eq_dec th1 th) as [->|N]; [rewrite !up_eq; left; reflexivity|rewrite !up_ne by exact N; apply (si_fe s I)]. }
    destruct ret; cbn [fst]; [exact Y|apply W; discriminate..].
Qed.

Lemma sreach_inv ok s : sreach ok s -> sinv s.
Proof. induction 1; [apply sinv0|apply sstep_inv; assumption]. Qed.
Lemma sreach_lost s : sreach takes_back s -> lost s = [].
Proof.
  induction 1 as [|s e R IH E T]; [reflexivity|].
  destruct e as [th v par od lib t|th ret|th d k|th got|th d a m n|th got|th d a m|th ok|th d|th|th t bytes got|th t r ret]; cbn [sstep takes_back] in *; subst;
    repeat match goal with |- context [match ?x with _ => _ end] => destruct x end; exact IH.
Qed.

Lemma objs_apart s : sinv s -> ForallOrdPairs (fun x y => apart (snd x) (snd y)) (objs s).
Proof.
  intros I. assert (G : forall l, (forall x, In x l -> In x (objs s)) -> ForallOrdPairs same_pool_apart l -> ForallOrdPairs (fun x y => apart (snd x) (snd y)) l).
  { intros l Sub P. induction P as [|[t o] l F P IH]; [constructor|]. constructor; [|apply IH; intros; apply Sub; right; assumption].
    rewrite Forall_forall in *. intros [t' o'] J. destruct (Z.eq_dec t t') as [E|N]; [exact (F _ J E)|].
    destruct (si_obj _ I t o (Sub _ (or_introl eq_refl))) as (r & R1 & R2). destruct (si_obj _ I t' o' (Sub _ (or_intror J))) as (r' & R3 & R4).
    eapply inside_apart; [exact R2|exact R4|].
    apply (pairs_in (fun x y => apart (snd x) (snd y)) (raws s) (t, r) (t', r')); [intros ? ?; apply apart_sym|apply si_rawd, I|exact R1|exact R3|congruence]. }
  apply G; [auto|apply si_objd, I].
Qed.
Lemma objs_given s t o : sinv s -> In (t, o) (objs s) ->
  exists r d v, inside o r /\ In (t, r) (raws s) /\ In (v, r) (given s) /\ (exists q, tb s t = Some (d, q)) /\ exists c, blk s d = Some (v, c).
Proof.
  intros I J. destruct (si_obj _ I _ _ J) as (r & R1 & R2). destruct (tb s t) as [[d q]|] eqn:T; [|elim (si_raw _ I _ _ R1 T)].
  destruct (h_tb _ _ _ (si_h _ I) _ _ _ T) as (v & c & Bd). exists r, d, v. split; [exact R2|]. split; [exact R1|]. split; [|split; eauto].
  eapply Permutation_in; [symmetry; exact (si_perm _ I)|]. apply in_or_app. left.
  assert (Ow : owner s t = v) by (unfold owner; rewrite T, Bd; reflexivity). rewrite <- Ow.
  change (owner s t, r) with (Proof_Jemalloc.own (owner s) (t, r)). apply in_map, R1.
Qed.
Lemma no_pools_no_raws s : sinv s -> (forall d, blk s d = None) -> raws s = [].
Proof.
  intros I N. destruct (raws s) as [|[t r] l] eqn:E; [reflexivity|]. assert (J : In (t, r) (raws s)) by (rewrite E; left; reflexivity).
  destruct (tb s t) as [[d q]|] eqn:T; [|elim (si_raw _ I _ _ J T)]. destruct (h_tb _ _ _ (si_h _ I) _ _ _ T) as (v & c & Bd). rewrite N in Bd. discriminate.
Qed.

Lemma last_cons {X} (x y : X) l : last (x :: l) y = last l x.
Proof. revert x y. induction l as [|z l IH]; intros x y; [reflexivity|]. change (last (x :: z :: l) y) with (last (z :: l) y). rewrite !IH. reflexivity. Qed.
Lemma set_params_last cs : forall p, set_params p cs = Params (last (grans cs) (p_gran p)) (last (keeps cs) (p_keep p)).
Proof.
  induction cs as [|c cs IH]; intros p; [destruct p; reflexivity|]. cbn [set_params]. rewrite IH. destruct c as [g|b]; cbn [set_param grans keeps flat_map].
  - destruct (g =? 0); cbn [fst app]; [reflexivity|]. rewrite last_cons. reflexivity.
  - cbn [fst app p_gran p_keep]. rewrite last_cons. reflexivity.
Qed.

Lemma runs_reach ok : forall es s, sreach ok s -> allowed ok s es -> sreach ok (runs s es).
Proof. induction es as [|e es IH]; cbn; intros s R A; [exact R|]. apply IH; [constructor; tauto|tauto]. Qed.

(* a step of another thread leaves the call and the error of a thread alone *)
Lemma other_thread s e th : thread e <> th -> pc (fst (sstep s e)) th = pc s th /\ ae (fst (sstep s e)) th = ae s th.
Proof.
  intros N. apply not_eq_sym in N.
  destruct e as [th' v par od lib t|th' ret|th' d k|th' got|th' d a m n|th' got|th' d a m|th' ok|th' d|th'|th' t bytes got|th' t r ret]; cbn [thread] in N; cbn [sstep];
    repeat match goal with |- context [match ?x with _ => _ end] => destruct x end; cbn; rewrite ?up_ne by exact N; split; reflexivity.
Qed.
Lemma callback_step s e th : sinv s -> enabled s e -> (thread e = th -> match e with CbAlloc _ _ _ _ | CbFree _ _ _ _ => True | _ => False end) ->
  pc (fst (sstep s e)) th = pc s th /\ ae (fst (sstep s e)) th = (if refused_to th e then ERR_OUT_OF_HOST_MEMORY else ae s th).
Proof.
  intros I E C. destruct (Z.eq_dec (thread e) th) as [T|T].
  - specialize (C T). destruct e as [th' v par od lib t|th' ret|th' d k|th' got|th' d a m n|th' got|th' d a m|th' ok|th' d|th'|th' t bytes got|th' t r ret]; try destruct C; cbn [thread] in T; subst th'; cbn [sstep refused_to].
    + cbn [enabled] in E. destruct E as [Tt _]. destruct (tb s t) as [[d q]|] eqn:X; [|contradiction]. destruct (h_tb _ _ _ (si_h _ I) _ _ _ X) as (v & o & Bd). rewrite Bd.
      destruct got; cbn; [split; reflexivity|]. rewrite up_eq, Z.eqb_refl. split; reflexivity.
    + repeat match goal with |- context [match ?x with _ => _ end] => destruct x end; split; reflexivity.
  - destruct (other_thread s e th T) as [-> ->]. split; [reflexivity|].
    assert (X : refused_to th e = false); [|rewrite X; reflexivity]. destruct e; try reflexivity. cbn [thread refused_to] in *. destruct got; [reflexivity|]. apply Z.eqb_neq, T.
Qed.
Lemma callbacks_run th : forall es s, sinv s -> allowed (fun _ => True) s es -> callbacks_only th es ->
  sinv (runs s es) /\ pc (runs s es) th = pc s th /\ ae (runs s es) th = (if existsb (refused_to th) es then ERR_OUT_OF_HOST_MEMORY else ae s th).
Proof.
  induction es as [|e es IH]; cbn [runs allowed existsb]; intros s I A C; [auto|]. destruct A as (E & _ & A).
  destruct (callback_step s e th I E (C e (or_introl eq_refl))) as [P Q].
  destruct (IH _ (sstep_inv s e I E) A (fun e' H => C e' (or_intror H))) as (I' & P' & Q'). split; [exact I'|]. split; [congruence|].
  rewrite Q', Q. destruct (refused_to th e); cbn [orb]; [|reflexivity]. destruct (existsb _ _); reflexivity.
Qed.
Lemma runs_app es es' : forall s, runs s (es ++ es') = runs (runs s es) es'.
Proof. induction es as [|e es IH]; intros s; [reflexivity|]. apply IH. Qed.
Lemma allowed_app ok es es' : forall s, allowed ok s (es ++ es') -> allowed ok s es /\ allowed ok (runs s es) es'.
Proof. induction es as [|e es IH]; cbn; intros s A; [auto|]. destruct A as (E & O & A). destruct (IH _ A). auto. Qed.

Lemma call_run s th d k es got : sreach (fun _ => True) s -> allowed (fun _ => True) s (BAlloc th d k :: es ++ [RAlloc th got]) -> callbacks_only th es ->
  exists t v s1, blk s d = Some (v, Some t) /\ pc s1 th = Some (KAlloc t (request k)) /\
    ae s1 th = (if existsb (refused_to th) es then ERR_OUT_OF_HOST_MEMORY else SUCCESS) /\
    runs s (BAlloc th d k :: es ++ [RAlloc th got]) = fst (sstep s1 (RAlloc th got)).
Proof.
  intros R A C. pose proof (sreach_inv _ s R) as I. cbn [allowed] in A. destruct A as (E & _ & A). apply allowed_app in A. destruct A as [A _].
  pose proof (sstep_inv s _ I E) as I1. cbn [enabled] in E. destruct E as (P & t & [v B] & _).
  destruct (callbacks_run th es _ I1 A C) as (_ & P1 & Q1). exists t, v, (runs (fst (sstep s (BAlloc th d k))) es).
  split; [exact B|]. rewrite P1, Q1. split; [cbn [sstep]; rewrite B; apply up_eq|]. split; [cbn [sstep]; rewrite B; cbn; rewrite up_eq; reflexivity|].
  exact (runs_app es [RAlloc th got] _).
Qed.
Lemma null_explained s th d k es : sreach (fun _ => True) s -> allowed (fun _ => True) s (BAlloc th d k :: es ++ [RAlloc th None]) -> callbacks_only th es ->
  ae (runs s (BAlloc th d k :: es ++ [RAlloc th None])) th = if existsb (refused_to th) es then ERR_OUT_OF_HOST_MEMORY else ERR_UNKNOWN.
Proof.
  intros R A C. destruct (call_run s th d k es None R A C) as (t & v & s1 & B & P & Q & ->). cbn [sstep]. rewrite P. cbn. rewrite up_eq, Q.
  destruct (existsb _ _); reflexivity.
Qed.
Lemma alloc_size s th d k es a : sreach (fun _ => True) s -> allowed (fun _ => True) s (BAlloc th d k :: es ++ [RAlloc th (Some a)]) -> callbacks_only th es ->
  exists t, In (t, (a, match k with Malloc n => n | Calloc num n => (num * n) mod 2 ^ 64 | Aligned n _ => n end))
    (objs (runs s (BAlloc th d k :: es ++ [RAlloc th (Some a)]))) /\ exists v, blk s d = Some (v, Some t).
Proof.
  intros R A C. destruct (call_run s th d k es (Some a) R A C) as (t & v & s1 & B & P & Q & ->). exists t. split; [|eauto]. cbn [sstep]. rewrite P. left.
  destruct k; reflexivity.
Qed.
