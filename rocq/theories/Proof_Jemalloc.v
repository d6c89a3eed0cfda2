(* Proofs about jemalloc pools. *)
From Coq Require Import Permutation.
From Verif Require Import Base Model_Jemalloc Spec_Jemalloc.

Lemma held_in x l : held x l = true <-> In x l.
Proof. unfold held. destruct (in_dec range_dec x l); split; intros; try assumption; try reflexivity; try discriminate; contradiction. Qed.
Lemma drop_perm x l : In x l -> Permutation l (x :: drop x l).
Proof.
  induction l as [|y l IH]; intros H; [destruct H|]. cbn [drop]. destruct (range_dec y x) as [->|N]; [reflexivity|].
  destruct H as [H|H]; [contradiction|]. rewrite perm_swap. constructor. apply IH, H.
Qed.
Lemma drop_in x y l : In y (drop x l) -> In y l.
Proof. induction l as [|z l IH]; cbn [drop]; [auto|]. destruct (range_dec z x); [right; exact H|]. intros [->|H]; [left; reflexivity|right; auto]. Qed.

(* what the providers gave out is what jemalloc holds and what was lost *)
Definition own (g : Z -> Z) (x : Z * range) : Z * range := (g (fst x), snd x).
Definition eqn (g : Z -> Z) (e a l : list (Z * range)) : Prop := Permutation a (map (own g) e ++ l).
Lemma eqn_drop g e a l i r : In (i, r) e -> eqn g e a l -> eqn g (drop (i, r) e) (drop (g i, r) a) l.
Proof.
  unfold eqn. intros I E. pose proof (Permutation_map (own g) (drop_perm _ _ I)) as P. cbn [map] in P. unfold own at 2 in P. cbn [fst snd] in P.
  assert (Q : Permutation a ((g i, r) :: map (own g) (drop (i, r) e) ++ l)) by (rewrite E, P; reflexivity).
  assert (J : In (g i, r) a) by (eapply Permutation_in; [symmetry; exact Q|left; reflexivity]).
  apply Permutation_cons_inv with (g i, r). rewrite <- (drop_perm _ _ J). exact Q.
Qed.
Lemma eqn_add g e a l i r : eqn g e a l -> eqn g ((i, r) :: e) ((g i, r) :: a) l.
Proof. unfold eqn. intros E. cbn [map app]. unfold own at 1. cbn [fst snd]. constructor. exact E. Qed.
Lemma eqn_lose g e a l i r : In (i, r) e -> eqn g e a l -> eqn g (drop (i, r) e) a ((g i, r) :: l).
Proof.
  unfold eqn. intros I E. pose proof (Permutation_map (own g) (drop_perm _ _ I)) as P. cbn [map] in P. unfold own at 2 in P. cbn [fst snd] in P.
  rewrite E, P. cbn [app]. rewrite <- Permutation_middle. reflexivity.
Qed.
Lemma eqn_lose_new g e a l x : eqn g e a l -> eqn g e (x :: a) (x :: l).
Proof. unfold eqn. intros E. rewrite E. rewrite <- Permutation_middle. reflexivity. Qed.
Lemma eqn_ext g g' e a l : (forall x, In x e -> g (fst x) = g' (fst x)) -> eqn g e a l -> eqn g' e a l.
Proof.
  unfold eqn. intros H E. rewrite E. apply Permutation_app_tail.
  rewrite (map_ext_in (own g) (own g') e); [reflexivity|]. intros x X. unfold own. rewrite (H x X). reflexivity.
Qed.

Definition tv (pv : Z -> Z) (t : Z -> option Z) (i : Z) : Z := match t i with Some p => pv p | None => 0 end.
Definition same_frame (s s' : jstate) : Prop :=
  creating s' = creating s /\ live s' = live s /\ clearing s' = clearing s /\ table s' = table s /\ crashed s' = crashed s.
Lemma run_frame v i h s : same_frame s (run_hook v i h s).
Proof.
  unfold same_frame. destruct h as [na sz got fr|r ok|r ok|[a n] k ok|[a n] [b m] ok]; cbn [run_hook];
    repeat match goal with |- context [match ?x with _ => _ end] => destruct x end; cbn; auto.
Qed.
Lemma run_exts v i h s x : In x (exts (run_hook v i h s)) -> In x (exts s) \/ fst x = i.
Proof.
  destruct h as [na sz got fr|r ok|r ok|[a n] k ok|[a n] [b m] ok]; cbn [run_hook].
  - destruct got; [|auto]. destruct (_ && _); cbn; [auto|]. intros [<-|H]; auto.
  - destruct (_ && _); cbn; [|auto]. intros H. left. eapply drop_in, H.
  - destruct (held _ _); cbn; [|auto]. intros H. left. eapply drop_in, H.
  - destruct (_ && _); cbn; [|auto]. intros [<-|[<-|H]]; [auto|auto|]. left. eapply drop_in, H.
  - destruct (_ && _); cbn; [|auto]. intros [<-|H]; [auto|]. left. eapply drop_in, drop_in, H.
Qed.
Lemma run_eqn g i h s : eqn g (exts s) (allocs s) (lost s) ->
  eqn g (exts (run_hook (g i) i h s)) (allocs (run_hook (g i) i h s)) (lost (run_hook (g i) i h s)).
Proof.
  intros E. destruct h as [na sz got fr|r ok|r ok|[a n] k ok|[a n] [b m] ok]; cbn [run_hook].
  - destruct got as [p|]; [|exact E]. destruct (_ && _); cbn; [|apply eqn_add, E]. destruct fr; [exact E|apply eqn_lose_new, E].
  - destruct (held (i, r) (exts s)) eqn:H; cbn [andb]; [|exact E]. destruct ok; cbn; [|exact E]. apply held_in in H. apply eqn_drop; assumption.
  - destruct (held (i, r) (exts s)) eqn:H; [|exact E]. apply held_in in H. destruct ok; cbn; [apply eqn_drop|apply eqn_lose]; assumption.
  - destruct (held (i, (a, n)) (exts s)) eqn:H; cbn [andb]; [|exact E]. destruct ok; cbn; [|exact E]. apply held_in in H. apply eqn_add, eqn_add, eqn_drop; assumption.
  - destruct (held (i, (a, n)) (exts s)) eqn:H; cbn [andb]; [|exact E]. destruct (held (i, (b, m)) (drop (i, (a, n)) (exts s))) eqn:H2; cbn [andb]; [|exact E].
    destruct ok; cbn; [|exact E]. apply held_in in H, H2. apply eqn_add, eqn_drop; [exact H2|]. apply eqn_drop; assumption.
Qed.
Lemma run_lost v i h s p : takes_back (Hook p i h) -> lost (run_hook v i h s) = lost s.
Proof.
  destruct h as [na sz got fr|r ok|r ok|[a n] k ok|[a n] [b m] ok]; cbn [run_hook takes_back]; intros T; subst;
    repeat match goal with |- context [match ?x with _ => _ end] => destruct x end; reflexivity.
Qed.

Record jinv (pv : Z -> Z) (s : jstate) : Prop := JInv {
  ji_table : forall p i, In (p, i) (live s) -> table s i = Some p;
  ji_live : NoDup (map snd (live s));
  ji_creating : NoDup (map snd (creating s));
  ji_apart : forall i, In i (map snd (creating s)) -> ~ In i (map snd (live s));
  ji_clearing : forall i, In i (clearing s) -> ~ In i (map snd (live s)) /\ ~ In i (map snd (creating s));
  ji_exts : forall x, In x (exts s) -> In (fst x) (map snd (live s));
  ji_eqn : eqn (tv pv (table s)) (exts s) (allocs s) (lost s);
  ji_crash : crashed s = false }.

Lemma hook_inv pv i p h s : jinv pv s -> In (p, i) (live s) -> jinv pv (call_hook pv i h s).
Proof.
  intros [T L C A K X E F] I. unfold call_hook. rewrite (T p i I).
  destruct (run_frame (pv p) i h s) as (F1 & F2 & F3 & F4 & F5).
  constructor; rewrite ?F1, ?F2, ?F3, ?F4, ?F5; try assumption.
  - intros x H. destruct (run_exts _ _ _ _ _ H) as [H'|H']; [apply X, H'|]. rewrite H'. change i with (snd (p, i)). apply in_map, I.
  - pose proof (run_eqn (tv pv (table s)) i h s E) as R. replace (tv pv (table s) i) with (pv p) in R by (unfold tv; rewrite (T p i I); reflexivity). exact R.
Qed.
Lemma call_frame pv i p h s : table s i = Some p -> same_frame s (call_hook pv i h s).
Proof. intros T. unfold call_hook. rewrite T. apply run_frame. Qed.

Lemma discard_inv pv i p : forall rs oks s, jinv pv s -> In (p, i) (live s) ->
  jinv pv (discard pv i rs oks s) /\ same_frame s (discard pv i rs oks s).
Proof.
  induction rs as [|r rs IH]; intros oks s J I; cbn [discard]; [split; [exact J|unfold same_frame; auto]|].
  pose proof (hook_inv pv i p (Destroy r (hd true oks)) s J I) as J'.
  pose proof (call_frame pv i p (Destroy r (hd true oks)) s (ji_table _ _ J p i I)) as F.
  destruct (IH (tl oks) _ J') as [J2 F2]; [destruct F as (_ & -> & _); exact I|]. split; [exact J2|].
  unfold same_frame in *. destruct F as (a & b & c & d & e), F2 as (a' & b' & c' & d' & e'). rewrite a', b', c', d', e'. auto.
Qed.
Lemma mine_cons i x l : mine i (x :: l) = if fst x =? i then snd x :: mine i l else mine i l.
Proof. unfold mine. cbn [filter]. destruct (fst x =? i); reflexivity. Qed.
Lemma in_mine i r l : In r (mine i l) <-> In (i, r) l.
Proof.
  unfold mine. rewrite in_map_iff. split.
  - intros ([j q] & E & H). cbn in E. subst q. apply filter_In in H. destruct H as [H G]. cbn in G. apply Z.eqb_eq in G. subst j. exact H.
  - intros H. exists (i, r). split; [reflexivity|]. apply filter_In. split; [exact H|cbn; apply Z.eqb_refl].
Qed.
(* after it, the arena holds nothing *)
Lemma drop_mine i r l : In (i, r) l -> Permutation (mine i l) (r :: mine i (drop (i, r) l)).
Proof.
  intros H. pose proof (drop_perm _ _ H) as P. assert (Q : Permutation (mine i l) (mine i ((i, r) :: drop (i, r) l))).
  { unfold mine. apply Permutation_map. clear - P. induction P; cbn; try constructor; auto.
    - destruct (fst x =? i); [constructor|]; assumption.
    - destruct (fst x =? i), (fst y =? i); try constructor; try reflexivity. 
    - rewrite IHP1. assumption. }
  rewrite Q, mine_cons. cbn [fst snd]. rewrite Z.eqb_refl. reflexivity.
Qed.
Lemma discard_empty pv i p : forall rs oks s, jinv pv s -> In (p, i) (live s) -> Permutation (mine i (exts s)) rs ->
  mine i (exts (discard pv i rs oks s)) = [].
Proof.
  induction rs as [|r rs IH]; intros oks s J I P; cbn [discard].
  - apply Permutation_sym, Permutation_nil in P. exact P.
  - assert (R : In (i, r) (exts s)) by (apply in_mine; eapply Permutation_in; [symmetry; exact P|left; reflexivity]).
    pose proof (call_frame pv i p (Destroy r (hd true oks)) s (ji_table _ _ J p i I)) as F.
    apply IH; [eapply hook_inv; eassumption|destruct F as (_ & -> & _); exact I|].
    unfold call_hook. rewrite (ji_table _ _ J p i I). cbn [run_hook]. assert (H : held (i, r) (exts s) = true) by (apply held_in, R). rewrite H. cbn [exts set_mem].
    apply Permutation_cons_inv with r. rewrite <- P. symmetry. apply drop_mine, R.
Qed.
Lemma discard_exts pv i p : forall rs oks s x, jinv pv s -> In (p, i) (live s) -> In x (exts (discard pv i rs oks s)) -> In x (exts s).
Proof.
  induction rs as [|r rs IH]; intros oks s x J I H; cbn [discard] in H; [exact H|].
  pose proof (call_frame pv i p (Destroy r (hd true oks)) s (ji_table _ _ J p i I)) as F.
  apply IH in H; [|eapply hook_inv; eassumption|destruct F as (_ & -> & _); exact I].
  unfold call_hook in H. rewrite (ji_table _ _ J p i I) in H. cbn [run_hook] in H. destruct (held _ _); cbn in H; [eapply drop_in, H|exact H].
Qed.

Lemma snd_removed p i l : NoDup (map snd l) -> In (p, i) l -> ~ In i (map snd (remove pair_dec (p, i) l)).
Proof.
  intros N I H. apply in_map_iff in H. destruct H as ([q j] & E & H). cbn in E. subst j. apply in_remove in H. destruct H as [H D].
  assert (q = p); [|congruence]. clear D. induction l as [|[a b] l IH]; [destruct I|]. cbn in N. inversion N as [|? ? N1 N2]; subst.
  destruct I as [I|I], H as [H|H]; try congruence; [injection I as -> ->|injection H as -> ->|apply IH; assumption];
    elim N1; apply in_map_iff; eexists; (split; [|eassumption]); reflexivity.
Qed.
Lemma nodup_removed x l : NoDup (map snd l) -> NoDup (map (@snd Z Z) (remove pair_dec x l)).
Proof.
  induction l as [|y l IH]; intros N; [constructor|]. cbn in N. inversion N as [|? ? N1 N2]; subst. cbn [remove].
  destruct (pair_dec x y); [apply IH, N2|]. cbn. constructor; [|apply IH, N2]. intros H. apply N1. apply in_map_iff in H. destruct H as (z & E & H).
  apply in_remove in H. apply in_map_iff. exists z. tauto.
Qed.
Lemma in_removed i x l : In i (map snd (remove pair_dec x l)) -> In i (map (@snd Z Z) l).
Proof. intros H. apply in_map_iff in H. destruct H as (z & E & H). apply in_remove in H. apply in_map_iff. exists z. tauto. Qed.
Lemma tv_set pv t i x j : j <> i -> tv pv (set_table t i x) j = tv pv t j.
Proof. unfold tv, set_table. intros N. destruct (Z.eqb_spec j i); [contradiction|reflexivity]. Qed.

Lemma jstep_inv pv s e : jinv pv s -> enabled s e -> calm s e -> jinv pv (jstep pv s e).
Proof.
  intros J EN CA. pose proof J as [T L C A K X E F]. destruct e as [p i|p i|p i oks|i|p i h]; cbn [enabled calm jstep] in *.
  - destruct EN as [E1 E2]. constructor; cbn; try assumption.
    + constructor; assumption.
    + intros j [<-|H]; [exact E2|apply A, H].
    + intros j H. destruct (K j H) as [K1 K2]. split; [exact K1|]. intros [->|Q]; [exact (CA H)|exact (K2 Q)].
  - assert (II : In i (map snd (creating s))) by (apply in_map_iff; exists (p, i); auto). pose proof (A i II) as NL.
    constructor; cbn; try assumption.
    + intros q j [H|H]; unfold set_table; [injection H as -> ->; rewrite Z.eqb_refl; reflexivity|].
      destruct (Z.eqb_spec j i) as [->|N]; [|apply T, H]. elim NL. apply in_map_iff. exists (q, i). auto.
    + constructor; assumption.
    + apply nodup_removed, C.
    + intros j H [->|Q]; [exact (snd_removed p j _ C EN H)|]. exact (A j (in_removed _ _ _ H) Q).
    + intros j H. destruct (K j H) as [K1 K2]. split; [|intros Q; apply K2; eapply in_removed, Q]. intros [->|Q]; [exact (K2 II)|exact (K1 Q)].
    + intros x H. right. apply X, H.
    + eapply eqn_ext; [|exact E]. intros x H. symmetry. apply tv_set. intros Q. apply NL. rewrite <- Q. apply X, H.
  - destruct (discard_inv pv i p (mine i (exts s)) oks s J EN) as [[T' L' C' A' K' X' E' F'] (f1 & f2 & f3 & f4 & f5)].
    pose proof (discard_empty pv i p (mine i (exts s)) oks s J EN (Permutation_refl _)) as Z0.
    assert (II : In i (map snd (live s))) by (apply in_map_iff; exists (p, i); auto).
    set (s' := discard pv i (mine i (exts s)) oks s) in *. constructor; cbn; try assumption.
    + intros q j H. apply in_remove in H. apply T', H.
    + apply nodup_removed, L'.
    + intros j H Q. exact (A' j H (in_removed _ _ _ Q)).
    + intros j [<-|H].
      * split; [apply snd_removed; rewrite f2; assumption|]. rewrite f1. intros Q. exact (A i Q II).
      * destruct (K' j H) as [K1 K2]. split; [|exact K2]. intros Q. apply K1. eapply in_removed, Q.
    + intros x H. pose proof (X' x H) as Y. apply in_map_iff in Y. destruct Y as (y & Ey & Y). apply in_map_iff. exists y. split; [exact Ey|].
      apply in_in_remove; [|exact Y]. intros ->. cbn in Ey. destruct x as [j r]. cbn in Ey. subst j.
      assert (In r (mine i (exts s'))) as W by (apply in_mine; exact H). rewrite Z0 in W. destruct W.
  - destruct (K i EN) as [K1 K2]. constructor; cbn; try assumption.
    + intros q j H. unfold set_table. destruct (Z.eqb_spec j i) as [->|N]; [|apply T, H]. elim K1. apply in_map_iff. exists (q, i). auto.
    + intros j H. apply in_remove in H. apply K, H.
    + eapply eqn_ext; [|exact E]. intros x H. symmetry. apply tv_set. intros Q. apply K1. rewrite <- Q. apply X, H.
  - eapply hook_inv; eassumption.
Qed.
Lemma jreach_inv pv s : jreach pv calm s -> jinv pv s.
Proof. induction 1 as [|s e R IH EN CA]; [constructor; cbn; try constructor; try tauto|apply jstep_inv; assumption]. Qed.
Lemma jreach_weaken pv (ok ok' : jstate -> jev -> Prop) s : (forall s e, ok s e -> ok' s e) -> jreach pv ok s -> jreach pv ok' s.
Proof. intros W. induction 1; [constructor|constructor; auto]. Qed.

(* the spec's account *)
Lemma split_mine i (e : list (Z * range)) : Permutation e (filter (fun x => fst x =? i) e ++ filter (fun x => negb (fst x =? i)) e).
Proof.
  induction e as [|x e IH]; [constructor|]. cbn [filter]. destruct (fst x =? i); cbn [negb app].
  - constructor. exact IH.
  - rewrite <- Permutation_middle. constructor. exact IH.
Qed.
Lemma mine_other i j (e : list (Z * range)) : j <> i -> mine j e = mine j (filter (fun x => negb (fst x =? i)) e).
Proof.
  intros N. induction e as [|x e IH]; [reflexivity|]. rewrite mine_cons. cbn [filter]. destruct (Z.eqb_spec (fst x) i) as [E|E]; cbn [negb].
  - destruct (Z.eqb_spec (fst x) j); [congruence|exact IH].
  - rewrite mine_cons. destruct (fst x =? j); rewrite IH; reflexivity.
Qed.
Lemma flat_account pv (g : Z -> Z) : forall (L : list (Z * Z)) (e : list (Z * range)), NoDup (map snd L) -> (forall x, In x e -> In (fst x) (map snd L)) ->
  (forall p i, In (p, i) L -> g i = pv p) ->
  Permutation (map (own g) e) (flat_map (fun pi => map (fun r => (pv (fst pi), r)) (mine (snd pi) e)) L).
Proof.
  induction L as [|[p i] L IH]; intros e N X G.
  - destruct e as [|x e]; [constructor|]. elim (X x). left. reflexivity.
  - cbn [map] in N. inversion N as [|? ? N1 N2]; subst. cbn [flat_map fst snd]. rewrite (Permutation_map (own g) (split_mine i e)). rewrite map_app.
    apply Permutation_app.
    + unfold mine. rewrite map_map. rewrite (map_ext_in (own g) (fun x => (pv p, snd x))); [reflexivity|].
      intros [j r] H. apply filter_In in H. destruct H as [_ H]. cbn [fst] in H. apply Z.eqb_eq in H. subst j. unfold own. cbn [fst snd]. rewrite (G p i); [reflexivity|left; reflexivity].
    + rewrite (IH (filter (fun x => negb (fst x =? i)) e) N2).
      * rewrite !flat_map_concat_map. erewrite map_ext_in; [reflexivity|]. intros [q j] H. cbn [fst snd]. rewrite <- mine_other; [reflexivity|].
        intros ->. apply N1. apply in_map_iff. exists (q, i). auto.
      * intros x H. apply filter_In in H. destruct H as [H B]. destruct (X x H) as [Y|Y]; [cbn in Y; rewrite Y, Z.eqb_refl in B; discriminate|exact Y].
      * intros q j H. apply G. right. exact H.
Qed.
Lemma account pv s : jinv pv s -> Permutation (allocs s) (of_pools pv s ++ lost s).
Proof.
  intros [T L C A K X E F]. unfold of_pools. rewrite <- (flat_account pv (tv pv (table s)) (live s) (exts s) L X).
  - exact E.
  - intros p i H. unfold tv. rewrite (T p i H). reflexivity.
Qed.

Lemma discard_lost pv i p : forall rs oks s, jinv pv s -> In (p, i) (live s) -> Forall (eq true) oks -> lost (discard pv i rs oks s) = lost s.
Proof.
  induction rs as [|r rs IH]; intros oks s J I O; cbn [discard]; [reflexivity|].
  pose proof (call_frame pv i p (Destroy r (hd true oks)) s (ji_table _ _ J p i I)) as F.
  rewrite IH; [|eapply hook_inv; eassumption|destruct F as (_ & -> & _); exact I|destruct oks; [constructor|inversion O; assumption]].
  unfold call_hook. rewrite (ji_table _ _ J p i I). apply run_lost with (p := p). destruct oks as [|b oks]; [reflexivity|]. inversion O; subst. reflexivity.
Qed.
Lemma step_lost pv s e : jinv pv s -> enabled s e -> takes_back e -> lost (jstep pv s e) = lost s.
Proof.
  intros J EN TB. destruct e as [p i|p i|p i oks|i|p i h]; cbn [jstep enabled] in *; try reflexivity.
  - cbn. eapply discard_lost; eassumption.
  - unfold call_hook. rewrite (ji_table _ _ J p i EN). eapply run_lost, TB.
Qed.
Lemma nothing_lost pv s : jreach pv (fun s e => calm s e /\ takes_back e) s -> lost s = [].
Proof.
  induction 1 as [|s e R IH EN [CA TB]]; [reflexivity|]. rewrite step_lost; [exact IH| |exact EN|exact TB].
  apply jreach_inv. eapply jreach_weaken; [|exact R]. cbn. tauto.
Qed.
(* an extent requested at a place is at that place *)
Lemma alloc_place v i na sz got fr s x : na <> 0 -> In x (exts (run_hook v i (Alloc na sz got fr) s)) -> In x (exts s) \/ x = (i, (na, sz)).
Proof.
  intros N. cbn [run_hook]. destruct got as [p|]; [|auto]. destruct (Z.eqb_spec na 0); [contradiction|]. destruct (Z.eqb_spec p na) as [->|M]; cbn; [|auto].
  intros [<-|H]; auto.
Qed.
