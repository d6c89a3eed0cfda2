From Verif Require Import Base Model_Critnib Proof_Critnib Spec_Map Proof_CritnibMap Model_Tracker Spec_Tracker.

(* ---- the levels as functions ---- *)
Definition levels := nat -> Z -> option entry.
Definition put (A : levels) (k : nat) (q : Z) (o : option entry) : levels :=
  fun k' q' => if Nat.eqb k' k && (q' =? q) then o else A k' q'.
Definition RT (t : tracker) (A : levels) : Prop := length t = MAX_LEVELS /\ forall k, rep (level_map t k) (A k).

Lemma rep_ext : forall V (t : tree V) m m', rep t m -> (forall k, m k = m' k) -> rep t m'.
Proof. intros V t m m' (G & R) E. split; [exact G|]. intros k v. rewrite R, E. tauto. Qed.

Lemma set_level_len : forall t k m, length (set_level t k m) = length t.
Proof. induction t as [|a t IH]; intros [|k] m; cbn; auto. Qed.
Lemma set_level_same : forall t k m, (k < length t)%nat -> level_map (set_level t k m) k = m.
Proof. unfold level_map. induction t as [|a t IH]; intros [|k] m L; cbn in *; try lia; auto. apply IH. lia. Qed.
Lemma set_level_other : forall t k j m, j <> k -> level_map (set_level t k m) j = level_map t j.
Proof. unfold level_map. induction t as [|a t IH]; intros [|k] [|j] m L; cbn in *; try congruence; auto. Qed.
Lemma high_empty : forall t A k q, RT t A -> (MAX_LEVELS <= k)%nat -> A k q = None.
Proof.
  intros t A k q (LN & R) H. destruct (A k q) as [e|] eqn:E; [|reflexivity]. apply (proj2 (R k)) in E.
  unfold level_map in E. rewrite nth_overflow in E by lia. destruct E.
Qed.

Lemma RT_set : forall t A k q o m, RT t A -> (k < MAX_LEVELS)%nat -> rep m (put A k q o k) -> RT (set_level t k m) (put A k q o).
Proof.
  intros t A k q o m (LN & R) K RM. split; [rewrite set_level_len; exact LN|]. intros j. destruct (Nat.eq_dec j k) as [->|N].
  - rewrite set_level_same by lia. exact RM.
  - rewrite set_level_other by exact N. apply (rep_ext _ _ (A j)); [apply R|]. intros q'. unfold put. apply Nat.eqb_neq in N. rewrite N. reflexivity.
Qed.

Lemma insert_cases : forall t (A : levels) k q v lo no u, RT t A -> is_word q ->
  let r := critnib_insert lo no (level_map t k) q v u in
  (snd r = INS_OK /\ rep (fst r) (put A k q (Some v) k) /\ (A k q = None \/ u = true)) \/
  (snd r = INS_EEXIST /\ A k q <> None) \/ (snd r = INS_ENOMEM /\ lo && no = false).
Proof.
  intros t A k q v lo no u (LN & R) W. cbv zeta. destruct (step_rep _ _ (OpInsert lo no q v u) (R k) W) as (t' & r & m' & E & AL & RP).
  cbn [Model_Critnib.step] in E. destruct (critnib_insert lo no (level_map t k) q v u) as [t1 c]. cbn [fst snd].
  assert (P : forall q', set (A k) q v q' = put A k q (Some v) k q') by (intros q'; unfold set, put; rewrite Nat.eqb_refl; reflexivity).
  destruct c; try discriminate; injection E as <- <-; inversion AL; subst.
  - left. split; [reflexivity|]. split; [exact (rep_ext _ _ _ _ RP P)|auto].
  - left. split; [reflexivity|]. split; [exact (rep_ext _ _ _ _ RP P)|auto].
  - right; left. split; [reflexivity|congruence].
  - right; right. split; [reflexivity|assumption].
Qed.
Lemma get_RT : forall t A k q, RT t A -> critnib_get (level_map t k) q = A k q.
Proof. intros t A k q (_ & R). apply get_rep, R. Qed.
Lemma poke_RT : forall t A k q e f, RT t A -> A k q = Some e -> RT (poke t k q f) (put A k q (Some (f e))).
Proof.
  intros t A k q e f R E. unfold poke. rewrite (get_RT _ _ _ _ R), E.
  assert (W : is_word q) by (apply (rep_word _ _ q (proj2 R k)); congruence).
  assert (K : (k < MAX_LEVELS)%nat) by (destruct (le_lt_dec MAX_LEVELS k) as [H|H]; [rewrite (high_empty _ _ _ _ R H) in E; discriminate|exact H]).
  destruct (insert_cases t A k q (f e) true true true R W) as [(_ & RP & _)|[(C & _)|(_ & C)]]; [| |discriminate].
  - apply RT_set; assumption.
  - destruct (step_rep _ _ (OpInsert true true q (f e) true) (proj2 R k) W) as (t' & r & m' & ES & AL & _).
    cbn [Model_Critnib.step] in ES. destruct (critnib_insert true true (level_map t k) q (f e) true) as [t1 c]. cbn [snd] in C. subst c.
    injection ES as <- <-. inversion AL.
Qed.
Lemma remove_RT : forall t A k q e, RT t A -> A k q = Some e ->
  exists m, critnib_remove (level_map t k) q = Some (m, Some e) /\ RT (set_level t k m) (put A k q None).
Proof.
  intros t A k q e R E. assert (W : is_word q) by (apply (rep_word _ _ q (proj2 R k)); congruence).
  assert (K : (k < MAX_LEVELS)%nat) by (destruct (le_lt_dec MAX_LEVELS k) as [H|H]; [rewrite (high_empty _ _ _ _ R H) in E; discriminate|exact H]).
  destruct (step_rep _ _ (OpRemove q) (proj2 R k) W) as (t' & r & m' & ES & AL & RP). cbn [Model_Critnib.step] in ES.
  destruct (critnib_remove (level_map t k) q) as [(t1, r1)|]; [|discriminate]. injection ES as <- <-. inversion AL; subst. exists t1.
  split; [congruence|]. apply RT_set; [exact R|exact K|]. apply (rep_ext _ _ _ _ RP). intros q'. unfold clear, put. rewrite Nat.eqb_refl. reflexivity.
Qed.

(* ---- invariant ---- *)
Definition region_of (q : Z) (e : entry) : region := Region q (e_size e) (e_pool e).
Definition item (A : levels) (k : nat) (x q : Z) (e : entry) : Prop := A k q = Some e /\ q <= x < q + e_size e.
Definition stack (L : list region) (x : Z) : list region := rev (filter (covers x) L).
Definition nice (g : region) : Prop := 0 < g_base g /\ 0 < g_size g /\ g_base g + g_size g < U64 /\ g_pool g <> 0.
Definition kids (A : levels) (k : nat) (q : Z) (e : entry) (n : Z) : Prop :=
  exists l, NoDup l /\ (forall c, In c l <-> q <= c < q + e_size e /\ A (S k) c <> None) /\ n = Z.of_nat (length l).

Record Inv (A : levels) (L : list region) : Prop := {
  i_nice : forall g, In g L -> nice g;
  i_pos : forall k q e, A k q = Some e -> 0 < e_size e;
  i_ord : ForallOrdPairs (fun g h => inside g h \/ apart g h) L;
  i_stack : forall x k g, nth_error (stack L x) k = Some g <-> exists q e, item A k x q e /\ g = region_of q e;
  i_kids : forall k q e, A k q = Some e -> kids A k q e (e_children e)
}.

Lemma covers_iff : forall x g, covers x g = true <-> g_base g <= x < g_base g + g_size g.
Proof. intros. unfold covers. lia. Qed.
Lemma stack_in : forall L x k g, nth_error (stack L x) k = Some g -> In g L /\ covers x g = true.
Proof. intros L x k g H. apply nth_error_In in H. unfold stack in H. apply in_rev, filter_In in H. exact H. Qed.

Lemma ford_filter : forall R (l : list region) f, ForallOrdPairs R l -> ForallOrdPairs R (filter f l).
Proof.
  intros R l f H. induction H as [|a l F H IH]; cbn; [constructor|]. destruct (f a); [|exact IH]. constructor; [|exact IH].
  rewrite Forall_forall in *. intros x X. apply filter_In in X. apply F, X.
Qed.
Lemma ford_rev : forall R (l : list region) i j a b, ForallOrdPairs R l -> (i < j)%nat ->
  nth_error (rev l) i = Some a -> nth_error (rev l) j = Some b -> R b a.
Proof.
  intros R l i j a b H. revert i j a b. induction H as [|c l F H IH]; intros i j a b LT NA NB; cbn [rev] in *.
  - destruct i; discriminate.
  - assert (JL : (j < length (rev l ++ [c]))%nat) by (apply nth_error_Some; congruence). rewrite app_length in JL. cbn in JL.
    rewrite nth_error_app1 in NA by lia. destruct (Nat.eq_dec j (length (rev l))) as [->|N].
    + rewrite nth_error_app2, Nat.sub_diag in NB by lia. injection NB as <-. rewrite Forall_forall in F. apply F.
      apply nth_error_In in NA. apply in_rev. exact NA.
    + rewrite nth_error_app1 in NB by lia. exact (IH i j a b LT NA NB).
Qed.

Lemma skipn_level : forall (t : tracker) k, (k < length t)%nat -> skipn k t = level_map t k :: skipn (S k) t.
Proof. unfold level_map. induction t as [|a t IH]; intros [|k] H; cbn in *; try lia; auto. apply IH. lia. Qed.

Section Read.
Variables (t : tracker) (A : levels) (L : list region).
Hypothesis (R : RT t A) (I : Inv A L).

Lemma item_at : forall k x q e, item A k x q e -> nth_error (stack L x) k = Some (region_of q e).
Proof. intros k x q e H. apply (i_stack _ _ I). eauto. Qed.
Lemma item_nice : forall k q e, A k q = Some e -> nice (region_of q e).
Proof.
  intros k q e H. pose proof (i_pos _ _ I _ _ _ H) as P. apply (i_nice _ _ I). apply (stack_in _ q k). apply item_at. split; [exact H|lia].
Qed.
Lemma item_uniq : forall k x q e q' e', item A k x q e -> item A k x q' e' -> q = q' /\ e = e'.
Proof.
  intros k x q e q' e' H H'. pose proof (item_at _ _ _ _ H) as X. rewrite (item_at _ _ _ _ H') in X. injection X as E _ _. subst q'.
  split; [reflexivity|]. destruct H, H'. congruence.
Qed.
Lemma item_up : forall k x q e, item A (S k) x q e -> exists q' e', item A k x q' e' /\ inside (region_of q e) (region_of q' e').
Proof.
  intros k x q e H. pose proof (item_at _ _ _ _ H) as N. assert (LN : (S k < length (stack L x))%nat) by (apply nth_error_Some; congruence).
  destruct (nth_error (stack L x) k) as [g|] eqn:E; [|apply nth_error_None in E; lia].
  pose proof (proj1 (i_stack _ _ I x k g) E) as (q' & e' & H' & ->). exists q', e'. split; [exact H'|].
  destruct (ford_rev _ _ k (S k) _ _ (ford_filter _ _ (covers x) (i_ord _ _ I)) ltac:(lia) E N) as [X|X]; [exact X|].
  destruct H as (_ & B), H' as (_ & B'). unfold apart in X. cbn in X. lia.
Qed.
Lemma depth_le : forall x, (length (stack L x) <= MAX_LEVELS)%nat.
Proof.
  intros x. destruct (le_lt_dec (length (stack L x)) MAX_LEVELS) as [H|H]; [exact H|]. exfalso.
  destruct (nth_error (stack L x) MAX_LEVELS) as [g|] eqn:E; [|apply nth_error_None in E; lia].
  apply (i_stack _ _ I) in E. destruct E as (q & e & (H1 & _) & _). rewrite (high_empty _ _ _ _ R (le_n _)) in H1. discriminate.
Qed.

(* the kids counter says whether anything starts inside *)
Lemma no_kids : forall k q e, A k q = Some e -> e_children e = 0 -> forall c, q <= c < q + e_size e -> A (S k) c = None.
Proof.
  intros k q e H Z c C. destruct (i_kids _ _ I k q e H) as (l & ND & IN & N). destruct l; [|cbn in N; lia].
  destruct (A (S k) c) eqn:E; [|reflexivity]. exfalso. apply (proj2 (IN c)). split; [exact C|congruence].
Qed.
Lemma some_kids : forall k q e, A k q = Some e -> e_children e <> 0 -> exists c e', q <= c < q + e_size e /\ A (S k) c = Some e'.
Proof.
  intros k q e H Z. destruct (i_kids _ _ I k q e H) as (l & ND & IN & N). destruct l as [|c l]; [cbn in N; lia|].
  destruct (proj1 (IN c) (or_introl eq_refl)) as (B & X). destruct (A (S k) c) as [e'|] eqn:E; [|congruence]. eauto.
Qed.
Lemma kids_nonneg : forall k q e, A k q = Some e -> 0 <= e_children e.
Proof. intros k q e H. destruct (i_kids _ _ I k q e H) as (l & _ & _ & ->). lia. Qed.

(* ---- the descents ---- *)
Lemma item_iff : forall x k, (exists q e, item A k x q e) <-> (k < length (stack L x))%nat.
Proof.
  intros x k. split.
  - intros (q & e & H). apply nth_error_Some. rewrite (item_at _ _ _ _ H). discriminate.
  - intros H. destruct (nth_error (stack L x) k) as [g|] eqn:E; [|apply nth_error_None in E; lia].
    apply (i_stack _ _ I) in E. destruct E as (q & e & H' & _). eauto.
Qed.
Lemma no_item : forall x k, (forall q e, ~ item A k x q e) -> (length (stack L x) <= k)%nat.
Proof.
  intros x k H. destruct (le_lt_dec (length (stack L x)) k) as [X|X]; [exact X|]. apply item_iff in X. destruct X as (q & e & X).
  destruct (H _ _ X).
Qed.
Lemma entry_end : forall k q e, A k q = Some e -> wrap (q + e_size e) = q + e_size e.
Proof. intros k q e H. destruct (item_nice _ _ _ H) as (P1 & P2 & P3 & _). cbn [region_of g_base g_size] in *. unfold wrap. apply Z.mod_small. lia. Qed.

Lemma find_at : forall k x, is_word x -> let r := critnib_find (level_map t k) x FIND_LE in
  (exists q e, r = Some (q, e) /\ item A k x q e) \/
  ((length (stack L x) <= k)%nat /\ (r = None \/ exists q e, r = Some (q, e) /\ A k q = Some e /\ q + e_size e <= x)).
Proof.
  intros k x W r. pose proof (find_rep _ _ x FIND_LE (proj2 R k) W) as F. fold r in F. destruct r as [(q, e)|]; cbn in F.
  - destruct F as (E & LE & F). destruct (Z_lt_ge_dec x (q + e_size e)) as [H|H]; [left; exists q, e; split; [reflexivity|split; [exact E|lia]]|].
    right. split; [|right; exists q, e; repeat split; [exact E|lia]]. apply no_item. intros q' e' (E' & B).
    assert (QQ : q' <= q) by (apply F; [congruence|cbn; lia]). destruct (Z.eq_dec q q') as [->|N]; [assert (e' = e) by congruence; subst e'; lia|].
    pose proof (i_pos _ _ I _ _ _ E) as P. destruct (item_uniq k q q e q' e') as (X & _); [split; [exact E|lia]|split; [exact E'|lia]|]. lia.
  - right. split; [|left; reflexivity]. apply no_item. intros q' e' (E' & B). apply (F q'); [congruence|lia].
Qed.

Lemma skipn_step : forall k, (k < MAX_LEVELS)%nat -> skipn k t = level_map t k :: skipn (S k) t.
Proof.
  destruct R as (LN & _). rewrite <- LN. intros k H. exact (skipn_level t k H).
Qed.
Lemma skipn_all8 : skipn MAX_LEVELS t = [].
Proof. destruct R as (LN & _). rewrite <- LN. apply skipn_all. Qed.

Definition parent_ok (j : nat) (par : option Z) (x : Z) : Prop :=
  match j with O => par = None | S i => exists q e, item A i x q e /\ par = Some q end.
Definition top_ok (j : nat) (cur : option (Z * entry)) (x : Z) : Prop :=
  match j with O => cur = None | S i => exists q e, item A i x q e /\ cur = Some (q, e) /\ e_children e <> 0 end.

Lemma info_ok : forall n k x top, is_word x -> (n + k = MAX_LEVELS)%nat -> (k <= length (stack L x))%nat -> top_ok k top x ->
  (length (stack L x) = O /\ info_loop (skipn k t) x top = None) \/
  (exists j q e, length (stack L x) = S j /\ info_loop (skipn k t) x top = Some (q, e) /\ item A j x q e).
Proof.
  intros n k x top W. revert k top. induction n as [|n IH]; intros k top NK KL TP.
  - cbn in NK. subst k. rewrite skipn_all8. cbn [info_loop]. destruct TP as (q & e & IT & -> & CH). right. exists 7%nat, q, e.
    split; [pose proof (depth_le x); unfold MAX_LEVELS in *; lia|]. auto.
  - rewrite skipn_step by lia. cbn [info_loop]. destruct (find_at k x W) as [(q & e & E & IT)|(DL & E)].
    + rewrite E, (entry_end _ _ _ (proj1 IT)). destruct (Z.ltb_spec x (q + e_size e)) as [LT|X]; [|destruct IT; lia].
      pose proof (proj1 (item_iff x k) (ex_intro _ q (ex_intro _ e IT))) as KD.
      destruct (Z.eqb_spec (e_children e) 0) as [CZ|CZ].
      * right. exists k, q, e. split; [|auto]. assert (length (stack L x) <= S k)%nat; [|lia]. apply no_item. intros q' e' H.
        destruct (item_up _ _ _ _ H) as (q2 & e2 & H2 & (IN1 & IN2)). destruct (item_uniq _ _ _ _ _ _ IT H2) as (<- & <-). cbn in *.
        destruct H as (H & B). rewrite (no_kids _ _ _ (proj1 IT) CZ q') in H; [discriminate|]. lia.
      * apply IH; [lia|lia|]. exists q, e. auto.
    + assert (KD : length (stack L x) = k) by lia.
      assert (X : match critnib_find (level_map t k) x FIND_LE with Some (k0, e) => if x <? wrap (k0 + e_size e) then
           if e_children e =? 0 then Some (k0, e) else info_loop (skipn (S k) t) x (Some (k0, e)) else top | None => top end = top).
      { destruct E as [->|(q & e & -> & E & LE)]; [reflexivity|]. rewrite (entry_end _ _ _ E).
        destruct (Z.ltb_spec x (q + e_size e)) as [LT|_]; [lia|reflexivity]. }
      rewrite X. destruct k as [|j]; cbn [top_ok] in TP; [left; auto|]. destruct TP as (q & e & IT & -> & _). right. exists j, q, e. auto.
Qed.

Lemma parent_step : forall k x q e, item A k x q e -> parent_ok (S k) (Some q) x.
Proof. intros k x q e H. exists q, e. auto. Qed.

Lemma nested_ok : forall n k x par cur, is_word x -> (n + k = MAX_LEVELS)%nat -> (k <= length (stack L x))%nat ->
  parent_ok k par x -> top_ok k cur x ->
  let r := nested_loop (skipn k t) x k par cur in
  (exists j q e par', length (stack L x) = S j /\ item A j x q e /\ e_children e = 0 /\ parent_ok j par' x /\ r = Nested j par' (Some (q, e)) true) \/
  (exists q e, n_cur r = Some (q, e) /\ q < x /\ forall j e', length (stack L x) = S j -> item A j x x e' -> e_children e' <> 0) \/
  (length (stack L x) = O /\ n_cur r = None) \/
  (exists j q e, length (stack L x) = S j /\ item A j x q e /\ e_children e <> 0 /\ n_cur r = Some (q, e) /\ n_here r = false).
Proof.
  intros n k x par cur W. revert k par cur. induction n as [|n IH]; intros k par cur NK KL PA TP r.
  - cbn in NK. subst k. unfold r. rewrite skipn_all8. cbn [nested_loop n_cur n_here]. destruct TP as (q & e & IT & -> & CH). right; right; right.
    exists 7%nat, q, e. split; [pose proof (depth_le x); unfold MAX_LEVELS in *; lia|]. auto.
  - unfold r. clear r. rewrite skipn_step by lia. cbn [nested_loop]. destruct (find_at k x W) as [(q & e & E & IT)|(DL & E)].
    + rewrite E, (entry_end _ _ _ (proj1 IT)). destruct (Z.ltb_spec x (q + e_size e)) as [LT|X]; [|destruct IT; lia].
      pose proof (proj1 (item_iff x k) (ex_intro _ q (ex_intro _ e IT))) as KD. cbn [andb].
      destruct (Z.eqb_spec (e_children e) 0) as [CZ|CZ]; cbn [negb].
      * left. exists k, q, e, par. split; [|auto]. assert (length (stack L x) <= S k)%nat; [|lia]. apply no_item. intros q' e' H.
        destruct (item_up _ _ _ _ H) as (q2 & e2 & H2 & (IN1 & IN2)). destruct (item_uniq _ _ _ _ _ _ IT H2) as (<- & <-). cbn in *.
        destruct H as (H & B). rewrite (no_kids _ _ _ (proj1 IT) CZ q') in H; [discriminate|]. lia.
      * destruct (skipn (S k) t) as [|m rest] eqn:SK.
        -- exfalso. destruct (some_kids _ _ _ (proj1 IT) CZ) as (c & e' & _ & X).
           assert (K7 : (MAX_LEVELS <= S k)%nat) by (destruct (le_lt_dec MAX_LEVELS (S k)) as [Y|Y]; [exact Y|]; rewrite skipn_step in SK by exact Y; discriminate).
           rewrite (high_empty _ _ _ _ R K7) in X. discriminate.
        -- rewrite <- SK. apply IH; [lia|lia|exact (parent_step _ _ _ _ IT)|]. exists q, e. auto.
    + assert (KD : length (stack L x) = k) by lia.
      assert (TOP : k = O \/ exists j q e, k = S j /\ item A j x q e /\ cur = Some (q, e) /\ e_children e <> 0).
      { destruct k as [|j]; [auto|]. right. destruct TP as (q & e & IT & -> & CH). exists j, q, e. auto. }
      destruct E as [->|(q & e & -> & E & LE)].
      * cbn [n_cur n_here]. destruct TOP as [->|(j & q & e & -> & IT & -> & CH)]; [right; right; left; auto|].
        right; right; right. exists j, q, e. auto.
      * rewrite (entry_end _ _ _ E). destruct (Z.ltb_spec x (q + e_size e)) as [LT|_]; [lia|]. cbn [andb n_cur].
        right; left. exists q, e. split; [reflexivity|]. pose proof (i_pos _ _ I _ _ _ E) as P. split; [lia|].
        intros j e' DJ IT. destruct TOP as [->|(j' & q2 & e2 & -> & IT2 & _ & CH)]; [lia|].
        assert (j = j') by lia. subst j'. destruct (item_uniq _ _ _ _ _ _ IT IT2) as (_ & <-). exact CH.
Qed.

Lemma get_nested_leaf : forall x, is_word x ->
  (exists j e par, length (stack L x) = S j /\ item A j x x e /\ e_children e = 0 /\ parent_ok j par x /\
     get_most_nested_alloc_segment t x true = Some (Nested j par (Some (x, e)) true, e)) \/
  (get_most_nested_alloc_segment t x true = None /\ forall j e, length (stack L x) = S j -> item A j x x e -> e_children e <> 0).
Proof.
  intros x W. unfold get_most_nested_alloc_segment.
  pose proof (nested_ok 8 0 x None None W eq_refl (Nat.le_0_l _) eq_refl eq_refl) as N. cbv zeta in N. cbn [skipn] in N.
  destruct N as [(j & q & e & par & D & IT & CZ & PO & ->)|[(q & e & E & LT & F)|[(D & E)|(j & q & e & D & IT & CZ & E & _)]]].
  - cbn [n_cur]. destruct (Z.eqb_spec q x) as [->|N]; cbn [negb].
    + rewrite CZ. cbn. left. exists j, e, par. auto.
    + right. split; [reflexivity|]. intros j' e' D' IT'. assert (j' = j) by lia. subst j'. destruct (item_uniq _ _ _ _ _ _ IT IT'). lia.
  - rewrite E. destruct (Z.eqb_spec q x) as [->|_]; [lia|]. cbn. auto.
  - rewrite E. right. split; [reflexivity|]. intros j e D'. lia.
  - rewrite E. right. split.
    + pose proof (kids_nonneg _ _ _ (proj1 IT)). destruct (Z.eqb_spec q x) as [_|_]; cbn [negb]; [|reflexivity].
      destruct (Z.ltb_spec 0 (e_children e)) as [_|X]; [reflexivity|lia].
    + intros j' e' D' IT'. assert (j' = j) by lia. subst j'. destruct (item_uniq _ _ _ _ _ _ IT IT') as (_ & <-). exact CZ.
Qed.

Lemma get_nested_any : forall x n e, is_word x -> get_most_nested_alloc_segment t x false = Some (n, e) ->
  exists j, length (stack L x) = S j /\ item A j x x e /\
    ((e_children e = 0 /\ n_level n = j /\ n_here n = true) \/ (e_children e <> 0 /\ n_here n = false)).
Proof.
  intros x n e W. unfold get_most_nested_alloc_segment.
  pose proof (nested_ok 8 0 x None None W eq_refl (Nat.le_0_l _) eq_refl eq_refl) as N. cbv zeta in N. cbn [skipn] in N.
  destruct N as [(j & q & e' & par & D & IT & CZ & PO & ->)|[(q & e' & E & LT & F)|[(D & E)|(j & q & e' & D & IT & CZ & E & H)]]].
  - cbn [n_cur]. destruct (Z.eqb_spec q x) as [->|N]; cbn [negb andb]; [|discriminate]. intros X. injection X as <- <-. exists j. split; [exact D|]. split; [exact IT|]. left. auto.
  - rewrite E. destruct (Z.eqb_spec q x) as [->|_]; [lia|]. discriminate.
  - rewrite E. discriminate.
  - rewrite E. destruct (Z.eqb_spec q x) as [->|N]; cbn [negb andb]; [|discriminate]. intros X. injection X as <- <-. exists j. auto.
Qed.
Lemma get_nested_any_leaf : forall x j e, is_word x -> length (stack L x) = S j -> item A j x x e -> e_children e = 0 ->
  exists par, get_most_nested_alloc_segment t x false = Some (Nested j par (Some (x, e)) true, e).
Proof.
  intros x j e W D IT CZ. unfold get_most_nested_alloc_segment.
  pose proof (nested_ok 8 0 x None None W eq_refl (Nat.le_0_l _) eq_refl eq_refl) as N. cbv zeta in N. cbn [skipn] in N.
  destruct N as [(j' & q & e' & par & D' & IT' & CZ' & PO & ->)|[(q & e' & E & LT & F)|[(D' & E)|(j' & q & e' & D' & IT' & CZ' & E & H)]]].
  - assert (j' = j) by lia. subst j'. destruct (item_uniq _ _ _ _ _ _ IT IT') as (<- & <-). cbn [n_cur]. rewrite Z.eqb_refl. cbn. eauto.
  - destruct (F j e D IT CZ).
  - lia.
  - assert (j' = j) by lia. subst j'. destruct (item_uniq _ _ _ _ _ _ IT IT') as (<- & <-). congruence.
Qed.

Lemma add_loop_ok : forall n k x size par, is_word x -> x + size < U64 -> 0 < size -> (n + k = MAX_LEVELS)%nat -> (k <= length (stack L x))%nat ->
  (forall g, In g L -> covers x g = true -> x + size <= g_base g + g_size g) -> parent_ok k par x -> (n <> O \/ length (stack L x) = k) ->
  (length (stack L x) = MAX_LEVELS /\ n <> O /\ add_loop (skipn k t) x size k par = inl ERR_OUT_OF_RESOURCES) \/
  ((length (stack L x) < MAX_LEVELS \/ n = O)%nat /\ exists par', parent_ok (length (stack L x)) par' x /\ add_loop (skipn k t) x size k par = Datatypes.inr (length (stack L x), par')).
Proof.
  intros n k x size par W U SP. revert k par. induction n as [|n IH]; intros k par NK KL FIT PO NO.
  - destruct NO as [NO|NO]; [lia|]. cbn in NK. subst k. rewrite skipn_all8. cbn [add_loop]. right. split; [lia|]. rewrite NO. eauto.
  - rewrite skipn_step by lia. cbn [add_loop]. destruct (find_at k x W) as [(q & e & E & IT)|(DL & E)].
    + rewrite E, (entry_end _ _ _ (proj1 IT)). destruct (Z.ltb_spec x (q + e_size e)) as [LT|X]; [|destruct IT; lia].
      pose proof (proj1 (item_iff x k) (ex_intro _ q (ex_intro _ e IT))) as KD.
      destruct (le_lt_dec MAX_LEVELS (S k)) as [K7|K7].
      * assert (S k = MAX_LEVELS) by lia. replace (skipn (S k) t) with (@nil (tree entry)) by (rewrite H; symmetry; apply skipn_all8).
        left. split; [pose proof (depth_le x); unfold MAX_LEVELS in *; lia|]. auto.
      * assert (NEXT : (S k <= length (stack L x))%nat) by lia.
        destruct (skipn (S k) t) as [|m rest] eqn:SK; [rewrite skipn_step in SK by exact K7; discriminate|]. rewrite <- SK.
        assert (F : x + size <= q + e_size e).
        { pose proof (item_at _ _ _ _ IT) as AT. apply stack_in in AT. destruct AT as (A1 & A2). exact (FIT _ A1 A2). }
        unfold is_word in W. replace (wrap (x + size)) with (x + size) by (unfold wrap; rewrite Z.mod_small; lia).
        assert (G : (x + size >? q + e_size e) = false) by lia. rewrite G.
        destruct (Z.eqb_spec (e_children e) 0) as [CZ|CZ].
        -- right. assert (D : length (stack L x) = S k).
           { assert (length (stack L x) <= S k)%nat; [|lia]. apply no_item. intros q' e' H.
             destruct (item_up _ _ _ _ H) as (q2 & e2 & H2 & (IN1 & IN2)). destruct (item_uniq _ _ _ _ _ _ IT H2) as (<- & <-). cbn in *.
             destruct H as (H & B). rewrite (no_kids _ _ _ (proj1 IT) CZ q') in H; [discriminate|]. lia. }
           split; [lia|]. rewrite D. exists (Some q). split; [exact (parent_step _ _ _ _ IT)|reflexivity].
        -- destruct (IH (S k) (Some q)) as [(D & N & X)|(D & X)]; [lia|lia|exact FIT|exact (parent_step _ _ _ _ IT)|lia| |].
           ++ left. auto.
           ++ right. split; [lia|exact X].
    + assert (KD : length (stack L x) = k) by lia. right. split; [lia|]. rewrite KD. exists par. split; [exact PO|].
      destruct E as [->|(q & e & -> & E & LE)]; [reflexivity|]. rewrite (entry_end _ _ _ E).
      destruct (Z.ltb_spec x (q + e_size e)) as [LT|_]; [lia|reflexivity].
Qed.
End Read.
