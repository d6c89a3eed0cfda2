From Verif Require Import Base Model_Utils Proof_Utils Model_Critnib Proof_Critnib Spec_Map.

Section Refine.
Context {V : Type}.
Implicit Types t : tree V.
Implicit Types m : @amap V.

Lemma ival_root : ival 0 64.
Proof. unfold ival. cbn. unfold U64. lia. Qed.
Definition good t := wf 0 64 t.
Lemma word_root : forall k, is_word k <-> 0 <= k < 0 + 2 ^ 64.
Proof. intros. unfold is_word, U64. lia. Qed.

(* abstraction: [m] is the contents of [t] *)
Definition rep t m : Prop := good t /\ forall k v, In (k, v) (entries t) <-> m k = Some v.

Lemma rep_none : forall t m k, rep t m -> (m k = None <-> forall v, ~ In (k, v) (entries t)).
Proof.
  intros t m k (G & R). split.
  - intros E v Hin. apply R in Hin. congruence.
  - intros H. destruct (m k) eqn:E; [|reflexivity]. apply R in E. exfalso. exact (H _ E).
Qed.

Lemma step_rep : forall t m o, rep t m -> op_word o ->
  exists t' r m', step t o = Some (t', r) /\ allowed m o r m' /\ rep t' m'.
Proof.
  intros t m o R Wo. pose proof R as (G & RE). destruct o as [lo no k v u|k]; cbn [step op_word] in *.
  - unfold critnib_insert. destruct lo.
    2:{ exists t, (OutIns INS_ENOMEM), m. split; [reflexivity|]. split; [apply al_nomem; reflexivity|exact R]. }
    destruct (ins no t k v u) as [t' c] eqn:E.
    rewrite word_root in Wo.
    destruct (ins_spec t no k v u 0 64 ival_root G Wo t' c E) as (G' & _ & P).
    destruct c; cbn [ins_post] in P.
    + destruct P as (PA & PB). exists t', (OutIns INS_OK), (set m k v).
      split; [reflexivity|]. split.
      * destruct (m k) as [v0|] eqn:M.
        -- destruct PA as [->|PA]; [eapply al_update; eauto|].
           apply RE in M. exfalso. exact (PA _ M).
        -- apply al_new. exact M.
      * split; [exact G'|]. intros k' v'. rewrite PB, RE. unfold set.
        destruct (Z.eqb_spec k' k) as [->|N].
        -- split; [intros [(_ & ->)|(? & _)]; [reflexivity|congruence]|].
           intros X. left. split; congruence.
        -- split; [intros [(? & _)|(_ & ?)]; [congruence|assumption]|]. intros X. right. auto.
    + destruct P as (-> & (v0 & PB) & PC). exists t', (OutIns INS_EEXIST), m.
      split; [reflexivity|]. split.
      * apply RE in PB. eapply al_exists; eauto.
      * split; [exact G'|]. intros k' v'. rewrite PC. apply RE.
    + destruct P as (-> & PB & PC). exists t', (OutIns INS_ENOMEM), m.
      split; [reflexivity|]. split; [apply al_nomem; reflexivity|].
      split; [exact G'|]. intros k' v'. rewrite PC. apply RE.
    + destruct P.
  - destruct (rem_spec t k 0 64 ival_root G) as (t' & r & E & G' & Rr & Re & _).
    unfold critnib_remove. rewrite E. exists t', (OutRem r), (clear m k).
    split; [reflexivity|]. split.
    + assert (r = m k) as ->; [|apply al_remove].
      destruct r as [v|].
      * symmetry. apply RE, Rr. reflexivity.
      * destruct (m k) as [v|] eqn:M; [|reflexivity].
        apply RE, Rr in M. discriminate.
    + split; [exact G'|]. intros k' v'. rewrite Re, RE. unfold clear. cbn [fst].
      destruct (Z.eqb_spec k' k) as [->|N]; [|tauto].
      split; [intros (_ & ?); congruence|discriminate].
Qed.

Lemma exec_rep : forall ops t m, rep t m -> Forall op_word ops ->
  exists t' outs m', exec t ops = Some (t', outs) /\ runs m ops outs m' /\ rep t' m'.
Proof.
  induction ops as [|o ops IH]; intros t m R W.
  - exists t, [], m. split; [reflexivity|]. split; [constructor|exact R].
  - inversion W as [|? ? W1 W2]; subst.
    destruct (step_rep t m o R W1) as (t1 & r & m1 & E1 & A1 & R1).
    destruct (IH t1 m1 R1 W2) as (t2 & rs & m2 & E2 & A2 & R2).
    exists t2, (r :: rs), m2. cbn [exec]. rewrite E1, E2.
    split; [reflexivity|]. split; [econstructor; eauto|exact R2].
Qed.

Lemma rep_empty : rep Nil (@empty V).
Proof. split; [exact I|]. cbn. intros. split; [tauto|discriminate]. Qed.

Lemma get_rep : forall t m k, rep t m -> critnib_get t k = m k.
Proof.
  intros t m k (G & R). unfold critnib_get.
  pose proof (get_leaf_spec t 0 64 k ival_root G) as S.
  destruct (get_leaf t k) as [[k' v]|] eqn:E; cbn.
  - destruct (proj1 (S k' v) eq_refl) as (-> & Hin). symmetry. apply R. exact Hin.
  - destruct (m k) as [v|] eqn:M; [|reflexivity]. apply R in M.
    pose proof (proj2 (S k v) (conj eq_refl M)). discriminate.
Qed.

Lemma rep_word : forall t m k, rep t m -> m k <> None -> is_word k.
Proof.
  intros t m k (G & R) H. destruct (m k) as [v|] eqn:M; [|congruence].
  apply R in M. apply word_root. eapply entries_in; eauto using ival_root.
Qed.

Lemma some_in : forall t m k, rep t m -> m k <> None -> exists v, In (k, v) (entries t).
Proof.
  intros t m k (G & R) H. destruct (m k) as [v|] eqn:M; [|congruence]. exists v. apply R. exact M.
Qed.

Lemma find_rep : forall t m key d, rep t m -> is_word key ->
  neighbour m key d (critnib_find t key d).
Proof.
  intros t m key d R Wk. pose proof R as (G & RE).
  assert (LE : forall key', is_word key' -> neighbour m key' FIND_LE (find_le t key')).
  { intros key' W'. pose proof (find_le_spec t key' 0 64 ival_root G W') as F.
    destruct (find_le t key') as [[k v]|]; cbn in *.
    - destruct F as (F1 & F2 & F3). split; [apply RE; exact F1|]. split; [exact F2|].
      intros k' N L. destruct (some_in t m k' R N) as (v' & Hin). eauto.
    - intros k' N L. destruct (some_in t m k' R N) as (v' & Hin). exact (F _ _ Hin L). }
  assert (GE : forall key', is_word key' -> neighbour m key' FIND_GE (find_ge t key')).
  { intros key' W'. pose proof (find_ge_spec t key' 0 64 ival_root G W') as F.
    destruct (find_ge t key') as [[k v]|]; cbn in *.
    - destruct F as (F1 & F2 & F3). split; [apply RE; exact F1|]. split; [exact F2|].
      intros k' N L. destruct (some_in t m k' R N) as (v' & Hin). eauto.
    - intros k' N L. destruct (some_in t m k' R N) as (v' & Hin). exact (F _ _ Hin L). }
  unfold is_word in Wk.
  destruct d; cbn [critnib_find].
  - destruct (Z.eqb_spec key 0) as [->|N].
    + cbn. intros k' NN L. apply (rep_word t m k' R) in NN. unfold is_word in NN. lia.
    + specialize (LE (key - 1) ltac:(unfold is_word; lia)).
      destruct (find_le t (key - 1)) as [[k v]|]; cbn in *.
      * destruct LE as (A & B & C). repeat split; [exact A|lia|]. intros k' NN L. apply C; [exact NN|lia].
      * intros k' NN L. apply (LE k' NN). lia.
  - apply LE. exact Wk.
  - pose proof (get_rep t m key R) as E. unfold critnib_get in E.
    pose proof (get_leaf_spec t 0 64 key ival_root G) as S.
    destruct (get_leaf t key) as [[k v]|]; cbn in *.
    + destruct (proj1 (S k v) eq_refl) as (-> & _). repeat split; auto.
    + intros k' NN ->. congruence.
  - apply GE. exact Wk.
  - destruct (Z.eqb_spec key (U64 - 1)) as [->|N].
    + cbn [neighbour rel]. intros k' NN L. apply (rep_word t m k' R) in NN. unfold is_word in NN. lia.
    + specialize (GE (key + 1) ltac:(unfold is_word; lia)).
      destruct (find_ge t (key + 1)) as [[k v]|]; cbn in *.
      * destruct GE as (A & B & C). repeat split; [exact A|lia|]. intros k' NN L. apply C; [exact NN|lia].
      * intros k' NN L. apply (GE k' NN). lia.
Qed.

(* ---- iteration ---- *)
Lemma asc_app : forall l1 l2 : list (Z * V), ascending l1 -> ascending l2 ->
  (forall k1 v1 k2 v2, In (k1, v1) l1 -> In (k2, v2) l2 -> k1 < k2) -> ascending (l1 ++ l2).
Proof.
  induction l1 as [|[k v] l1 IH]; intros l2 A1 A2 H; cbn; [exact A2|].
  destruct A1 as (B1 & B2). split.
  - intros k' v' Hin. apply in_app_iff in Hin. destruct Hin as [Hin|Hin]; [eauto|].
    eapply H; [left; reflexivity|exact Hin].
  - apply IH; auto. intros. eapply H; [right; eauto|eauto].
Qed.

Lemma entries_asc : forall t lo S, ival lo S -> wf lo S t -> ascending (entries t).
Proof.
  induction t as [|k0 v0|p s ch IH]; intros lo S HI W.
  - exact I.
  - cbn. split; [intros k' v' []|exact I].
  - pose proof W as W'. destruct W as (Hs & Hs4 & HsS & Hp & Hr & _ & Hch).
    cbn [entries].
    assert (GEN : forall l, increasing l -> (forall i, In i l -> 0 <= i < 16) ->
              ascending (flat_map (fun i => entries (ch i)) l)).
    { induction l as [|i l IHl]; intros INC RNG; cbn; [exact I|].
      destruct INC as (INC1 & INC2).
      pose proof (RNG i (or_introl eq_refl)) as Hi.
      pose proof (ival_child lo S p s i HI Hs Hs4 HsS Hp Hr Hi) as (HIi & _ & _).
      apply asc_app.
      - eapply IH; eauto.
      - apply IHl; [exact INC2|]. intros; apply RNG; right; assumption.
      - intros k1 v1 k2 v2 H1 H2. apply in_flat_map in H2. destruct H2 as (j & Hj & H2).
        eapply (slot_order lo S p s ch HI W' i j); eauto. apply RNG. right; exact Hj. }
    apply GEN; [apply increasing_slots|]. intros i. apply in_slots.
Qed.

Definition inr (lo hi : Z) (e : Z * V) : bool := (lo <=? fst e) && (fst e <=? hi).
Definition fe (f : Z -> V -> bool) (e : Z * V) : bool := f (fst e) (snd e).

Lemma upto_app_hit : forall f l1 l2, existsb (fe f) l1 = true -> upto f (l1 ++ l2) = upto f l1.
Proof.
  induction l1 as [|[k v] l1 IH]; cbn; intros l2 H; [discriminate|].
  unfold fe in H at 1. cbn in H. destruct (f k v); [reflexivity|]. f_equal. apply IH. exact H.
Qed.
Lemma upto_app_miss : forall f l1 l2, existsb (fe f) l1 = false -> upto f (l1 ++ l2) = l1 ++ upto f l2.
Proof.
  induction l1 as [|[k v] l1 IH]; cbn; intros l2 H; [reflexivity|].
  unfold fe in H at 1. cbn in H. destruct (f k v); [discriminate|]. f_equal. apply IH. exact H.
Qed.
Lemma upto_miss : forall f l, existsb (fe f) l = false -> upto f l = l.
Proof. intros f l H. rewrite <- (app_nil_r l) at 1. rewrite upto_app_miss by exact H. apply app_nil_r. Qed.

Lemma filter_none : forall A (g : A -> bool) l, (forall x, In x l -> g x = false) -> filter g l = [].
Proof.
  induction l as [|x l IH]; intros H; cbn; [reflexivity|].
  rewrite (H x) by (left; reflexivity). apply IH. intros; apply H; right; assumption.
Qed.

(* with min = 0 (as every caller does) iteration is exact *)
Lemma iter_spec : forall t lo S, ival lo S -> wf lo S t -> forall mx f vis stop,
  iter t 0 mx f = (vis, stop) ->
  vis = upto f (filter (inr 0 mx) (entries t)) /\
  (stop = true -> existsb (fe f) (filter (inr 0 mx) (entries t)) = true \/
                  exists k v, In (k, v) (entries t) /\ mx < k) /\
  (stop = false -> existsb (fe f) (filter (inr 0 mx) (entries t)) = false).
Proof.
  induction t as [|k0 v0|p s ch IH]; intros lo S HI W mx f vis stop E.
  - cbn in E. injection E as <- <-. cbn. repeat split; auto.
  - cbn [iter] in E. cbn [entries filter]. unfold inr. cbn [fst].
    destruct ((0 <=? k0) && (k0 <=? mx)) eqn:C; injection E as <- <-.
    + cbn. unfold fe. cbn. destruct (f k0 v0); cbn; repeat split; auto; discriminate.
    + cbn. repeat split; auto; discriminate.
  - pose proof W as W'. destruct W as (Hs & Hs4 & HsS & Hp & Hr & (i1 & i2 & L1 & L2 & L12 & N1 & N2) & Hch).
    cbn [iter] in E.
    destruct (Z.gtb_spec p mx) as [G|G].
    + injection E as <- <-.
      assert (ALL : forall k v, In (k, v) (entries (Node p s ch)) -> mx < k).
      { intros k v Hin. apply (in_node_key lo S p s ch k v HI W') in Hin. lia. }
      rewrite filter_none.
      * cbn. split; [reflexivity|]. split; [|discriminate]. intros _. right.
        destruct (nonempty (Node p s ch) lo S HI W' eq_refl) as ([k v] & Hin). eauto.
      * intros [k v] Hin. apply ALL in Hin. unfold inr. cbn. lia.
    + destruct (Z.ltb_spec (Z.lor p (path_mask s)) 0) as [B|B].
      { exfalso. assert (0 <= Z.lor p (path_mask s)); [|lia]. apply Z.lor_nonneg. split.
        - destruct HI as (_ & _ & _ & A & _). lia.
        - apply wrap_word. }
      cbn [entries].
      assert (GEN : forall l, increasing l -> (forall i, In i l -> 0 <= i < 16) -> forall vis stop,
        (fix loop (l : list Z) : list (Z * V) * bool :=
           match l with
           | [] => ([], false)
           | i :: l' =>
               let (v1, stop) := iter (ch i) 0 mx f in
               if stop then (v1, true)
               else let (v2, stop2) := loop l' in (v1 ++ v2, stop2)
           end) l = (vis, stop) ->
        let es := flat_map (fun i => entries (ch i)) l in
        vis = upto f (filter (inr 0 mx) es) /\
        (stop = true -> existsb (fe f) (filter (inr 0 mx) es) = true \/
                        exists k v, In (k, v) es /\ mx < k) /\
        (stop = false -> existsb (fe f) (filter (inr 0 mx) es) = false)).
      { clear E vis stop. induction l as [|i l IHl]; intros INC RNG vis stop E; cbv zeta.
        - injection E as <- <-. cbn. repeat split; auto.
        - destruct INC as (INC1 & INC2).
          pose proof (RNG i (or_introl eq_refl)) as Hi.
          pose proof (ival_child lo S p s i HI Hs Hs4 HsS Hp Hr Hi) as (HIi & _ & _).
          destruct (iter (ch i) 0 mx f) as [v1 st1] eqn:E1.
          destruct (IH i _ _ HIi (Hch i Hi) mx f v1 st1 E1) as (A1 & A2 & A3).
          cbn [flat_map]. rewrite filter_app.
          destruct st1.
          + injection E as <- <-.
            destruct (A2 eq_refl) as [HH|(k & v & Hin & Hk)].
            * rewrite upto_app_hit by exact HH. split; [exact A1|].
              split; [|discriminate]. intros _. left. rewrite existsb_app, HH. reflexivity.
            * rewrite (filter_none _ (inr 0 mx) (flat_map _ l)).
              -- rewrite app_nil_r. split; [exact A1|]. split; [|discriminate].
                 intros _. right. exists k, v. split; [apply in_app_iff; auto|exact Hk].
              -- intros [k2 v2] H2. apply in_flat_map in H2. destruct H2 as (j & Hj & H2).
                 pose proof (slot_order lo S p s ch HI W' i j k v k2 v2 Hi
                   (RNG j (or_intror Hj)) (INC1 j Hj) Hin H2). unfold inr. cbn. lia.
          + destruct ((fix loop (l : list Z) : list (Z * V) * bool :=
               match l with
               | [] => ([], false)
               | i :: l' =>
                   let (v1, stop) := iter (ch i) 0 mx f in
                   if stop then (v1, true)
                   else let (v2, stop2) := loop l' in (v1 ++ v2, stop2)
               end) l) as [v2 st2] eqn:E2.
            injection E as <- <-.
            destruct (IHl INC2 ltac:(intros; apply RNG; right; assumption) v2 st2 eq_refl) as (B1 & B2 & B3).
            specialize (A3 eq_refl).
            rewrite upto_app_miss by exact A3. rewrite (upto_miss f _ A3) in A1.
            split; [congruence|].
            rewrite existsb_app, A3. cbn [orb]. split.
            * intros X. destruct (B2 X) as [?|(k & v & Hin & Hk)]; [left; assumption|].
              right. exists k, v. split; [apply in_app_iff; auto|exact Hk].
            * intros X. apply B3, X. }
      exact (GEN slots increasing_slots (fun i => proj1 (in_slots i)) vis stop E).
Qed.

(* with any min: nothing outside, nothing twice, in order, and nothing after a stop *)
Lemma iter_sound : forall t lo S, ival lo S -> wf lo S t -> forall mn mx f vis stop,
  iter t mn mx f = (vis, stop) ->
  ascending vis /\ (forall k v, In (k, v) vis -> In (k, v) (entries t) /\ mn <= k <= mx) /\
  vis = upto f vis /\ (stop = false -> existsb (fe f) vis = false).
Proof.
  induction t as [|k0 v0|p s ch IH]; intros lo S HI W mn mx f vis stop E.
  - cbn in E. injection E as <- <-. cbn. split; [exact I|]. split; [intros k v []|]. auto.
  - cbn [iter] in E. destruct ((mn <=? k0) && (k0 <=? mx)) eqn:C; injection E as <- <-.
    + cbn. unfold fe. cbn. split; [split; [intros k v []|exact I]|]. split.
      * intros k v [X|[]]. injection X as <- <-. split; [auto|lia].
      * destruct (f k0 v0); cbn; auto.
    + cbn. split; [exact I|]. split; [intros k v []|]. auto.
  - pose proof W as W'. destruct W as (Hs & Hs4 & HsS & Hp & Hr & _ & Hch). cbn [iter] in E.
    destruct (p >? mx); [injection E as <- <-; cbn; split; [exact I|]; split; [intros k v []|]; split; [reflexivity|discriminate]|].
    destruct (Z.lor p (path_mask s) <? mn); [injection E as <- <-; cbn; split; [exact I|]; split; [intros k v []|]; auto|].
    cbn [entries].
    assert (GEN : forall l, increasing l -> (forall i, In i l -> 0 <= i < 16) -> forall vis stop,
      (fix loop (l : list Z) : list (Z * V) * bool :=
         match l with
         | [] => ([], false)
         | i :: l' =>
             let (v1, stop) := iter (ch i) mn mx f in
             if stop then (v1, true)
             else let (v2, stop2) := loop l' in (v1 ++ v2, stop2)
         end) l = (vis, stop) ->
      ascending vis /\ (forall k v, In (k, v) vis -> In (k, v) (flat_map (fun i => entries (ch i)) l) /\ mn <= k <= mx) /\
      vis = upto f vis /\ (stop = false -> existsb (fe f) vis = false)).
    { clear E vis stop. induction l as [|i l IHl]; intros INC RNG vis stop E.
      - injection E as <- <-. cbn. split; [exact I|]. split; [intros k v []|]. auto.
      - destruct INC as (INC1 & INC2). pose proof (RNG i (or_introl eq_refl)) as Hi.
        pose proof (ival_child lo S p s i HI Hs Hs4 HsS Hp Hr Hi) as (HIi & _ & _).
        destruct (iter (ch i) mn mx f) as [v1 st1] eqn:E1.
        destruct (IH i _ _ HIi (Hch i Hi) mn mx f v1 st1 E1) as (A1 & A2 & A3 & A4). cbn [flat_map]. destruct st1.
        + injection E as <- <-. split; [exact A1|]. split; [|split; [exact A3|discriminate]].
          intros k v Hin. destruct (A2 k v Hin) as (X & Y). split; [apply in_app_iff; auto|exact Y].
        + destruct ((fix loop (l : list Z) : list (Z * V) * bool :=
             match l with
             | [] => ([], false)
             | i :: l' =>
                 let (v1, stop) := iter (ch i) mn mx f in
                 if stop then (v1, true)
                 else let (v2, stop2) := loop l' in (v1 ++ v2, stop2)
             end) l) as [v2 st2] eqn:E2.
          injection E as <- <-. specialize (A4 eq_refl).
          destruct (IHl INC2 ltac:(intros; apply RNG; right; assumption) v2 st2 eq_refl) as (B1 & B2 & B3 & B4).
          split; [|split; [|split]].
          * apply asc_app; [exact A1|exact B1|]. intros k1 w1 k2 w2 H1 H2.
            destruct (A2 _ _ H1) as (X1 & _). destruct (B2 _ _ H2) as (X2 & _). apply in_flat_map in X2. destruct X2 as (j & Hj & X2).
            exact (slot_order lo S p s ch HI W' i j k1 w1 k2 w2 Hi (RNG j (or_intror Hj)) (INC1 j Hj) X1 X2).
          * intros k v Hin. apply in_app_iff in Hin as [Hin|Hin]; [destruct (A2 k v Hin) as (X & Y)|destruct (B2 k v Hin) as (X & Y)];
              (split; [apply in_app_iff; auto|exact Y]).
          * rewrite upto_app_miss by exact A4. congruence.
          * intros X. rewrite existsb_app, A4. exact (B4 X). }
    exact (GEN slots increasing_slots (fun i => proj1 (in_slots i)) vis stop E).
Qed.

Lemma asc_filter : forall (g : Z * V -> bool) l, ascending l -> ascending (filter g l).
Proof.
  induction l as [|[k v] l IH]; cbn; [auto|]. intros (A & B).
  destruct (g (k, v)); cbn; [|auto]. split; [|auto].
  intros k' v' Hin. apply filter_In in Hin. eapply A, Hin.
Qed.

Lemma iter_rep : forall t m mx f, rep t m ->
  exists l, enumerates m 0 mx l /\ critnib_iter t 0 mx f = upto f l.
Proof.
  intros t m mx f (G & R). exists (filter (inr 0 mx) (entries t)). split.
  - split; [apply asc_filter, (entries_asc t 0 64 ival_root G)|].
    intros k v. rewrite filter_In, R. unfold inr. cbn [fst]. split.
    + intros (A & B). split; [exact A|lia].
    + intros (A & B). split; [exact A|lia].
  - unfold critnib_iter. destruct (iter t 0 mx f) as [vis stop] eqn:E. cbn.
    apply (iter_spec t 0 64 ival_root G mx f vis stop E).
Qed.
Lemma iter_any : forall t m mn mx f, rep t m ->
  ascending (critnib_iter t mn mx f) /\ critnib_iter t mn mx f = upto f (critnib_iter t mn mx f) /\
  forall k v, In (k, v) (critnib_iter t mn mx f) -> m k = Some v /\ mn <= k <= mx.
Proof.
  intros t m mn mx f (G & R). unfold critnib_iter. destruct (iter t mn mx f) as [vis stop] eqn:E. cbn [fst].
  destruct (iter_sound t 0 64 ival_root G mn mx f vis stop E) as (A & B & C & _). split; [exact A|]. split; [exact C|].
  intros k v Hin. destruct (B k v Hin) as (X & Y). split; [apply R, X|exact Y].
Qed.
End Refine.
