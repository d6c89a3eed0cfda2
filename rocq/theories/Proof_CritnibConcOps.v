(* The stores that change the tree, and the ring of retired objects. *)
From Verif Require Import Base Model_Utils Proof_Utils Model_Critnib Proof_Critnib Spec_Map
  Model_CritnibConc Proof_CritnibConc Proof_CritnibConcStep Proof_CritnibConcGet Proof_CritnibConcWrite.

Lemma ptr_null_dec : forall p : ptr, p = PNull \/ p <> PNull.
Proof. intros [| |]; [left; reflexivity|right; discriminate|right; discriminate]. Qed.

Lemma live_not_retired : forall h st n i lo S, Inv h st -> live h (LChild n i) lo S -> st (PNode n) = Live.
Proof.
  intros h st n i lo S I L. inversion L as [|l0 lo0 S0 n0 i0 L0 E0 Hi0]; subst.
  apply (i_live _ _ I); [discriminate|]. exists l0, lo0, S0. auto.
Qed.

Lemma local_top : forall h lo S n, ival lo S -> local h lo S (PNode n) -> local h 0 64 (PNode n).
Proof.
  intros h lo S n (A1 & A2 & A3 & A4 & A5) ((B1 & B2 & B3 & B4) & B5). cbn [local]. unfold node_ok.
  change (2 ^ 64) with U64. repeat split; try assumption; lia.
Qed.

Lemma swap_safe : forall h st h' st' l q lo S, swap h h' l q -> Inv h st -> live h l lo S -> WF h' ->
  (forall p M, st p = Retired M -> st' p = Retired M) ->
  (forall p M, st' p = Retired M -> st p = Retired M \/ (M = remove_count h /\ p <> PNull /\ Reach h p)) ->
  (forall p, p <> PNull -> Reach h' p -> st' p = Live) ->
  (forall p, p <> PNull -> Reach h p -> Reach h' p \/ st' p = Retired (remove_count h)) ->
  (forall n, st (PNode n) = Live -> st' (PNode n) = Retired (remove_count h) ->
     (forall i, l <> LChild n i) /\ forall i, 0 <= i < 16 -> child h n i <> PNull -> Reach h' (child h n i)) ->
  safe h st h' st'.
Proof.
  intros h st h' st' l q lo S SW I L W' Ka Kb Kc Kd Ke.
  assert (Hd : forall p, same_head h h' p).
  { intros [|x|n]; cbn; [exact Coq.Init.Logic.I|rewrite (sw_key _ _ _ _ SW); reflexivity|rewrite (sw_path _ _ _ _ SW), (sw_shift _ _ _ _ SW); auto]. }
  assert (NL : forall n M, st (PNode n) = Retired M -> forall i, l <> LChild n i).
  { intros n M E i ->. rewrite (live_not_retired h st n i _ _ I L) in E. discriminate. }
  assert (Bd : forall p M, st p = Retired M -> same_body h h' p).
  { intros [|x|n] M E; cbn; [exact Coq.Init.Logic.I|rewrite (sw_val _ _ _ _ SW); reflexivity|].
    intros i Hi. apply (sw_else _ _ _ _ SW (LChild n i)). apply not_eq_sym. exact (NL n M E i). }
  assert (Bd2 : forall p, p <> PNull -> Reach h p -> st' p = Retired (remove_count h) -> same_body h h' p).
  { intros [|x|n] Hp R E; cbn; [exact Coq.Init.Logic.I|rewrite (sw_val _ _ _ _ SW); reflexivity|].
    intros i Hi. apply (sw_else _ _ _ _ SW (LChild n i)). apply not_eq_sym.
    exact (proj1 (Ke n (i_live _ _ I _ Hp R) E) i). }
  assert (RR : forall c, c <> PNull -> Reach h c -> Reach h' c \/ exists M', st' c = Retired M' /\ remove_count h <= M').
  { intros c Hc R. destruct (Kd c Hc R) as [A|A]; [left; exact A|right; exists (remove_count h); split; [exact A|lia]]. }
  assert (I' : Inv h' st').
  { split.
    - exact W'.
    - exact Kc.
    - intros p M E. rewrite (sw_rc _ _ _ _ SW). destruct (Kb p M E) as [E0|(-> & _)]; [exact (i_ret _ _ I p M E0)|lia].
    - intros n M E U. rewrite (sw_rc _ _ _ _ SW) in U. rewrite (sw_path _ _ _ _ SW), (sw_shift _ _ _ _ SW).
      destruct (Kb _ _ E) as [E0|(EM & _ & R)].
      + destruct (i_kids _ _ I n M E0 U) as (Lc & K). split; [apply (local_same h h' _ _ _ (Hd _)); exact Lc|].
        intros i Hi. rewrite (Bd _ _ E0 i Hi). destruct (ptr_null_dec (child h n i)) as [N|N]; [left; exact N|].
        destruct (K i Hi) as [K0|(K1 & K2)]; [left; exact K0|]. right.
        split; [apply (local_same h h' _ _ _ (Hd _)); exact K1|].
        destruct K2 as [K2|(M' & K2 & K3)].
        * destruct (RR _ N K2) as [A|(M' & A & B)]; [left; exact A|]. right. exists M'. split; [exact A|].
          pose proof (i_ret _ _ I _ _ E0). lia.
        * right. exists M'. split; [apply Ka; exact K2|exact K3].
      + subst M. pose proof (i_live _ _ I (PNode n) ltac:(discriminate) R) as El.
        destruct (Ke n El E) as (N1 & N2). destruct R as (l0 & lo0 & S0 & L0 & E0).
        pose proof (i_wf _ _ I _ _ _ L0) as Lc. rewrite E0 in Lc.
        split; [apply (local_same h h' _ _ _ (Hd _)); exact (local_top h lo0 S0 n (live_ival h (i_wf _ _ I) _ _ _ L0) Lc)|].
        intros i Hi.
        assert (Ec : child h' n i = child h n i) by (apply (sw_else _ _ _ _ SW (LChild n i)); apply not_eq_sym; exact (N1 i)).
        rewrite Ec. destruct (ptr_null_dec (child h n i)) as [N|N]; [left; exact N|]. right.
        split; [|left; exact (N2 i Hi N)]. apply (local_same h h' _ _ _ (Hd _)).
        exact (i_wf _ _ I _ _ _ (live_child h l0 lo0 S0 n i L0 E0 Hi)). }
  split; [exact I|exact I'|rewrite (sw_rc _ _ _ _ SW); lia|intros p _; apply Hd| |].
  - intros p M E U. split; [exact (Ka p M E)|]. split; [apply Hd|exact (Bd p M E)].
  - intros p Hp R. rewrite (sw_rc _ _ _ _ SW). destruct (Kd p Hp R) as [A|A]; [left; exact A|]. right.
    split; [exact A|]. split; [exact (Bd2 p Hp R A)|]. destruct p as [|x|n]; try exact Coq.Init.Logic.I.
    exact (proj2 (Ke n (i_live _ _ I _ Hp R) A)).
Qed.

Lemma swap_bnd : forall h st h' st' l q lo S en el, swap h h' l q -> live h l lo S -> Bnd h st en el -> Inv h' st' ->
  (forall p, st p <> Mine -> st p <> Live -> st' p = st p) -> Bnd h' st' en el.
Proof.
  intros h st h' st' l q lo S en el SW L B I' K.
  apply (bnd_frame h st h' st' en el B I'); try (destruct SW; assumption); [|intros x _; rewrite (sw_val _ _ _ _ SW); reflexivity].
  intros n E. apply (sw_else _ _ _ _ SW (LChild n 0)). intros <-.
  rewrite (live_not_retired h st n 0 _ _ (b_inv _ _ _ _ B) L) in E. discriminate.
Qed.

(* a leaf appears at an empty place *)
Lemma publish_leaf : forall h st en el m l lo S x v, Good h st en el m -> live h l lo S -> deref h l = PNull ->
  st (PLeaf x) = Mine -> lo <= lkey h x < lo + 2 ^ S -> lval h x = User v ->
  let h' := apply h (store_at l (PLeaf x)) in
  safe h st h' (upst st (PLeaf x) Live) /\ Good h' (upst st (PLeaf x) Live) en el (set m (lkey h x) v) /\ m (lkey h x) = None.
Proof.
  intros h st en el m l lo S x v (B & C & T) L E Hm Hk Hv h'. pose proof (store_swap h l (PLeaf x)) as SW. fold h' in SW.
  pose proof (b_inv _ _ _ _ B) as I. pose proof (i_wf _ _ I) as W.
  pose proof (live_flat h h' l (PLeaf x) SW ltac:(discriminate) ltac:(rewrite E; discriminate)) as LF.
  assert (RX : ~ Reach h (PLeaf x)) by (intros R; rewrite (i_live _ _ I (PLeaf x) ltac:(discriminate) R) in Hm; discriminate).
  assert (RF : forall p, p <> PNull -> (Reach h' p <-> Reach h p \/ p = PLeaf x)).
  { intros p Hp. split.
    - intros (l1 & lo1 & S1 & L1 & E1). apply LF in L1. destruct (loc_dec l1 l) as [->|N].
      + right. rewrite (sw_at _ _ _ _ SW) in E1. congruence.
      + left. exists l1, lo1, S1. rewrite (sw_else _ _ _ _ SW _ N) in E1. auto.
    - intros [(l1 & lo1 & S1 & L1 & E1)| ->].
      + exists l1, lo1, S1. split; [apply LF; exact L1|]. rewrite (sw_else _ _ _ _ SW); [exact E1|]. intros ->. congruence.
      + exists l, lo, S. split; [apply LF; exact L|]. exact (sw_at _ _ _ _ SW). }
  assert (Abs : forall y, ~ has h (lkey h x) y) by (apply (walk_absent h l lo S _ W L Hk); rewrite E; cbn; tauto).
  assert (W' : WF h').
  { intros l1 lo1 S1 L1. apply LF in L1. apply (sw_local h h' l (PLeaf x) SW). destruct (loc_dec l1 l) as [->|N].
    - rewrite (sw_at _ _ _ _ SW). assert (lo1 = lo /\ S1 = S) as (-> & ->); [|exact Hk].
      clear - L L1. inversion L; subst; inversion L1; subst; auto.
    - rewrite (sw_else _ _ _ _ SW _ N). exact (W _ _ _ L1). }
  assert (Sf : safe h st h' (upst st (PLeaf x) Live)).
  { apply (swap_safe h st h' _ l (PLeaf x) lo S SW I L W').
    - intros p M Ep. destruct (upst_cases st (PLeaf x) Live p) as [(-> & _)|(_ & ->)]; congruence.
    - intros p M Ep. destruct (upst_cases st (PLeaf x) Live p) as [(-> & X)|(_ & X)]; rewrite X in Ep; [discriminate|left; exact Ep].
    - intros p Hp R. apply RF in R; [|exact Hp]. destruct R as [R| ->]; [|apply upst_same].
      rewrite upst_other by (intros ->; exact (RX R)). exact (i_live _ _ I p Hp R).
    - intros p Hp R. left. apply RF; auto.
    - intros n El Er. rewrite upst_other in Er by discriminate. congruence. }
  assert (HS : forall k y, has h' k y <-> has h k y \/ (y = x /\ k = lkey h x)).
  { intros k y. unfold has. rewrite (sw_key _ _ _ _ SW), RF by discriminate. split.
    - intros ([R|X] & K); [left; auto|right]. injection X as ->. auto.
    - intros [(R & K)|(-> & ->)]; auto. }
  split; [exact Sf|]. split; [|destruct (m (lkey h x)) as [v0|] eqn:Em; [|reflexivity]; exfalso; apply (proj1 C) in Em; destruct Em as (y & Hy & _); exact (Abs y Hy)].
  split; [|split].
  - apply (swap_bnd h st h' _ l (PLeaf x) lo S en el SW L B (s_post _ _ _ _ Sf)).
    intros p N1 N2. apply upst_other. intros ->. congruence.
  - destruct C as (C1 & C2). split.
    + intros k v1. unfold set. rewrite (sw_val _ _ _ _ SW). destruct (Z.eqb_spec k (lkey h x)) as [->|Nk].
      * split.
        -- intros X. injection X as <-. exists x. split; [apply HS; auto|exact Hv].
        -- intros (y & Hy & Ey). apply HS in Hy. destruct Hy as [Hy|(-> & _)]; [exfalso; exact (Abs y Hy)|]. congruence.
      * rewrite C1. split; intros (y & Hy & Ey); exists y; (split; [|exact Ey]).
        -- apply HS. auto.
        -- apply HS in Hy. destruct Hy as [Hy|(_ & X)]; [exact Hy|congruence].
    + intros k y Hy. rewrite (sw_val _ _ _ _ SW). apply HS in Hy. destruct Hy as [Hy|(-> & _)]; [exact (C2 k y Hy)|eauto].
  - intros n R _. apply RF in R; [|discriminate]. destruct R as [R|R]; [|discriminate].
    destruct (T n R (fun f => f)) as (i & j & Hi & Hj & D & A1 & A2). exists i, j.
    assert (Q : forall i0, child h n i0 <> PNull -> child h' n i0 <> PNull).
    { intros i0 Hn. destruct (loc_dec (LChild n i0) l) as [X|N].
      - change (deref h' (LChild n i0) <> PNull). rewrite X, (sw_at _ _ _ _ SW). discriminate.
      - change (deref h' (LChild n i0) <> PNull). rewrite (sw_else _ _ _ _ SW _ N). exact Hn. }
    auto 8.
Qed.

(* the value of an entry changes *)
Lemma update_value : forall h st en el m x v, Good h st en el m -> Reach h (PLeaf x) ->
  let h' := apply h (SVal x (User v)) in
  safe h st h' st /\ Good h' st en el (set m (lkey h x) v) /\ exists v0, m (lkey h x) = Some v0.
Proof.
  intros h st en el m x v (B & C & T) R h'.
  pose proof (b_inv _ _ _ _ B) as I. pose proof (i_wf _ _ I) as W.
  destruct (apply_frame h (SVal x (User v)) eq_refl) as (Er & F). fold h' in Er, F.
  assert (El : st (PLeaf x) = Live) by (apply (i_live _ _ I); [discriminate|exact R]).
  assert (FN : forall n, same_head h h' (PNode n) /\ same_body h h' (PNode n)) by (intros n; apply F; discriminate).
  pose proof (reach_same h h' Er (fun n _ => FN n)) as RS.
  assert (Ek : lkey h' = lkey h) by (unfold h'; destruct h; reflexivity).
  assert (Hd : forall p, same_head h h' p) by (intros [|y|n]; [exact Coq.Init.Logic.I|cbn; rewrite Ek; reflexivity|apply FN]).
  assert (Rc : remove_count h' = remove_count h) by (unfold h'; destruct h; reflexivity).
  assert (NX : forall p, st p <> Live -> same_body h h' p) by (intros p N; apply F; cbn; congruence).
  assert (Ev : lval h' x = User v) by (unfold h'; destruct h; cbn; unfold put; rewrite Z.eqb_refl; reflexivity).
  assert (Ev2 : forall y, y <> x -> lval h' y = lval h y).
  { intros y N. unfold h'; destruct h; cbn; unfold put. destruct (Z.eqb_spec y x); [congruence|reflexivity]. }
  assert (I' : Inv h' st).
  { split.
    - intros l lo S L. destruct (live_same h h' Er (fun n _ => FN n) l lo S) as (A & A2). apply A in L.
      rewrite (A2 L). apply (local_same h h' _ _ _ (Hd _)). exact (W _ _ _ L).
    - intros p Hp R'. apply RS in R'. exact (i_live _ _ I p Hp R').
    - rewrite Rc. exact (i_ret _ _ I).
    - intros n M E U. rewrite Rc in U. destruct (i_kids _ _ I n M E U) as (Lc & K).
      split; [apply (local_same h h' _ _ _ (Hd _)); exact Lc|]. destruct (FN n) as ((E1 & E2) & E3). rewrite E1, E2.
      intros i Hi. rewrite (E3 i Hi). destruct (K i Hi) as [K0|(K1 & K2)]; [left; exact K0|right].
      split; [apply (local_same h h' _ _ _ (Hd _)); exact K1|]. destruct K2 as [K2|K2]; [left; apply RS; exact K2|right; exact K2]. }
  assert (HS : forall k y, has h' k y <-> has h k y) by (intros k y; unfold has; rewrite RS, Ek; tauto).
  split; [|split; [split; [|split]|]].
  - split; [exact I|exact I'|lia|intros p _; apply Hd| |].
    + intros p M E U. split; [exact E|]. split; [apply Hd|apply NX; congruence].
    + intros p Hp R'. left. apply RS. exact R'.
  - apply (bnd_frame h st h' st en el B I'); try (unfold h'; destruct h; reflexivity).
    intros y E. apply Ev2. congruence.
  - destruct C as (C1 & C2). assert (Hx : has h (lkey h x) x) by (split; [exact R|reflexivity]). split.
    + intros k v1. unfold set. destruct (Z.eqb_spec k (lkey h x)) as [->|Nk].
      * split.
        -- intros X. injection X as <-. exists x. split; [apply HS; exact Hx|exact Ev].
        -- intros (y & Hy & Ey). apply HS in Hy. rewrite (has_unique h _ y x W Hy Hx) in Ey. congruence.
      * rewrite C1. split; intros (y & Hy & Ey); exists y.
        -- split; [apply HS; exact Hy|]. rewrite Ev2; [exact Ey|]. intros ->. apply Nk. symmetry. apply Hy.
        -- apply HS in Hy. split; [exact Hy|]. rewrite Ev2 in Ey; [exact Ey|]. intros ->. apply Nk. symmetry. apply Hy.
    + intros k y Hy. apply HS in Hy. destruct (Z.eq_dec y x) as [->|N]; [eauto|]. rewrite Ev2 by exact N. exact (C2 k y Hy).
  - intros n Rn Hex. apply RS in Rn. destruct (T n Rn Hex) as (i & j & Hi & Hj & D & A1 & A2). exists i, j.
    destruct (FN n) as (_ & E3). rewrite (E3 i Hi), (E3 j Hj). auto 8.
  - destruct (proj2 C (lkey h x) x ltac:(split; [exact R|reflexivity])) as (v0 & E0). exists v0.
    apply (proj1 C). exists x. split; [split; [exact R|reflexivity]|exact E0].
Qed.

(* a new node appears in front of what was there *)
Lemma publish_node : forall h st en el mp l lo S x v m ik ip, Good h st en el mp -> live h l lo S -> deref h l <> PNull ->
  st (PLeaf x) = Mine -> st (PNode m) = Mine -> 0 <= ik < 16 -> 0 <= ip < 16 -> ik <> ip ->
  child h m ik = PLeaf x -> child h m ip = deref h l -> (forall i, 0 <= i < 16 -> i <> ik -> i <> ip -> child h m i = PNull) ->
  local h lo S (PNode m) ->
  local h (npath h m + ik * 2 ^ nshift h m) (nshift h m) (PLeaf x) ->
  local h (npath h m + ip * 2 ^ nshift h m) (nshift h m) (deref h l) ->
  lo <= lkey h x < lo + 2 ^ S -> ~ covers h (lkey h x) (deref h l) -> lval h x = User v ->
  let h' := apply h (store_at l (PNode m)) in let st' := upst (upst st (PLeaf x) Live) (PNode m) Live in
  safe h st h' st' /\ Good h' st' en el (set mp (lkey h x) v) /\ mp (lkey h x) = None.
Proof.
  intros h st en el mp l lo S x v m ik ip (B & C & T) L Nn Hx Hm Bik Bip Nki Ck Cp Co Lm Lk Lp Hk Nc Hv h' st'.
  pose proof (store_swap h l (PNode m)) as SW. fold h' in SW.
  pose proof (b_inv _ _ _ _ B) as I. pose proof (i_wf _ _ I) as W.
  assert (RX : ~ Reach h (PLeaf x)) by (intros R; rewrite (i_live _ _ I (PLeaf x) ltac:(discriminate) R) in Hx; discriminate).
  assert (RM : ~ Reach h (PNode m)) by (intros R; rewrite (i_live _ _ I (PNode m) ltac:(discriminate) R) in Hm; discriminate).
  pose proof (live_split_inv h h' l (PNode m) SW m ik ip x lo S L eq_refl Ck Cp Co) as LI.
  pose proof (split_kids h h' l (PNode m) SW m ip lo S L RM Cp) as KD.
  assert (RF : forall p, p <> PNull -> (Reach h' p <-> Reach h p \/ p = PNode m \/ p = PLeaf x)).
  { intros p Hp. split.
    - intros R. destruct (split_reach_inv h h' l (PNode m) SW m ik ip x lo S L RM eq_refl Ck Cp Co p R) as [|[|[|]]]; tauto.
    - intros [R|[->| ->]].
      + exact (split_reach h h' l (PNode m) SW m ip lo S L RM eq_refl Cp Bip p R).
      + exists l, lo, S. split; [exact (live_split_old h h' l (PNode m) SW m ip lo S L RM eq_refl Cp Bip _ _ _ L)|exact (sw_at _ _ _ _ SW)].
      + exists (LChild m ik), (npath h m + ik * 2 ^ nshift h m), (nshift h m).
        split; [exact (live_split_new h h' l (PNode m) SW m ip lo S L RM eq_refl Cp Bip ik Bik)|]. rewrite KD by exact Bik. exact Ck. }
  assert (Abs : forall y, ~ has h (lkey h x) y) by (apply (walk_absent h l lo S _ W L Hk); exact Nc).
  assert (W' : WF h').
  { intros l1 lo1 S1 L1. apply (sw_local h h' l (PNode m) SW). destruct (LI _ _ _ L1) as [L0|(i & Hi & -> & -> & ->)].
    - destruct (loc_dec l1 l) as [->|N].
      + rewrite (sw_at _ _ _ _ SW). assert (lo1 = lo /\ S1 = S) as (-> & ->); [|exact Lm].
        clear - L L0. inversion L; subst; inversion L0; subst; auto.
      + rewrite (sw_else _ _ _ _ SW _ N). exact (W _ _ _ L0).
    - rewrite KD by exact Hi. destruct (Z.eq_dec i ik) as [->|N1]; [rewrite Ck; exact Lk|].
      destruct (Z.eq_dec i ip) as [->|N2]; [rewrite Cp; exact Lp|]. rewrite (Co i Hi N1 N2). exact Coq.Init.Logic.I. }
  assert (SC : forall p, (p = PNode m /\ st' p = Live) \/ (p = PLeaf x /\ st' p = Live) \/ (p <> PNode m /\ p <> PLeaf x /\ st' p = st p)).
  { intros p. unfold st'. destruct (upst_cases (upst st (PLeaf x) Live) (PNode m) Live p) as [(-> & ->)|(N & ->)]; [auto|].
    destruct (upst_cases st (PLeaf x) Live p) as [(-> & ->)|(N2 & ->)]; auto. }
  assert (Sf : safe h st h' st').
  { apply (swap_safe h st h' _ l (PNode m) lo S SW I L W').
    - intros p M Ep. destruct (SC p) as [(-> & _)|[(-> & _)|(_ & _ & ->)]]; congruence.
    - intros p M Ep. destruct (SC p) as [(-> & X)|[(-> & X)|(_ & _ & X)]]; rewrite X in Ep; [discriminate|discriminate|left; exact Ep].
    - intros p Hp R. apply RF in R; [|exact Hp]. destruct (SC p) as [(_ & X)|[(_ & X)|(N1 & N2 & X)]]; [exact X|exact X|].
      rewrite X. destruct R as [R|[R|R]]; [exact (i_live _ _ I p Hp R)|congruence|congruence].
    - intros p Hp R. left. apply RF; auto.
    - intros n El Er. destruct (SC (PNode n)) as [(_ & X)|[(_ & X)|(_ & _ & X)]]; congruence. }
  assert (HS : forall k y, has h' k y <-> has h k y \/ (y = x /\ k = lkey h x)).
  { intros k y. unfold has. rewrite (sw_key _ _ _ _ SW), RF by discriminate. split.
    - intros ([R|[X|X]] & K); [left; auto|discriminate|right]. injection X as ->. auto.
    - intros [(R & K)|(-> & ->)]; auto. }
  split; [exact Sf|]. split; [|destruct (mp (lkey h x)) as [v0|] eqn:Em; [|reflexivity]; exfalso; apply (proj1 C) in Em; destruct Em as (y & Hy & _); exact (Abs y Hy)].
  split; [|split].
  - apply (swap_bnd h st h' _ l (PNode m) lo S en el SW L B (s_post _ _ _ _ Sf)).
    intros p N1 N2. destruct (SC p) as [(-> & X)|[(-> & X)|(_ & _ & X)]]; congruence.
  - destruct C as (C1 & C2). split.
    + intros k v1. unfold set. rewrite (sw_val _ _ _ _ SW). destruct (Z.eqb_spec k (lkey h x)) as [->|Nk].
      * split.
        -- intros X. injection X as <-. exists x. split; [apply HS; auto|exact Hv].
        -- intros (y & Hy & Ey). apply HS in Hy. destruct Hy as [Hy|(-> & _)]; [exfalso; exact (Abs y Hy)|]. congruence.
      * rewrite C1. split; intros (y & Hy & Ey); exists y; (split; [|exact Ey]).
        -- apply HS. auto.
        -- apply HS in Hy. destruct Hy as [Hy|(_ & X)]; [exact Hy|congruence].
    + intros k y Hy. rewrite (sw_val _ _ _ _ SW). apply HS in Hy. destruct Hy as [Hy|(-> & _)]; [exact (C2 k y Hy)|eauto].
  - intros n R _. apply RF in R; [|discriminate]. destruct R as [R|[R|R]]; [| |discriminate].
    + destruct (T n R (fun f => f)) as (i & j & Hi & Hj & D & A1 & A2). exists i, j.
      assert (Q : forall i0, child h n i0 <> PNull -> child h' n i0 <> PNull).
      { intros i0 Hn. destruct (loc_dec (LChild n i0) l) as [X|N].
        - change (deref h' (LChild n i0) <> PNull). rewrite X, (sw_at _ _ _ _ SW). discriminate.
        - change (deref h' (LChild n i0) <> PNull). rewrite (sw_else _ _ _ _ SW _ N). exact Hn. }
      auto 8.
    + injection R as ->. exists ik, ip. pose proof (KD ik Bik) as K1. pose proof (KD ip Bip) as K2. cbn [deref] in K1, K2.
      rewrite K1, K2, Ck, Cp. repeat split; try lia; try assumption; discriminate.
Qed.

(* a leaf disappears *)
Lemma unlink_leaf : forall h st en el m l lo S x, Good h st en el m -> live h l lo S -> deref h l = PLeaf x ->
  let h' := apply h (store_at l PNull) in let st' := upst st (PLeaf x) (Retired (remove_count h)) in
  safe h st h' st' /\ Bnd h' st' en el /\ contents h' (clear m (lkey h x)) /\ two h' (fun n => exists i, l = LChild n i) /\
  (forall l1 lo1 S1, live h' l1 lo1 S1 <-> live h l1 lo1 S1).
Proof.
  intros h st en el m l lo S x (B & C & T) L E h' st'. pose proof (store_swap h l PNull) as SW. fold h' in SW.
  pose proof (b_inv _ _ _ _ B) as I. pose proof (i_wf _ _ I) as W.
  pose proof (live_flat h h' l PNull SW ltac:(discriminate) ltac:(rewrite E; discriminate)) as LF.
  assert (RX : Reach h (PLeaf x)) by (exists l, lo, S; auto).
  assert (RF : forall p, p <> PNull -> (Reach h' p <-> Reach h p /\ p <> PLeaf x)).
  { intros p Hp. split.
    - intros (l1 & lo1 & S1 & L1 & E1). apply LF in L1. destruct (loc_dec l1 l) as [->|N].
      + rewrite (sw_at _ _ _ _ SW) in E1. congruence.
      + rewrite (sw_else _ _ _ _ SW _ N) in E1. split; [exists l1, lo1, S1; auto|]. intros ->.
        apply N. exact (proj1 (unique_leaf h _ _ _ _ _ _ _ _ W L1 L E1 E eq_refl)).
    - intros ((l1 & lo1 & S1 & L1 & E1) & N). exists l1, lo1, S1. split; [apply LF; exact L1|].
      rewrite (sw_else _ _ _ _ SW); [exact E1|]. intros ->. congruence. }
  assert (W' : WF h').
  { intros l1 lo1 S1 L1. apply LF in L1. apply (sw_local h h' l PNull SW). destruct (loc_dec l1 l) as [->|N].
    - rewrite (sw_at _ _ _ _ SW). exact Coq.Init.Logic.I.
    - rewrite (sw_else _ _ _ _ SW _ N). exact (W _ _ _ L1). }
  pose proof (i_live _ _ I (PLeaf x) ltac:(discriminate) RX) as El.
  assert (Sf : safe h st h' st').
  { unfold st'. apply (swap_safe h st h' _ l PNull lo S SW I L W').
    - intros p M Ep. destruct (upst_cases st (PLeaf x) (Retired (remove_count h)) p) as [(-> & _)|(_ & ->)]; congruence.
    - intros p M Ep. destruct (upst_cases st (PLeaf x) (Retired (remove_count h)) p) as [(-> & X)|(_ & X)]; rewrite X in Ep; [|left; exact Ep].
      right. injection Ep as <-. split; [reflexivity|]. split; [discriminate|exact RX].
    - intros p Hp R. apply RF in R; [|exact Hp]. rewrite upst_other by apply R. exact (i_live _ _ I p Hp (proj1 R)).
    - intros p Hp R. destruct (upst_cases st (PLeaf x) (Retired (remove_count h)) p) as [(-> & X)|(N & _)]; [right; exact X|].
      left. apply RF; auto.
    - intros n En Er. rewrite upst_other in Er by discriminate. congruence. }
  assert (HS : forall k y, has h' k y <-> has h k y /\ y <> x).
  { intros k y. unfold has. rewrite (sw_key _ _ _ _ SW), RF by discriminate. split.
    - intros ((R & X) & K). split; [auto|congruence].
    - intros ((R & K) & X). split; [split; [exact R|congruence]|exact K]. }
  assert (Hx : has h (lkey h x) x) by (split; [exact RX|reflexivity]).
  split; [exact Sf|]. split; [|split; [|split; [|exact LF]]].
  - apply (swap_bnd h st h' _ l PNull lo S en el SW L B (s_post _ _ _ _ Sf)).
    intros p N1 N2. apply upst_other. intros ->. congruence.
  - destruct C as (C1 & C2). split.
    + intros k v1. unfold clear. rewrite (sw_val _ _ _ _ SW). destruct (Z.eqb_spec k (lkey h x)) as [->|Nk].
      * split; [discriminate|]. intros (y & Hy & _). apply HS in Hy. exfalso. apply (proj2 Hy).
        exact (has_unique h _ y x W (proj1 Hy) Hx).
      * rewrite C1. split; intros (y & Hy & Ey); exists y; (split; [|exact Ey]).
        -- apply HS. split; [exact Hy|]. intros ->. apply Nk. symmetry. apply Hy.
        -- apply HS in Hy. apply Hy.
    + intros k y Hy. rewrite (sw_val _ _ _ _ SW). apply HS in Hy. exact (C2 k y (proj1 Hy)).
  - intros n R Hex. apply RF in R; [|discriminate]. destruct R as (R & _).
    destruct (T n R (fun f => f)) as (i & j & Hi & Hj & D & A1 & A2). exists i, j.
    assert (Q : forall i0, child h' n i0 = child h n i0).
    { intros i0. apply (sw_else _ _ _ _ SW (LChild n i0)). intros X. apply Hex. exists i0. symmetry. exact X. }
    rewrite !Q. auto 8.
Qed.

(* a node gives way to its only child *)
Lemma collapse : forall h st en el m l lo S n o, Bnd h st en el -> contents h m -> two h (fun n' => n' = n) ->
  live h l lo S -> deref h l = PNode n -> 0 <= o < 16 -> child h n o <> PNull ->
  (forall i, 0 <= i < 16 -> i <> o -> child h n i = PNull) ->
  let h' := apply h (store_at l (child h n o)) in let st' := upst st (PNode n) (Retired (remove_count h)) in
  safe h st h' st' /\ Good h' st' en el m.
Proof.
  intros h st en el m l lo S n o B C T L E Ho Nn Co h' st'. pose proof (store_swap h l (child h n o)) as SW. fold h' in SW.
  pose proof (b_inv _ _ _ _ B) as I. pose proof (i_wf _ _ I) as W.
  pose proof (live_collapse_inv h h' l _ SW n o lo S L E Ho eq_refl) as LI.
  pose proof (live_collapse_old h h' l _ SW n o lo S W L E Ho eq_refl Co) as LO.
  pose proof (collapse_nself h h' l _ SW n lo S W L E) as NS.
  pose proof (collapse_top h h' l _ SW n o lo S W L E Ho eq_refl) as LT.
  assert (RX : Reach h (PNode n)) by (exists l, lo, S; auto).
  assert (Lo : live h (LChild n o) (npath h n + o * 2 ^ nshift h n) (nshift h n)) by (eapply live_child; eauto).
  assert (Nq : child h n o <> PNode n).
  { intros X. apply (NS o). exact (unique_node h _ _ _ _ _ _ n W L Lo E X). }
  assert (RF : forall p, p <> PNull -> (Reach h' p <-> Reach h p /\ p <> PNode n)).
  { intros p Hp. split.
    - intros (l1 & lo1 & S1 & L1 & E1). pose proof (LI _ _ _ L1) as L2. destruct (loc_dec l1 l) as [->|N].
      + rewrite (sw_at _ _ _ _ SW) in E1. split; [|congruence].
        exists (LChild n o), (npath h n + o * 2 ^ nshift h n), (nshift h n). split; [exact Lo|exact E1].
      + rewrite (sw_else _ _ _ _ SW _ N) in E1. split; [exists l1, lo1, S1; auto|]. intros ->.
        apply N. exact (unique_node h _ _ _ _ _ _ n W L2 L E1 E).
    - intros ((l1 & lo1 & S1 & L1 & E1) & N). destruct (LO _ _ _ L1) as [L2|(i & Hi & ->)].
      + exists l1, lo1, S1. split; [exact L2|]. rewrite (sw_else _ _ _ _ SW); [exact E1|]. intros ->. congruence.
      + cbn [deref] in E1. destruct (Z.eq_dec i o) as [->|Ni]; [|rewrite (Co i Hi Ni) in E1; congruence].
        exists l, lo, S. split; [exact LT|]. rewrite (sw_at _ _ _ _ SW). exact E1. }
  assert (W' : WF h').
  { intros l1 lo1 S1 L1. pose proof (LI _ _ _ L1) as L2. apply (sw_local h h' l _ SW). destruct (loc_dec l1 l) as [->|N].
    - rewrite (sw_at _ _ _ _ SW). assert (lo1 = lo /\ S1 = S) as (-> & ->) by (clear - L L2; inversion L; subst; inversion L2; subst; auto).
      pose proof (W _ _ _ Lo) as Lc. cbn [deref] in Lc. pose proof (W _ _ _ L) as Lc0. rewrite E in Lc0. destruct Lc0 as ((Z1 & Z2 & Z3 & Z4) & Z5).
      destruct (child h n o) as [|y|n']; [exact Coq.Init.Logic.I| |].
      + exact (proj1 (slot_inside h l lo S n o W L E Ho _ Lc)).
      + destruct Lc as ((Y1 & Y2 & Y3 & Y4) & Y5). split; [unfold node_ok; repeat split; try assumption; lia|].
        exact (proj1 (slot_inside h l lo S n o W L E Ho _ Y5)).
    - rewrite (sw_else _ _ _ _ SW _ N). exact (W _ _ _ L2). }
  pose proof (i_live _ _ I (PNode n) ltac:(discriminate) RX) as El.
  assert (Sf : safe h st h' st').
  { unfold st'. apply (swap_safe h st h' _ l _ lo S SW I L W').
    - intros p M Ep. destruct (upst_cases st (PNode n) (Retired (remove_count h)) p) as [(-> & _)|(_ & ->)]; congruence.
    - intros p M Ep. destruct (upst_cases st (PNode n) (Retired (remove_count h)) p) as [(-> & X)|(_ & X)]; rewrite X in Ep; [|left; exact Ep].
      right. injection Ep as <-. split; [reflexivity|]. split; [discriminate|exact RX].
    - intros p Hp R. apply RF in R; [|exact Hp]. rewrite upst_other by apply R. exact (i_live _ _ I p Hp (proj1 R)).
    - intros p Hp R. destruct (upst_cases st (PNode n) (Retired (remove_count h)) p) as [(-> & X)|(N & _)]; [right; exact X|].
      left. apply RF; auto.
    - intros n0 En Er. destruct (upst_cases st (PNode n) (Retired (remove_count h)) (PNode n0)) as [(X & _)|(_ & X)]; [|congruence].
      injection X as ->. split; [exact NS|]. intros i Hi Hn.
      destruct (Z.eq_dec i o) as [->|Ni]; [|rewrite (Co i Hi Ni) in Hn; congruence].
      apply RF; [exact Hn|]. split; [|exact Nq]. exists (LChild n o), (npath h n + o * 2 ^ nshift h n), (nshift h n). auto. }
  assert (HS : forall k y, has h' k y <-> has h k y).
  { intros k y. unfold has. rewrite (sw_key _ _ _ _ SW), RF by discriminate. split; [tauto|].
    intros (R & K). split; [split; [exact R|discriminate]|exact K]. }
  split; [exact Sf|]. split; [|split].
  - apply (swap_bnd h st h' _ l _ lo S en el SW L B (s_post _ _ _ _ Sf)).
    intros p N1 N2. apply upst_other. intros ->. congruence.
  - destruct C as (C1 & C2). split.
    + intros k v1. rewrite (sw_val _ _ _ _ SW), C1. split; intros (y & Hy & Ey); exists y; (split; [apply HS; exact Hy|exact Ey]).
    + intros k y Hy. rewrite (sw_val _ _ _ _ SW). apply HS in Hy. exact (C2 k y Hy).
  - intros n0 R Hex. apply RF in R; [|discriminate]. destruct R as (R & Nr).
    destruct (T n0 R ltac:(congruence)) as (i & j & Hi & Hj & D & A1 & A2). exists i, j.
    assert (Q : forall i0, child h n0 i0 <> PNull -> child h' n0 i0 <> PNull).
    { intros i0 Hn. destruct (loc_dec (LChild n0 i0) l) as [X|N].
      - change (deref h' (LChild n0 i0) <> PNull). rewrite X, (sw_at _ _ _ _ SW). exact Nn.
      - change (deref h' (LChild n0 i0) <> PNull). rewrite (sw_else _ _ _ _ SW _ N). exact Hn. }
    auto 8.
Qed.

(* the counter goes up; what was retired sixteen removals ago is ours again *)
Definition reclaim (h : heap) (st : ptr -> status) (del : Z) : ptr -> status :=
  let st1 := match pend_node h del with Some n => upst st (PNode n) Mine | None => st end in
  match pend_leaf h del with Some x => upst st1 (PLeaf x) Mine | None => st1 end.

Lemma reclaim_cases : forall h st del p,
  ((exists n, p = PNode n /\ pend_node h del = Some n) \/ (exists x, p = PLeaf x /\ pend_leaf h del = Some x)) /\ reclaim h st del p = Mine
  \/ reclaim h st del p = st p /\ (forall n, p = PNode n -> pend_node h del <> Some n) /\ (forall x, p = PLeaf x -> pend_leaf h del <> Some x).
Proof.
  intros h st del p. unfold reclaim. destruct (pend_node h del) as [n|] eqn:En, (pend_leaf h del) as [x|] eqn:Ex.
  - destruct (upst_cases (upst st (PNode n) Mine) (PLeaf x) Mine p) as [(-> & ->)|(N & ->)]; [left; split; [right; eauto|reflexivity]|].
    destruct (upst_cases st (PNode n) Mine p) as [(-> & ->)|(N2 & ->)]; [left; split; [left; eauto|reflexivity]|].
    right. split; [reflexivity|]. split; congruence.
  - destruct (upst_cases st (PNode n) Mine p) as [(-> & ->)|(N2 & ->)]; [left; split; [left; eauto|reflexivity]|].
    right. split; [reflexivity|]. split; congruence.
  - destruct (upst_cases st (PLeaf x) Mine p) as [(-> & ->)|(N & ->)]; [left; split; [right; eauto|reflexivity]|].
    right. split; [reflexivity|]. split; congruence.
  - right. split; [reflexivity|]. split; congruence.
Qed.

Lemma phase_count : forall m h st, Good h st (-1) (-1) m -> remove_count h + 1 < U64 ->
  let del := remove_count h mod 16 in Phase m h st [SCount] (reclaim h st del) del del.
Proof.
  intros m h st G U del. pose proof G as (B & _). pose proof (b_rc _ _ _ _ B) as R0.
  assert (Hdel : 0 <= del < 16) by (apply Z.mod_pos_bound; lia).
  assert (Rc : remove_count (apply h SCount) = remove_count h + 1) by (clear - U R0; destruct h as [r c p s k v dn dl pn pl rc nn nl]; cbn [apply remove_count] in *; apply wrap_id; unfold is_word; lia).
  assert (Old : forall p M, st p = Retired M -> (M - 1) mod 16 = del -> M + DELETED_LIFE <= remove_count h + 1).
  { intros p M E EM. pose proof (i_ret _ _ (b_inv _ _ _ _ B) p M E) as LE. unfold del, DELETED_LIFE in *. clear - EM LE. dlia. }
  apply (phase_one m h st SCount _ del del (-1) (-1) G); [reflexivity|cbn; congruence|lia| |].
  - intros p. destruct (reclaim_cases h st del p) as [(D & ->)|(-> & _)]; [right|left; reflexivity].
    destruct D as [(n & -> & En)|(x & -> & Ex)].
    + split; [discriminate|]. destruct (b_pn _ _ _ _ B del n Hdel ltac:(lia) En) as (M & A1 & A2). rewrite A1.
      split; [cbn [loose]; rewrite Rc; exact (Old _ _ A1 A2)|left; reflexivity].
    + split; [discriminate|]. destruct (b_pl _ _ _ _ B del x Hdel ltac:(lia) Ex) as (M & A1 & A2). rewrite A1.
      split; [cbn [loose]; rewrite Rc; exact (Old _ _ A1 A2)|left; reflexivity].
  - intros Iv.
    assert (Keep : forall p s0, st p = s0 -> (forall M, s0 = Retired M -> (M - 1) mod 16 <> del) -> reclaim h st del p = s0).
    { intros p s0 E N. destruct (reclaim_cases h st del p) as [([(n & -> & En)|(x & -> & Ex)] & _)|(-> & _)]; [| |exact E].
      - destruct (b_pn _ _ _ _ B del n Hdel ltac:(lia) En) as (M & A1 & A2). exfalso. apply (N M); [congruence|exact A2].
      - destruct (b_pl _ _ _ _ B del x Hdel ltac:(lia) Ex) as (M & A1 & A2). exfalso. apply (N M); [congruence|exact A2]. }
    split; try rewrite Rc.
    + exact Iv.
    + destruct (b_dn _ _ _ _ B) as (ns & C & D & F). exists ns. split; [destruct h; refine (nchain_frame _ _ ns _ _ C); reflexivity|].
      split; [exact D|]. intros n Hn. apply Keep; [apply F; exact Hn|discriminate].
    + destruct (b_dl _ _ _ _ B) as (ns & C & D & F). exists ns. split; [destruct h; refine (lchain_frame _ _ ns _ _ C); reflexivity|].
      split; [exact D|]. intros n Hn. apply Keep; [apply F; exact Hn|discriminate].
    + intros j n Hj Hne E. replace (pend_node (apply h SCount)) with (pend_node h) in E by (destruct h; reflexivity).
      destruct (b_pn _ _ _ _ B j n Hj ltac:(lia) E) as (M & A1 & A2). exists M. split; [|exact A2].
      apply Keep; [exact A1|]. intros M' X. injection X as <-. congruence.
    + intros j n Hj Hne E. replace (pend_leaf (apply h SCount)) with (pend_leaf h) in E by (destruct h; reflexivity).
      destruct (b_pl _ _ _ _ B j n Hj ltac:(lia) E) as (M & A1 & A2). exists M. split; [|exact A2].
      apply Keep; [exact A1|]. intros M' X. injection X as <-. congruence.
    + intros n Hn. replace (next_node (apply h SCount)) with (next_node h) in Hn by (destruct h; reflexivity).
      apply Keep; [apply (b_nn _ _ _ _ B); exact Hn|discriminate].
    + intros n Hn. replace (next_leaf (apply h SCount)) with (next_leaf h) in Hn by (destruct h; reflexivity).
      apply Keep; [apply (b_nl _ _ _ _ B); exact Hn|discriminate].
    + lia.
Qed.

(* a slot of the ring is filled in *)
Lemma phase_pend_node : forall m h st en el j o, Good h st en el m -> en = -1 \/ en = j -> 0 <= j < 16 ->
  (forall n, o = Some n -> exists M, st (PNode n) = Retired M /\ (M - 1) mod 16 = j) ->
  Phase m h st [SPendNode j o] st (-1) el.
Proof.
  intros m h st en el j o G He Hj Ho. pose proof G as (B & _).
  apply (phase_one m h st (SPendNode j o) st (-1) el en el G); [reflexivity|cbn; congruence|destruct h; cbn; lia|auto|].
  intros Iv. destruct h as [r c p s k v dn dl pn pl rc nn nl]; cbn [apply] in *.
  split; cbn [deleted_node deleted_leaf pend_node pend_leaf next_node next_leaf remove_count].
  - exact Iv.
  - destruct (b_dn _ _ _ _ B) as (ns & C & D & F). exists ns. split; [refine (nchain_frame _ _ ns _ _ C); reflexivity|auto].
  - destruct (b_dl _ _ _ _ B) as (ns & C & D & F). exists ns. split; [refine (lchain_frame _ _ ns _ _ C); reflexivity|auto].
  - intros j0 n Hj0 _ E. unfold put in E. destruct (Z.eqb_spec j0 j) as [->|N]; [exact (Ho n E)|].
    apply (b_pn _ _ _ _ B j0 n Hj0); [lia|exact E].
  - exact (b_pl _ _ _ _ B).
  - exact (b_nn _ _ _ _ B).
  - exact (b_nl _ _ _ _ B).
  - exact (b_rc _ _ _ _ B).
Qed.
Lemma phase_pend_leaf : forall m h st en el j o, Good h st en el m -> el = -1 \/ el = j -> 0 <= j < 16 ->
  (forall n, o = Some n -> exists M, st (PLeaf n) = Retired M /\ (M - 1) mod 16 = j) ->
  Phase m h st [SPendLeaf j o] st en (-1).
Proof.
  intros m h st en el j o G He Hj Ho. pose proof G as (B & _).
  apply (phase_one m h st (SPendLeaf j o) st en (-1) en el G); [reflexivity|cbn; congruence|destruct h; cbn; lia|auto|].
  intros Iv. destruct h as [r c p s k v dn dl pn pl rc nn nl]; cbn [apply] in *.
  split; cbn [deleted_node deleted_leaf pend_node pend_leaf next_node next_leaf remove_count].
  - exact Iv.
  - destruct (b_dn _ _ _ _ B) as (ns & C & D & F). exists ns. split; [refine (nchain_frame _ _ ns _ _ C); reflexivity|auto].
  - destruct (b_dl _ _ _ _ B) as (ns & C & D & F). exists ns. split; [refine (lchain_frame _ _ ns _ _ C); reflexivity|auto].
  - exact (b_pn _ _ _ _ B).
  - intros j0 n Hj0 _ E. unfold put in E. destruct (Z.eqb_spec j0 j) as [->|N]; [exact (Ho n E)|].
    apply (b_pl _ _ _ _ B j0 n Hj0); [lia|exact E].
  - exact (b_nn _ _ _ _ B).
  - exact (b_nl _ _ _ _ B).
  - exact (b_rc _ _ _ _ B).
Qed.
