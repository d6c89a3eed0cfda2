(* The writer's single stores, one lemma each. *)
From Verif Require Import Base Model_Utils Proof_Utils Model_Critnib Proof_Critnib Spec_Map
  Model_CritnibConc Proof_CritnibConc Proof_CritnibConcStep Proof_CritnibConcGet.

Definition contents (h : heap) (m : amap (V := Z)) : Prop :=
  (forall k v, m k = Some v <-> exists x, has h k x /\ lval h x = User v) /\
  (forall k x, has h k x -> exists v, lval h x = User v).

Definition two (h : heap) (ex : Z -> Prop) : Prop :=
  forall n, Reach h (PNode n) -> ~ ex n ->
  exists i j, 0 <= i < 16 /\ 0 <= j < 16 /\ i <> j /\ child h n i <> PNull /\ child h n j <> PNull.
Definition noex : Z -> Prop := fun _ => False.

(* the lists of free objects *)
Fixpoint nchain (h : heap) (p : ptr) (ns : list Z) : Prop :=
  match ns with [] => p = PNull | n :: ns => p = PNode n /\ nchain h (child h n 0) ns end.
Fixpoint lchain (h : heap) (o : option Z) (xs : list Z) : Prop :=
  match xs with [] => o = None | x :: xs => o = Some x /\ exists o', lval h x = Link o' /\ lchain h o' xs end.

Record Bnd (h : heap) (st : ptr -> status) (en el : Z) : Prop := {
  b_inv : Inv h st;
  b_dn : exists ns, nchain h (deleted_node h) ns /\ NoDup ns /\ forall n, In n ns -> st (PNode n) = Freed;
  b_dl : exists xs, lchain h (deleted_leaf h) xs /\ NoDup xs /\ forall x, In x xs -> st (PLeaf x) = Freed;
  b_pn : forall j n, 0 <= j < 16 -> j <> en -> pend_node h j = Some n -> exists M, st (PNode n) = Retired M /\ (M - 1) mod 16 = j;
  b_pl : forall j x, 0 <= j < 16 -> j <> el -> pend_leaf h j = Some x -> exists M, st (PLeaf x) = Retired M /\ (M - 1) mod 16 = j;
  b_nn : forall n, next_node h <= n -> st (PNode n) = Fresh;
  b_nl : forall x, next_leaf h <= x -> st (PLeaf x) = Fresh;
  b_rc : 0 <= remove_count h }.

Definition upst (st : ptr -> status) (p : ptr) (s : status) : ptr -> status :=
  fun q => if (match p, q with PNull, PNull => true | PLeaf x, PLeaf y => y =? x | PNode x, PNode y => y =? x | _, _ => false end) then s else st q.
Lemma upst_same : forall st p s, upst st p s p = s.
Proof. intros st [|x|x] s; unfold upst; rewrite ?Z.eqb_refl; reflexivity. Qed.
Lemma upst_other : forall st p s q, q <> p -> upst st p s q = st q.
Proof.
  intros st [|x|x] s [|y|y] N; unfold upst; try reflexivity; try congruence; destruct (Z.eqb_spec y x); try reflexivity; congruence.
Qed.
Lemma upst_cases : forall st p s q, (q = p /\ upst st p s q = s) \/ (q <> p /\ upst st p s q = st q).
Proof.
  intros st p s q. assert (D : {q = p} + {q <> p}) by (decide equality; apply Z.eq_dec).
  destruct D as [->|N]; [left; split; [reflexivity|apply upst_same]|right; split; [exact N|apply upst_other; exact N]].
Qed.

(* chains only depend on the objects in them *)
Lemma nchain_frame : forall h h' ns p, (forall n, In n ns -> child h' n 0 = child h n 0) -> nchain h p ns -> nchain h' p ns.
Proof.
  intros h h' ns. induction ns as [|n ns IH]; intros p F C; cbn [nchain] in *; [exact C|].
  destruct C as (E & C). split; [exact E|]. rewrite (F n (or_introl eq_refl)). apply IH; [|exact C].
  intros n' Hn. apply F. right. exact Hn.
Qed.
Lemma lchain_frame : forall h h' xs p, (forall x, In x xs -> lval h' x = lval h x) -> lchain h p xs -> lchain h' p xs.
Proof.
  intros h h' xs. induction xs as [|n xs IH]; intros p F C; cbn [lchain] in *; [exact C|].
  destruct C as (E & o & E2 & C). split; [exact E|]. exists o. rewrite (F n (or_introl eq_refl)). split; [exact E2|].
  apply IH; [|exact C]. intros n' Hn. apply F. right. exact Hn.
Qed.

Lemma bnd_frame : forall h st h' st' en el, Bnd h st en el -> Inv h' st' ->
  (forall n, st (PNode n) = Freed -> child h' n 0 = child h n 0) -> (forall x, st (PLeaf x) = Freed -> lval h' x = lval h x) ->
  deleted_node h' = deleted_node h -> deleted_leaf h' = deleted_leaf h -> pend_node h' = pend_node h -> pend_leaf h' = pend_leaf h ->
  next_node h' = next_node h -> next_leaf h' = next_leaf h -> remove_count h' = remove_count h ->
  (forall p, st p <> Mine -> st p <> Live -> st' p = st p) -> Bnd h' st' en el.
Proof.
  intros h st h' st' en el B I Fn Fx E1 E2 E3 E4 E5 E6 E7 Fs.
  assert (FF : forall p s, st p = s -> s <> Mine -> s <> Live -> st' p = s) by (intros p s <- A1 A2; apply Fs; assumption).
  split.
  - exact I.
  - destruct (b_dn _ _ _ _ B) as (ns & C & D & F). exists ns. rewrite E1.
    split; [apply (nchain_frame h); [intros n Hn; apply Fn; apply F; exact Hn|exact C]|].
    split; [exact D|]. intros n Hn. apply FF; [apply F; exact Hn|discriminate|discriminate].
  - destruct (b_dl _ _ _ _ B) as (ns & C & D & F). exists ns. rewrite E2.
    split; [apply (lchain_frame h); [intros n Hn; apply Fx; apply F; exact Hn|exact C]|].
    split; [exact D|]. intros n Hn. apply FF; [apply F; exact Hn|discriminate|discriminate].
  - intros j n Hj Hne E. rewrite E3 in E. destruct (b_pn _ _ _ _ B j n Hj Hne E) as (M & A1 & A2).
    exists M. split; [apply FF; [exact A1|discriminate|discriminate]|exact A2].
  - intros j n Hj Hne E. rewrite E4 in E. destruct (b_pl _ _ _ _ B j n Hj Hne E) as (M & A1 & A2).
    exists M. split; [apply FF; [exact A1|discriminate|discriminate]|exact A2].
  - intros n Hn. rewrite E5 in Hn. apply FF; [apply (b_nn _ _ _ _ B); exact Hn|discriminate|discriminate].
  - intros n Hn. rewrite E6 in Hn. apply FF; [apply (b_nl _ _ _ _ B); exact Hn|discriminate|discriminate].
  - rewrite E7. exact (b_rc _ _ _ _ B).
Qed.

(* Stores to objects no reader may rely on. *)
Definition touched (s : store) : ptr :=
  match s with
  | SChild n _ _ | SPath n _ | SShift n _ => PNode n
  | SKey x _ | SVal x _ => PLeaf x
  | _ => PNull
  end.
Definition is_root (s : store) : bool := match s with SRoot _ => true | _ => false end.

Lemma apply_frame : forall h s, is_root s = false ->
  root (apply h s) = root h /\
  forall p, p <> touched s -> same_head h (apply h s) p /\ same_body h (apply h s) p.
Proof.
  intros [r c p s' k v dn dl pn pl rc nn nl] s Hs. split; [destruct s; try reflexivity; discriminate|].
  intros q N. destruct s as [z|n i z|n z|n z|x z|x z|z|z|j z|j z| | |]; try discriminate; cbn [apply]; 
    destruct q as [|y|y]; cbn [same_head same_body lkey lval npath nshift child touched] in *; try tauto; repeat split; try reflexivity;
    unfold put, put2; try (intros i' Hi'); try (destruct (Z.eqb_spec y n) as [->|]; [congruence|reflexivity]);
    try (destruct (Z.eqb_spec y x) as [->|]; [congruence|reflexivity]).
Qed.

Lemma live_same : forall h h', root h' = root h ->
  (forall n, Reach h (PNode n) -> same_head h h' (PNode n) /\ same_body h h' (PNode n)) ->
  forall l lo S, (live h' l lo S <-> live h l lo S) /\ (live h l lo S -> deref h' l = deref h l).
Proof.
  intros h h' Er F.
  assert (D : forall l lo S, live h l lo S -> deref h' l = deref h l).
  { intros l lo S L. inversion L as [|l0 lo0 S0 n i L0 E Hi]; subst; [exact Er|].
    exact (proj2 (F n ltac:(exists l0, lo0, S0; auto)) i Hi). }
  intros l lo S. split; [|apply D]. split; intros L.
  - induction L as [|l0 lo0 S0 n i L IH E Hi]; [apply live_root|].
    rewrite (D _ _ _ IH) in E.
    destruct (proj1 (F n ltac:(exists l0, lo0, S0; auto))) as (-> & ->). eapply live_child; eauto.
  - induction L as [|l0 lo0 S0 n i L IH E Hi]; [apply live_root|].
    destruct (proj1 (F n ltac:(exists l0, lo0, S0; auto))) as (<- & <-). eapply live_child; [exact IH|rewrite (D _ _ _ L); exact E|exact Hi].
Qed.

Lemma reach_same : forall h h', root h' = root h ->
  (forall n, Reach h (PNode n) -> same_head h h' (PNode n) /\ same_body h h' (PNode n)) ->
  forall p, Reach h' p <-> Reach h p.
Proof.
  intros h h' Er F p. split; intros (l & lo & S & L & E).
  - destruct (live_same h h' Er F l lo S) as (A & B). exists l, lo, S. split; [apply A; exact L|]. rewrite <- B; [exact E|apply A; exact L].
  - destruct (live_same h h' Er F l lo S) as (A & B). exists l, lo, S. split; [apply A; exact L|]. rewrite B; [exact E|exact L].
Qed.

Lemma local_same : forall h h' lo S p, same_head h h' p -> local h lo S p -> local h' lo S p.
Proof.
  intros h h' lo S [|x|n] H; cbn in *; [tauto|rewrite H; tauto|]. destruct H as (E1 & E2). unfold node_ok in *. rewrite E1, E2. tauto.
Qed.

(* the tree is as it was *)
Definition still (h h' : heap) : Prop :=
  (forall l lo S, live h' l lo S <-> live h l lo S) /\ (forall l lo S, live h l lo S -> deref h' l = deref h l) /\
  (forall p, Reach h p -> same_head h h' p) /\ (forall x, Reach h (PLeaf x) -> lval h' x = lval h x).
Lemma still_reach : forall h h', still h h' -> forall p, Reach h' p <-> Reach h p.
Proof.
  intros h h' (A & B & _) p. split; intros (l & lo & S & L & E); exists l, lo, S.
  - apply A in L. split; [exact L|]. rewrite <- (B _ _ _ L). exact E.
  - split; [apply A; exact L|]. rewrite (B _ _ _ L). exact E.
Qed.
Lemma still_refl : forall h, still h h.
Proof. intros h. split; [tauto|]. split; [reflexivity|]. split; [|reflexivity]. intros [|x|n] _; cbn; auto. Qed.
Lemma still_trans : forall a b c, still a b -> still b c -> still a c.
Proof.
  intros a b c H1 H2. pose proof (still_reach a b H1) as R. destruct H1 as (A1 & A2 & A3 & A4), H2 as (B1 & B2 & B3 & B4).
  split; [intros l lo S; rewrite B1; apply A1|]. split; [|split].
  - intros l lo S L. rewrite (B2 l lo S) by (apply A1; exact L). exact (A2 _ _ _ L).
  - intros p Rp. pose proof (A3 p Rp) as X. pose proof (B3 p (proj2 (R p) Rp)) as Y. destruct p as [|x|n]; cbn in *; [exact I|congruence|].
    destruct X, Y. split; congruence.
  - intros x Rp. rewrite (B4 x) by (apply R; exact Rp). exact (A4 x Rp).
Qed.

Lemma private_safe : forall h st s st', Inv h st -> is_root s = false ->
  (touched s <> PNull -> loose h (st (touched s))) -> remove_count h <= remove_count (apply h s) ->
  (forall p, st' p = st p \/ (p <> PNull /\ loose (apply h s) (st p) /\ (st' p = Mine \/ st' p = Freed))) ->
  safe h st (apply h s) st' /\ (forall m, contents h m -> contents (apply h s) m) /\ (forall ex, two h ex -> two (apply h s) ex) /\
  still h (apply h s).
Proof.
  intros h st s st' I Hr Ht Rc Ch. set (h' := apply h s) in *. destruct (apply_frame h s Hr) as (Er & F). fold h' in Er, F.
  assert (NT : forall p, p <> PNull -> Reach h p -> p <> touched s).
  { intros p Hp R ->. pose proof (i_live _ _ I _ Hp R) as E. specialize (Ht Hp). rewrite E in Ht. exact Ht. }
  assert (NR : forall p M, st p = Retired M -> remove_count h' < M + DELETED_LIFE -> p = PNull \/ p <> touched s).
  { intros p M E U. destruct (touched s) eqn:Et; [destruct p; [left; reflexivity|right; discriminate|right; discriminate]| |];
      (right; intros ->; rewrite E in Ht; specialize (Ht ltac:(discriminate)); cbn in Ht; lia). }
  assert (FR : forall n, Reach h (PNode n) -> same_head h h' (PNode n) /\ same_body h h' (PNode n)).
  { intros n R. apply F. apply NT; [discriminate|exact R]. }
  pose proof (reach_same h h' Er FR) as RS.
  assert (HD : forall p, Reach h p -> same_head h h' p).
  { intros [|x|n] R; [exact Coq.Init.Logic.I| |]; apply F; apply NT; try discriminate; exact R. }
  assert (Keep : forall p M, st p = Retired M -> remove_count h' < M + DELETED_LIFE -> st' p = Retired M).
  { intros p M E U. destruct (Ch p) as [->|(_ & L & _)]; [exact E|]. rewrite E in L. cbn in L. fold h' in L. lia. }
  assert (Back : forall p M, st' p = Retired M -> st p = Retired M).
  { intros p M E. destruct (Ch p) as [<-|(_ & _ & [X|X])]; [exact E|congruence|congruence]. }
  assert (HR : forall p M, st p = Retired M -> remove_count h' < M + DELETED_LIFE -> same_head h h' p /\ same_body h h' p).
  { intros p M E U. destruct (NR p M E U) as [->|N]; [split; exact Coq.Init.Logic.I|apply F; exact N]. }
  assert (I' : Inv h' st').
  { split.
    - intros l lo S L. destruct (live_same h h' Er FR l lo S) as (A & B).
      assert (L0 : live h l lo S) by (apply A; exact L). rewrite (B L0).
      apply (local_same h h'); [apply HD; exists l, lo, S; auto|]. exact (i_wf _ _ I _ _ _ L0).
    - intros p Hp R. apply RS in R. pose proof (i_live _ _ I p Hp R) as E.
      destruct (Ch p) as [->|(_ & L & _)]; [exact E|]. rewrite E in L. destruct L.
    - intros p M E. pose proof (i_ret _ _ I p M (Back p M E)). lia.
    - intros n M E U. pose proof (Back _ _ E) as E0. destruct (i_kids _ _ I n M E0 ltac:(lia)) as (Lc & K).
      destruct (HR _ _ E0 U) as (Hh & Hb). cbn in Hh, Hb.
      split; [apply (local_same h h' 0 64 (PNode n) Hh); exact Lc|]. intros i Hi. rewrite (Hb i Hi). destruct Hh as (-> & ->).
      destruct (K i Hi) as [K0|(K1 & K2)]; [left; exact K0|]. right.
      destruct K2 as [K2|(M' & K2 & K3)].
      + split; [apply (local_same h h'); [apply HD; exact K2|exact K1]|]. left. apply RS. exact K2.
      + split; [apply (local_same h h'); [apply (HR _ _ K2); lia|exact K1]|]. right. exists M'. split; [apply Keep; [exact K2|lia]|exact K3]. }
  assert (HS : forall k x, has h' k x <-> has h k x).
  { intros k x. unfold has. split; intros (R & E).
    - apply RS in R. split; [exact R|]. rewrite <- (HD _ R). exact E.
    - split; [apply RS; exact R|]. rewrite (HD _ R). exact E. }
  assert (HV : forall k x, has h k x -> lval h' x = lval h x).
  { intros k x (R & _). exact (proj2 (F (PLeaf x) (NT (PLeaf x) ltac:(discriminate) R))). }
  split; [|split; [|split]].
  - split; [exact I|exact I'|exact Rc|exact HD| |].
    + intros p M E U. split; [exact (Keep p M E U)|exact (HR p M E U)].
    + intros p Hp R. left. apply RS. exact R.
  - intros m (C1 & C2). split.
    + intros k v. rewrite C1. split; intros (x & Hx & Ev); exists x.
      * split; [apply HS; exact Hx|]. rewrite (HV _ _ Hx). exact Ev.
      * apply HS in Hx. split; [exact Hx|]. rewrite <- (HV _ _ Hx). exact Ev.
    + intros k x Hx. apply HS in Hx. rewrite (HV _ _ Hx). exact (C2 k x Hx).
  - intros ex T n R Hex. apply RS in R. destruct (T n R Hex) as (i & j & Hi & Hj & D & A & B). exists i, j.
    destruct (FR n R) as (_ & Hb). cbn in Hb. rewrite (Hb i Hi), (Hb j Hj). auto 6.
  - split; [intros l lo S; exact (proj1 (live_same h h' Er FR l lo S))|].
    split; [intros l lo S; exact (proj2 (live_same h h' Er FR l lo S))|]. split; [exact HD|].
    intros x R. exact (proj2 (F (PLeaf x) (NT (PLeaf x) ltac:(discriminate) R))).
Qed.

(* no node of the tree is without children *)
Definition some_child (h : heap) : Prop :=
  forall n, Reach h (PNode n) -> exists i, 0 <= i < 16 /\ child h n i <> PNull.
Lemma two_some : forall h, two h noex -> some_child h.
Proof. intros h T n R. destruct (T n R (fun X => X)) as (i & j & Hi & _ & _ & Ci & _). eauto. Qed.

(* Scripts: stores one after the other, each safe for readers, the contents being the
   old or the new ones at every moment. *)
Inductive script (m0 mf : amap (V := Z)) : heap -> (ptr -> status) -> list store -> heap -> (ptr -> status) -> Prop :=
| sc_nil : forall h st, script m0 mf h st [] h st
| sc_cons : forall h st s st1 ss h2 st2, safe h st (apply h s) st1 ->
    (contents h m0 /\ contents (apply h s) m0) \/ contents (apply h s) mf -> some_child (apply h s) ->
    script m0 mf (apply h s) st1 ss h2 st2 -> script m0 mf h st (s :: ss) h2 st2.
Lemma script_app : forall m0 mf h st ss h1 st1 ss' h2 st2, script m0 mf h st ss h1 st1 -> script m0 mf h1 st1 ss' h2 st2 ->
  script m0 mf h st (ss ++ ss') h2 st2.
Proof. intros m0 mf h st ss h1 st1 ss' h2 st2 S1 S2. induction S1; [exact S2|]. cbn [app]. eapply sc_cons; eauto. Qed.
Lemma script_one : forall m0 mf h st s st1, safe h st (apply h s) st1 -> (contents h m0 /\ contents (apply h s) m0) \/ contents (apply h s) mf -> some_child (apply h s) ->
  script m0 mf h st [s] (apply h s) st1.
Proof. intros. eapply sc_cons; [eassumption|assumption|assumption|apply sc_nil]. Qed.
Lemma applys_app : forall h a b, applys h (a ++ b) = applys (applys h a) b.
Proof. intros. unfold applys. apply fold_left_app. Qed.

(* The steps, each keeping: bookkeeping, contents, two children per node. *)
Definition Good (h : heap) (st : ptr -> status) (en el : Z) (m : amap (V := Z)) : Prop :=
  Bnd h st en el /\ contents h m /\ two h noex.
Definition Phase (m : amap (V := Z)) h st ss st' en' el' : Prop :=
  script m m h st ss (applys h ss) st' /\ Good (applys h ss) st' en' el' m /\
  still h (applys h ss).

Lemma phase_one : forall m h st s st' en' el' en el, Good h st en el m -> is_root s = false ->
  (touched s <> PNull -> loose h (st (touched s))) -> remove_count h <= remove_count (apply h s) ->
  (forall p, st' p = st p \/ (p <> PNull /\ loose (apply h s) (st p) /\ (st' p = Mine \/ st' p = Freed))) ->
  (Inv (apply h s) st' -> Bnd (apply h s) st' en' el') -> Phase m h st [s] st' en' el'.
Proof.
  intros m h st s st' en' el' en el (B & C & T) Hr Ht Rc Ch HB.
  destruct (private_safe h st s st' (b_inv _ _ _ _ B) Hr Ht Rc Ch) as (A1 & A2 & A3 & A4).
  split; [|split; [split; [|split]|]].
  - apply (script_one m m h st s st' A1); [right; exact (A2 m C)|apply two_some; exact (A3 _ T)].
  - apply HB. exact (s_post _ _ _ _ A1).
  - exact (A2 m C).
  - exact (A3 _ T).
  - exact A4.
Qed.
Lemma phase_app : forall m h st ss st1 e1 f1 ss' st2 en el, Phase m h st ss st1 e1 f1 ->
  Phase m (applys h ss) st1 ss' st2 en el -> Phase m h st (ss ++ ss') st2 en el.
Proof.
  intros m h st ss st1 e1 f1 ss' st2 en el (A1 & A2 & A3) (B1 & B2 & B3). unfold Phase. rewrite applys_app.
  split; [eapply script_app; eauto|]. split; [exact B2|]. exact (still_trans _ _ _ A3 B3).
Qed.
Lemma phase_nil : forall m h st en el, Good h st en el m -> Phase m h st [] st en el.
Proof. intros. split; [apply sc_nil|]. split; [assumption|]. apply still_refl. Qed.

(* a store to an object of ours *)
Lemma phase_mine : forall m h st s en el, Good h st en el m -> touched s <> PNull -> st (touched s) = Mine -> Phase m h st [s] st en el.
Proof.
  intros m h st s en el G Ht Hm. pose proof G as (B & _).
  assert (Rc : remove_count (apply h s) = remove_count h) by (destruct h, s; cbn in *; try reflexivity; congruence).
  assert (Hr : is_root s = false) by (destruct s; cbn in *; try reflexivity; congruence).
  destruct (apply_frame h s Hr) as (Er & F).
  apply (phase_one m h st s st en el en el G Hr); [|lia|auto|].
  - intros _. rewrite Hm. exact I.
  - intros Iv. apply (bnd_frame h st _ st en el B Iv); try (destruct h, s; cbn in *; try reflexivity; congruence).
    + intros n E. apply (proj2 (F (PNode n) ltac:(intros X; rewrite X in E; congruence)) 0). lia.
    + intros x E. apply (proj2 (F (PLeaf x) ltac:(intros X; rewrite X in E; congruence))).
Qed.

Lemma phase_alloc_leaf : forall m h st en el mem, Good h st en el m ->
  exists r s0, alloc_leaf h mem = Some (r, s0) /\
  match r with
  | None => mem = false /\ s0 = []
  | Some x => (st (PLeaf x) = Fresh \/ st (PLeaf x) = Freed) /\ Phase m h st s0 (upst st (PLeaf x) Mine) en el
  end.
Proof.
  intros m h st en el mem G. pose proof G as (B & _). unfold alloc_leaf.
  destruct (b_dl _ _ _ _ B) as (xs & C & D & F). destruct xs as [|x xs]; cbn [lchain] in C.
  - rewrite C. destruct mem; [|exists None, []; auto]. exists (Some (next_leaf h)), [SNewLeaf]. split; [reflexivity|].
    assert (Ef : st (PLeaf (next_leaf h)) = Fresh) by (apply (b_nl _ _ _ _ B); lia). split; [left; exact Ef|].
    apply (phase_one m h st SNewLeaf _ en el en el G); [reflexivity|cbn; congruence|destruct h; cbn; lia| |].
    + intros p. destruct (upst_cases st (PLeaf (next_leaf h)) Mine p) as [(-> & ->)|(_ & ->)]; [right|left; reflexivity].
      split; [discriminate|]. rewrite Ef. split; [exact I|left; reflexivity].
    + intros Iv. destruct h as [r c p s k v dn dl pn pl rc nn nl]; cbn [apply next_leaf deleted_leaf] in *. subst dl.
      assert (Q : forall q s0, st q = s0 -> s0 <> Fresh -> upst st (PLeaf nl) Mine q = s0).
      { intros q s0 E N. destruct (upst_cases st (PLeaf nl) Mine q) as [(-> & _)|(_ & ->)]; congruence. }
      split; cbn [deleted_node deleted_leaf pend_node pend_leaf next_node next_leaf remove_count].
      * exact Iv.
      * destruct (b_dn _ _ _ _ B) as (ns & C' & D' & F'). exists ns. split; [refine (nchain_frame _ _ ns _ _ C'); reflexivity|].
        split; [exact D'|]. intros n Hn. apply Q; [apply F'; exact Hn|discriminate].
      * exists []. split; [reflexivity|]. split; [constructor|]. intros x [].
      * intros j n Hj Hne E. destruct (b_pn _ _ _ _ B j n Hj Hne E) as (M & A1 & A2). exists M. split; [apply Q; [exact A1|discriminate]|exact A2].
      * intros j n Hj Hne E. destruct (b_pl _ _ _ _ B j n Hj Hne E) as (M & A1 & A2). exists M. split; [apply Q; [exact A1|discriminate]|exact A2].
      * intros n Hn. rewrite upst_other by discriminate. apply (b_nn _ _ _ _ B). exact Hn.
      * intros n Hn. rewrite upst_other by (intros X; injection X as X; lia). apply (b_nl _ _ _ _ B). cbn. lia.
      * exact (b_rc _ _ _ _ B).
  - destruct C as (E & o & E2 & C). rewrite E, E2. exists (Some x), [SDelLeaf o]. split; [reflexivity|].
    assert (Ef : st (PLeaf x) = Freed) by (apply F; left; reflexivity). split; [right; exact Ef|].
    apply (phase_one m h st (SDelLeaf o) _ en el en el G); [reflexivity|cbn; congruence|destruct h; cbn; lia| |].
    + intros p. destruct (upst_cases st (PLeaf x) Mine p) as [(-> & ->)|(_ & ->)]; [right|left; reflexivity].
      split; [discriminate|]. rewrite Ef. split; [exact I|left; reflexivity].
    + intros Iv. destruct h as [r c p s k v dn dl pn pl rc nn nl]; cbn [apply] in *.
      assert (Q : forall q s0, st q = s0 -> s0 <> Freed -> upst st (PLeaf x) Mine q = s0).
      { intros q s0 Eq N. destruct (upst_cases st (PLeaf x) Mine q) as [(-> & _)|(_ & ->)]; congruence. }
      inversion D as [|? ? Nin D']; subst.
      split; cbn [deleted_node deleted_leaf pend_node pend_leaf next_node next_leaf remove_count].
      * exact Iv.
      * destruct (b_dn _ _ _ _ B) as (ns & C' & D2 & F'). exists ns. split; [refine (nchain_frame _ _ ns _ _ C'); reflexivity|].
        split; [exact D2|]. intros n Hn. rewrite upst_other by discriminate. apply F'. exact Hn.
      * exists xs. split; [refine (lchain_frame _ _ xs _ _ C); reflexivity|]. split; [exact D'|].
        intros y Hy. rewrite upst_other by congruence. apply F. right. exact Hy.
      * intros j n Hj Hne E0. destruct (b_pn _ _ _ _ B j n Hj Hne E0) as (M & A1 & A2). exists M. split; [apply Q; [exact A1|discriminate]|exact A2].
      * intros j n Hj Hne E0. destruct (b_pl _ _ _ _ B j n Hj Hne E0) as (M & A1 & A2). exists M. split; [apply Q; [exact A1|discriminate]|exact A2].
      * intros n Hn. apply Q; [apply (b_nn _ _ _ _ B); exact Hn|discriminate].
      * intros n Hn. apply Q; [apply (b_nl _ _ _ _ B); exact Hn|discriminate].
      * exact (b_rc _ _ _ _ B).
Qed.

Lemma phase_alloc_node : forall m h st en el mem, Good h st en el m ->
  exists r s0, alloc_node h mem = Some (r, s0) /\
  match r with
  | None => mem = false /\ s0 = []
  | Some x => (st (PNode x) = Fresh \/ st (PNode x) = Freed) /\ Phase m h st s0 (upst st (PNode x) Mine) en el
  end.
Proof.
  intros m h st en el mem G. pose proof G as (B & _). unfold alloc_node.
  destruct (b_dn _ _ _ _ B) as (xs & C & D & F). destruct xs as [|x xs]; cbn [nchain] in C.
  - rewrite C. destruct mem; [|exists None, []; auto]. exists (Some (next_node h)), [SNewNode]. split; [reflexivity|].
    assert (Ef : st (PNode (next_node h)) = Fresh) by (apply (b_nn _ _ _ _ B); lia). split; [left; exact Ef|].
    apply (phase_one m h st SNewNode _ en el en el G); [reflexivity|cbn; congruence|destruct h; cbn; lia| |].
    + intros p. destruct (upst_cases st (PNode (next_node h)) Mine p) as [(-> & ->)|(_ & ->)]; [right|left; reflexivity].
      split; [discriminate|]. rewrite Ef. split; [exact I|left; reflexivity].
    + intros Iv. destruct h as [r c p s k v dn dl pn pl rc nn nl]; cbn [apply next_node deleted_node] in *. subst dn.
      assert (Q : forall q s0, st q = s0 -> s0 <> Fresh -> upst st (PNode nn) Mine q = s0).
      { intros q s0 E N. destruct (upst_cases st (PNode nn) Mine q) as [(-> & _)|(_ & ->)]; congruence. }
      split; cbn [deleted_node deleted_leaf pend_node pend_leaf next_node next_leaf remove_count].
      * exact Iv.
      * exists []. split; [reflexivity|]. split; [constructor|]. intros x [].
      * destruct (b_dl _ _ _ _ B) as (ns & C' & D' & F'). exists ns. split; [refine (lchain_frame _ _ ns _ _ C'); reflexivity|].
        split; [exact D'|]. intros n Hn. apply Q; [apply F'; exact Hn|discriminate].
      * intros j n Hj Hne E. destruct (b_pn _ _ _ _ B j n Hj Hne E) as (M & A1 & A2). exists M. split; [apply Q; [exact A1|discriminate]|exact A2].
      * intros j n Hj Hne E. destruct (b_pl _ _ _ _ B j n Hj Hne E) as (M & A1 & A2). exists M. split; [apply Q; [exact A1|discriminate]|exact A2].
      * intros n Hn. rewrite upst_other by (intros X; injection X as X; lia). apply (b_nn _ _ _ _ B). cbn. lia.
      * intros n Hn. rewrite upst_other by discriminate. apply (b_nl _ _ _ _ B). exact Hn.
      * exact (b_rc _ _ _ _ B).
  - destruct C as (E & C). rewrite E.
    exists (Some x), [SDelNode (child h x 0)]. split.
    { destruct (child h x 0) eqn:Ec; try reflexivity. destruct xs; cbn [nchain] in C; [discriminate|destruct C; discriminate]. }
    assert (Ef : st (PNode x) = Freed) by (apply F; left; reflexivity). split; [right; exact Ef|].
    apply (phase_one m h st (SDelNode (child h x 0)) _ en el en el G); [reflexivity|cbn; congruence|destruct h; cbn; lia| |].
    + intros p. destruct (upst_cases st (PNode x) Mine p) as [(-> & ->)|(_ & ->)]; [right|left; reflexivity].
      split; [discriminate|]. rewrite Ef. split; [exact I|left; reflexivity].
    + intros Iv. destruct h as [r c p s k v dn dl pn pl rc nn nl]; cbn [apply] in *.
      assert (Q : forall q s0, st q = s0 -> s0 <> Freed -> upst st (PNode x) Mine q = s0).
      { intros q s0 Eq N. destruct (upst_cases st (PNode x) Mine q) as [(-> & _)|(_ & ->)]; congruence. }
      inversion D as [|? ? Nin D']; subst.
      split; cbn [deleted_node deleted_leaf pend_node pend_leaf next_node next_leaf remove_count].
      * exact Iv.
      * exists xs. split; [refine (nchain_frame _ _ xs _ _ C); reflexivity|]. split; [exact D'|].
        intros y Hy. rewrite upst_other by congruence. apply F. right. exact Hy.
      * destruct (b_dl _ _ _ _ B) as (ns & C' & D2 & F'). exists ns. split; [refine (lchain_frame _ _ ns _ _ C'); reflexivity|].
        split; [exact D2|]. intros n Hn. rewrite upst_other by discriminate. apply F'. exact Hn.
      * intros j n Hj Hne E0. destruct (b_pn _ _ _ _ B j n Hj Hne E0) as (M & A1 & A2). exists M. split; [apply Q; [exact A1|discriminate]|exact A2].
      * intros j n Hj Hne E0. destruct (b_pl _ _ _ _ B j n Hj Hne E0) as (M & A1 & A2). exists M. split; [apply Q; [exact A1|discriminate]|exact A2].
      * intros n Hn. apply Q; [apply (b_nn _ _ _ _ B); exact Hn|discriminate].
      * intros n Hn. apply Q; [apply (b_nl _ _ _ _ B); exact Hn|discriminate].
      * exact (b_rc _ _ _ _ B).
Qed.

(* our object goes to its list of free ones *)
Lemma phase_free_leaf : forall m h st en el x, Good h st en el m -> st (PLeaf x) = Mine ->
  Phase m h st (free_leaf h (Some x)) (upst st (PLeaf x) Freed) en el.
Proof.
  intros m h st en el x G Hm. cbn [free_leaf].
  change [SVal x (Link (deleted_leaf h)); SDelLeaf (Some x)] with ([SVal x (Link (deleted_leaf h))] ++ [SDelLeaf (Some x)]).
  pose proof (phase_mine m h st (SVal x (Link (deleted_leaf h))) en el G ltac:(discriminate) Hm) as P1.
  eapply phase_app; [exact P1|]. destruct P1 as (_ & G1 & _). pose proof G1 as (B & _).
  apply (phase_one m _ st (SDelLeaf (Some x)) _ en el en el G1); [reflexivity|cbn; congruence|destruct h; cbn; lia| |].
  + intros p. destruct (upst_cases st (PLeaf x) Freed p) as [(-> & ->)|(_ & ->)]; [right|left; reflexivity].
    split; [discriminate|]. rewrite Hm. split; [exact I|right; reflexivity].
  + intros Iv. destruct h as [r c p s k v dn dl pn pl rc nn nl]. cbn [applys fold_left apply deleted_leaf] in *.
    assert (Q : forall q s0, st q = s0 -> s0 <> Mine -> upst st (PLeaf x) Freed q = s0).
    { intros q s0 Eq N. destruct (upst_cases st (PLeaf x) Freed q) as [(-> & _)|(_ & ->)]; congruence. }
    split; cbn [deleted_node deleted_leaf pend_node pend_leaf next_node next_leaf remove_count].
    * exact Iv.
    * destruct (b_dn _ _ _ _ B) as (ns & C' & D2 & F'). exists ns. split; [refine (nchain_frame _ _ ns _ _ C'); reflexivity|].
      split; [exact D2|]. intros n Hn. apply Q; [apply F'; exact Hn|discriminate].
    * destruct (b_dl _ _ _ _ B) as (xs & C' & D2 & F'). cbn [deleted_leaf] in C'. exists (x :: xs). split; [|split].
      -- cbn [lchain]. split; [reflexivity|]. exists dl. cbn [lval]. split; [unfold put; rewrite Z.eqb_refl; reflexivity|].
         refine (lchain_frame _ _ xs _ _ C'); reflexivity.
      -- constructor; [|exact D2]. intros X. rewrite (F' x X) in Hm. discriminate.
      -- intros y [<-|Hy]; [apply upst_same|]. apply Q; [apply F'; exact Hy|discriminate].
    * intros j n Hj Hne E0. destruct (b_pn _ _ _ _ B j n Hj Hne E0) as (M & A1 & A2). exists M. split; [apply Q; [exact A1|discriminate]|exact A2].
    * intros j n Hj Hne E0. destruct (b_pl _ _ _ _ B j n Hj Hne E0) as (M & A1 & A2). exists M. split; [apply Q; [exact A1|discriminate]|exact A2].
    * intros n Hn. apply Q; [apply (b_nn _ _ _ _ B); exact Hn|discriminate].
    * intros n Hn. apply Q; [apply (b_nl _ _ _ _ B); exact Hn|discriminate].
    * exact (b_rc _ _ _ _ B).
Qed.

Lemma phase_free_node : forall m h st en el x, Good h st en el m -> st (PNode x) = Mine ->
  Phase m h st (free_node h (Some x)) (upst st (PNode x) Freed) en el.
Proof.
  intros m h st en el x G Hm. cbn [free_node].
  change [SChild x 0 (deleted_node h); SDelNode (PNode x)] with ([SChild x 0 (deleted_node h)] ++ [SDelNode (PNode x)]).
  pose proof (phase_mine m h st (SChild x 0 (deleted_node h)) en el G ltac:(discriminate) Hm) as P1.
  eapply phase_app; [exact P1|]. destruct P1 as (_ & G1 & _). pose proof G1 as (B & _).
  apply (phase_one m _ st (SDelNode (PNode x)) _ en el en el G1); [reflexivity|cbn; congruence|destruct h; cbn; lia| |].
  + intros p. destruct (upst_cases st (PNode x) Freed p) as [(-> & ->)|(_ & ->)]; [right|left; reflexivity].
    split; [discriminate|]. rewrite Hm. split; [exact I|right; reflexivity].
  + intros Iv. destruct h as [r c p s k v dn dl pn pl rc nn nl]. cbn [applys fold_left apply deleted_node] in *.
    assert (Q : forall q s0, st q = s0 -> s0 <> Mine -> upst st (PNode x) Freed q = s0).
    { intros q s0 Eq N. destruct (upst_cases st (PNode x) Freed q) as [(-> & _)|(_ & ->)]; congruence. }
    split; cbn [deleted_node deleted_leaf pend_node pend_leaf next_node next_leaf remove_count].
    * exact Iv.
    * destruct (b_dn _ _ _ _ B) as (xs & C' & D2 & F'). cbn [deleted_node] in C'. exists (x :: xs). split; [|split].
      -- cbn [nchain]. split; [reflexivity|]. cbn [child].
         replace (put2 c x 0 dn x 0) with dn by (unfold put2; rewrite !Z.eqb_refl; reflexivity).
         refine (nchain_frame _ _ xs _ _ C'); reflexivity.
      -- constructor; [|exact D2]. intros X. rewrite (F' x X) in Hm. discriminate.
      -- intros y [<-|Hy]; [apply upst_same|]. apply Q; [apply F'; exact Hy|discriminate].
    * destruct (b_dl _ _ _ _ B) as (ns & C' & D2 & F'). exists ns. split; [refine (lchain_frame _ _ ns _ _ C'); reflexivity|].
      split; [exact D2|]. intros n Hn. apply Q; [apply F'; exact Hn|discriminate].
    * intros j n Hj Hne E0. destruct (b_pn _ _ _ _ B j n Hj Hne E0) as (M & A1 & A2). exists M. split; [apply Q; [exact A1|discriminate]|exact A2].
    * intros j n Hj Hne E0. destruct (b_pl _ _ _ _ B j n Hj Hne E0) as (M & A1 & A2). exists M. split; [apply Q; [exact A1|discriminate]|exact A2].
    * intros n Hn. apply Q; [apply (b_nn _ _ _ _ B); exact Hn|discriminate].
    * intros n Hn. apply Q; [apply (b_nl _ _ _ _ B); exact Hn|discriminate].
    * exact (b_rc _ _ _ _ B).
Qed.
