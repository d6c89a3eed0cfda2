(* Whole removals. *)
From Verif Require Import Base Model_Utils Proof_Utils Model_Critnib Proof_Critnib Spec_Map
  Model_CritnibConc Proof_CritnibConc Proof_CritnibConcStep Proof_CritnibConcGet Proof_CritnibConcWrite Proof_CritnibConcOps Proof_CritnibConcPlan.

Lemma find_leaf_spec : forall f h key n l lo S, WF h -> live h l lo S -> deref h l = PNode n ->
  (lo <= key < lo + 2 ^ S \/ forall x, ~ has h key x) -> S < 4 * Z.of_nat f ->
  exists r, find_leaf f h key n l = Some r /\
  match r with
  | None => forall x, ~ has h key x
  | Some (x, n', l') => exists lo' S', live h l' lo' S' /\ deref h l' = PNode n' /\
      child h n' (slice_index key (nshift h n')) = PLeaf x /\ (lkey h x <> key -> forall x, ~ has h key x)
  end.
Proof.
  induction f as [|f IH]; intros h key n l lo S W L E K Hf.
  - exfalso. pose proof (live_ival h W _ _ _ L) as (A & _). lia.
  - cbn [find_leaf]. set (i := slice_index key (nshift h n)). assert (Hi : 0 <= i < 16) by apply slice_range'.
    pose proof (live_child h l lo S n i L E Hi) as L2. pose proof (W _ _ _ L) as Lc. rewrite E in Lc.
    assert (K2 : npath h n + i * 2 ^ nshift h n <= key < npath h n + i * 2 ^ nshift h n + 2 ^ nshift h n \/ forall x, ~ has h key x).
    { destruct K as [K|K]; [|right; exact K]. destruct (covers_dec h key (PNode n)) as [C|C].
      - left. exact (proj2 (cover_slot h S n key (proj1 Lc) C)).
      - right. apply (walk_absent h l lo S key W L K). rewrite E. exact C. }
    assert (AB : ~ covers h key (child h n i) -> forall x, ~ has h key x).
    { intros N. destruct K2 as [K2|K2]; [|exact K2]. exact (walk_absent h (LChild n i) _ _ key W L2 K2 N). }
    destruct (child h n i) as [|x|n'] eqn:Ec.
    + eexists. split; [reflexivity|]. refine (AB _). cbn. tauto.
    + eexists. split; [reflexivity|]. exists lo, S. split; [exact L|]. split; [exact E|]. split; [exact Ec|]. exact AB.
    + apply (IH h key n' (LChild n i) _ _ W L2 Ec K2). destruct Lc as ((B1 & B2 & B3 & B4) & B5). lia.
Qed.

(* the first stores of a removal *)
Definition recycle (h : heap) : list store :=
  let del := remove_count h mod DELETED_LIFE in
  let s1 := [SCount] in
  let s2 := s1 ++ free_node (applys h s1) (pend_node h del) in
  s2 ++ free_leaf (applys h s2) (pend_leaf h del) ++ [SPendNode del None; SPendLeaf del None].

Lemma phase_recycle : forall m h st, Good h st (-1) (-1) m -> remove_count h + 1 < U64 ->
  exists st', Phase m h st (recycle h) st' (-1) (-1) /\ remove_count (applys h (recycle h)) = remove_count h + 1.
Proof.
  intros m h st G U. pose proof (phase_count m h st G U) as P1. cbv zeta in P1.
  assert (Hdel : 0 <= remove_count h mod 16 < 16) by (apply Z.mod_pos_bound; lia).
  pose proof (b_rc _ _ _ _ (proj1 G)) as R0.
  unfold recycle, DELETED_LIFE. set (del := remove_count h mod 16) in *. cbv zeta.
  set (st1 := reclaim h st del) in *.
  assert (P2 : exists st2, Phase m h st ([SCount] ++ free_node (applys h [SCount]) (pend_node h del)) st2 del del /\
     (forall x, pend_leaf h del = Some x -> st2 (PLeaf x) = Mine)).
  { destruct (pend_node h del) as [n|] eqn:En.
    - exists (upst st1 (PNode n) Freed). split.
      + eapply phase_app; [exact P1|]. apply (phase_free_node m _ st1 del del n (proj1 (proj2 P1))).
        destruct (reclaim_cases h st del (PNode n)) as [(_ & X)|(_ & X & _)]; [exact X|]. exfalso. exact (X n eq_refl En).
      + intros x Ex. rewrite upst_other by discriminate.
        destruct (reclaim_cases h st del (PLeaf x)) as [(_ & X)|(_ & _ & X)]; [exact X|]. exfalso. exact (X x eq_refl Ex).
    - exists st1. split; [rewrite app_nil_r; exact P1|]. intros x Ex.
      destruct (reclaim_cases h st del (PLeaf x)) as [(_ & X)|(_ & _ & X)]; [exact X|]. exfalso. exact (X x eq_refl Ex). }
  destruct P2 as (st2 & P2 & M2). set (s2 := [SCount] ++ free_node (applys h [SCount]) (pend_node h del)) in *.
  assert (P3 : exists st3, Phase m h st (s2 ++ free_leaf (applys h s2) (pend_leaf h del)) st3 del del).
  { destruct (pend_leaf h del) as [x|] eqn:Ex.
    - exists (upst st2 (PLeaf x) Freed). eapply phase_app; [exact P2|].
      apply (phase_free_leaf m _ st2 del del x (proj1 (proj2 P2))). apply M2. reflexivity.
    - exists st2. cbn [free_leaf]. rewrite app_nil_r. exact P2. }
  destruct P3 as (st3 & P3). exists st3. split.
  - rewrite app_assoc. set (s3 := s2 ++ free_leaf (applys h s2) (pend_leaf h del)) in *.
    change [SPendNode del None; SPendLeaf del None] with ([SPendNode del None] ++ [SPendLeaf del None]). rewrite app_assoc.
    assert (P4 : Phase m h st (s3 ++ [SPendNode del None]) st3 (-1) del).
    { eapply phase_app; [exact P3|]. apply (phase_pend_node m _ st3 del del del None (proj1 (proj2 P3))); [auto|exact Hdel|discriminate]. }
    eapply phase_app; [exact P4|]. apply (phase_pend_leaf m _ st3 (-1) del del None (proj1 (proj2 P4))); [auto|exact Hdel|discriminate].
  - subst s2. clearbody del. clear - U R0. destruct h as [r c p s k v dn dl pn pl rc nn nl].
    cbn [pend_node pend_leaf remove_count] in *.
    assert (W : wrap (rc + 1) = rc + 1) by (apply wrap_id; unfold is_word; lia).
    destruct (pn del), (pl del); cbn [app free_node free_leaf applys fold_left apply remove_count]; exact W.
Qed.

Lemma taken_spec : forall h n i, In i (taken h n) <-> 0 <= i < 16 /\ child h n i <> PNull.
Proof.
  intros h n i. unfold taken. rewrite filter_In, in_slots. destruct (child h n i); cbn; split; intros (A & B); split; try assumption; try discriminate; congruence.
Qed.
Lemma taken_nodup : forall h n, NoDup (taken h n).
Proof. intros. apply NoDup_filter. unfold slots. repeat constructor; cbn [In]; lia. Qed.

Definition del_leaf (h : heap) (del : Z) (s : list store) (x : Z) : option (option Z * list store) :=
  match lval (applys h s) x with
  | User v => Some (Some v, s ++ [SPendLeaf del (Some x)])
  | Link _ => None
  end.
Lemma remove_eq : forall h key, root h <> PNull ->
  remove h key =
  let del := remove_count h mod DELETED_LIFE in let s3 := recycle h in let h3 := applys h s3 in
  match root h with
  | PNull => None
  | PLeaf x => if lkey h3 x =? key then del_leaf h del (s3 ++ [SRoot PNull]) x else Some (None, s3)
  | PNode n0 =>
      match find_leaf DEPTH h3 key n0 LRoot with
      | None => None
      | Some None => Some (None, s3)
      | Some (Some (x, n, n_parent)) =>
          if negb (lkey h3 x =? key) then Some (None, s3)
          else
          let s4 := s3 ++ [SChild n (slice_index key (nshift h3 n)) PNull] in
          let h4 := applys h s4 in
          match taken h4 n with
          | [] => None
          | [o] => del_leaf h del (s4 ++ [store_at n_parent (child h4 n o); SPendNode del (Some n)]) x
          | _ => del_leaf h del s4 x
          end
      end
  end.
Proof. intros h key N. unfold remove. destruct (root h); [congruence|reflexivity|reflexivity]. Qed.

Lemma finish : forall h st m key del s h4 st4 x v M, 0 <= del < 16 -> applys h s = h4 -> script m (clear m key) h st s h4 st4 ->
  Good h4 st4 (-1) (-1) (clear m key) -> st4 (PLeaf x) = Retired M -> (M - 1) mod 16 = del ->
  lval h4 x = User v -> m key = Some v ->
  exists r ss, del_leaf h del s x = Some (r, ss) /\ Done h st m (OpRemove key) (OutRem r) ss.
Proof.
  intros h st m key del s h4 st4 x v M Hdel Es P4 G4 Ex EM Ev Em. unfold del_leaf. rewrite Es, Ev. eexists _, _. split; [reflexivity|].
  assert (P5 : Phase (clear m key) h4 st4 [SPendLeaf del (Some x)] st4 (-1) (-1)).
  { apply (phase_pend_leaf (clear m key) h4 st4 (-1) (-1) del (Some x) G4 ltac:(auto) Hdel).
    intros n X. injection X as <-. exists M. auto. }
  destruct P5 as (P5 & G5 & _). exists st4, (clear m key). rewrite <- Em. split; [apply al_remove|].
  rewrite applys_app, Es. split; [|exact G5]. eapply script_app; [exact P4|]. cbn [applys fold_left].
  apply script_one; [inversion P5; subst; cbn in *; match goal with X : script _ _ _ _ [] _ _ |- _ => inversion X; subst end; assumption|right; apply G5|apply two_some; apply G5].
Qed.

Lemma list_cases : forall (A : Type) (l : list A), l = [] \/ (exists a, l = [a]) \/ (exists a b l', l = a :: b :: l').
Proof. intros A [|a [|b l]]; eauto 6. Qed.

Theorem remove_ok : forall h st m key, Good h st (-1) (-1) m -> is_word key -> remove_count h + 1 < U64 ->
  exists r ss, remove h key = Some (r, ss) /\ Done h st m (OpRemove key) (OutRem r) ss.
Proof.
  intros h st m key G Wk U. pose proof G as (B & C & T). pose proof (i_wf _ _ (b_inv _ _ _ _ B)) as W0.
  assert (AbsM : forall h' m', contents h' m' -> (forall x, ~ has h' key x) -> m' key = None).
  { intros h' m' (C1 & _) A. destruct (m' key) as [v|] eqn:E; [|reflexivity]. apply C1 in E. destruct E as (x & Hx & _). exfalso. exact (A x Hx). }
  destruct (phase_recycle m h st G U) as (st3 & P3 & Rc). pose proof (proj1 (proj2 P3)) as G3.
  assert (NF : forall ss st', Phase m h st ss st' (-1) (-1) -> (forall x, ~ has (applys h ss) key x) -> Done h st m (OpRemove key) (OutRem None) ss).
  { intros ss st' (P1 & (Q1 & Q2 & Q3) & _) A. pose proof (AbsM _ _ Q2 A) as Em. exists st', (clear m key).
    assert (X : forall k, m k = clear m key k) by (intros k; unfold clear; destruct (Z.eqb_spec k key) as [->|]; [exact Em|reflexivity]).
    split; [rewrite <- Em; apply al_remove|]. split; [exact (script_weaken _ _ _ _ _ _ _ C P1)|].
    split; [exact Q1|]. split; [exact (contents_ext _ _ _ X Q2)|exact Q3]. }
  destruct (ptr_null_dec (root h)) as [E0|N0].
  { unfold remove. rewrite E0. exists None, []. split; [reflexivity|]. apply (NF [] st (phase_nil _ _ _ _ _ G)).
    apply (walk_absent h LRoot 0 64 key W0 (live_root h) (top_interval key Wk)). cbn [deref]. rewrite E0. cbn. tauto. }
  rewrite (remove_eq h key N0). cbv zeta. set (s3 := recycle h) in *. set (h3 := applys h s3) in *.
  set (del := remove_count h mod DELETED_LIFE).
  assert (Hdel : 0 <= del < 16) by (apply Z.mod_pos_bound; unfold DELETED_LIFE; lia).
  assert (Hres : (remove_count h3 - 1) mod 16 = del) by (rewrite Rc; unfold del, DELETED_LIFE; f_equal; lia).
  pose proof G3 as (B3 & C3 & T3). pose proof (b_inv _ _ _ _ B3) as I3. pose proof (i_wf _ _ I3) as W3.
  assert (Er : root h3 = root h) by (exact (proj1 (proj2 (proj2 (proj2 P3))) LRoot 0 64 (live_root h))).
  assert (Es : applys h s3 = h3) by reflexivity. assert (Sc3 : script m m h st s3 h3 st3) by exact (proj1 P3).
  clearbody s3 h3 del.
  destruct (root h) as [|x|n0] eqn:E0; [congruence| |].
  - destruct (Z.eqb_spec (lkey h3 x) key) as [Ek|Nk].
    + destruct (unlink_leaf h3 st3 (-1) (-1) m LRoot 0 64 x G3 (live_root h3) Er) as (S4 & B4 & C4 & T4 & LF4).
      assert (Hx : has h3 key x) by (split; [exists LRoot, 0, 64; split; [apply live_root|exact Er]|exact Ek]).
      destruct (proj2 C3 key x Hx) as (v & Ev). assert (Em : m key = Some v) by (apply (proj1 C3); eauto).
      rewrite Ek in C4. cbn [store_at] in *.
      eapply (finish h st m key del _ (apply h3 (SRoot PNull)) (upst st3 (PLeaf x) (Retired (remove_count h3))) x v (remove_count h3) Hdel).
      * rewrite applys_app, Es. reflexivity.
      * eapply script_app; [exact (script_weaken _ _ _ _ _ _ _ C Sc3)|]. apply script_one; [exact S4|right; exact C4|].
        intros n R. destruct (T4 n R) as (i & j & Hi & _ & _ & Ci & _); [intros (i & X); discriminate|eauto].
      * split; [exact B4|]. split; [exact C4|]. intros n R _. apply (T4 n R). intros (i & X). discriminate.
      * apply upst_same.
      * exact Hres.
      * rewrite <- Ev. destruct h3; reflexivity.
      * exact Em.
    + eexists _, _. split; [reflexivity|]. apply (NF s3 st3 P3). rewrite Es.
      apply (walk_absent h3 LRoot 0 64 key W3 (live_root h3) (top_interval key Wk)). cbn [deref]. rewrite Er. cbn. exact Nk.
  - destruct (find_leaf_spec DEPTH h3 key n0 LRoot 0 64 W3 (live_root h3) Er (or_introl (top_interval key Wk)) ltac:(unfold DEPTH; lia)) as (r & -> & R).
    destruct r as [((x & n) & l)|].
    2:{ eexists _, _. split; [reflexivity|]. apply (NF s3 st3 P3). rewrite Es. exact R. }
    destruct R as (lo & S & L & El & Ex & Ab). destruct (Z.eqb_spec (lkey h3 x) key) as [Ek|Nk]; cbn [negb].
    2:{ eexists _, _. split; [reflexivity|]. apply (NF s3 st3 P3). rewrite Es. exact (Ab Nk). }
    set (i := slice_index key (nshift h3 n)) in *. assert (Hi : 0 <= i < 16) by apply slice_range'. clearbody i.
    pose proof (live_child h3 l lo S n i L El Hi) as Lx.
    destruct (unlink_leaf h3 st3 (-1) (-1) m (LChild n i) _ _ x G3 Lx Ex) as (S4 & B4 & C4 & T4 & LF4).
    assert (Hx : has h3 key x) by (split; [exists (LChild n i); eauto|exact Ek]).
    destruct (proj2 C3 key x Hx) as (v & Ev). assert (Em : m key = Some v) by (apply (proj1 C3); eauto).
    rewrite Ek in C4. cbn [store_at] in *.
    assert (E4 : applys h (s3 ++ [SChild n i PNull]) = apply h3 (SChild n i PNull)) by (rewrite applys_app, Es; reflexivity).
    assert (Ec : forall j, child (apply h3 (SChild n i PNull)) n j = if j =? i then PNull else child h3 n j).
    { intros j. rewrite apply_child, Z.eqb_refl. reflexivity. }
    assert (Erest : nshift (apply h3 (SChild n i PNull)) = nshift h3 /\ lval (apply h3 (SChild n i PNull)) = lval h3 /\ remove_count (apply h3 (SChild n i PNull)) = remove_count h3) by (destruct h3; auto).
    rewrite E4. set (h4 := apply h3 (SChild n i PNull)) in *. set (st4 := upst st3 (PLeaf x) (Retired (remove_count h3))) in *.
    destruct Erest as (_ & Ev4 & Rc4).
    assert (Rn : Reach h3 (PNode n)) by (exists l, lo, S; auto).
    destruct (T3 n Rn (fun X => X)) as (a & b & Ha & Hb & Nab & Ca & Cb).
    assert (Tk : In a (taken h4 n) \/ In b (taken h4 n)).
    { rewrite !taken_spec, !Ec. destruct (Z.eqb_spec a i), (Z.eqb_spec b i); try congruence; tauto. }
    assert (P4 : script m (clear m key) h st (s3 ++ [SChild n i PNull]) h4 st4).
    { eapply script_app; [exact (script_weaken _ _ _ _ _ _ _ C Sc3)|]. apply script_one; [exact S4|right; exact C4|].
      intros q Rq. destruct (Z.eq_dec q n) as [->|Nq].
      - destruct Tk as [Tk|Tk]; apply taken_spec in Tk; [exists a|exists b]; exact Tk.
      - destruct (T4 q Rq) as (i1 & j1 & Hi1 & _ & _ & Ci1 & _); [intros (j & X); injection X as X1 _; congruence|eauto]. }
    assert (El4 : deref h4 l = PNode n).
    { rewrite <- El. unfold h4. destruct (loc_dec l (LChild n i)) as [Xl|Nl]; [subst l; cbn [deref] in El; congruence|].
      destruct l as [|nl il]; cbn [deref]; [destruct h3; reflexivity|]. rewrite apply_child.
      destruct (Z.eqb_spec nl n) as [->|]; [|reflexivity]. destruct (Z.eqb_spec il i) as [->|]; [congruence|reflexivity]. }
    destruct (list_cases _ (taken h4 n)) as [Et|[(o & Et)|(o & o2 & ot & Et)]]; rewrite Et.
    + exfalso. rewrite Et in Tk. cbn [In] in Tk. tauto.
    + assert (Ho : forall j, 0 <= j < 16 /\ child h4 n j <> PNull <-> j = o).
      { intros j. rewrite <- taken_spec, Et. cbn [In]. split; [intros [X|[]]; congruence|intros ->; tauto]. }
      pose proof (proj2 (Ho o) eq_refl) as (Ho1 & Ho2).
      assert (T4' : two h4 (fun n' => n' = n)).
      { intros q Rq Nq. apply (T4 q Rq). intros (j & X). injection X as <- _. congruence. }
      destruct (collapse h4 st4 (-1) (-1) (clear m key) l lo S n o B4 C4 T4' (proj2 (LF4 l lo S) L) El4 Ho1 Ho2) as (S5 & G5).
      { intros j Hj Nj. destruct (ptr_null_dec (child h4 n j)) as [X|X]; [exact X|]. exfalso. apply Nj, Ho. auto. }
      rewrite Rc4 in *. set (h5 := apply h4 (store_at l (child h4 n o))) in *. set (st5 := upst st4 (PNode n) (Retired (remove_count h3))) in *.
      assert (P6 : Phase (clear m key) h5 st5 [SPendNode del (Some n)] st5 (-1) (-1)).
      { apply (phase_pend_node (clear m key) h5 st5 (-1) (-1) del (Some n) G5 ltac:(auto) Hdel).
        intros n' X. injection X as <-. exists (remove_count h3). split; [apply upst_same|exact Hres]. }
      assert (P7 : script m (clear m key) h st ((s3 ++ [SChild n i PNull]) ++ [store_at l (child h4 n o); SPendNode del (Some n)]) (apply h5 (SPendNode del (Some n))) st5).
      { eapply script_app; [exact P4|]. eapply sc_cons; [exact S5|right; apply G5|apply two_some; apply G5|]. fold h5.
        destruct P6 as (P6 & G6 & _). apply script_one; [inversion P6; subst; cbn in *; match goal with X : script _ _ _ _ [] _ _ |- _ => inversion X; subst end; assumption|right; apply G6|apply two_some; apply G6]. }
      eapply (finish h st m key del _ (apply h5 (SPendNode del (Some n))) st5 x v (remove_count h3) Hdel).
      * rewrite applys_app, E4. reflexivity.
      * exact P7.
      * apply P6.
      * unfold st5, st4. rewrite upst_other by discriminate. apply upst_same.
      * exact Hres.
      * rewrite <- Ev, <- Ev4. unfold h5. destruct h4, l; reflexivity.
      * exact Em.
    + eapply (finish h st m key del _ h4 st4 x v (remove_count h3) Hdel).
      * exact E4.
      * exact P4.
      * split; [exact B4|]. split; [exact C4|]. intros q Rq _. destruct (Z.eq_dec q n) as [->|Nq].
        -- exists o, o2. pose proof (taken_nodup h4 n) as ND. rewrite Et in ND. inversion ND as [|? ? N1 _]; subst.
           assert (X1 : In o (taken h4 n)) by (rewrite Et; left; reflexivity).
           assert (X2 : In o2 (taken h4 n)) by (rewrite Et; right; left; reflexivity).
           apply taken_spec in X1. apply taken_spec in X2. assert (X3 : o <> o2) by (intros X; apply N1; left; congruence). tauto.
        -- apply (T4 q Rq). intros (j & X). injection X as <- _. congruence.
      * apply upst_same.
      * exact Hres.
      * congruence.
      * exact Em.
Qed.
