(* The invariant of the tracker under concurrent splits and merges holds in every
   execution. *)
From Verif Require Import Base Model_TrackerConc Spec_TrackerConc Proof_TrackerConc Model_TrackerSplit Spec_TrackerSplit Proof_TrackerSplit Proof_TrackerSplitInv Proof_TrackerSplitStep.
From Coq Require Import Permutation.

Definition gated (t : spc) (r : list spc) : Prop := forall c, In c (gives t) -> sunread r c.

Ltac same I := apply (cnt_same_lock _ _ _ _ _ _ I); reflexivity.
Ltac nin := cbn; intros ? []; fail.

Lemma tr_own s m H o r x : sinv s m H (Old o :: r) -> In x (tracked o) -> tr H (Old o :: r) x.
Proof.
  intros I X. left. split; [apply in_or_app; right; cbn; apply in_or_app; auto|]. intros M.
  destruct (minus_facts _ _ _ _ _ I M) as (_ & _ & _ & _ & _ & MH & _). pose proof (ar_nd _ (i_ar _ _ _ _ I)) as N.
  apply (nodup_app _ _ _ N MH). cbn. apply in_or_app. left. apply tracked_region, X.
Qed.
Lemma own_rec s m H o r x : sinv s m H (Old o :: r) -> In x (tracked o) -> exists c, rec_of s x (r_ptr x) c.
Proof.
  intros I X. destruct (proj2 (i_mi _ _ _ _ I) _ (tr_own _ _ _ _ _ _ I X)) as (c & M & E). exists c. unfold rec_of. auto.
Qed.

(* ranges of calls under the mutex lie in allocations *)
Lemma loc_cov s H o z : loc s H o -> locked o <> [] -> In z (about o) -> exists p, covered H p (fst z) (snd z).
Proof.
  intros L K J. destruct o; cbn in K, J, L; try contradiction; destruct J as [<-|[]]; cbn;
    first [exists (sa_pool x); unfold sbase in L; tauto|exists (ma_pool y); unfold mbase in L; tauto].
Qed.

Lemma old_inv s m H o r ok s' q : sinv s m H (Old o :: r) -> tstep s ok o = (s', q) -> gated (Old o) r ->
  (exists x c, q = [Live x c] /\ sinv s' m (x :: H) r) \/ ((forall x c, q <> [Live x c]) /\ sinv s' m H (map Old q ++ r)).
Proof.
  intros I S SAFE. pose proof (i_loc _ _ _ _ I _ (or_introl eq_refl)) as (RN & LV & LC). unfold gated in SAFE.
  pose proof (i_ar _ _ _ _ I) as AREA. cbn in AREA.
  assert (SZ : forall x, In x (region o) -> 0 < r_size x) by (intros x X; apply (ar_size _ AREA), in_or_app; right; apply in_or_app; auto).
  destruct o; cbn [tstep] in S; cbn [tloc region lives] in LC, RN, LV; try contradiction; try discriminate LV; try (exfalso; apply RN; reflexivity).
  - (* AFind *) right. destruct LC as (-> & ->). destruct (tfind (t_map s 0) (r_ptr r0)) as [[k c]|] eqn:F; injection S as <- <-; (split; [discriminate|]).
    + destruct (tfind_some _ _ _ _ F) as (M & KA & _). apply (inv_local s m m H (Old (AFind r0 0 None))); auto; try (same I); [|].
      * cbn. intros x [<-|[]]. right. left. eapply recs_in, M.
      * repeat split; auto; try discriminate. destruct (entry_area _ _ _ _ _ _ I M) as (e & b & -> & E & _ & B & B1 & B2 & E0). rewrite E. cbn.
        assert (B' : In b (H ++ flat_map sregion r)). { apply area. exact B. }
        assert (D : disjoint b r0 /\ 0 < r_size b).
        { assert (NE : b <> r0). { intros ->. pose proof (ar_nd _ AREA) as N. apply in_app_or in B'. destruct B' as [B'|B'].
            - apply (nodup_app _ _ _ N B'). left. reflexivity.
            - apply nodup_r in N. apply (nodup_app _ _ r0 N); [left; reflexivity|exact B']. }
          split; [apply (ar_dis _ AREA); auto|apply (ar_size _ AREA)]; try (apply in_or_app; right; left; reflexivity);
            apply in_app_or in B'; apply in_or_app; destruct B'; auto; right; right; assumption. }
        destruct D as (D & _). specialize (SZ r0 (or_introl eq_refl)). unfold disjoint in D. lia.
    + apply (inv_local s m m H (Old (AFind r0 0 None))); auto; try nin; try (same I). repeat split; auto; discriminate.
  - (* ASize *) right. destruct LC as (-> & -> & LE). destruct (Z.ltb_spec (r_ptr r0) (k + ti_size (t_info s c))) as [L|L]; [lia|].
    injection S as <- <-. split; [discriminate|]. apply (inv_local s m m H (Old (ASize r0 0 None k c))); auto; try nin; try (same I). repeat split; auto; discriminate.
  - (* ANew *) right. destruct LC as (-> & ->). assert (NW : rec_new s (rinfo r0) = (s', match q with [AIns _ _ _ c] => c | _ => 0 end) /\ exists c, q = [AIns r0 0 None c]).
    { unfold rec_new, rinfo. destruct (t_free s); injection S as <- <-; split; eauto. }
    destruct NW as (NW & c & ->). split; [discriminate|]. cbn [map app]. cbv iota beta in NW.
    apply (inv_new s s' m H (Old (ANew r0 0 None)) _ r c (rinfo r0)); auto; try nin. intros EM EI _. repeat split; auto; discriminate.
  - (* AIns *) destruct LC as (-> & -> & EI). destruct (ok && _) eqn:C; injection S as <- <-.
    + left. exists r0, c. split; [reflexivity|]. apply andb_true_iff in C. destruct C as (_ & C). destruct (tget (t_map s 0) (r_ptr r0)) eqn:G; [discriminate|]. clear C.
      constructor.
      * pose proof (i_ri _ _ _ _ I) as R. cbn in R. apply (RI_ins _ _ _ (r_ptr r0)) in R; [exact R|exact G].
      * eapply AR_perm; [|exact AREA]. symmetry. apply (Permutation_middle H (flat_map sregion r) r0).
      * eapply MI_iff; [apply MI_ins with (r := r0); [exact (i_mi _ _ _ _ I)|exact EI]|].
        intros x. unfold tr. cbn. assert (NM : ~ In r0 (flat_map minus r)).
        { intros M. destruct (minus_facts _ _ _ (Old (AIns r0 0 None c) :: r) r0 I M) as (_ & _ & _ & _ & _ & MH & _).
          apply (nodup_app _ _ _ (ar_nd _ AREA) MH). left. reflexivity. }
        rewrite ?in_app_iff. split; [intros [[X|X]| ->]|intros [([<-|X] & Y)|X]]; try tauto; left; split; auto.
      * pose proof (i_cnt _ _ _ _ I) as CN. exact CN.
      * intros o J. pose proof (i_loc _ _ _ _ I o (or_intror J)) as LO. pose proof LO as LO'. revert LO. apply loc_frame; cbn [w_map t_map t_info]; auto.
        -- intros k x X _. cbn. auto.
        -- intros p a n _ CV z Z0. destruct (CV z Z0) as (y & Y & W). exists y. split; [right; exact Y|exact W].
        -- intros LK y z Z1 Z2. split; [intros Y; right; exact Y|]. intros [<-|Y]; [|exact Y]. exfalso.
           destruct (loc_cov _ _ _ _ LO' LK Z1) as (p & CV). destruct (CV (r_ptr r0) Z2) as (y & Y & W & _). apply within_eq in W.
           destruct (ar_sep H _ y r0 AREA Y (or_introl eq_refl)) as (D & D1 & D2). unfold disjoint in D. lia.
    + right. split; [discriminate|]. apply (inv_local s m m H (Old (AIns r0 0 None c))); auto; try (same I). repeat split; auto; discriminate.
  - (* AUndo *) right. injection S as <- <-. split; [discriminate|].
    apply (inv_free s m H (Old (AUndo r0 c)) [] r c); auto; [apply SAFE; left; reflexivity|intros o []].
  - (* RFind *) right. destruct LC as (-> & -> & ->). destruct (own_rec _ _ _ _ _ r0 I (or_introl eq_refl)) as (c & RC). pose proof RC as (_ & M & _).
    destruct (tfind (t_map s 0) (r_ptr r0)) as [[k c']|] eqn:F; [|generalize (tfind_none _ _ _ _ F M); lia].
    destruct (tfind_some _ _ _ _ F) as (M' & KA & MX). specialize (MX _ _ M (Z.le_refl _)). assert (k = r_ptr r0) by lia. subst k.
    assert (c' = c) by (eapply key_uniq; [exact (ri_keys _ _ _ (i_ri _ _ _ _ I))|exact M'|exact M]). subst c'.
    injection S as <- <-. split; [discriminate|]. apply (inv_local s m m H (Old (RFind r0 0 None None))); auto; try (same I); [|].
    + cbn. intros x [<-|[]]. right. left. eapply recs_in, M.
    + split; [discriminate|]. split; [reflexivity|]. cbn. auto.
  - (* RSize *) right. destruct LC as (-> & -> & RC). pose proof RC as (-> & _ & EI). rewrite EI in S. cbn in S.
    specialize (SZ r0 (or_introl eq_refl)). destruct (Z.ltb_spec (r_ptr r0) (r_ptr r0 + r_size r0)); [|lia].
    injection S as <- <-. split; [discriminate|]. apply (inv_local s m m H (Old (RSize r0 0 None (r_ptr r0) c))); auto; try (same I).
    split; [discriminate|]. split; [reflexivity|]. cbn. auto.
  - (* RNch *) right. destruct LC as (-> & -> & RC). pose proof RC as (-> & _ & EI). rewrite EI in S. cbn in S.
    injection S as <- <-. split; [discriminate|]. apply (inv_local s m m H (Old (RNch r0 0 None (r_ptr r0) c))); auto; try (same I).
    split; [discriminate|]. split; [reflexivity|]. cbn. auto.
  - (* RNch2 *) right. destruct LC as (-> & -> & RC). pose proof RC as (-> & _ & EI). rewrite EI in S. cbn in S. rewrite Z.eqb_refl in S.
    injection S as <- <-. split; [discriminate|]. apply (inv_local s m m H (Old (RNch2 r0 0 None (r_ptr r0) c))); auto; try (same I).
    split; [discriminate|]. split; [reflexivity|]. cbn. auto.
  - (* RChk *) right. destruct LC as (-> & -> & RC). pose proof RC as (-> & _ & EI). rewrite EI in S. cbn in S.
    injection S as <- <-. split; [discriminate|]. apply (inv_local s m m H (Old (RChk r0 0 None (r_ptr r0) c))); auto; try nin; try (same I).
    split; [discriminate|]. split; [reflexivity|]. cbn. auto.
  - (* RRem *) right. destruct LC as (-> & ->). destruct (own_rec _ _ _ _ _ r0 I (or_introl eq_refl)) as (c0 & (_ & M0 & _)).
    destruct (tget (t_map s 0) (r_ptr r0)) as [c|] eqn:G; [|exfalso; exact (tget_none _ _ _ G M0)].
    apply tget_some in G. injection S as <- <-. split; [discriminate|]. cbn [map app].
    constructor.
    + pose proof (i_ri _ _ _ _ I) as R. cbn in R |- *. apply RI_del; [exact R|exact G].
    + exact AREA.
    + eapply MI_iff; [apply MI_del with (k := r_ptr r0); exact (i_mi _ _ _ _ I)|].
      assert (NU : forall x, In x (H ++ flat_map sregion r) -> r_ptr x <> r_ptr r0 /\ x <> r0).
      { intros x X. assert (NE : x <> r0). { intros ->. pose proof (ar_nd _ AREA) as N. apply in_app_or in X. destruct X as [X|X].
          - apply (nodup_app _ _ _ N X). left. reflexivity.
          - apply nodup_r in N. apply (nodup_app _ _ r0 N); [left; reflexivity|exact X]. }
        split; [|exact NE]. intros E. assert (X' : In x (H ++ region (RRem r0 0 None) ++ flat_map sregion r)) by (apply in_app_or in X; apply in_or_app; destruct X; auto; right; right; assumption).
        assert (R' : In r0 (H ++ region (RRem r0 0 None) ++ flat_map sregion r)) by (apply in_or_app; right; left; reflexivity).
        generalize (ar_dis _ AREA x r0 X' R' NE) (ar_size _ AREA x X') (ar_size _ AREA r0 R'). unfold disjoint. lia. }
      intros x. unfold tr. cbn. rewrite !in_app_iff. cbn.
      assert (PL : In x (flat_map plus r) -> r_ptr x <> r_ptr r0).
      { intros X. destruct (plus_facts _ _ _ (Old (RRem r0 0 None) :: r) x I X) as (_ & _ & _ & _ & _ & [(y & -> & W & _)|(y & -> & W & F)]).
        - apply (NU (whole y)). apply in_or_app. auto.
        - destruct (ar_sep H _ (union y) r0 AREA W (or_introl eq_refl)) as (D & D1 & D2). unfold disjoint in D. cbn in *. lia. }
      assert (HT : In x H \/ In x (flat_map otracked r) -> r_ptr x <> r_ptr r0).
      { intros X. apply NU. apply area, in_or_app. exact X. }
      split; [intros ([([X|[<-|X]] & Y)|X] & Z0); try contradiction; tauto|]. intros [(X & Y)|X]; (split; [|auto]); tauto.
    + exact (i_cnt _ _ _ _ I).
    + intros o [<-|J]; [split; [discriminate|]; split; [reflexivity|exact Logic.I]|].
      pose proof (i_loc _ _ _ _ I o (or_intror J)) as LO. pose proof LO as LO'. revert LO. apply loc_frame; cbn [w_map t_map t_info]; auto; [|tauto].
      intros k x X Y. cbn. apply tdel_in. split; [exact X|]. intros ->. destruct Y as [(LK & z & Z1 & Z2)|(y & Y1 & Y2)].
      * destruct (loc_cov _ _ _ _ LO' LK Z1) as (p & CV). destruct (CV (r_ptr r0) Z2) as (y & Y & W & _). apply within_eq in W.
        destruct (ar_sep H _ y r0 AREA Y (or_introl eq_refl)) as (D & D1 & D2). unfold disjoint in D. lia.
      * rewrite app_assoc in AREA. assert (Y' : In y (flat_map sregion r)) by (apply in_flat_map; exists o; auto).
        destruct (ar_sep _ _ r0 y AREA) as (D & D1 & D2); [apply in_or_app; right; left; reflexivity|exact Y'|]. unfold disjoint in D. lia.
  - (* RFree *) right. injection S as <- <-. split; [discriminate|].
    apply (inv_free s m H (Old (RFree r0 c)) [] r c); auto; [apply SAFE; left; reflexivity|intros o []].
Qed.

Lemma look_inv s m H p g b o r ok s' q : sinv s m H (Look p g b o :: r) -> 
  note H r (Look p g b o) = Look p (match o with LFind _ a _ _ => g ++ filter (within a) (H ++ flat_map parts r) | _ => g end)
                                   (match o with LFind _ a _ _ => b || existsb (within a) (flat_map unfound r) | _ => b end) o /\
  (tstep s ok o = (s', q) -> s' = s /\ exists o', q = [o'] /\
   sinv s m H (Look p (match o with LFind _ a _ _ => g ++ filter (within a) (H ++ flat_map parts r) | _ => g end)
                      (match o with LFind _ a _ _ => b || existsb (within a) (flat_map unfound r) | _ => b end) o' :: r)).
Proof.
  intros I. split; [destruct o; reflexivity|]. intros S. pose proof (i_loc _ _ _ _ I _ (or_introl eq_refl)) as LC. cbn [loc] in LC.
  assert (FND : forall g' a k c, found s p g a k c -> found s p (g ++ g') a k c) by (intros g' a k c (n & X & Y & Z0); exists n; rewrite in_app_iff; auto).
  assert (FNDR : forall g' a k c, found s p g' a k c -> found s p (g ++ g') a k c) by (intros g' a k c (n & X & Y & Z0); exists n; rewrite in_app_iff; auto).
  destruct o; cbn [tstep] in S; cbn [lloc] in LC; try contradiction.
  - (* LFind *) destruct LC as (-> & -> & CV). destruct (look_find _ _ _ _ _ _ I CV) as (k & c & F & X). rewrite F in S. injection S as <- <-. split; [reflexivity|].
    eexists. split; [reflexivity|]. destruct (tfind_some _ _ _ _ F) as (M & _). eapply (inv_local s m m H); [exact I| | | | | | | |]; auto; try (same I); [|].
    + cbn. intros x [<-|[]]. right. left. eapply recs_in, M.
    + cbn [loc lloc]. repeat split; auto. cbn in X. destruct X as [X|(X & Y)]; [left; apply FNDR, X|right]. split; [exact X|]. rewrite Y. apply orb_true_r.
  - (* LSize *) destruct LC as (-> & -> & X). destruct (Z.ltb_spec a (k + ti_size (t_info s c))) as [L|L]; injection S as <- <-; (split; [reflexivity|]); (eexists; split; [reflexivity|]).
    + eapply (inv_local s m m H); [exact I| | | | | | | |]; auto; try (same I). cbn. split; [reflexivity|]. destruct X as [X|(X & _)]; [exact X|lia].
    + eapply (inv_local s m m H); [exact I| | | | | | | |]; auto; try nin; try (same I). cbn. destruct X as [(n & X & _ & Y)|(_ & X)]; [rewrite X in L; cbn in L; lia|exact X].
  - (* LNch *) destruct LC as (-> & X). pose proof X as (n & E & _). rewrite E in S. cbn in S. injection S as <- <-. split; [reflexivity|]. eexists. split; [reflexivity|].
    eapply (inv_local s m m H); [exact I| | | | | | | |]; auto; try (same I); exact X.
  - (* LOut *) injection S as <- <-. split; [reflexivity|]. eexists. split; [reflexivity|]. destruct LC as (n & E & X).
    eapply (inv_local s m m H); [exact I| | | | | | | |]; auto; try (same I). cbn. rewrite E. cbn. auto.
  - (* LOut2 *) injection S as <- <-. split; [reflexivity|]. eexists. split; [reflexivity|]. destruct LC as (E & X).
    eapply (inv_local s m m H); [exact I| | | | | | | |]; auto; try nin; try (same I). cbn. rewrite E. cbn. auto.
  - (* LDone *) injection S as <- <-. split; [reflexivity|]. eexists. split; [reflexivity|]. exact I.
Qed.

(* under the mutex, outside the middle of a split or merge, the map holds all allocations *)
Lemma quiet s m H t r : sinv s m H (t :: r) -> locked t = [tt] -> minus t = [] -> plus t = [] -> otracked t = [] ->
  MI s (fun x => In x (H ++ flat_map otracked r)) /\ flat_map minus r = [] /\ flat_map plus r = [].
Proof.
  intros I L M P O. destruct (excl_nil _ _ _ _ _ I L) as (E1 & E2). split; [|auto].
  eapply MI_iff; [exact (i_mi _ _ _ _ I)|]. intros x. unfold tr. cbn. rewrite M, P, O, E1, E2. cbn. tauto.
Qed.
(* the entry of an address inside an allocation that starts there *)
Lemma entry_held s H R T a c p n : MI s T -> (forall x, T x -> In x (H ++ R)) -> AR (H ++ R) -> covered H p a n -> 0 < n ->
  In (a, c) (t_map s 0) -> exists k, t_info s c = TInfo p k 0 /\ In (Reg a k p) H.
Proof.
  intros (FW & _) TR A C N M. destruct (FW _ _ M) as (e & K & E & T0). destruct (C a ltac:(lia)) as (q & Q & W & P). apply within_eq in W.
  assert (e = q). { apply (ar_same _ e q a A (TR _ T0)); [apply in_or_app; auto| |lia]. generalize (ar_size _ A e (TR _ T0)). lia. }
  subst e. exists (r_size q). split; [rewrite E; unfold rinfo; rewrite P; reflexivity|]. rewrite <- P, K. destruct q. exact Q.
Qed.

Lemma MI_T s (T T' : reg -> Prop) : (forall r, T r <-> T' r) -> MI s T -> MI s T'.
Proof. intros E M. eapply MI_iff; [exact M|exact E]. Qed.

Ltac sp2 := cbn [loc]; repeat match goal with |- _ /\ _ => split | |- mid _ _ _ _ _ _ => unfold mid end.
Ltac lin I := eapply (inv_local _ _ _ _ _ _ _ I).
Lemma sstep_inv s m H t r ok w' q : sinv s m H (t :: r) -> sstep (SWorld s m H) ok (note H r t) = Some (w', q) -> gated t r ->
  (forall y v lv lc hc, t = MUp y v lv lc hc -> ok = true -> exists p, In (Reg (ma_lo y) (ma_hi y - ma_lo y) p) H) ->
  sinv (w_tr w') (w_mtx w') (held w') (q ++ r).
Proof.
  intros I S SAFE HON. pose proof (i_loc _ _ _ _ I _ (or_introl eq_refl)) as LC. pose proof (i_ar _ _ _ _ I) as AREA.
  pose proof (i_ri _ _ _ _ I) as RR. cbn [flat_map] in AREA, RR.
  destruct t; cbn [note] in S.
  - (* Old *) cbn [sstep w_tr w_mtx held] in S. destruct (tstep s ok t) as [s' q0] eqn:TS. destruct (old_inv _ _ _ _ _ _ _ _ I TS SAFE) as [(x & c & -> & J)|(N & J)].
    + injection S as <- <-. exact J.
    + destruct q0 as [|[] [|? ?]]; try (injection S as <- <-; exact J). exfalso. eapply N. reflexivity.
  - (* Look *) destruct (look_inv s m H p g w t r ok (fst (tstep s ok t)) (snd (tstep s ok t)) I) as (E & J). cbn [note] in E. rewrite E in S.
    destruct (J (surjective_pairing _)) as (E1 & o' & E2 & K). cbn [sstep w_tr w_mtx held] in S.
    destruct (tstep s ok t) as [s' q0]. cbn [fst snd] in *. subst s' q0. injection S as <- <-. exact K.
  - (* SNew *) cbn [sstep w_tr w_mtx held] in S. destruct ok.
    + destruct (rec_new s _) as [s' v] eqn:N. injection S as <- <-. apply (inv_new s s' m H (SNew x) _ r v _ I N); auto; try nin. intros _ E _. cbn. auto.
    + injection S as <- <-. lin I; auto; try nin; try (same I); exact Logic.I.
  - (* SLock *) cbn [sstep w_tr w_mtx held] in S. destruct m; [discriminate|]. injection S as <- <-. lin I; auto; try nin; [|].
    + pose proof (i_cnt _ _ _ _ I) as C. cbn in C. cbn. rewrite C. reflexivity.
    + cbn in LC |- *. destruct LC. sp2; auto.
  - (* SFind *) destruct (quiet _ _ _ _ _ I eq_refl eq_refl eq_refl eq_refl) as (MQ & _). destruct LC as (B & V & G).
    assert (HT : forall q0, In q0 H -> In q0 (H ++ flat_map otracked r)) by (intros q0 Q0; apply in_or_app; auto).
    assert (STEP : (match g with GOut _ => False | _ => True end) -> sinv s m H (SFind x v (gstep s (sa_ptr x) true g) :: r)).
    { intros NG. destruct (gstep_ok s _ H (sa_ptr x) true g MQ HT G NG) as (G' & RF). lin I; auto; try (same I); [|cbn; auto].
      cbn. intros c J. destruct (RF c J); auto. }
    destruct g as [| | | | |[[[l par] c]|]]; cbn [sstep w_tr w_mtx held] in S; injection S as <- <-; try (apply STEP; exact Logic.I).
    + destruct G as (-> & -> & M). lin I; auto; try (same I); cbn; auto.
    + lin I; auto; try nin; try (same I). split; [exact B|]. split; [|intros NN; destruct NN; reflexivity]. intros _ W. exact (G _ W eq_refl).
  - (* SCmp *) destruct (quiet _ _ _ _ _ I eq_refl eq_refl eq_refl eq_refl) as (MQ & _). destruct LC as (B & V & -> & -> & M). pose proof B as (F & CV).
    destruct (entry_held s H (flat_map sregion r) _ _ _ _ _ MQ (fun x => area H r x) AREA CV ltac:(lia) M) as (k & E & K).
    cbn [sstep w_tr w_mtx held] in S. rewrite E in S. cbn [ti_size] in S. destruct (Z.eqb_spec k (sa_size x)) as [EK|NE]; [rewrite EK in K|]; injection S as <- <-.
    + lin I; auto; try nin; try (same I); cbn; sp2; auto.
    + lin I; auto; try nin; try (same I). split; [exact B|]. split; [|intros NN; destruct NN; reflexivity]. intros _ W. apply NE.
      assert (EQ : Reg (sa_ptr x) k (sa_pool x) = whole x).
      { apply (ar_same _ _ _ (sa_ptr x) AREA); try (apply in_or_app; auto); cbn; try lia.
        generalize (ar_size _ AREA _ (in_or_app _ _ _ (or_introl K))). cbn. lia. }
      unfold whole in EQ. congruence.
  - (* SUp *) cbn [sstep w_tr w_mtx held] in S. destruct ok; injection S as <- <-.
    + lin I; auto; try (same I); exact LC.
    + lin I; auto; try (same I). split; [apply LC|]. split; [discriminate|intros _; apply LC].
  - (* SUpd *) destruct (quiet _ _ _ _ _ I eq_refl eq_refl eq_refl eq_refl) as (MQ & _). destruct LC as (B & V & -> & -> & M & W). pose proof B as (F & CV).
    cbn [sstep w_tr w_mtx held] in S. injection S as <- <-. cbn [w_tr w_mtx held app].
    destruct (entry_held s H (flat_map sregion r) _ _ _ _ _ MQ (fun x => area H r x) AREA CV ltac:(lia) M) as (k & E & K).
    assert (EQ : Reg (sa_ptr x) k (sa_pool x) = whole x).
    { apply (ar_same _ _ _ (sa_ptr x) AREA); try (apply in_or_app; auto); cbn; try lia.
      generalize (ar_size _ AREA _ (in_or_app _ _ _ (or_introl K))). cbn. lia. }
    apply (inv_map s _ m H H (SUpd x v 0 None c)); auto.
    + apply (RI_put s (flat_map own r) _ (sa_ptr x) v c) in RR; [exact RR|exact M].
    + eapply MI_T; [|apply (MI_put s _ (first x) v c MQ M V)]. intros z. cbn. split.
      * intros [(X & Y)| ->]; [left; split; [exact X|]|tauto]. intros [<-|[]]. apply Y. reflexivity.
      * intros [(X & Y)|[<-|[]]]; [left; split; [exact X|]|tauto]. intros E1. apply Y. left. symmetry.
        apply (ar_same _ _ _ (sa_ptr x) AREA); [apply area, X|apply in_or_app; auto| |cbn; lia].
        generalize (ar_size _ AREA _ (area _ _ _ X)). cbn in E1. lia.
    + intros k0 c0 z X Z0 ->. cbn. apply (tput_in _ _ _ c _ _ M). right. split; [|exact X].
      destruct (ar_sep _ _ _ _ AREA W Z0) as (D & D1 & D2). unfold disjoint in D. cbn in *. lia.
    + split; [exact B|]. split; [reflexivity|]. sp2; auto.
      * cbn. apply (tput_in _ _ _ c _ _ M). auto.
      * cbn [w_map t_info]. rewrite E, <- EQ. reflexivity.
  - (* SHNew *) cbn [sstep w_tr w_mtx held] in S. destruct ok.
    + destruct (rec_new s _) as [s' h] eqn:N. injection S as <- <-. apply (inv_new s s' m H (SHNew x v l par c) _ r h _ I N); auto; try nin.
      intros EM E SM. destruct LC as (B & -> & (-> & M & EC & W)). split; [exact B|]. split; [reflexivity|]. split; [|exact E]. sp2; auto.
      * rewrite EM. exact M.
      * rewrite SM; [exact EC|]. right. right. left. reflexivity.
    + injection S as <- <-. lin I; auto; try (same I). cbn in LC |- *. tauto.
  - (* SHIns *) destruct (excl_nil _ _ _ _ _ I eq_refl) as (N1 & N2).
    assert (MQ : MI s (fun z => (In z (H ++ flat_map otracked r) /\ z <> whole x) \/ z = first x)).
    { eapply MI_T; [|exact (i_mi _ _ _ _ I)]. intros z. unfold tr. cbn. rewrite N1, N2. cbn.
      split; [intros [(X & Y)|[<-|[]]]; [left; split; [exact X|]|tauto]; intros ->; tauto|intros [(X & Y)| ->]; [left; split; [exact X|]|tauto]; intros [E|[]]; congruence]. }
    destruct LC as (B & -> & (-> & M & EC & W) & EH). pose proof B as (F & CV). cbn [sstep w_tr w_mtx held] in S.
    destruct (tget (t_map s 0) (sa_ptr x + sa_first x)) as [c0|] eqn:G.
    { rewrite andb_false_r in S. injection S as <- <-. lin I; auto; try (same I). cbn [loc]; sp2; auto. }
    rewrite andb_true_r in S. destruct ok; injection S as <- <-; cbn [w_tr w_mtx held app]; [|lin I; auto; try (same I); cbn [loc]; sp2; auto].
    apply (inv_map s _ m H _ (SHIns x v 0 None c h)); auto.
    + apply RI_ins with (k := sa_ptr x + sa_first x) in RR; [exact RR|exact G].
    + apply split_AR; auto.
    + eapply MI_T; [|apply (MI_ins s _ (second x) h MQ EH)]. intros z. cbn. rewrite !in_app_iff, hdel_in. cbn.
      assert (NT : In z (flat_map otracked r) -> z <> whole x). { intros X ->. apply (nodup_app _ _ _ (ar_nd _ AREA) W). apply otr_fm, X. }
      split; [intros [[([X|X] & Y)| ->]| ->]; left; (split; [|intros []]); tauto|].
      intros [([<-|[<-|[X|X]]] & _)|[]]; [tauto|tauto|left; left; tauto|left; left; tauto].
    + intros k0 c1 z X Z0 ->. cbn. right. exact X.
    + intros p a n CV'. apply split_cov; auto.
    + split; [split; [exact F|apply split_cov; auto]|]. split; cbn; auto.
  - (* SIncR *) destruct LC.
  - (* SIncW *) destruct LC.
  - (* SUndo *) cbn [sstep w_tr w_mtx held] in S. injection S as <- <-. cbn [w_tr w_mtx held].
    apply (inv_free s m H (SUndo x v l c h) [SRev x v l c] r h); auto; [apply SAFE; left; reflexivity|].
    intros o [<-|[]] SM. destruct LC as (B & (-> & M & EC & W)). sp2; auto. rewrite SM; [exact EC|right; left; reflexivity].
  - (* SRev *) destruct (excl_nil _ _ _ _ _ I eq_refl) as (N1 & N2).
    assert (MQ : MI s (fun z => (In z (H ++ flat_map otracked r) /\ z <> whole x) \/ z = first x)).
    { eapply MI_T; [|exact (i_mi _ _ _ _ I)]. intros z. unfold tr. cbn. rewrite N1, N2. cbn.
      split; [intros [(X & Y)|[<-|[]]]; [left; split; [exact X|]|tauto]; intros ->; tauto|intros [(X & Y)| ->]; [left; split; [exact X|]|tauto]; intros [E|[]]; congruence]. }
    destruct LC as (B & (-> & M & EC & W)). pose proof B as (F & CV). cbn [sstep w_tr w_mtx held] in S. injection S as <- <-. cbn [w_tr w_mtx held app].
    apply (inv_map s _ m H H (SRev x v 0 c)); auto.
    + apply (RI_put s (flat_map own r) _ (sa_ptr x) c v) in RR; [exact RR|exact M].
    + eapply MI_T; [|apply (MI_put s _ (whole x) c v MQ M EC)]. intros z. cbn. split.
      * intros [([(X & _)|X] & Y)| ->]; [auto|subst; cbn in Y; congruence|left; split; [apply in_or_app; auto|tauto]].
      * intros [(X & _)|[]]. destruct (reg_dec z (whole x)) as [->|NE]; [auto|]. left. split; [auto|]. intros E1. apply NE.
        apply (ar_same _ _ _ (sa_ptr x) AREA); [apply area, X|apply in_or_app; auto| |cbn; lia].
        generalize (ar_size _ AREA _ (area _ _ _ X)). cbn in E1. lia.
    + intros k0 c0 z X Z0 ->. cbn. apply (tput_in _ _ _ v _ _ M). right. split; [|exact X].
      destruct (ar_sep _ _ _ _ AREA W Z0) as (D & D1 & D2). unfold disjoint in D. cbn in *. lia.
    + split; [exact B|]. split; [discriminate|intros _; exact W].
  - (* SFree *) cbn [sstep w_tr w_mtx held] in S. injection S as <- <-. cbn [w_tr w_mtx held].
    apply (inv_free s m H (SFree x c) [SUnl x] r c); auto; [apply SAFE; left; reflexivity|]. intros o [<-|[]] _. exact LC.
  - (* SUnl *) cbn [sstep w_tr w_mtx held] in S. injection S as <- <-. lin I; auto; [|exact Logic.I].
    pose proof (i_cnt _ _ _ _ I) as C. cbn in C |- *. destruct (excl _ _ _ _ _ I eq_refl) as (-> & _). injection C as C. exact C.
  - (* SErr *) cbn [sstep w_tr w_mtx held] in S. injection S as <- <-. lin I; auto; [|apply LC].
    pose proof (i_cnt _ _ _ _ I) as C. cbn in C |- *. destruct (excl _ _ _ _ _ I eq_refl) as (-> & _). injection C as C. exact C.
  - (* SDrop *) cbn [sstep w_tr w_mtx held] in S. injection S as <- <-. cbn [w_tr w_mtx held].
    apply (inv_free s m H (SDrop x v e) [SDone x (Some e)] r v); auto; [apply SAFE; left; reflexivity|]. intros o [<-|[]] _. exact Logic.I.
  - (* SDone *) injection S as <- <-. exact I.
  - (* MNew *) cbn [sstep w_tr w_mtx held] in S. destruct ok.
    + destruct (rec_new s _) as [s' v] eqn:N. injection S as <- <-. apply (inv_new s s' m H (MNew y) _ r v _ I N); auto; try nin. intros _ E _. cbn. auto.
    + injection S as <- <-. lin I; auto; try nin; try (same I); exact Logic.I.
  - (* MLock *) cbn [sstep w_tr w_mtx held] in S. destruct m; [discriminate|]. injection S as <- <-. lin I; auto; try nin; [|].
    + pose proof (i_cnt _ _ _ _ I) as C. cbn in C. cbn. rewrite C. reflexivity.
    + cbn in LC |- *. destruct LC. sp2; auto.
  - (* MFindL *) destruct (quiet _ _ _ _ _ I eq_refl eq_refl eq_refl eq_refl) as (MQ & _). destruct LC as (B & V & G).
    assert (HT : forall q0, In q0 H -> In q0 (H ++ flat_map otracked r)) by (intros q0 Q0; apply in_or_app; auto).
    assert (STEP : (match g with GOut _ => False | _ => True end) -> sinv s m H (MFindL y v (gstep s (ma_lo y) false g) :: r)).
    { intros NG. destruct (gstep_ok s _ H (ma_lo y) false g MQ HT G NG) as (G' & RF). lin I; auto; try (same I); [|cbn; auto].
      cbn. intros c J. destruct (RF c J); auto. }
    destruct g as [| | | | |[[[l par] c]|]]; cbn [sstep w_tr w_mtx held] in S; injection S as <- <-; try (apply STEP; exact Logic.I).
    + destruct G as (-> & -> & M). lin I; auto; try (same I); cbn; sp2; auto.
    + lin I; auto; try nin; try (same I). split; [exact B|]. intros _ (W & _). exact (G _ W eq_refl).
  - (* MFindH *) destruct (quiet _ _ _ _ _ I eq_refl eq_refl eq_refl eq_refl) as (MQ & _). destruct LC as (B & V & -> & ML & G).
    assert (HT : forall q0, In q0 H -> In q0 (H ++ flat_map otracked r)) by (intros q0 Q0; apply in_or_app; auto).
    assert (STEP : (match g with GOut _ => False | _ => True end) -> sinv s m H (MFindH y v 0 lc (gstep s (ma_hi y) false g) :: r)).
    { intros NG. destruct (gstep_ok s _ H (ma_hi y) false g MQ HT G NG) as (G' & RF). lin I; auto; try (same I); [|cbn; sp2; auto].
      cbn. intros c [J|J]; [auto|]. destruct (RF c J); auto. }
    destruct g as [| | | | |[[[l par] c]|]]; cbn [sstep w_tr w_mtx held] in S; injection S as <- <-; try (apply STEP; exact Logic.I).
    + destruct G as (-> & -> & M). lin I; auto; try (same I); cbn; sp2; auto.
    + lin I; auto; try nin; try (same I). split; [exact B|]. intros _ (_ & W). exact (G _ W eq_refl).
  - (* MCmp *) destruct (quiet _ _ _ _ _ I eq_refl eq_refl eq_refl eq_refl) as (MQ & _). destruct LC as (B & V & -> & -> & ML & MH). pose proof B as (F & CV).
    destruct (entry_held s H (flat_map sregion r) _ _ _ _ _ MQ (fun x => area H r x) AREA CV ltac:(lia) ML) as (a & EA & KA).
    assert (CV' : covered H (ma_pool y) (ma_hi y) (ma_lo y + ma_size y - ma_hi y)) by (intros z Z0; apply CV; lia).
    destruct (entry_held s H (flat_map sregion r) _ _ _ _ _ MQ (fun x => area H r x) AREA CV' ltac:(lia) MH) as (b & EB & KB).
    cbn [sstep w_tr w_mtx held] in S. rewrite EA, EB in S. cbn [ti_size ti_pool ti_nch] in S. rewrite !Z.eqb_refl in S. cbn [andb] in S.
    destruct (Z.eqb_spec (a + b) (ma_size y)) as [E|NE]; injection S as <- <-; cbn [w_tr w_mtx held].
    + assert (EI : forall z, t_info (w_nch s v (0 + 0)) z = t_info s z).
      { intros z. unfold w_nch, w_info. cbn [t_info]. unfold upd. destruct (Z.eqb_spec z v) as [->|]; [|reflexivity]. rewrite V. reflexivity. }
      apply (inv_info s (w_nch s v (0 + 0)) m m H (MCmp y v 0 lc 0 hc) [MUp y v 0 lc hc] r); auto.
      * destruct RR as [R1 R2 R3 R4]. constructor; auto. intros z Z0. apply R4. cbn. auto.
      * apply (cnt_same_lock s m H (MCmp y v 0 lc 0 hc) r (MUp y v 0 lc hc) I). reflexivity.
      * intros o [<-|[]]. cbn [loc]. rewrite EI. sp2; auto. exists a, b. auto.
    + lin I; auto; try nin; try (same I). split; [exact B|]. intros _ (W1 & W2). apply NE.
      assert (E1 : Reg (ma_lo y) a (ma_pool y) = lower y).
      { apply (ar_same _ _ _ (ma_lo y) AREA); try (apply in_or_app; auto); cbn; try lia.
        generalize (ar_size _ AREA _ (in_or_app _ _ _ (or_introl KA))). cbn. lia. }
      assert (E2 : Reg (ma_hi y) b (ma_pool y) = upper y).
      { apply (ar_same _ _ _ (ma_hi y) AREA); try (apply in_or_app; auto); cbn; try lia.
        generalize (ar_size _ AREA _ (in_or_app _ _ _ (or_introl KB))). cbn. lia. }
      unfold lower, upper in *. assert (a = ma_hi y - ma_lo y) by congruence. assert (b = ma_lo y + ma_size y - ma_hi y) by congruence. lia.
  - (* MUp *) cbn [sstep w_tr w_mtx held] in S. destruct LC as (B & V & -> & ML & MH & (a & b & KA & KB & E)). destruct ok; injection S as <- <-.
    + destruct (HON _ _ _ _ _ eq_refl eq_refl) as (p & HP). lin I; auto; try (same I). pose proof B as (F & CV).
      assert (EQ : Reg (ma_lo y) a (ma_pool y) = Reg (ma_lo y) (ma_hi y - ma_lo y) p).
      { apply (ar_same _ _ _ (ma_lo y) AREA); try (apply in_or_app; auto); cbn; try lia.
        generalize (ar_size _ AREA _ (in_or_app _ _ _ (or_introl KA))). cbn. lia. }
      assert (EA : a = ma_hi y - ma_lo y) by congruence. cbn. sp2; auto; try lia.
      * unfold lower. rewrite <- EA. exact KA.
      * unfold upper. replace (ma_lo y + ma_size y - ma_hi y) with b by lia. exact KB.
    + lin I; auto; try (same I). split; [exact B|discriminate].
  - (* MUpd *) destruct (quiet _ _ _ _ _ I eq_refl eq_refl eq_refl eq_refl) as (MQ & _). destruct LC as (B & V & -> & ML & MH & KL & KU). pose proof B as (F & CV).
    cbn [sstep w_tr w_mtx held] in S. injection S as <- <-. cbn [w_tr w_mtx held app].
    apply (inv_map s _ m H _ (MUpd y v 0 lc hc)); auto.
    + apply (RI_put s (flat_map own r) _ (ma_lo y) v lc) in RR; [exact RR|exact ML].
    + apply merge_AR; auto.
    + eapply MI_T; [|apply (MI_put s _ (union y) v lc MQ ML V)]. intros z. cbn. rewrite !in_app_iff, !hdel_in.
      assert (NT : In z (flat_map otracked r) -> r_ptr z <> ma_lo y).
      { intros X. destruct (ar_sep _ _ _ _ AREA KL (otr_fm _ _ X)) as (D & D1 & D2). unfold disjoint in D. cbn in *. lia. }
      assert (PL : In z H -> r_ptr z = ma_lo y -> z = lower y).
      { intros X E1. apply (ar_same _ _ _ (ma_lo y) AREA); try (apply in_or_app; auto); cbn; try lia.
        generalize (ar_size _ AREA _ (in_or_app _ _ _ (or_introl X))). lia. }
      split.
      * intros [([X|X] & Y)| ->]; [|auto|auto]. destruct (reg_dec z (upper y)) as [->|NE]; [auto|]. left. split; [|tauto]. right. left. sp2; auto.
        intros ->. apply Y. reflexivity.
      * intros [([<-|[((X & X1) & X2)|X]] & _)|[<-|[]]]; auto; left; (split; [auto|]); [intros E1; apply X2, PL; auto|cbn; lia].
    + intros k0 c0 z X Z0 ->. cbn. apply (tput_in _ _ _ lc _ _ ML). right. split; [|exact X].
      destruct (ar_sep _ _ _ _ AREA KL Z0) as (D & D1 & D2). unfold disjoint in D. cbn in *. lia.
    + intros p a n. apply merge_cov, F.
    + cbn. sp2; auto; try lia; [split; [exact F|apply merge_cov; auto]|]. apply (tput_in _ _ _ lc _ _ ML). right. split; [lia|exact MH].
  - (* MFreeL *) cbn [sstep w_tr w_mtx held] in S. injection S as <- <-. cbn [w_tr w_mtx held].
    apply (inv_free s m H (MFreeL y l lc hc) [MRem y l hc] r lc); auto; [apply SAFE; left; reflexivity|]. intros o [<-|[]] _. exact LC.
  - (* MRem *) destruct (excl_nil _ _ _ _ _ I eq_refl) as (N1 & N2).
    assert (MQ : MI s (fun z => In z (H ++ flat_map otracked r) \/ z = upper y)).
    { eapply MI_T; [|exact (i_mi _ _ _ _ I)]. intros z. unfold tr. cbn. rewrite N1, N2. cbn. split; [intros [(X & _)|[<-|[]]]; auto|intros [X| ->]; auto]. }
    destruct LC as (B & -> & M & W). pose proof B as (F & CV). cbn [sstep w_tr w_mtx held] in S.
    destruct (tget (t_map s 0) (ma_hi y)) as [c|] eqn:G; [|exfalso; exact (tget_none _ _ _ G M)]. apply tget_some in G.
    injection S as <- <-. cbn [w_tr w_mtx held app].
    apply (inv_map s _ m H H (MRem y 0 hc)); auto.
    + apply (RI_del s (flat_map own r) _ (ma_hi y) c RR G).
    + eapply MI_T; [|apply (MI_del s _ (ma_hi y) MQ)]. intros z. cbn. split.
      * intros ([X| ->] & Y); [auto|]. exfalso. apply Y. reflexivity.
      * intros [(X & _)|[]]. split; [auto|]. intros E1.
        assert (z = union y). { apply (ar_same _ _ _ (ma_hi y) AREA); [apply area, X|apply in_or_app; auto| |cbn; lia].
          generalize (ar_size _ AREA _ (area _ _ _ X)). lia. }
        subst z. cbn in E1. lia.
    + intros k0 c0 z X Z0 ->. cbn. apply tdel_in. split; [exact X|].
      destruct (ar_sep _ _ _ _ AREA W Z0) as (D & D1 & D2). unfold disjoint in D. cbn in *. lia.
    + split; [exact B|exact W].
  - (* MFreeH *) cbn [sstep w_tr w_mtx held] in S. injection S as <- <-. cbn [w_tr w_mtx held].
    apply (inv_free s m H (MFreeH y c) [MUnl y] r c); auto; [apply SAFE; left; reflexivity|]. intros o [<-|[]] _. exact LC.
  - (* MUnl *) cbn [sstep w_tr w_mtx held] in S. injection S as <- <-. lin I; auto; [|exact Logic.I].
    pose proof (i_cnt _ _ _ _ I) as C. cbn in C |- *. destruct (excl _ _ _ _ _ I eq_refl) as (-> & _). injection C as C. exact C.
  - (* MErr *) cbn [sstep w_tr w_mtx held] in S. injection S as <- <-. lin I; auto; [|apply LC].
    pose proof (i_cnt _ _ _ _ I) as C. cbn in C |- *. destruct (excl _ _ _ _ _ I eq_refl) as (-> & _). injection C as C. exact C.
  - (* MDrop *) cbn [sstep w_tr w_mtx held] in S. injection S as <- <-. cbn [w_tr w_mtx held].
    apply (inv_free s m H (MDrop y v e) [MDone y (Some e)] r v); auto; [apply SAFE; left; reflexivity|]. intros o [<-|[]] _. exact Logic.I.
  - (* MDone *) injection S as <- <-. exact I.
Qed.
