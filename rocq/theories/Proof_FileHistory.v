(* Proofs about histories of the file provider behind the coarse allocator. *)
From Verif Require Import Base Model_Utils Proof_Utils Model_OsProvider Spec_OsProvider Proof_OsProvider Proof_OsHistory
  Model_Coarse Spec_Coarse Proof_Coarse Proof_CoarseInv Proof_CoarseAlloc Proof_CoarseOps Proof_CoarseProps Proof_CoarseLog
  Model_FileProvider Spec_FileProvider Proof_FileProvider.

Definition strict (mo : mode) : bool := no_fail mo || whole mo.

Lemma fi_frame : forall page mo F s m n l G s', FI page mo F (FW s m n l) G ->
  f_page s' = f_page s -> f_size s' = f_size s -> f_off s' = f_off s -> f_base s' = f_base s -> f_msize s' = f_msize s -> f_moff s' = f_moff s -> f_mmaps s' = f_mmaps s ->
  FI page mo F (FW s' m n l) G.
Proof.
  intros page mo F s m n l G s' I E1 E2 E3 E4 E5 E6 E7. destruct I. constructor; cbn [fs fm flen maps] in *; rewrite ?E1, ?E2, ?E3, ?E4, ?E5, ?E6, ?E7; assumption.
Qed.
Lemma fi_set_fmap : forall page mo F s m n l G f, FI page mo F (FW s m n l) G -> FI page mo F (FW (set_fmap s f) m n l) G.
Proof. intros. eapply fi_frame; [eassumption|..]; reflexivity. Qed.

(* other mappings change *)
Lemma fi_other : forall page mo F s m n l m' G, FI page mo F (FW s m n l) G -> (forall a len x, In (a, len) l -> a <= x < a + len -> m' x = m x) -> FI page mo F (FW s m' n l) G.
Proof.
  intros page mo F s m n l m' G I H.
  assert (SH : forall p k o a len, In (a, len) l -> a <= p -> p + k <= a + len -> shows m p k o -> shows m' p k o).
  { intros p k o a len J A B S x X. rewrite (H a len x J) by lia. exact (S x X). }
  destruct I as [I1 I2 I3 I4 I5 I6 I7 I8 I9 I10 I11 I12 I13 I14 I15 I16 I17]. constructor; cbn [fs fm flen maps] in *; try assumption.
  - intros x X. rewrite (H (f_base s) (f_msize s) x); [apply I7; exact X| |exact X]. apply I8. lia.
  - intros a len J. destruct (I11 a len J) as (A1 & A2 & A3 & A4 & A5 & off & A6 & A7 & A8 & A9). do 5 (split; [assumption|]). exists off. do 3 (split; [assumption|]). apply (SH a len off a len J); [lia|lia|exact A9].
  - intros p k J. destruct (I15 p k J) as (B1 & B2 & B3 & (a & len & B4 & B5 & B6) & (o & B7 & B8 & B9) & B10). do 3 (split; [assumption|]).
    split; [exists a, len; split; [exact B4|split; assumption]|]. split; [|exact B10]. exists o. split; [exact B7|]. split; [exact B8|]. exact (SH p k o a len B4 B5 B6 B9).
  - assert (E : forall x, cov G x -> m' x = m x).
    { intros x ((p & k) & X1 & X2). destruct (I15 p k X1) as (_ & _ & _ & (a & len & B4 & B5 & B6) & _). unfold inside in X2. cbn [fst snd] in X2. apply (H a len x B4). lia. }
    intros x y X Y. rewrite (E x X), (E y Y). apply I16; assumption.
Qed.

(* ---- one alloc callback ---- *)
Lemma cb_page : forall dbg page s size a1 a2, pow2 page -> f_page s = page ->
  file_alloc_cb dbg s size page a1 a2 =
    match file_alloc_aligned dbg s size page a1 a2 with
    | None => None
    | Some (SUCCESS, addr, off, ev, s') => match map_insert (f_map s') addr (wrap (off + 1)) with None => Some (ERR_UNKNOWN, 0, ev, s') | Some m => Some (SUCCESS, addr, ev, set_fmap s' m) end
    | Some (e, _, _, ev, s') => Some (e, 0, ev, s')
    end.
Proof.
  intros dbg page s size a1 a2 P E. pose proof (pow2_range _ P) as R. unfold file_alloc_cb. rewrite E, (mask_mod _ _ P), Z.mod_same by lia.
  cbn [Z.eqb negb andb orb]. rewrite andb_false_r. rewrite aligned_ok by (exact P || (apply Z.mod_same; lia)). reflexivity.
Qed.

(* what the callback's answer means *)
Definition contract (page size p : Z) (G : list (Z * Z)) : Prop :=
  0 < p /\ p mod page = 0 /\ p + size <= 2 ^ 63 /\ forall r, In r G -> disjoint (p, size) r.

Lemma alloc_cb_ok : forall dbg page mo F w G size a1 a2 r p ev s', pow2 page -> page < 2 ^ 63 -> FI page mo F w G -> 0 < size < U64 -> (whole mo = true -> size mod page = 0) ->
  file_alloc_cb dbg (fs w) size page a1 a2 = Some (r, p, ev, s') -> okev page mo (fm w) ev ->
  let w' := wnext page w ev s' in
  exists F' G', FI page mo F' w' G' /\ incl G G' /\ f_ipc s' = f_ipc (fs w) /\ f_dax s' = f_dax (fs w) /\
   (r = SUCCESS -> G' = (p, size) :: G /\ contract page size p G /\
      exists o off, shows (fm w') p size o /\ 0 <= o /\ o + size <= flen w' /\ (strict mo = true -> off = o) /\
        map_get (f_map (fs w)) p = None /\ f_map s' = (p, wrap (off + 1)) :: f_map (fs w)) /\
   (r <> SUCCESS -> f_map s' = f_map (fs w)).
Proof.
  intros dbg page mo F w G size a1 a2 r p ev s' P PL I S WH H OK. cbv zeta. rewrite (cb_page _ page) in H by (exact P || exact (v_page _ _ _ _ _ I)).
  destruct (file_alloc_aligned dbg (fs w) size page a1 a2) as [[[[[r1 addr] off] ev1] s1]|] eqn:E; [|discriminate].
  assert (EV : ev1 = ev).
  { destruct r1; try (injection H as _ _ <- _; reflexivity). destruct (map_insert (f_map s1) addr (wrap (off + 1))); injection H as _ _ <- _; reflexivity. }
  subst ev1. destruct (alloc_aligned_ok dbg page mo F w G size a1 a2 P PL I S WH _ _ _ _ _ E OK) as (M1 & M2 & M3 & F' & A1 & A2).
  destruct (result_eqb r1 SUCCESS) eqn:RS.
  - assert (r1 = SUCCESS) by (destruct r1; (reflexivity || discriminate)). subst r1. destruct (A2 eq_refl) as (B0 & B1 & B2 & B3 & B4 & o & B5 & B6 & B7 & B8).
    exists F', ((addr, size) :: G). destruct (map_insert (f_map s1) addr (wrap (off + 1))) as [fm'|] eqn:MI; injection H as <- <- <-.
    + split; [apply fi_set_fmap; exact B0|]. split; [intros x X; right; exact X|]. split; [exact M2|]. split; [exact M3|]. split; [|congruence]. intros _.
      split; [reflexivity|]. split; [split; [exact B1|split; [exact B2|split; [exact B4|exact B3]]]|]. exists o, off. split; [exact B5|]. split; [exact B6|]. split; [exact B7|]. split; [exact B8|].
      rewrite <- M1. split.
      * unfold map_insert in MI. destruct (map_get (f_map s1) addr); [discriminate|reflexivity].
      * cbn [set_fmap f_map]. exact (map_insert_get _ _ _ _ MI).
    + split; [exact B0|]. split; [intros x X; right; exact X|]. split; [exact M2|]. split; [exact M3|]. split; [discriminate|]. intros _. exact M1.
  - assert (HH : r = r1 /\ s' = s1) by (destruct r1; try discriminate RS; injection H as <- _ <-; split; reflexivity). destruct HH as (-> & ->).
    assert (NS : r1 <> SUCCESS) by (intros ->; discriminate RS).
    exists F', G. split; [exact (A1 NS)|]. split; [intros x X; exact X|]. split; [exact M2|]. split; [exact M3|]. split; [contradiction|]. intros _. exact M1.
Qed.

(* The asserts of a debug build hold. *)
Lemma asserts_hold : forall page mo F w G size a1 a2 r p ev s', pow2 page -> page < 2 ^ 63 -> FI page mo F w G -> 0 < size < U64 -> (whole mo = true -> size mod page = 0) ->
  file_alloc_cb false (fs w) size page a1 a2 = Some (r, p, ev, s') -> okev page mo (fm w) ev ->
  file_alloc_cb true (fs w) size page a1 a2 = Some (r, p, ev, s').
Proof.
  intros page mo F w G size a1 a2 r p ev s' P PL I S WH. pose proof (pow2_range _ P) as R. rewrite !(cb_page _ page) by (exact P || exact (v_page _ _ _ _ _ I)).
  intros H OK. rewrite <- H. f_equal.
  destruct (file_alloc_aligned false (fs w) size page a1 a2) as [[[[[r1 addr] off] ev1] s1]|] eqn:E; [|discriminate].
  assert (EV : ev1 = ev).
  { destruct r1; try (injection H as _ _ <- _; reflexivity). destruct (map_insert (f_map s1) addr (wrap (off + 1))); injection H as _ _ <- _; reflexivity. }
  subst ev1. enough (X : file_alloc_aligned true (fs w) size page a1 a2 = Some (r1, addr, off, ev, s1)) by (rewrite X; reflexivity).
  rewrite <- E. unfold file_alloc_aligned in *. cbn [andb] in *.
  destruct (mmap_ok true page mo F w G size a1 P PL I S) as (D1 & _). destruct (mmap_ok false page mo F w G size a1 P PL I S) as (_ & MK).
  destruct (mmap_ok true page mo F w G size a2 P PL I S) as (D2 & _). destruct (mmap_ok false page mo F w G size a2 P PL I S) as (_ & MK2).
  rewrite D1 in * by reflexivity. destruct (wrap (f_msize (fs w) - f_moff (fs w)) <? size) eqn:E1.
  - destruct (file_mmap_aligned false (fs w) size page a1) as [[[r2 ev2] s2]|]; [|discriminate].
    destruct (result_eqb r2 SUCCESS) eqn:RS; [|destruct r2; (discriminate || reflexivity)].
    assert (r2 = SUCCESS) by (destruct r2; (reflexivity || discriminate)). subst r2.
    assert (OK1 : okev page mo (fm w) ev2).
    { assert (EV : exists t, ev = ev2 ++ t).
      { match type of E with (if ?b then _ else _) = _ => destruct b end.
        - destruct (file_mmap_aligned false s2 size page a2) as [[[r3 ev3] s3]|]; [|discriminate]. exists ev3. destruct r3; injection E as _ _ _ <- _; reflexivity.
        - injection E as _ _ _ <- _. exists []. symmetry. apply app_nil_r. }
      destruct EV as (t & ->). destruct OK as [K1 (K2 & K2') K3 K4].
      assert (MA : mappings (ev2 ++ t) = mappings ev2 ++ mappings t) by apply flat_map_app. rewrite MA in *. constructor.
      - eapply kernel_app. exact K1.
      - split; intros; [eapply K2|eapply K2']; apply in_or_app; left; eassumption.
      - intros GA. specialize (K3 GA). clear - K3. revert K3. generalize (fm w). induction (mappings ev2) as [|e l IH]; intros m K3; [exact Logic.I|]. cbn in K3 |- *. destruct K3 as (Y & Z). split; [exact Y|]. apply IH. exact Z.
      - intros NF (len & o & Y). apply (K4 NF). exists len, o. apply in_or_app. left. exact Y. }
    destruct (MK _ _ _ eq_refl OK1) as (F1 & I1 & M1 & M2 & M3 & X). destruct (X eq_refl) as (X1 & X2 & X3 & _).
    destruct (take_ok page mo F1 (wnext page w ev2 s2) G size P PL I1 S X1) as (T1 & T2 & T3 & T4 & T5 & T6). cbn [wnext fs] in T1, T2, T3, T4, T5, T6.
    replace (f_base s2 =? 0) with false by (symmetry; apply Z.eqb_neq; lia). rewrite (aligned_ok page _ P T4). rewrite T5, T2 in *.
    assert (LT : f_msize s2 - up page (f_moff s2) <? size = false) by (rewrite X2, (up_multiple page 0) by (lia || reflexivity); apply Z.ltb_ge; lia).
    rewrite LT in *. reflexivity.
  - pose proof (v_cur _ _ _ _ _ I) as CUR. assert (UU : U64 = 2 ^ 64) by reflexivity.
    apply Z.ltb_ge in E1. rewrite wrap_id in E1 by (unfold is_word; lia).
    assert (B : 0 < f_base (fs w)) by (destruct (v_maps _ _ _ _ _ I _ _ (v_incl _ _ _ _ _ I ltac:(lia))) as (Y & _); exact Y).
    destruct (take_ok page mo F w G size P PL I S B) as (T1 & T2 & T3 & T4 & T5 & T6).
    replace (f_base (fs w) =? 0) with false by (symmetry; apply Z.eqb_neq; lia). rewrite (aligned_ok page _ P T4). rewrite D2 in * by reflexivity.
    match goal with |- (if ?b then _ else _) = _ => destruct b eqn:E2 end; [|reflexivity].
    destruct (file_mmap_aligned false (fs w) size page a2) as [[[r2 ev2] s2]|]; [|discriminate].
    destruct (result_eqb r2 SUCCESS) eqn:RS; [|destruct r2; (discriminate || reflexivity)].
    assert (r2 = SUCCESS) by (destruct r2; (reflexivity || discriminate)). subst r2.
    assert (OK2 : okev page mo (fm w) ev2) by (injection E as _ _ _ <- _; exact OK).
    destruct (MK2 _ _ _ eq_refl OK2) as (F1 & I1 & M1 & M2 & M3 & X). destruct (X eq_refl) as (X1 & X2 & X3 & _).
    replace (f_base s2 =? 0) with false by (symmetry; apply Z.eqb_neq; lia).
    rewrite (aligned_ok page (f_base s2)); [reflexivity|exact P|]. destruct (v_cur _ _ _ _ _ I1) as (_ & _ & Y & _). exact Y.
Qed.

(* ---- which callbacks the coarse allocator calls ---- *)
Definition is_alloc (e : event) : bool := match e with EvAlloc _ _ _ _ => true | _ => false end.
Definition quiet (l : list event) : Prop := existsb is_alloc l = false.
Lemma quiet_app : forall a b, quiet a -> quiet b -> quiet (a ++ b).
Proof. unfold quiet. intros a b A B. rewrite existsb_app, A, B. reflexivity. Qed.
Lemma quiet_not : forall l s a r p, quiet l -> ~ In (EvAlloc s a r p) l.
Proof. unfold quiet. intros l s a r p Q H. assert (X : existsb is_alloc l = true) by (apply existsb_exists; exists (EvAlloc s a r p); split; [exact H|reflexivity]). congruence. Qed.

Lemma q_merge : forall dbg c p1 p2 u m r c' ev, user_block_merge dbg c p1 p2 u m = Some (r, c', ev) -> quiet ev.
Proof.
  intros dbg c p1 p2 u m r c' ev. unfold user_block_merge. destruct (find_block (all_blocks c) p1); [|discriminate]. destruct (find_block (all_blocks c) p2); [|discriminate].
  destruct (assert_fails dbg (p1 <? p2)); [discriminate|]. match goal with |- (if ?b then _ else _) = _ -> _ => destruct b end; [intros H; injection H as _ _ <-; reflexivity|].
  destruct m; try (intros H; injection H as _ _ <-; reflexivity). destruct (unlist c p1) as [c1|]; [|discriminate]. destruct (unlist c1 p2); [|discriminate]. intros H; injection H as _ _ <-; reflexivity.
Qed.
Lemma q_prev : forall dbg c p m q c' ev, free_block_merge_with_prev dbg c p m = Some (q, c', ev) -> quiet ev.
Proof.
  intros dbg c p m q c' ev. unfold free_block_merge_with_prev. destruct (prev_block (all_blocks c) p); [|intros H; injection H as _ _ <-; reflexivity].
  destruct (user_block_merge dbg c z p false m) as [[[r1 c1] ev1]|] eqn:E; [|discriminate]. intros H. assert (ev1 = ev) by (destruct r1; injection H as _ _ <-; reflexivity). subst ev1. exact (q_merge _ _ _ _ _ _ _ _ _ E).
Qed.
Lemma q_next : forall dbg c p m q c' ev, free_block_merge_with_next dbg c p m = Some (q, c', ev) -> quiet ev.
Proof.
  intros dbg c p m q c' ev. unfold free_block_merge_with_next. destruct (next_block (all_blocks c) p); [|intros H; injection H as _ _ <-; reflexivity].
  destruct (user_block_merge dbg c p z false m) as [[[r1 c1] ev1]|] eqn:E; [|discriminate]. intros H. injection H as _ _ <-. exact (q_merge _ _ _ _ _ _ _ _ _ E).
Qed.
Lemma q_re : forall dbg c p o ok c' ev, free_blocks_re_add dbg c p o = Some (ok, c', ev) -> quiet ev.
Proof.
  intros dbg c p o ok c' ev. unfold free_blocks_re_add. destruct (free_block_merge_with_prev dbg c p (o_prev o)) as [[[q c1] ev1]|] eqn:E1; [|discriminate].
  destruct (free_block_merge_with_next dbg c1 q (o_next o)) as [[[q' c2] ev2]|] eqn:E2; [|discriminate].
  destruct (free_blocks_add c2 q' (o_back o)) as [[ok' c3]|]; [|discriminate]. intros H; injection H as _ _ <-. apply quiet_app; [exact (q_prev _ _ _ _ _ _ _ E1)|exact (q_next _ _ _ _ _ _ _ E2)].
Qed.
Lemma q_create : forall dbg c s a p o r q c' ev, create_aligned_block dbg c s a p o = Some (r, q, c', ev) -> quiet ev.
Proof.
  intros dbg c s a p o r q c' ev. unfold create_aligned_block. destruct (find_block (all_blocks c) p) as [b|]; [|discriminate].
  match goal with |- (if ?b then _ else _) = _ -> _ => destruct b end; [|intros H; injection H as _ _ _ <-; reflexivity].
  destruct (o_split1 o); try (intros H; injection H as _ _ _ <-; reflexivity).
  destruct (coarse_ravl_add_new _ _ _ _ _) as [[l|]|]; [|intros H; injection H as _ _ _ <-; reflexivity|discriminate].
  destruct (free_blocks_add _ _ _) as [[ok c2]|]; [|discriminate]. destruct (negb ok); [intros H; injection H as _ _ _ <-; reflexivity|].
  destruct (assert_fails dbg _); [discriminate|]. intros H; injection H as _ _ _ <-; reflexivity.
Qed.
Lemma q_split : forall dbg c p s o r c' ev, split_current_block dbg c p s o = Some (r, c', ev) -> quiet ev.
Proof.
  intros dbg c p s o r c' ev. unfold split_current_block. destruct (find_block (all_blocks c) p) as [b|]; [|discriminate].
  destruct (o_split2 o); try (intros H; injection H as _ _ <-; reflexivity).
  destruct (coarse_ravl_add_new _ _ _ _ _) as [[l|]|]; [|intros H; injection H as _ _ <-; reflexivity|discriminate].
  destruct (free_blocks_add _ _ _) as [[ok c2]|]; [|discriminate]. intros H; injection H as _ _ <-; reflexivity.
Qed.
Lemma finish_ev : forall dbg x r, finish dbg x = Some r -> r = x.
Proof. intros dbg x r. unfold finish. destruct (check dbg (r_st x)); [discriminate|]. intros H; injection H as <-; reflexivity. Qed.
Lemma q_use : forall dbg c s a p o r, use_block dbg c s a p o = Some r -> quiet (r_ev r).
Proof.
  intros dbg c s a p o r. unfold use_block. destruct (find_block (all_blocks c) p) as [b|]; [|discriminate]. destruct (assert_fails dbg _); [discriminate|].
  destruct (if a >? 0 then create_aligned_block dbg c s a p o else Some (SUCCESS, p, c, [])) as [[[[r1 q] c1] ev1]|] eqn:E1; [|discriminate].
  assert (Q1 : quiet ev1) by (destruct (a >? 0); [exact (q_create _ _ _ _ _ _ _ _ _ _ E1)|injection E1 as _ _ _ <-; reflexivity]).
  assert (BAD : forall e ev0 cc, quiet ev0 -> (do (_, c3, ev3) <- free_blocks_re_add dbg cc q (o_re o); finish dbg (Reply e None (ev0 ++ ev3) c3)) = Some r -> quiet (r_ev r)).
  { intros e ev0 cc Q H. destruct (free_blocks_re_add dbg cc q (o_re o)) as [[[ok c3] ev3]|] eqn:E3; [|discriminate]. apply finish_ev in H. subst r. cbn. apply quiet_app; [exact Q|exact (q_re _ _ _ _ _ _ _ E3)]. }
  destruct (result_eqb r1 SUCCESS) eqn:RS.
  2:{ intros H. apply (BAD r1 ev1 c1 Q1). destruct r1; (discriminate RS || exact H). }
  assert (r1 = SUCCESS) by (destruct r1; (reflexivity || discriminate)). subst r1.
  destruct (if b_size b >? s then split_current_block dbg c1 q s o else Some (SUCCESS, c1, [])) as [[[r2 c2] ev2]|] eqn:E2; [|discriminate].
  assert (Q2 : quiet ev2) by (destruct (b_size b >? s); [exact (q_split _ _ _ _ _ _ _ _ E2)|injection E2 as _ _ <-; reflexivity]).
  destruct (result_eqb r2 SUCCESS) eqn:RS2.
  - assert (r2 = SUCCESS) by (destruct r2; (reflexivity || discriminate)). subst r2. intros H. apply finish_ev in H. subst r. cbn. apply quiet_app; assumption.
  - intros H. apply (BAD r2 (ev1 ++ ev2) c2); [apply quiet_app; assumption|]. rewrite <- H. destruct r2; try discriminate RS2; destruct (free_blocks_re_add dbg c2 q (o_re o)) as [[[ok c3] ev3]|]; try reflexivity; rewrite <- app_assoc; reflexivity.
Qed.

Definition with_cb (o : alloc_oracle) (x : result * Z) : alloc_oracle :=
  AllocOracle (o_split1 o) (o_new1 o) (o_junk o) (o_add1 o) (o_split2 o) (o_new2 o) (o_add2 o) (o_re o) x (o_newb o).
(* Either the alloc callback is called, once, or its answer is irrelevant. *)
Lemma alloc_events : forall dbg c size al o r, has_free c = false -> coarse_alloc dbg c size al o = Some r ->
  (quiet (r_ev r) /\ forall x, coarse_alloc dbg c size al (with_cb o x) = Some r) \/
  (exists a, effective_alignment (page_size c) al = Some a /\ r_ev r = [EvAlloc size a (fst (o_cb o)) (snd (o_cb o))]).
Proof.
  intros dbg c size al o r HF. unfold coarse_alloc. destruct (effective_alignment (page_size c) al) as [a|] eqn:EA.
  2:{ intros H. left. injection H as <-. split; reflexivity. }
  destruct (check dbg c); [discriminate|]. destruct (find_free_block dbg c size a) as [[x c1]|] eqn:FF; [|discriminate].
  assert (HF1 : has_free c1 = false).
  { assert (G : forall s2 a2 k y c2 c3, has_free c3 = false -> free_blocks_rm_ge dbg c3 s2 a2 k = Some (y, c2) -> has_free c2 = false).
    { intros s2 a2 k y c2 c3 Q. unfold free_blocks_rm_ge. destruct (class_ge (free_blocks c3) s2) as [[k2 l2]|]; [|intros H; injection H as _ <-; exact Q].
      destruct (match k with CHECK_ONLY_THE_FIRST_BLOCK => node_list_rm_first l2 a2 | CHECK_ALL_BLOCKS_OF_SIZE => node_list_rm_with_alignment dbg l2 a2 end) as [[y' l']|]; [|discriminate]. intros H; injection H as _ <-. destruct y'; exact Q. }
    assert (FA : forall c3 y c2, has_free c3 = false -> (if wrap (size + a) <? size then Some (None, c3) else free_blocks_rm_ge dbg c3 (wrap (size + a)) 0 CHECK_ONLY_THE_FIRST_BLOCK) = Some (y, c2) -> has_free c2 = false).
    { intros c3 y c2 Q. destruct (wrap (size + a) <? size); [intros H; injection H as _ <-; exact Q|]. exact (G _ _ _ _ _ _ Q). }
    unfold find_free_block in FF. destruct (strat c); try exact (FA _ _ _ HF FF);
      (match type of FF with context [free_blocks_rm_ge dbg c size a ?k] => destruct (free_blocks_rm_ge dbg c size a k) as [[y' c']|] eqn:Z end; [|discriminate]; pose proof (G _ _ _ _ _ _ HF Z) as Q; destruct y'; [injection FF as _ <-; exact Q|exact (FA _ _ _ Q FF)]). }
  assert (MORE : forall r, alloc_more dbg c1 size a o = Some r -> (quiet (r_ev r) /\ forall x, alloc_more dbg c1 size a (with_cb o x) = Some r) \/ r_ev r = [EvAlloc size a (fst (o_cb o)) (snd (o_cb o))]).
  { intros r'. unfold alloc_more. destruct (negb (has_alloc c1)); [intros H; left; split; [apply finish_ev in H; subst r'; reflexivity|intros _; exact H]|].
    intros H. right. destruct (o_cb o) as [rc p]. cbn [fst snd].
    destruct (result_eqb rc SUCCESS) eqn:RS.
    - assert (rc = SUCCESS) by (destruct rc; (reflexivity || discriminate)). subst rc. destruct (assert_fails dbg _); [discriminate|].
      destruct (coarse_add_used_block dbg c1 p size (o_newb o)) as [[r1 c2]|]; [|discriminate].
      destruct r1; apply finish_ev in H; subst r'; cbn [r_ev]; rewrite ?HF1; reflexivity.
    - destruct rc; try discriminate RS; apply finish_ev in H; subst r'; reflexivity. }
  destruct x as [p|].
  - destruct (find_block (all_blocks c1) p) as [b|]; [|discriminate]. destruct (size <=? b_size b).
    + intros H. left. split; [exact (q_use _ _ _ _ _ _ _ H)|]. intros x. exact H.
    + intros H. destruct (MORE r H) as [M|M]; [left; exact M|right; exists a; split; [reflexivity|exact M]].
  - intros H. destruct (MORE r H) as [M|M]; [left; exact M|right; exists a; split; [reflexivity|exact M]].
Qed.

Lemma free_quiet : forall dbg c p b o r, coarse_free dbg c p b o = Some r -> quiet (r_ev r).
Proof.
  intros dbg c p b o r. unfold coarse_free. destruct (p =? 0); [intros H; injection H as <-; reflexivity|]. destruct (check dbg c); [discriminate|].
  destruct (find_block (all_blocks c) p) as [bl|]; [|intros H; injection H as <-; reflexivity]. destruct (negb (b_used bl)); [intros H; injection H as <-; reflexivity|].
  match goal with |- (if ?z then _ else _) = _ -> _ => destruct z end; [intros H; injection H as <-; reflexivity|]. destruct (assert_fails dbg _); [discriminate|].
  destruct (free_blocks_re_add dbg _ p o) as [[[ok c2] ev]|] eqn:E; [|discriminate]. pose proof (q_re _ _ _ _ _ _ _ E) as Q. destruct ok; [intros H; apply finish_ev in H; subst r; exact Q|]. intros H; injection H as <-; exact Q.
Qed.
Lemma split_quiet : forall dbg c p t f s ok r, coarse_split dbg c p t f s ok = Some r -> quiet (r_ev r).
Proof.
  intros dbg c p t f s ok r. unfold coarse_split. match goal with |- (if ?z then _ else _) = _ -> _ => destruct z end; [intros H; injection H as <-; reflexivity|]. destruct (check dbg c); [discriminate|].
  destruct (find_block (all_blocks c) p) as [bl|]; [|intros H; apply finish_ev in H; subst r; reflexivity].
  destruct (negb (b_size bl =? t)); [intros H; apply finish_ev in H; subst r; reflexivity|]. destruct (negb (b_used bl)); [intros H; apply finish_ev in H; subst r; reflexivity|].
  destruct s; try (intros H; apply finish_ev in H; subst r; reflexivity).
  destruct (coarse_ravl_add_new _ _ _ _ _) as [[l|]|]; [| |discriminate]; intros H; apply finish_ev in H; subst r; reflexivity.
Qed.
Lemma merge_quiet : forall dbg c lo hi t m r, coarse_merge dbg c lo hi t m = Some r -> quiet (r_ev r).
Proof.
  intros dbg c lo hi t m r. unfold coarse_merge. match goal with |- (if ?z then _ else _) = _ -> _ => destruct z end; [intros H; injection H as <-; reflexivity|]. destruct (check dbg c); [discriminate|].
  destruct (find_block (all_blocks c) lo) as [bl|]; [|intros H; apply finish_ev in H; subst r; reflexivity].
  destruct (negb (b_used bl)); [intros H; apply finish_ev in H; subst r; reflexivity|].
  destruct (find_block (all_blocks c) hi) as [bh|]; [|intros H; apply finish_ev in H; subst r; reflexivity].
  destruct (negb (b_used bh)); [intros H; apply finish_ev in H; subst r; reflexivity|].
  match goal with |- (if ?z then _ else _) = _ -> _ => destruct z end; [intros H; apply finish_ev in H; subst r; reflexivity|].
  match goal with |- (if ?z then _ else _) = _ -> _ => destruct z end; [intros H; apply finish_ev in H; subst r; reflexivity|].
  destruct (user_block_merge dbg c lo hi true m) as [[[r1 c1] ev]|] eqn:E; [|discriminate]. intros H; apply finish_ev in H; subst r. exact (q_merge _ _ _ _ _ _ _ _ _ E).
Qed.

(* ---- the callbacks of one call ---- *)
Definition PI (w : fworld) (R : pieces) : Prop := forall p n, R p = Some n ->
  0 < n /\ exists a len off, In (a, len) (maps w) /\ shows (fm w) a len off /\ 0 <= off /\ off + len <= flen w /\ a <= p /\ p + n <= a + len /\
    map_get (f_map (fs w)) p = Some (off + (p - a) + 1).

Lemma mmap_only : forall dbg s size al a r ev s', file_mmap_aligned dbg s size al a = Some (r, ev, s') ->
  Forall (fun c => match c with Mmap _ _ _ | MmapFail _ _ => True | _ => False end) (mappings ev).
Proof.
  intros dbg s size al a r ev s'. unfold file_mmap_aligned.
  do 3 (match goal with |- (if ?z then _ else _) = _ -> _ => destruct z end; [intros H; injection H as _ <- _; constructor|]).
  match goal with |- (if ?z && _ then _ else _) = _ -> _ => destruct z; cbn [andb] end.
  - destruct (negb (a_grow a)); [intros H; injection H as _ <- _; constructor|]. match goal with |- (if ?z then _ else _) = _ -> _ => destruct z; [discriminate|] end.
    destruct (a_mmap a); intros H; injection H as _ <- _; repeat constructor.
  - match goal with |- (if ?z then _ else _) = _ -> _ => destruct z; [discriminate|] end. destruct (a_mmap a); intros H; injection H as _ <- _; repeat constructor.
Qed.
Lemma cb_only : forall dbg s size al a1 a2 r p ev s', file_alloc_cb dbg s size al a1 a2 = Some (r, p, ev, s') ->
  Forall (fun c => match c with Mmap _ _ _ | MmapFail _ _ => True | _ => False end) (mappings ev).
Proof.
  intros dbg s size al a1 a2 r p ev s'. unfold file_alloc_cb. match goal with |- (if ?z then _ else _) = _ -> _ => destruct z end; [intros H; injection H as _ _ <- _; constructor|].
  set (al' := if IS_NOT_ALIGNED al (f_page s) then _ else _). clearbody al'.
  destruct (file_alloc_aligned dbg s size al' a1 a2) as [[[[[r1 addr] off] ev1] s1]|] eqn:E; [|discriminate].
  intros H. assert (ev1 = ev).
  { destruct r1; try (injection H as _ _ <- _; reflexivity). destruct (map_insert _ _ _); injection H as _ _ <- _; reflexivity. }
  subst ev1. clear H. revert E. unfold file_alloc_aligned.
  destruct (if wrap (f_msize s - f_moff s) <? size then file_mmap_aligned dbg s size al' a1 else Some (SUCCESS, [], s)) as [[[r2 ev2] s2]|] eqn:E2; [|discriminate].
  assert (Q2 : Forall (fun c => match c with Mmap _ _ _ | MmapFail _ _ => True | _ => False end) (mappings ev2)).
  { destruct (wrap (f_msize s - f_moff s) <? size); [exact (mmap_only _ _ _ _ _ _ _ _ E2)|]. injection E2 as _ <- _. constructor. }
  destruct r2; try (intros H; injection H as _ _ _ <- _; exact Q2).
  destruct (dbg && (f_base s2 =? 0)); [discriminate|]. match goal with |- (if ?z then _ else _) = _ -> _ => destruct z; [discriminate|] end.
  match goal with |- (if ?z then _ else _) = _ -> _ => destruct z end; [|intros H; injection H as _ _ _ <- _; exact Q2].
  destruct (file_mmap_aligned dbg s2 size al' a2) as [[[r3 ev3] s3]|] eqn:E3; [|discriminate]. pose proof (mmap_only _ _ _ _ _ _ _ _ E3) as Q3.
  assert (Q : Forall (fun c => match c with Mmap _ _ _ | MmapFail _ _ => True | _ => False end) (mappings (ev2 ++ ev3))).
  { unfold mappings in *. rewrite flat_map_app. apply Forall_app. split; assumption. }
  destruct r3; try (intros H; injection H as _ _ _ <- _; exact Q).
  destruct (dbg && _); [discriminate|]. intros H; injection H as _ _ _ <- _; exact Q.
Qed.
Lemma mapped_stays : forall page l m x, Forall (fun c => match c with Mmap _ _ _ | MmapFail _ _ => True | _ => False end) l -> kernel page m l -> m x <> None -> after_all page m l x = m x.
Proof.
  intros page l. induction l as [|e l IH]; intros m x Q K X; [reflexivity|]. inversion Q as [|e0 l0 Q1 Q2]; subst. cbn in K. destruct K as (K1 & K2).
  assert (E : after page m e x = m x).
  { destruct e as [a len off|len off|a len ok|c]; try contradiction; [|reflexivity]. cbn. destruct (within page a len x) eqn:W; [|reflexivity]. destruct K1 as (_ & _ & _ & _ & _ & K1). rewrite (K1 x W) in X. contradiction. }
  unfold after_all. cbn [fold_left]. change (after_all page (after page m e) l x = m x). rewrite IH; [exact E|exact Q2|exact K2|rewrite E; exact X].
Qed.
Lemma grown_le : forall ev n, n <= grown_all n ev.
Proof.
  induction ev as [|e ev IH]; intros n; [cbn; lia|]. unfold grown_all. cbn [fold_left]. change (n <= grown_all (grown n e) ev). specialize (IH (grown n e)). unfold grown in *. destruct e as [st ln [|]|c]; lia.
Qed.

Lemma served_ok : forall dbg page mo w evs w', pow2 page -> page < 2 ^ 63 -> served dbg page mo w evs w' ->
  (forall size al r p, In (EvAlloc size al r p) evs -> al = page /\ 0 < size < U64) ->
  forall F G, FI page mo F w G ->
  exists F' G', FI page mo F' w' G' /\ incl G G' /\ f_ipc (fs w') = f_ipc (fs w) /\ f_dax (fs w') = f_dax (fs w) /\
   (forall size al p, In (EvAlloc size al SUCCESS p) evs -> In (p, size) G' /\ contract page size p G) /\
   (strict mo = true -> gaps mo = true -> forall R R', PI w R -> notes R evs = Some R' -> PI w' R').
Proof.
  intros dbg page mo w evs w' P PL SV. pose proof (pow2_range _ P) as PR.
  induction SV as [w|s m n l size al a1 a2 r p ev s' rest w' CB K FL GA NF WH SV IH|s m n l p total first r s' rest w' CB SV IH|s m n l lo hi total r s' rest w' CB SV IH]; intros EV F G I.
  - exists F, G. split; [exact I|]. split; [apply incl_refl|]. split; [reflexivity|]. split; [reflexivity|]. split; [intros ? ? ? []|]. intros _ _ R R' PI0 N. injection N as <-. exact PI0.
  - destruct (EV size al r p (or_introl eq_refl)) as (-> & S).
    assert (OK : okev page mo m ev) by (constructor; assumption).
    destruct (alloc_cb_ok dbg page mo F (FW s m n l) G size a1 a2 r p ev s' P PL I S WH CB OK) as (F1 & G1 & I1 & IN1 & P1 & P2 & A1 & A2).
    destruct (IH (fun a b c d H => EV a b c d (or_intror H)) F1 G1 I1) as (F2 & G2 & I2 & IN2 & P3 & P4 & C2 & PN). cbn [fs] in P3, P4.
    exists F2, G2. split; [exact I2|]. split; [exact (incl_tran IN1 IN2)|]. split; [congruence|]. split; [congruence|]. split.
    + intros size0 al0 p0 [H|H].
      * injection H as -> <- -> <-. destruct (A1 eq_refl) as (-> & CT & _). split; [apply IN2; left; reflexivity|exact CT].
      * destruct (C2 _ _ _ H) as (X & (Y1 & Y2 & Y3 & Y4)). split; [exact X|]. split; [exact Y1|]. split; [exact Y2|]. split; [exact Y3|]. intros q Q. apply Y4, IN1, Q.
    + intros SM GM R R' PR0 N. cbn [notes] in N. destruct (note R (EvAlloc size page r p)) as [R1|] eqn:N1; [|discriminate].
      apply (PN SM GM R1 R'); [|exact N]. clear PN IH C2 N I2 IN2 F2 G2 SV P3 P4.
      assert (OLD : forall f, (forall q, q <> p -> map_get f q = map_get (f_map s) q) -> forall q k, (q = p -> f = f_map s) -> R q = Some k ->
        0 < k /\ exists a len off, In (a, len) (maps (wnext page (FW s m n l) ev s')) /\ shows (fm (wnext page (FW s m n l) ev s')) a len off /\ 0 <= off /\ off + len <= flen (wnext page (FW s m n l) ev s') /\ a <= q /\ q + k <= a + len /\ map_get f q = Some (off + (q - a) + 1)).
      { intros f FE q k QE RQ. destruct (PR0 q k RQ) as (K0 & a & len & off & J1 & J2 & J3 & J4 & J5 & J6 & J7). cbn [fs fm flen maps] in *. split; [exact K0|]. exists a, len, off.
        split; [cbn [wnext maps]; apply in_or_app; right; exact J1|]. split.
        - intros x X. cbn [wnext fm]. rewrite mapped_stays; [exact (J2 x X)|exact (cb_only _ _ _ _ _ _ _ _ _ _ CB)|exact K|rewrite (J2 x X); discriminate].
        - split; [exact J3|]. split; [cbn [wnext flen]; pose proof (grown_le ev n); lia|]. split; [exact J5|]. split; [exact J6|]. destruct (Z.eq_dec q p) as [E|E]; [rewrite (QE E); exact J7|rewrite (FE q E); exact J7]. }
      destruct (result_eqb r SUCCESS) eqn:RS.
      * assert (r = SUCCESS) by (destruct r; (reflexivity || discriminate)). subst r. injection N1 as <-. destruct (A1 eq_refl) as (-> & CT & o & off & O1 & O2 & O3 & O4 & O5 & O6). cbn [fs] in O5, O6.
        assert (E3 : wnext page (FW s m n l) ev s' = FW s' (after_all page m (mappings ev)) (grown_all n ev) (new_maps (mappings ev) ++ l)) by reflexivity. rewrite <- E3.
        intros q k. unfold upd_live. destruct (q =? p) eqn:QP.
        -- apply Z.eqb_eq in QP. subst q. intros H. injection H as <-. split; [lia|].
           destruct (v_reg _ _ _ _ _ I1 p size (or_introl eq_refl)) as (_ & _ & _ & (a & len & B4 & B5 & B6) & _).
           destruct (v_maps _ _ _ _ _ I1 a len B4) as (_ & _ & _ & _ & _ & off1 & V1 & V2 & V3 & V4).
           exists a, len, off1. split; [exact B4|]. split; [exact V4|]. split; [exact V1|]. split; [exact V3|]. split; [exact B5|]. split; [exact B6|].
           assert (Q1 : off1 + (p - a) = o).
           { pose proof (V4 p ltac:(lia)) as X. rewrite (O1 p ltac:(lia)) in X. injection X as X. lia. }
           change (fs (wnext page (FW s m n l) ev s')) with s'. rewrite O6, map_get_cons, Z.eqb_refl, (O4 SM), Q1. f_equal. apply wrap_id. unfold is_word. pose proof (v_len _ _ _ _ _ I1). assert (UU : U64 = 2 ^ 64) by reflexivity. lia.
        -- apply Z.eqb_neq in QP. intros H. apply OLD; [|intros E; contradiction|exact H]. intros q0 Q0. change (fs (wnext page (FW s m n l) ev s')) with s'. rewrite O6, map_get_cons. replace (p =? q0) with false by (symmetry; apply Z.eqb_neq; congruence). reflexivity.
      * assert (R1 = R) by (destruct r; try discriminate RS; injection N1 as <-; reflexivity). subst R1.
        assert (NS : r <> SUCCESS) by (intros ->; discriminate RS). specialize (A2 NS). intros q k H. apply OLD; [intros q0 _; cbn [fs] in *; rewrite A2; reflexivity|intros _; exact A2|exact H].
  - assert (SI : FI page mo F (FW s' m n l) G /\ f_ipc s' = f_ipc s /\ f_dax s' = f_dax s).
    { unfold file_allocation_split_cb in CB. destruct (map_get (f_map s) p) as [v|]; [|injection CB as _ <-; split; [exact I|split; reflexivity]].
      destruct (map_insert _ _ _); injection CB as _ <-; (split; [|split; reflexivity]); [apply fi_set_fmap|]; exact I. }
    destruct SI as (I1 & P1 & P2).
    destruct (IH (fun a b c d H => EV a b c d (or_intror H)) F G I1) as (F2 & G2 & I2 & IN2 & P3 & P4 & C2 & PN). cbn [fs] in P3, P4.
    exists F2, G2. split; [exact I2|]. split; [exact IN2|]. split; [cbn [fs]; congruence|]. split; [cbn [fs]; congruence|]. split.
    + intros size0 al0 p0 [H|H]; [discriminate|exact (C2 _ _ _ H)].
    + intros SM GM R R' PR0 N. cbn [notes] in N. destruct (note R (EvSplit p total first r)) as [R1|] eqn:N1; [|discriminate].
      apply (PN SM GM R1 R'); [|exact N]. clear PN IH C2 N I2 IN2 F2 G2 SV P3 P4. cbn [note] in N1.
      destruct (R p) as [k|] eqn:RP; [|discriminate]. destruct ((k =? total) && (0 <? first) && (first <? total)) eqn:CD; [|discriminate].
      apply andb_prop in CD. destruct CD as (CD & CD3). apply andb_prop in CD. destruct CD as (CD1 & CD2). apply Z.eqb_eq in CD1. apply Z.ltb_lt in CD2, CD3. subst k.
      unfold file_allocation_split_cb in CB. destruct (map_get (f_map s) p) as [v|] eqn:MG.
      2:{ injection CB as <- <-. injection N1 as <-. exact PR0. }
      destruct (PR0 p total RP) as (K0 & a & len & off & J1 & J2 & J3 & J4 & J5 & J6 & J7). cbn [fs fm flen maps] in J1, J2, J3, J4, J5, J6, J7. rewrite MG in J7. injection J7 as ->.
      destruct (v_maps _ _ _ _ _ I a len J1) as (W1 & W2 & _ & _ & W5 & _). pose proof (v_len _ _ _ _ _ I) as VL. cbn [flen] in VL.
      assert (UU : U64 = 2 ^ 64) by reflexivity.
      rewrite (wrap_id (p + first)), (wrap_id (off + (p - a) + 1 + first)) in CB by (unfold is_word; lia).
      destruct (map_insert (f_map s) (p + first) (off + (p - a) + 1 + first)) as [f|] eqn:MI.
      2:{ injection CB as <- <-. injection N1 as <-. exact PR0. }
      injection CB as <- <-. injection N1 as <-. apply map_insert_get in MI. subst f.
      intros q k. unfold upd_live. cbn [fs fm flen maps set_fmap f_map]. destruct (q =? p + first) eqn:Q1; [|destruct (q =? p) eqn:Q2].
      * apply Z.eqb_eq in Q1. subst q. intros H. injection H as <-. split; [lia|]. exists a, len, off. split; [exact J1|]. split; [exact J2|]. split; [exact J3|]. split; [exact J4|]. split; [lia|]. split; [lia|].
        rewrite map_get_cons, Z.eqb_refl. f_equal. lia.
      * apply Z.eqb_eq in Q2. subst q. intros H. injection H as <-. split; [lia|]. exists a, len, off. split; [exact J1|]. split; [exact J2|]. split; [exact J3|]. split; [exact J4|]. split; [lia|]. split; [lia|].
        rewrite map_get_cons. replace (p + first =? p) with false by (symmetry; apply Z.eqb_neq; lia). exact MG.
      * apply Z.eqb_neq in Q1, Q2. intros H. destruct (PR0 q k H) as (L0 & a2 & len2 & off2 & L1 & L2 & L3 & L4 & L5 & L6 & L7). cbn [fs fm flen maps] in *. split; [exact L0|]. exists a2, len2, off2. repeat (split; [assumption|]).
        rewrite map_get_cons. replace (p + first =? q) with false by (symmetry; apply Z.eqb_neq; lia). exact L7.
  - assert (SI : FI page mo F (FW s' m n l) G /\ f_ipc s' = f_ipc s /\ f_dax s' = f_dax s).
    { unfold file_allocation_merge_cb in CB. destruct (map_get (f_map s) hi) as [v|]; injection CB as _ <-; (split; [|split; reflexivity]); [apply fi_set_fmap|]; exact I. }
    destruct SI as (I1 & P1 & P2).
    destruct (IH (fun a b c d H => EV a b c d (or_intror H)) F G I1) as (F2 & G2 & I2 & IN2 & P3 & P4 & C2 & PN). cbn [fs] in P3, P4.
    exists F2, G2. split; [exact I2|]. split; [exact IN2|]. split; [cbn [fs]; congruence|]. split; [cbn [fs]; congruence|]. split.
    + intros size0 al0 p0 [H|H]; [discriminate|exact (C2 _ _ _ H)].
    + intros SM GM R R' PR0 N. cbn [notes] in N. destruct (note R (EvMerge lo hi total r)) as [R1|] eqn:N1; [|discriminate].
      apply (PN SM GM R1 R'); [|exact N]. clear PN IH C2 N I2 IN2 F2 G2 SV P3 P4. cbn [note] in N1.
      destruct (R lo) as [n1|] eqn:RL; [|discriminate]. destruct (R hi) as [n2|] eqn:RH; [|discriminate].
      destruct ((hi =? lo + n1) && (total =? n1 + n2)) eqn:CD; [|discriminate]. apply andb_prop in CD. destruct CD as (CD1 & CD2). apply Z.eqb_eq in CD1, CD2.
      destruct (PR0 hi n2 RH) as (K2 & a2 & len2 & off2 & L1 & L2 & L3 & L4 & L5 & L6 & L7). cbn [fs fm flen maps] in L1, L2, L3, L4, L5, L6, L7.
      unfold file_allocation_merge_cb in CB. rewrite L7 in CB. injection CB as <- <-. injection N1 as <-.
      destruct (PR0 lo n1 RL) as (K1 & a & len & off & J1 & J2 & J3 & J4 & J5 & J6 & J7). cbn [fs fm flen maps] in J1, J2, J3, J4, J5, J6, J7.
      assert (SAME : (a, len) = (a2, len2)).
      { destruct (ForallOrdPairs_In (v_mdis _ _ _ _ _ I) _ _ J1 L1) as [E|D]; [exact E|]. exfalso. cbn [fst snd] in D.
        destruct (ForallOrdPairs_In (v_gap _ _ _ _ _ I GM) _ _ J1 L1) as [E|D2]; [injection E as <- <-; pose proof (v_maps _ _ _ _ _ I a len J1); lia|]. cbn [fst snd] in D2. lia. }
      injection SAME as <- <-.
      assert (OE : off2 = off) by (pose proof (J2 a ltac:(lia)) as X; rewrite (L2 a ltac:(lia)) in X; injection X as X; lia). subst off2.
      intros q k. unfold upd_live. cbn [fs fm flen maps set_fmap f_map]. destruct (q =? lo) eqn:Q1; [|destruct (q =? hi) eqn:Q2; [discriminate|]].
      * apply Z.eqb_eq in Q1. subst q. intros H. injection H as <-. split; [lia|]. exists a, len, off. split; [exact J1|]. split; [exact J2|]. split; [exact J3|]. split; [exact J4|]. split; [lia|]. split; [lia|].
        rewrite map_get_remove. replace (lo =? hi) with false by (symmetry; apply Z.eqb_neq; lia). exact J7.
      * intros H. destruct (PR0 q k H) as (M0 & a3 & len3 & off3 & M1 & M2 & M3 & M4 & M5 & M6 & M7). cbn [fs fm flen maps] in *. split; [exact M0|]. exists a3, len3, off3. repeat (split; [assumption|]).
        rewrite map_get_remove, Q2. exact M7.
Qed.

(* ---- histories ---- *)
Lemma effective_page : forall page al a, pow2 page -> 0 <= al <= page -> effective_alignment page al = Some a -> a = page.
Proof.
  intros page al a P R. pose proof (pow2_range _ P) as PR. unfold effective_alignment. destruct (al =? 0) eqn:Z0; [intros H; injection H as <-; reflexivity|]. apply Z.eqb_neq in Z0.
  match goal with |- (if ?z then _ else _) = _ -> _ => destruct z; [discriminate|] end. unfold IS_NOT_ALIGNED. rewrite (mask_mod _ _ P).
  destruct (Z.eq_dec al page) as [->|NE].
  - rewrite Z.mod_same by lia. cbn [Z.eqb negb]. rewrite andb_false_r. intros H; injection H as <-; reflexivity.
  - rewrite Z.mod_small by lia. replace (al =? 0) with false by (symmetry; apply Z.eqb_neq; lia). replace (page =? 0) with false by (symmetry; apply Z.eqb_neq; lia). cbn [negb andb].
    intros H; injection H as <-. assert (UU : U64 = 2 ^ 64) by reflexivity.
    assert (LT : al + page - 1 < U64 \/ U64 <= al + page - 1) by lia. destruct LT as [LT|LT].
    + rewrite align_up_safe_word by (exact P || (unfold is_word; lia)). replace (U64 <=? al + page - 1) with false by (symmetry; apply Z.leb_gt; exact LT).
      replace ((al + page - 1) mod page) with (al - 1); [lia|]. replace (al + page - 1) with (al - 1 + 1 * page) by lia. rewrite Z.mod_add by lia. symmetry. apply Z.mod_small. lia.
    + exfalso. destruct P as (k & K1 & ->). assert (2 ^ k <= 2 ^ 63) by (apply Z.pow_le_mono_r; lia). lia.
Qed.

Lemma small_word : forall al page, 0 <= al <= page -> page < 2 ^ 63 -> is_word al.
Proof. intros al page A B. unfold is_word. assert (UU : U64 = 2 ^ 64) by reflexivity. lia. Qed.

Record HI (e : env) (page : Z) (mo : mode) (ipc dax : bool) (c : coarse) (v : view) (w : fworld) : Prop := HInv {
  hi_r : reached e c v; hi_p : page_size c = page; hi_f : has_free c = false; hi_pow : pow2 page; hi_lt : page < 2 ^ 63;
  hi_i : f_ipc (fs w) = ipc; hi_d : f_dax (fs w) = dax;
  hi_fi : exists F G, FI page mo F w G /\ incl (given v) G;
  hi_R : strict mo = true -> gaps mo = true -> enough mo = true -> exists R, watched e c v R /\ PI w R }.

Lemma history_inv : forall e page mo ipc dax c v w, big mo = false -> history e page mo ipc dax c v w -> HI e page mo ipc dax c v w.
Proof.
  intros e page mo ipc dax c v w NB H. induction H as [n s m PE N D|c v w k r w' H IH CL NO ST SV|c v s m n l m' H IH OT].
  - assert (PP : pow2 page) by (exists n; split; [lia|exact PE]). assert (PL : page < 2 ^ 63) by (subst page; apply Z.pow_lt_mono_r; lia).
    constructor; try reflexivity; try assumption.
    + subst page. apply reached_new; [lia|exact D].
    + exists 0, []. split; [apply fi_new; assumption|intros x []].
    + intros _ _ _. exists (fun _ => None). split; [subst page; apply watched_new; [lia|exact D]|]. intros p k X. discriminate.
  - destruct IH as [RE HP HF PP PL HI1 HD (F & G & I & IN) HR].
    (* the call in terms of Spec_Coarse *)
    assert (EVS : (forall size al r0 p, In (EvAlloc size al r0 p) (r_ev r) -> al = page /\ 0 < size < U64)).
    { intros size al r0 p X. destruct k as [size' al' o|p' b o|p' t f s0 ok|lo hi t m0|? ? ?|? ? ? ?]; cbn [step client] in *; try contradiction.
      - destruct CL as (C1 & [C2|(C2 & _)] & _); [|rewrite NB in C2; discriminate]. destruct (alloc_events _ _ _ _ _ _ HF ST) as [(Q & _)|(a & EA & EV)]; [destruct (quiet_not _ _ _ _ _ Q X)|].
        rewrite EV in X. destruct X as [X|[]]. injection X as <- <- _ _. rewrite HP in EA. split; [exact (effective_page _ _ _ PP C2 EA)|exact C1].
      - destruct (quiet_not _ _ _ _ _ (free_quiet _ _ _ _ _ _ ST) X).
      - destruct (quiet_not _ _ _ _ _ (split_quiet _ _ _ _ _ _ _ _ ST) X).
      - destruct (quiet_not _ _ _ _ _ (merge_quiet _ _ _ _ _ _ _ ST) X). }
    destruct (served_ok _ _ _ _ _ _ PP PL SV EVS F G I) as (F' & G' & I' & IN' & E1 & E2 & CT & PN).
    assert (KK : exists k', call_env e (page_size c) v k' /\ step (debug e) c k' = Some r /\ (no_oom c k -> no_oom c k') /\ observe v k' r = observe v k r /\ forall R, note_fixed R k' r = R).
    { destruct k as [size' al' o|p' b o|p' t f s0 ok|lo hi t m0|? ? ?|? ? ? ?]; cbn [step client] in *; try contradiction.
      - destruct CL as (C1 & [C2|(C2 & _)] & C3 & C4 & C5 & C6 & C7 & C8); [|rewrite NB in C2; discriminate].
        assert (WA : is_word al') by exact (small_word _ _ C2 PL).
        destruct (alloc_events _ _ _ _ _ _ HF ST) as [(Q & ANY)|(a & EA & EV)].
        + exists (CAlloc size' al' (with_cb o (ERR_UNKNOWN, 0))). split; [|split; [apply ANY|split; [intros X; exact X|split; [reflexivity|reflexivity]]]].
          cbn [call_env]. unfold alloc_env. cbn [with_cb o_junk o_add1 o_add2 o_re o_cb]. do 8 (split; [assumption|]). intros p X. discriminate.
        + exists (CAlloc size' al' o). split; [|split; [exact ST|split; [intros X; exact X|split; [reflexivity|reflexivity]]]].
          cbn [call_env]. unfold alloc_env. do 8 (split; [assumption|]). intros p CB. rewrite CB in EV. cbn [fst snd] in EV.
          destruct (CT size' a p) as (_ & (Y1 & Y2 & Y3 & Y4)); [rewrite EV; left; reflexivity|]. split.
          * split; [exact Y1|]. split; [clear - C1; lia|]. split; [assert (UU : U64 = 2 ^ 64) by reflexivity; clear - UU Y3 C1; lia|]. intros q Q. apply Y4, IN, Q.
          * intros a' A'. rewrite HP in A'. rewrite (effective_page _ _ _ PP C2 A'). exact Y2.
      - exists (CFree p' b o). split; [exact CL|]. split; [exact ST|]. split; [intros X; exact X|]. repeat split; reflexivity.
      - exists (CSplit p' t f s0 ok). split; [exact CL|]. split; [exact ST|]. split; [intros X; exact X|]. repeat split; reflexivity.
      - exists (CMerge lo hi t m0). split; [exact CL|]. split; [exact ST|]. split; [intros X; exact X|]. repeat split; reflexivity. }
    destruct KK as (k' & CE & ST' & NO' & OB & NF).
    destruct (step_ok (debug e) e (reached_env _ _ _ RE) c v k' (reached_inv _ _ _ RE) CE) as (r2 & S2 & _ & CF). assert (r2 = r) by congruence. subst r2.
    unfold cfg in CF. injection CF as CF1 _ _ CF4.
    constructor; try assumption; try congruence.
    + rewrite <- OB. exact (reached_step _ _ _ _ _ RE CE ST').
    + exists F', G'. split; [exact I'|].
      assert (OBT : forall q, In q (obtained (r_ev r)) -> In q G').
      { intros q Q. unfold obtained in Q. apply in_flat_map in Q. destruct Q as (ev & Q1 & Q2). destruct ev as [size al r0 p| | |]; try contradiction. destruct r0; try contradiction. destruct Q2 as [<-|[]]. exact (proj1 (CT _ _ _ Q1)). }
      assert (OLD : incl (given v) G') by exact (incl_tran IN IN').
      unfold observe. destruct (r_res r); try exact OLD. destruct k as [size' al' o|p' b o|p' t f s0 ok|lo hi t m0|? ? ?|? ? ? ?]; cbn [client] in CL; try contradiction; cbn [given].
      * destruct (r_ptr r); [|exact OLD]. cbn [given]. apply incl_app; [exact OLD|exact OBT].
      * destruct (p' =? 0); exact OLD.
      * exact OLD.
      * exact OLD.
    + intros SM GM EN. destruct (HR SM GM EN) as (R & W & PR). pose proof (watched_pieces _ _ _ _ W) as EQ.
      destruct (watched_step_log _ _ _ _ _ _ EQ RE CE (NO' (NO EN)) ST') as (R' & NT & _). exists R'. split.
      * rewrite <- OB. exact (watched_step _ _ _ _ _ _ _ W CE (NO' (NO EN)) ST' NT).
      * rewrite NF in NT. exact (PN SM GM R R' PR NT).
  - destruct IH as [RE HP HF PP PL HI1 HD (F & G & I & IN) HR]. constructor; try assumption.
    + exists F, G. split; [|exact IN]. eapply fi_other; [exact I|exact OT].
    + intros SM GM EN. destruct (HR SM GM EN) as (R & W & PR). exists R. split; [exact W|]. intros p k X. destruct (PR p k X) as (K0 & a & len & off & J1 & J2 & J3). split; [exact K0|].
      exists a, len, off. split; [exact J1|]. split; [|exact J3]. intros x Y. cbn [fm] in *. rewrite (OT a len x J1 Y). exact (J2 x Y).
Qed.

Lemma held_given : forall e c v x, reached e c v -> held v x -> within_given v x.
Proof. intros e c v x R (p & n & L & X). exact (proj2 (proj1 (inv_disjoint e c v (reached_inv _ _ _ R)) p n L) x X). Qed.

(* C32 *)
Lemma file_ranges : forall e page mo ipc dax c v w, big mo = false -> history e page mo ipc dax c v w ->
  (forall x, held v x -> exists o, fm w x = Some (File o) /\ 0 <= o < flen w) /\
  (forall x y, held v x -> held v y -> fm w x = fm w y -> x = y) /\
  (forall x, held v x -> exists a len, In (a, len) (maps w) /\ a <= x < a + len).
Proof.
  intros e page mo ipc dax c v w NB H. destruct (history_inv _ _ _ _ _ _ _ _ NB H) as [RE HP HF PP PL _ _ (F & G & I & IN) _].
  assert (CV : forall x, held v x -> exists p n, In (p, n) G /\ inside x (p, n)).
  { intros x X. destruct (held_given _ _ _ _ RE X) as ((p & n) & Y1 & Y2). exists p, n. split; [apply IN; exact Y1|exact Y2]. }
  split; [|split].
  - intros x X. destruct (CV x X) as (p & n & Y1 & Y2). destruct (v_reg _ _ _ _ _ I p n Y1) as (_ & _ & _ & _ & (o & B7 & B8 & B9) & _).
    unfold inside in Y2. cbn [fst snd] in Y2. exists (o + (x - p)). split; [exact (B9 x Y2)|]. pose proof (v_F _ _ _ _ _ I). pose proof (v_cur _ _ _ _ _ I). lia.
  - intros x y X Y E. destruct (CV x X) as (p & n & X1 & X2), (CV y Y) as (q & k & Y1 & Y2). apply (v_inj _ _ _ _ _ I); [exists (p, n); split; assumption|exists (q, k); split; assumption|exact E].
  - intros x X. destruct (CV x X) as (p & n & Y1 & Y2). destruct (v_reg _ _ _ _ _ I p n Y1) as (_ & _ & _ & (a & len & B4 & B5 & B6) & _). unfold inside in Y2. cbn [fst snd] in Y2. exists a, len. split; [exact B4|lia].
Qed.

Lemma file_len : forall e page mo ipc dax c v w, big mo = false -> history e page mo ipc dax c v w -> 0 <= flen w < 2 ^ 63.
Proof. intros e page mo ipc dax c v w NB H. destruct (history_inv _ _ _ _ _ _ _ _ NB H) as [_ _ _ _ _ _ _ (F & G & I & _) _]. exact (v_len _ _ _ _ _ I). Qed.

(* C33 *)
Lemma file_ipc : forall e page mo dax c v w p n size, history e page mo true dax c v w ->
  big mo = false -> no_fail mo || whole mo = true -> gaps mo = true -> enough mo = true -> live v p = Some n -> 0 < size <= n ->
  exists d, file_get_ipc_handle (fs w) p size = (SUCCESS, Some d) /\ i_size d = size /\
    (forall i, 0 <= i < n -> fm w (p + i) = Some (File (i_off d + i))) /\ 0 <= i_off d /\ i_off d + n <= flen w.
Proof.
  intros e page mo dax c v w p n size H NB SM GM EN L S. destruct (history_inv _ _ _ _ _ _ _ _ NB H) as [RE HP HF PP PL HI1 _ (F & G & I & IN) HR].
  destruct (HR SM GM EN) as (R & W & PR).
  assert (RP : R p = Some n).
  { pose proof (reached_inv _ _ _ RE) as IV. rewrite (watched_pieces _ _ _ _ W). apply (psz_in c p n (core_chain _ _ (i_core _ _ _ IV))).
    apply (i_live _ _ _ IV), in_used in L. destruct L as (b & IB & _ & D & Z). exists b. auto. }
  destruct (PR p n RP) as (K0 & a & len & off & J1 & J2 & J3 & J4 & J5 & J6 & J7).
  exists (Ipc (off + (p - a)) size). unfold file_get_ipc_handle. rewrite HI1, J7. cbn [negb i_size i_off].
  pose proof (v_len _ _ _ _ _ I) as VL. assert (UU : U64 = 2 ^ 64) by reflexivity.
  replace (off + (p - a) + 1 - 1) with (off + (p - a)) by lia. rewrite wrap_id by (unfold is_word; lia).
  split; [reflexivity|]. split; [reflexivity|]. split; [|lia]. intros i Y. rewrite (J2 (p + i)) by lia. f_equal. f_equal. lia.
Qed.
