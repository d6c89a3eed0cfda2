From Verif Require Import Base Model_Critnib Proof_Critnib Spec_Map Proof_CritnibMap Model_Tracker Spec_Tracker Proof_Tracker Proof_TrackerOps Proof_TrackerInv.

Lemma RT_ext : forall t A A', RT t A -> (forall k q, A k q = A' k q) -> RT t A'.
Proof. intros t A A' (LN & R) E. split; [exact LN|]. intros k. apply (rep_ext _ _ (A k)); [apply R|apply E]. Qed.
Lemma inv_ext : forall A A' L, Inv A L -> (forall k q, A k q = A' k q) -> Inv A' L.
Proof.
  intros A A' L I E. constructor.
  - exact (i_nice _ _ I).
  - intros k q e H. rewrite <- E in H. exact (i_pos _ _ I _ _ _ H).
  - exact (i_ord _ _ I).
  - intros x k g. rewrite (i_stack _ _ I). unfold item. split; intros (q & e & (H & B) & X); exists q, e; (split; [split; [congruence|exact B]|exact X]).
  - intros k q e H. rewrite <- E in H. apply (kids_move A A' k q e e); [exact (i_kids _ _ I _ _ _ H)|reflexivity|]. intros c _. rewrite E. tauto.
Qed.
Lemma inv_list : forall A L L', Inv A L -> (forall x, stack L' x = stack L x) -> (forall g, In g L' -> nice g) ->
  ForallOrdPairs (fun g h => inside g h \/ apart g h) L' -> Inv A L'.
Proof.
  intros A L L' I E N O. constructor; [exact N|exact (i_pos _ _ I)|exact O| |exact (i_kids _ _ I)]. intros x k g. rewrite E. apply (i_stack _ _ I).
Qed.

(* ---- a leaf changes its size and pool ---- *)
Lemma resize_inv : forall A L p j e e' L1 L2, Inv A L -> item A j p p e -> e_children e = 0 -> length (stack L p) = S j ->
  L = L1 ++ region_of p e :: L2 -> nice (region_of p e') -> e_children e' = 0 ->
  (forall h, In h L1 -> apart h (region_of p e')) -> (forall h, In h L2 -> inside (region_of p e') h \/ apart (region_of p e') h) ->
  (forall x, p <= x < p + e_size e \/ p <= x < p + e_size e' -> filter (covers x) L1 = [] /\ length (filter (covers x) L2) = j) ->
  Inv (put A j p (Some e')) (L1 ++ region_of p e' :: L2).
Proof.
  intros A L p j e e' L1 L2 I IT CZ D EL NI CZ' AP1 AP2 TOP.
  assert (SL : forall x, p <= x < p + e_size e \/ p <= x < p + e_size e' -> length (stack L2 x) = j) by (intros x X; unfold stack; rewrite rev_length; apply TOP, X).
  constructor.
  - intros g G. apply in_app_or in G. destruct G as [G|[<-|G]]; [|exact NI|]; apply (i_nice _ _ I); rewrite EL; apply in_or_app; [left; exact G|right; right; exact G].
  - intros k q e2 E. destruct (put_cases A j p (Some e') k q) as [(_ & _ & X)|(_ & X)]; rewrite X in E; [|exact (i_pos _ _ I _ _ _ E)].
    injection E as <-. destruct NI as (_ & P & _). exact P.
  - pose proof (i_ord _ _ I) as OR. rewrite EL in OR. apply ford_app in OR. destruct OR as (O1 & O2 & O3). inversion O2 as [|? ? F2 T2]; subst.
    apply ford_app. split; [exact O1|]. split.
    + constructor; [rewrite Forall_forall; exact AP2|exact T2].
    + intros a b X [<-|Y]; [right; exact (AP1 _ X)|]. apply O3; [exact X|right; exact Y].
  - intros x k h. destruct (covers x (region_of p e')) eqn:C'.
    + pose proof (proj1 (covers_iff _ _) C') as B'. cbn in B'. destruct (TOP x (or_intror B')) as (T1 & T2). pose proof (SL x (or_intror B')) as LN.
      rewrite stack_mid by assumption.
      assert (SX : stack L x = stack L2 x ++ (if covers x (region_of p e) then [region_of p e] else [])).
      { rewrite EL, stack_app, stack_cons. replace (stack L1 x) with (@nil region) by (unfold stack; rewrite T1; reflexivity).
        destruct (covers x (region_of p e)); rewrite ?app_nil_r; reflexivity. }
      rewrite nth_snoc. split.
      * intros [E|(-> & ->)].
        -- assert (KJ : (k < j)%nat) by (rewrite <- LN; apply nth_error_Some; congruence).
           assert (X : nth_error (stack L x) k = Some h) by (rewrite SX, nth_error_app1 by lia; exact E). apply (i_stack _ _ I) in X.
           destruct X as (q & e2 & (X & B) & ->). exists q, e2. split; [|reflexivity]. split; [|exact B]. rewrite put_other by lia. exact X.
        -- exists p, e'. split; [|reflexivity]. split; [rewrite LN; apply put_same|exact B'].
      * intros (q & e2 & (E & B) & ->). destruct (put_cases A j p (Some e') k q) as [(-> & -> & X)|(N & X)]; rewrite X in E.
        -- injection E as <-. right. auto.
        -- assert (AT : nth_error (stack L x) k = Some (region_of q e2)) by (apply (i_stack _ _ I); exists q, e2; split; [split; assumption|reflexivity]).
           rewrite SX in AT. left. destruct (covers x (region_of p e)); [|rewrite app_nil_r in AT; exact AT]. apply nth_snoc in AT.
           destruct AT as [AT|(KK & Y)]; [exact AT|]. exfalso. injection Y as Y _ _. lia.
    + rewrite stack_off by exact C'.
      assert (NE : forall q e2, item A k x q e2 -> covers x (region_of p e) = false \/ (k <> j \/ q <> p) -> k <> j \/ q <> p).
      { intros q e2 (E & B) [X|X]; [|exact X]. destruct (Nat.eq_dec k j) as [->|N]; [|auto]. right. intros ->. destruct IT as (E' & _).
        assert (e2 = e) by congruence. subst e2. assert (covers x (region_of p e) = true) by (apply covers_iff; exact B). congruence. }
      assert (BACK : forall q e2, item (put A j p (Some e')) k x q e2 -> item A k x q e2 /\ (k <> j \/ q <> p)).
      { intros q e2 (E & B). destruct (put_cases A j p (Some e') k q) as [(-> & -> & X)|(N & X)]; rewrite X in E; [|split; [split; assumption|exact N]].
        injection E as <-. exfalso. assert (covers x (region_of p e') = true) by (apply covers_iff; exact B). congruence. }
      destruct (covers x (region_of p e)) eqn:C.
      * pose proof (proj1 (covers_iff _ _) C) as B. cbn in B. destruct (TOP x (or_introl B)) as (T1 & T2). pose proof (SL x (or_introl B)) as LN.
        rewrite stack_nil1 by exact T1. assert (SX : stack L x = stack L2 x ++ [region_of p e]) by (rewrite EL; apply stack_mid; assumption). split.
        -- intros E. assert (KJ : (k < j)%nat) by (rewrite <- LN; apply nth_error_Some; congruence).
           assert (X : nth_error (stack L x) k = Some h) by (rewrite SX; apply nth_snoc; auto). apply (i_stack _ _ I) in X.
           destruct X as (q & e2 & (X & B2) & ->). exists q, e2. split; [|reflexivity]. split; [|exact B2]. rewrite put_other by lia. exact X.
        -- intros (q & e2 & IT2 & ->). destruct (BACK _ _ IT2) as (IT3 & N). pose proof (item_at _ _ I _ _ _ _ IT3) as AT. rewrite SX in AT.
           apply nth_snoc in AT. destruct AT as [AT|(KK & Y)]; [exact AT|]. exfalso. injection Y as Y _ _. lia.
      * rewrite <- (stack_off L1 L2 (region_of p e) x C), <- EL, (i_stack _ _ I). split; intros (q & e2 & IT2 & ->); exists q, e2; (split; [|reflexivity]).
        -- destruct IT2 as (E & B). split; [|exact B]. rewrite put_other; [exact E|]. apply (NE q e2); [split; assumption|left; reflexivity].
        -- exact (proj1 (BACK _ _ IT2)).
  - assert (PRES : forall k c, A k c <> None <-> put A j p (Some e') k c <> None).
    { intros k c. destruct (put_cases A j p (Some e') k c) as [(-> & -> & X)|(_ & X)]; rewrite X; [|tauto]. destruct IT as (E & _). rewrite E. split; discriminate. }
    intros k q e2 E. destruct (put_cases A j p (Some e') k q) as [(-> & -> & X)|(_ & X)]; rewrite X in E.
    + injection E as <-. rewrite CZ'. exists []. split; [constructor|]. split; [|reflexivity]. intros c. split; [intros []|]. intros (B & Y). exfalso.
      apply PRES in Y. destruct (A (S j) c) as [ec|] eqn:EC; [|congruence]. pose proof (i_pos _ _ I _ _ _ EC) as P.
      assert (ITC : item A (S j) c c ec) by (split; [exact EC|lia]). pose proof (item_at _ _ I _ _ _ _ ITC) as AT.
      assert (LC : (S j < length (stack L c))%nat) by (apply nth_error_Some; congruence).
      destruct (TOP c (or_intror B)) as (T1 & T2). rewrite EL, stack_app, stack_cons in LC. replace (stack L1 c) with (@nil region) in LC by (unfold stack; rewrite T1; reflexivity).
      rewrite app_nil_r in LC. pose proof (SL c (or_intror B)). destruct (covers c (region_of p e)); rewrite ?app_length in LC; cbn [length] in LC; lia.
    + apply (kids_move A _ k q e2 e2); [exact (i_kids _ _ I _ _ _ E)|reflexivity|]. intros c _. apply PRES.
Qed.

(* ---- concrete operations ---- *)
Lemma at_level_ok : forall t A d pool p size par o, RT t A -> is_word p -> (d < MAX_LEVELS)%nat -> A d p = None ->
  exists r t', umfMemoryTrackerAddAtLevel t d pool p size par o = Some (r, t') /\
    ((r = SUCCESS /\ RT t' (bump (put A d p (Some (Entry pool size 0))) d par 1)) \/ (r <> SUCCESS /\ t' = t)) /\
    (o = AddOracle true true true -> r = SUCCESS).
Proof.
  intros t A d pool p size par o R W D N. unfold umfMemoryTrackerAddAtLevel. destruct (o_value o) eqn:V; cbn [negb].
  2:{ exists ERR_OUT_OF_HOST_MEMORY, t. split; [reflexivity|]. split; [right; split; [discriminate|reflexivity]|]. intros ->. discriminate V. }
  pose proof (insert_cases t A d p (Entry pool size 0) (o_leaf o) (o_node o) false R W) as C. cbv zeta in C.
  destruct (critnib_insert (o_leaf o) (o_node o) (level_map t d) p (Entry pool size 0) false) as [m c]. cbn [fst snd] in C.
  destruct C as [(-> & RM & _)|[(-> & X)|(-> & LO)]].
  - do 2 eexists. split; [reflexivity|]. split; [|auto]. left. split; [reflexivity|]. apply bump_RT. apply RT_set; assumption.
  - congruence.
  - exists ERR_OUT_OF_HOST_MEMORY, t. split; [reflexivity|]. split; [right; split; [discriminate|reflexivity]|]. intros ->. discriminate LO.
Qed.

Lemma tracker_add_ok : forall t A L g o, RT t A -> Inv A L -> nice g -> (forall h, In h L -> inside g h \/ apart g h) ->
  exists r t', umfMemoryTrackerAdd t (g_pool g) (g_base g) (g_size g) o = Some (r, t') /\
    ((r = SUCCESS /\ exists A', RT t' A' /\ Inv A' (g :: L)) \/ (r <> SUCCESS /\ t' = t)) /\
    (o = AddOracle true true true -> (length (filter (covers (g_base g)) L) < MAX_LEVELS)%nat -> r = SUCCESS) /\
    (length (filter (covers (g_base g)) L) = MAX_LEVELS -> r = ERR_OUT_OF_RESOURCES).
Proof.
  intros t A L g o R I N H. pose proof N as (N1 & N2 & N3 & N4). assert (W : is_word (g_base g)) by (unfold is_word; lia). unfold umfMemoryTrackerAdd.
  assert (FIT : forall h, In h L -> covers (g_base g) h = true -> g_base g + g_size g <= g_base h + g_size h).
  { intros h IN C. apply (shares_inside g h (g_base g)); [exact (H h IN)|apply covers_iff; lia|exact C]. }
  assert (DL : length (filter (covers (g_base g)) L) = length (stack L (g_base g))) by (unfold stack; rewrite rev_length; reflexivity). rewrite DL.
  destruct (add_loop_ok _ _ _ R I 8 0 (g_base g) (g_size g) None W N3 N2 eq_refl (Nat.le_0_l _) FIT eq_refl (or_introl (Nat.neq_succ_0 7)))
    as [(D & _ & E)|([D|D] & par & PO & E)]; [| |lia]; cbn [skipn] in E; rewrite E.
  - exists ERR_OUT_OF_RESOURCES, t. split; [reflexivity|]. split; [right; split; [discriminate|reflexivity]|]. split; [lia|auto].
  - assert (DN : A (length (stack L (g_base g))) (g_base g) = None).
    { destruct (A (length (stack L (g_base g))) (g_base g)) as [e|] eqn:EE; [|reflexivity]. exfalso. pose proof (i_pos _ _ I _ _ _ EE).
      assert (IT : item A (length (stack L (g_base g))) (g_base g) (g_base g) e) by (split; [exact EE|lia]).
      pose proof (proj1 (item_iff _ _ I _ _) (ex_intro _ _ (ex_intro _ _ IT))). lia. }
    destruct (at_level_ok t A _ (g_pool g) _ (g_size g) par o R W D DN) as (r & t' & EQ & X & OK). rewrite EQ. exists r, t'. split; [reflexivity|]. split.
    + destruct X as [(-> & RT')|X]; [|right; exact X]. left. split; [reflexivity|]. eexists. split; [exact RT'|]. apply add_inv; assumption.
    + split; [intros O _; exact (OK O)|]. intros D'. lia.
Qed.

Lemma tracker_remove_ok : forall t A L p, RT t A -> Inv A L -> is_word p ->
  exists r t', umfMemoryTrackerRemove t p = Some (r, t') /\
    ((r = SUCCESS /\ free_standingb L p = true /\ exists A', RT t' A' /\ Inv A' (forget L p)) \/
     (r = ERR_UNKNOWN /\ free_standingb L p = false /\ t' = t)).
Proof.
  intros t A L p R I W. unfold umfMemoryTrackerRemove. destruct (get_nested_leaf _ _ _ R I p W) as [(j & e & par & D & IT & CZ & PO & ->)|(-> & NO)].
  - cbn [n_level n_parent]. destruct (remove_RT _ _ _ _ _ R (proj1 IT)) as (m & -> & R'). do 2 eexists. split; [reflexivity|]. left. split; [reflexivity|]. split.
    + apply free_standingb_iff. eexists. exact (leaf_free _ _ I _ _ _ D IT CZ).
    + eexists. split; [exact (bump_RT _ _ _ _ _ R')|]. exact (remove_inv _ _ _ _ _ _ I D IT CZ PO).
  - do 2 eexists. split; [reflexivity|]. right. split; [reflexivity|]. split; [|reflexivity]. destruct (free_standingb L p) eqn:F; [|reflexivity]. exfalso.
    apply free_standingb_iff in F. destruct F as (g & F). destruct (free_leaf _ _ I _ _ F) as (j & e & D & IT & CZ & _). exact (NO _ _ D IT CZ).
Qed.

(* put back what was taken away *)
Lemma readd_inv : forall A A' L p g, Inv A L -> free_standing L p g -> Inv A' (g :: forget L p) -> Inv A' L.
Proof.
  intros A A' L p g I F I'. destruct (free_leaf _ _ I _ _ F) as (j & e & D & IT & CZ & ->).
  destruct (leaf_off _ _ _ _ _ I D IT CZ) as (L1 & L2 & EL & FG & _ & _ & _ & TOP). rewrite FG in I'.
  apply (inv_list _ _ _ I'); [|exact (i_nice _ _ I)|exact (i_ord _ _ I)]. intros x. rewrite EL, stack_cons. destruct (covers x (region_of p e)) eqn:C.
  - pose proof (proj1 (covers_iff _ _) C) as B. cbn in B. destruct (TOP x B) as (T1 & _). rewrite stack_mid, stack_nil1 by assumption. reflexivity.
  - apply stack_off. exact C.
Qed.
Lemma forget_carve : forall t A L p g, RT t A -> Inv A L -> free_standing L p g -> nice g /\ (forall h, In h (forget L p) -> inside g h \/ apart g h) /\
  (length (filter (covers p) (forget L p)) < MAX_LEVELS)%nat /\ g_base g = p.
Proof.
  intros t A L p g R I F. pose proof F as (O & BG & _). destruct (free_leaf _ _ I _ _ F) as (j & e & D & IT & CZ & ->).
  destruct (leaf_off _ _ _ _ _ I D IT CZ) as (L1 & L2 & EL & FG & _ & A1 & A2 & TOP).
  split; [apply (i_nice _ _ I); exact (proj1 (owner_in _ _ _ O))|]. split; [|split; [|exact BG]].
  - intros h H. rewrite FG in H. apply in_app_or in H. destruct H as [H|H]; [|exact (A2 h H)]. right. specialize (A1 h H). unfold apart in *. lia.
  - destruct (TOP p (proj2 IT)) as (T1 & T2). rewrite FG, filter_app, T1. cbn [app]. rewrite T2. pose proof (depth_le _ _ _ R I p). lia.
Qed.

Lemma split_inv : forall A L p j e par pool first, Inv A L -> length (stack L p) = S j -> item A j p p e -> e_children e = 0 -> parent_ok A j par p ->
  pool <> 0 -> 0 < first < e_size e ->
  let A1 := put A j p (Some (Entry pool first 0)) in
  A1 j (p + first) = None /\
  Inv (bump (put A1 j (p + first) (Some (Entry pool (e_size e - first) 0))) j par 1)
      (replace L p [Region p first pool; Region (p + first) (e_size e - first) pool]).
Proof.
  intros A L p j e par pool first I D IT CZ PO NP B A1. destruct (leaf_off _ _ _ _ _ I D IT CZ) as (L1 & L2 & EL & _ & RP & AP1 & AP2 & TOP).
  assert (NG : nice (region_of p e)) by exact (item_nice _ _ I _ _ _ (proj1 IT)). destruct NG as (G1 & G2 & G3 & G4). cbn in G1, G2, G4. change (p + e_size e < U64) in G3.
  assert (I1 : Inv A1 (L1 ++ region_of p (Entry pool first 0) :: L2)).
  { apply (resize_inv A L p j e (Entry pool first 0) L1 L2 I IT CZ D EL).
    - unfold nice, region_of. cbn [g_base g_size g_pool e_size e_pool]. lia.
    - reflexivity.
    - intros h H. specialize (AP1 h H). unfold apart, region_of in *. cbn [g_base g_size g_pool e_size e_pool] in *. lia.
    - intros h H. specialize (AP2 h H). unfold inside, apart, region_of in *. cbn [g_base g_size g_pool e_size e_pool] in *. lia.
    - intros x X. apply TOP. cbn [e_size] in X. lia. }
  set (g1 := region_of p (Entry pool first 0)) in *. set (g2 := Region (p + first) (e_size e - first) pool).
  assert (N2 : nice g2) by (unfold nice, g2; cbn [g_base g_size g_pool]; lia).
  assert (C2 : forall h, In h (L1 ++ g1 :: L2) -> inside g2 h \/ apart g2 h).
  { intros h H. apply in_app_or in H. destruct H as [H|[<-|H]].
    - specialize (AP1 h H). unfold inside, apart, region_of, g2 in *. cbn [g_base g_size g_pool e_size e_pool] in *. lia.
    - right. unfold apart, g1, region_of, g2. cbn [g_base g_size g_pool e_size e_pool]. lia.
    - specialize (AP2 h H). unfold inside, apart, region_of, g2 in *. cbn [g_base g_size g_pool e_size e_pool] in *. lia. }
  destruct (TOP (p + first) ltac:(lia)) as (T1 & T2).
  assert (D2 : length (stack (L1 ++ g1 :: L2) (p + first)) = j).
  { rewrite stack_off; [rewrite stack_nil1 by exact T1; unfold stack; rewrite rev_length; exact T2|].
    unfold covers, g1, region_of. cbn [g_base g_size g_pool e_size e_pool]. lia. }
  assert (PO2 : parent_ok A1 j par (p + first)).
  { clear - PO IT B I. unfold A1. destruct j as [|i]; [exact PO|]. cbn [parent_ok] in *. destruct PO as (q & ep & ITP & ->). exists q, ep. split; [|reflexivity].
    destruct (item_up _ _ I _ _ _ _ IT) as (q' & e' & IT' & (X1 & X2)). destruct (item_uniq _ _ I _ _ _ _ _ _ ITP IT') as (<- & <-).
    destruct ITP as (E & BP). cbn in X1, X2. split; [rewrite put_other by lia; exact E|lia]. }
  split.
  - destruct (A1 j (p + first)) as [ec|] eqn:EC; [|reflexivity]. exfalso. pose proof (i_pos _ _ I1 _ _ _ EC) as P.
    assert (ITC : item A1 j (p + first) (p + first) ec) by (split; [exact EC|lia]).
    pose proof (proj1 (item_iff _ _ I1 _ _) (ex_intro _ _ (ex_intro _ _ ITC))) as X. rewrite D2 in X. lia.
  - pose proof (add_inv A1 _ g2 par I1 N2 C2) as AI. cbv zeta in AI. change (g_base g2) with (p + first) in AI. rewrite D2 in AI. specialize (AI PO2).
    cbn [g_pool g_size g2] in AI. apply (inv_list _ _ _ AI).
    + intros x. rewrite RP. cbn [app]. change (Region p first pool) with g1. fold g2. rewrite stack_cons. destruct (covers x g2) eqn:C.
      * assert (CX : p + first <= x < p + e_size e) by (apply covers_iff in C; unfold g2 in C; cbn [g_base g_size] in C; lia).
        destruct (TOP x ltac:(lia)) as (T1' & _). assert (C1 : covers x g1 = false) by (unfold covers, g1, region_of; cbn [g_base g_size g_pool e_size e_pool]; lia).
        rewrite (stack_off L1 (g2 :: L2) g1 x C1), (stack_off L1 L2 g1 x C1), stack_mid, stack_nil1 by assumption. reflexivity.
      * rewrite !stack_app, !stack_cons, C. reflexivity.
    + intros g G. rewrite RP in G. apply in_app_or in G. pose proof (i_nice _ _ AI) as NN. cbn [app] in G.
      destruct G as [G|[<-|[<-|G]]]; apply NN; cbn [In]; [right; apply in_or_app; auto|right; apply in_or_app; right; left; reflexivity|left; reflexivity|right; apply in_or_app; right; right; exact G].
    + rewrite RP. pose proof (i_ord _ _ AI) as OA. inversion OA as [|? ? FA TA]; subst. rewrite Forall_forall in FA. apply ford_app in TA. destruct TA as (O1 & O2 & O3).
      inversion O2 as [|? ? F2 T2']; subst. rewrite Forall_forall in F2. apply ford_app. split; [exact O1|]. cbn [app]. split.
      * constructor; [rewrite Forall_forall|constructor; [rewrite Forall_forall|exact T2']].
        -- intros h [<-|H]; [right; unfold apart; left; cbn; apply Z.le_refl|exact (F2 h H)].
        -- intros h H. apply FA. apply in_or_app. right. right. exact H.
      * intros a b X [<-|[<-|Y]]; [apply O3; [exact X|left; reflexivity]| |apply O3; [exact X|right; exact Y]].
        right. specialize (AP1 a X). clear - AP1 B. unfold apart, region_of in *. cbn in *. lia.
Qed.

Lemma merge_inv : forall A L lo hi el eh pool, Inv A L -> length (stack L lo) = 1%nat -> item A 0 lo lo el -> e_children el = 0 ->
  length (stack L hi) = 1%nat -> item A 0 hi hi eh -> e_children eh = 0 -> lo + e_size el = hi -> pool <> 0 ->
  let em := Entry pool (e_size el + e_size eh) 0 in
  Inv (put (put A 0 hi None) 0 lo (Some em)) (replace (forget L hi) lo [Region lo (e_size el + e_size eh) pool]).
Proof.
  intros A L lo hi el eh pool I DL IL CL DH IH CH ADJ NP em.
  pose proof (i_pos _ _ I _ _ _ (proj1 IL)) as PL. pose proof (i_pos _ _ I _ _ _ (proj1 IH)) as PH.
  assert (NG : nice (region_of lo el)) by exact (item_nice _ _ I _ _ _ (proj1 IL)). destruct NG as (G1 & _). change (0 < lo) in G1.
  assert (NG : nice (region_of hi eh)) by exact (item_nice _ _ I _ _ _ (proj1 IH)). destruct NG as (_ & _ & G3 & _). change (hi + e_size eh < U64) in G3.
  pose proof (remove_inv A L hi 0 eh None I DH IH CH eq_refl) as I1. cbn [bump] in I1.
  destruct (leaf_off _ _ _ _ _ I DH IH CH) as (H1 & H2 & EH & FH & _ & AH1 & AH2 & TH).
  assert (HOLE : forall x, hi <= x < hi + e_size eh -> filter (covers x) (forget L hi) = []).
  { intros x X. destruct (TH x X) as (T1 & T2). rewrite FH, filter_app, T1. apply length_zero_iff_nil. exact T2. }
  assert (OUT : covers lo (region_of hi eh) = false) by (unfold covers, region_of; cbn [g_base g_size]; lia).
  assert (DL1 : length (stack (forget L hi) lo) = 1%nat) by (rewrite FH, <- (stack_off H1 H2 (region_of hi eh) lo OUT), <- EH; exact DL).
  assert (IL1 : item (put A 0 hi None) 0 lo lo el) by (destruct IL as (E & B); split; [rewrite put_other by lia; exact E|exact B]).
  destruct (leaf_off _ _ _ _ _ I1 DL1 IL1 CL) as (L1 & L2 & EL & _ & RP & AP1 & AP2 & TOP). rewrite RP. cbn [app].
  assert (AWAY : forall h, In h (forget L hi) -> apart h (region_of hi eh)).
  { intros h H. destruct (i_nice _ _ I1 h H) as (_ & P & _). unfold apart, region_of. cbn [g_base g_size].
    destruct (Z_le_gt_dec (g_base h + g_size h) hi) as [X|X]; [left; exact X|]. destruct (Z_le_gt_dec (hi + e_size eh) (g_base h)) as [Y|Y]; [right; exact Y|]. exfalso.
    set (x := Z.max hi (g_base h)). assert (IN : In h (filter (covers x) (forget L hi))) by (apply filter_In; split; [exact H|apply covers_iff; unfold x; lia]).
    rewrite HOLE in IN by (unfold x; lia). destruct IN. }
  apply (resize_inv (put A 0 hi None) (forget L hi) lo 0 el em L1 L2 I1 IL1 CL DL1 EL).
  - unfold nice, region_of, em. cbn [g_base g_size g_pool e_size e_pool] in *. lia.
  - reflexivity.
  - intros h H. specialize (AP1 h H). assert (X : In h (forget L hi)) by (rewrite EL; apply in_or_app; left; exact H). specialize (AWAY h X).
    destruct (i_nice _ _ I1 h X) as (_ & P & _).
    unfold apart, region_of, em in *. cbn [g_base g_size g_pool e_size e_pool] in *. lia.
  - intros h H. assert (X : In h (forget L hi)) by (rewrite EL; apply in_or_app; right; right; exact H). specialize (AWAY h X). specialize (AP2 h H).
    destruct (i_nice _ _ I1 h X) as (_ & P & _). right. destruct AP2 as [(Y1 & Y2)|AP2].
    + exfalso. destruct (TOP lo ltac:(lia)) as (_ & T). assert (IN : In h (filter (covers lo) L2)).
      { apply filter_In. split; [exact H|]. apply covers_iff. unfold region_of in Y1, Y2. cbn [g_base g_size] in Y1, Y2. lia. }
      apply length_zero_iff_nil in T. rewrite T in IN. destruct IN.
    + unfold apart, region_of, em in *. cbn [g_base g_size g_pool e_size e_pool] in *. lia.
  - intros x X. cbn [em e_size] in X. destruct (Z_lt_ge_dec x hi) as [Y|Y]; [apply TOP; lia|].
    assert (HX : filter (covers x) (forget L hi) = []) by (apply HOLE; lia). rewrite EL, filter_app in HX. apply app_eq_nil in HX. destruct HX as (X1 & X2).
    split; [exact X1|]. cbn [filter] in X2. destruct (covers x (region_of lo el)); [discriminate|]. rewrite X2. reflexivity.
Qed.
