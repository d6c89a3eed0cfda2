From Verif Require Import Base Model_Critnib Proof_Critnib Spec_Map Proof_CritnibMap Model_Tracker Spec_Tracker Proof_Tracker Proof_TrackerOps.

Lemma stack_cons : forall L g x, stack (g :: L) x = if covers x g then stack L x ++ [g] else stack L x.
Proof. intros L g x. unfold stack. cbn [filter]. destruct (covers x g); reflexivity. Qed.

(* nested or apart, and sharing an address: nested *)
Lemma shares_inside : forall g h x, inside g h \/ apart g h -> covers x g = true -> covers x h = true -> inside g h.
Proof. intros g h x [H|H] X Y; [exact H|]. rewrite covers_iff in *. unfold apart in H. lia. Qed.

Lemma carve_filter : forall L g x, (forall h, In h L -> inside g h \/ apart g h) -> nice g -> covers x g = true ->
  filter (covers x) L = filter (covers (g_base g)) L.
Proof.
  intros L g x H (_ & P & _) C. apply filter_ext_in. intros h IN. specialize (H h IN). apply covers_iff in C.
  destruct (covers x h) eqn:X, (covers (g_base g) h) eqn:Y; try reflexivity; exfalso.
  - pose proof (shares_inside g h x H (proj2 (covers_iff _ _) C) X) as (A & B). assert (covers (g_base g) h = true) by (apply covers_iff; lia). congruence.
  - assert (covers (g_base g) g = true) by (apply covers_iff; lia).
    pose proof (shares_inside g h _ H H0 Y) as (A & B). assert (covers x h = true) by (apply covers_iff; lia). congruence.
Qed.

Lemma kids_move : forall A A' k q e e' n, kids A k q e n -> e_size e' = e_size e ->
  (forall c, q <= c < q + e_size e -> (A (S k) c <> None <-> A' (S k) c <> None)) -> kids A' k q e' n.
Proof.
  intros A A' k q e e' n (l & ND & IN & N) S P. exists l. split; [exact ND|]. split; [|exact N]. intros c. rewrite IN, S. split; intros (B & X); (split; [exact B|]); apply (P c B); exact X.
Qed.

(* ---- a region is added on top of the regions that contain it ---- *)
Lemma add_shape : forall A L g, Shape A L -> nice g -> (forall h, In h L -> inside g h \/ apart g h) ->
  Shape (put A (length (stack L (g_base g))) (g_base g) (Some (Entry (g_pool g) (g_size g) 0))) (g :: L).
Proof.
  intros A L g S N H. set (p := g_base g). set (d := length (stack L p)). constructor.
  - intros h [<-|X]; [exact N|exact (s_nice _ _ S _ X)].
  - intros k q e E. destruct (put_cases A d p (Some (Entry (g_pool g) (g_size g) 0)) k q) as [(_ & _ & X)|(_ & X)]; rewrite X in E.
    + injection E as <-. cbn. destruct N as (_ & P & _). exact P.
    + exact (s_pos _ _ S _ _ _ E).
  - constructor; [|exact (s_ord _ _ S)]. rewrite Forall_forall. exact H.
  - assert (DN : A d p = None).
    { destruct (A d p) as [e|] eqn:E; [|reflexivity]. exfalso. assert (X : nth_error (stack L p) d = Some (region_of p e)).
      { apply (s_stack _ _ S). exists p, e. split; [|reflexivity]. split; [exact E|]. pose proof (s_pos _ _ S _ _ _ E). lia. }
      assert (d < length (stack L p))%nat by (apply nth_error_Some; congruence). unfold d in H0. lia. }
    assert (RG : region_of p (Entry (g_pool g) (g_size g) 0) = g) by (unfold region_of, p; destruct g; reflexivity).
    intros x k h. rewrite stack_cons. destruct (covers x g) eqn:C.
    + assert (SX : stack L x = stack L p) by (unfold stack; f_equal; apply carve_filter; assumption).
      split.
      * intros E. destruct (Nat.lt_trichotomy k d) as [LT|[->|GT]].
        -- rewrite nth_error_app1 in E by (rewrite SX; exact LT). apply (s_stack _ _ S) in E. destruct E as (q & e & (E & B) & ->).
           exists q, e. split; [|reflexivity]. split; [|exact B]. rewrite put_other by lia. exact E.
        -- rewrite nth_error_app2 in E by (rewrite SX; unfold d; lia). rewrite SX in E. replace (d - length (stack L p))%nat with O in E by (unfold d; lia).
           injection E as <-. exists p, (Entry (g_pool g) (g_size g) 0). split; [|symmetry; exact RG]. split; [apply put_same|].
           apply covers_iff in C. cbn. exact C.
        -- rewrite nth_error_app2 in E by (rewrite SX; unfold d in GT; lia). destruct (k - length (stack L x))%nat as [|i] eqn:X; [rewrite SX in X; unfold d in GT; lia|].
           destruct i; discriminate.
      * intros (q & e & (E & B) & ->). destruct (put_cases A d p (Some (Entry (g_pool g) (g_size g) 0)) k q) as [(-> & -> & X)|(_ & X)]; rewrite X in E.
        -- injection E as <-. rewrite nth_error_app2 by (rewrite SX; unfold d; lia). rewrite SX.
           replace (d - length (stack L p))%nat with O by (unfold d; lia). cbn. rewrite RG. reflexivity.
        -- assert (AT : nth_error (stack L x) k = Some (region_of q e)) by (apply (s_stack _ _ S); exists q, e; split; [split; assumption|reflexivity]).
           assert (k < length (stack L x))%nat by (apply nth_error_Some; congruence). rewrite nth_error_app1 by assumption. exact AT.
    + rewrite (s_stack _ _ S). split; intros (q & e & (E & B) & ->); exists q, e; (split; [|reflexivity]); (split; [|exact B]).
      * destruct (put_cases A d p (Some (Entry (g_pool g) (g_size g) 0)) k q) as [(-> & -> & X)|(_ & X)]; [congruence|rewrite X; exact E].
      * destruct (put_cases A d p (Some (Entry (g_pool g) (g_size g) 0)) k q) as [(-> & -> & X)|(_ & X)]; rewrite X in E; [|exact E].
        injection E as <-. exfalso. cbn in B. assert (covers x g = true) by (apply covers_iff; exact B). congruence.
Qed.

(* a new key appears at level d below the parent recorded for d *)
Lemma add_kids : forall A L d p e0 par, Inv A L -> A d p = None -> 0 < e_size e0 -> e_children e0 = 0 -> parent_ok A d par p ->
  (forall c, p <= c < p + e_size e0 -> A (S d) c = None) ->
  Kids (bump (put A d p (Some e0)) d par 1).
Proof.
  intros A L d p e0 par I DN P0 C0 PO NK. set (A1 := put A d p (Some e0)).
  assert (NEW : forall k q e, A1 k q = Some e -> (k = d /\ q = p /\ e = e0) \/ ((k <> d \/ q <> p) /\ A k q = Some e)).
  { intros k q e E. unfold A1 in E. destruct (put_cases A d p (Some e0) k q) as [(-> & -> & X)|(N & X)]; rewrite X in E; [left; split; [reflexivity|split; congruence]|right; auto]. }
  assert (KNEW : forall A2, same_view A1 A2 -> kids A2 d p e0 0).
  { intros A2 V. exists []. split; [constructor|]. split; [|reflexivity]. intros c. split; [intros []|]. intros (B & X). exfalso.
    apply (view_pres _ _ _ _ V) in X. apply X. unfold A1. rewrite put_other by lia. apply NK. exact B. }
  destruct d as [|i]; cbn [parent_ok] in PO.
  - subst par. cbn [bump]. intros k q e E. destruct (NEW _ _ _ E) as [(-> & -> & ->)|(N & E0)]; [rewrite C0; apply KNEW; intros ? ?; reflexivity|].
    apply (kids_move A A1 k q e e); [exact (i_kids _ _ I _ _ _ E0)|reflexivity|]. intros c B. unfold A1. rewrite put_other by lia. tauto.
  - destruct PO as (qp & ep & IT & ->). assert (EP : A1 i qp = Some ep) by (unfold A1; rewrite put_other by lia; exact (proj1 IT)).
    cbn [bump pred]. rewrite EP. set (A2 := put A1 i qp (Some (add_children 1 ep))).
    assert (V : same_view A1 A2).
    { pose proof (bump_view A1 (S i) (Some qp) 1) as V. cbn [bump pred] in V. rewrite EP in V. exact V. }
    intros k q e E. unfold A2 in E. destruct (put_cases A1 i qp (Some (add_children 1 ep)) k q) as [(-> & -> & X)|(N & X)]; rewrite X in E.
    + injection E as <-. destruct (i_kids _ _ I i qp ep (proj1 IT)) as (l & ND & IN & LN). exists (p :: l). split; [|split].
      * constructor; [|exact ND]. rewrite IN. intros (_ & Y). congruence.
      * intros c. cbn [In add_children e_size]. rewrite IN, <- (view_pres _ _ _ _ V). unfold A1. split.
        -- intros [<-|(B & Y)]; [split; [exact (proj2 IT)|rewrite put_same; discriminate]|]. split; [exact B|].
           destruct (put_cases A (S i) p (Some e0) (S i) c) as [(_ & _ & Z)|(_ & Z)]; rewrite Z; [discriminate|exact Y].
        -- intros (B & Y). destruct (put_cases A (S i) p (Some e0) (S i) c) as [(_ & -> & Z)|(_ & Z)]; rewrite Z in Y; [left; reflexivity|right; auto].
      * cbn [add_children e_children length]. lia.
    + destruct (NEW _ _ _ E) as [(-> & -> & ->)|(N' & E0)]; [rewrite C0; apply KNEW; exact V|].
      apply (kids_move A A2 k q e e); [exact (i_kids _ _ I _ _ _ E0)|reflexivity|]. intros c B. rewrite <- (view_pres _ _ _ _ V).
      unfold A1. destruct (put_cases A (S i) p (Some e0) (S k) c) as [(KK & -> & Z)|(_ & Z)]; rewrite Z; [|tauto]. exfalso.
      injection KK as ->. destruct (item_uniq _ _ I i p q e qp ep) as (-> & _); [split; [exact E0|exact B]|exact IT|]. destruct N; congruence.
Qed.

Lemma add_inv : forall A L g par, Inv A L -> nice g -> (forall h, In h L -> inside g h \/ apart g h) ->
  let d := length (stack L (g_base g)) in parent_ok A d par (g_base g) ->
  Inv (bump (put A d (g_base g) (Some (Entry (g_pool g) (g_size g) 0))) d par 1) (g :: L).
Proof.
  intros A L g par I N H d PO. apply inv_halves. split.
  - apply (shape_view _ _ _ (bump_view _ _ _ _)). apply add_shape; [apply inv_halves; exact I|exact N|exact H].
  - assert (EMPTY : forall k c, covers c g = true -> (d <= k)%nat -> A k c = None).
    { intros k c C K. destruct (A k c) as [e|] eqn:E; [|reflexivity]. exfalso. pose proof (i_pos _ _ I _ _ _ E).
      assert (IT : item A k c c e) by (split; [exact E|lia]). pose proof (proj1 (item_iff _ _ I c k) (ex_intro _ _ (ex_intro _ _ IT))) as X.
      unfold stack in X. rewrite (carve_filter L g c H N C) in X. fold (stack L (g_base g)) in X. fold d in X. lia. }
    destruct N as (N1 & N2 & N3 & N4). apply (add_kids A L d); [exact I| |exact N2|reflexivity|exact PO|].
    + apply EMPTY; [apply covers_iff; lia|lia].
    + cbn. intros c B. apply EMPTY; [apply covers_iff; exact B|lia].
Qed.

(* ---- a leaf disappears ---- *)
Lemma leaf_off : forall A L p j e, Inv A L -> length (stack L p) = S j -> item A j p p e -> e_children e = 0 ->
  exists L1 L2, L = L1 ++ region_of p e :: L2 /\ forget L p = L1 ++ L2 /\ (forall by_, replace L p by_ = L1 ++ by_ ++ L2) /\
    (forall h, In h L1 -> apart h (region_of p e)) /\ (forall h, In h L2 -> inside (region_of p e) h \/ apart (region_of p e) h) /\
    (forall x, p <= x < p + e_size e -> filter (covers x) L1 = [] /\ length (filter (covers x) L2) = j).
Proof.
  intros A L p j e I D IT CZ. pose proof (item_owner _ _ I _ _ _ _ D IT) as O. destruct (owner_split _ _ _ O) as (L1 & L2 & EL & N & C & F & RP).
  exists L1, L2. split; [exact EL|]. split; [exact F|]. split; [exact RP|]. pose proof (i_ord _ _ I) as OR. rewrite EL in OR. apply ford_app in OR.
  destruct OR as (O1 & O2 & O3). inversion O2 as [|? ? F2 _]; subst. rewrite Forall_forall in F2.
  assert (TOP : forall x, p <= x < p + e_size e -> filter (covers x) L1 = [] /\ length (filter (covers x) L2) = j).
  { intros x B. destruct (leaf_stack _ _ I p j e x D IT CZ B) as (DX & OX). pose proof (top_split _ _ _ p x N C OX) as T. split; [exact T|].
    unfold stack in DX. rewrite filter_app, T in DX. cbn [app filter] in DX.
    assert (CX : covers x (region_of p e) = true) by (apply covers_iff; exact B). rewrite CX in DX. cbn [rev] in DX. rewrite app_length, rev_length in DX. cbn in DX. lia. }
  split; [|split; [exact F2|exact TOP]]. intros h H. destruct (O3 h (region_of p e) H (or_introl eq_refl)) as [X|X]; [|exact X]. exfalso.
  assert (NH : nice h) by (apply (i_nice _ _ I), in_or_app; left; exact H). destruct NH as (_ & P & _). destruct X as (X1 & X2). cbn in X1, X2.
  destruct (TOP (g_base h)) as (T & _); [lia|]. assert (Y : In h (filter (covers (g_base h)) L1)) by (apply filter_In; split; [exact H|apply covers_iff; lia]).
  rewrite T in Y. destruct Y.
Qed.

Lemma stack_app : forall L1 L2 x, stack (L1 ++ L2) x = stack L2 x ++ stack L1 x.
Proof. intros. unfold stack. rewrite filter_app, rev_app_distr. reflexivity. Qed.

Lemma stack_mid : forall L1 L2 g x, covers x g = true -> filter (covers x) L1 = [] -> stack (L1 ++ g :: L2) x = stack L2 x ++ [g].
Proof. intros L1 L2 g x C F. rewrite stack_app, stack_cons, C. replace (stack L1 x) with (@nil region) by (unfold stack; rewrite F; reflexivity). apply app_nil_r. Qed.
Lemma stack_off : forall L1 L2 g x, covers x g = false -> stack (L1 ++ g :: L2) x = stack (L1 ++ L2) x.
Proof. intros L1 L2 g x C. rewrite !stack_app, stack_cons, C. reflexivity. Qed.
Lemma stack_nil1 : forall L1 L2 x, filter (covers x) L1 = [] -> stack (L1 ++ L2) x = stack L2 x.
Proof. intros L1 L2 x F. rewrite stack_app. replace (stack L1 x) with (@nil region) by (unfold stack; rewrite F; reflexivity). apply app_nil_r. Qed.

Lemma nth_snoc : forall (l : list region) g k h, nth_error (l ++ [g]) k = Some h <-> nth_error l k = Some h \/ (k = length l /\ h = g).
Proof.
  intros l g k h. destruct (Nat.lt_trichotomy k (length l)) as [LT|[->|GT]].
  - rewrite nth_error_app1 by exact LT. split; [auto|intros [H|(E & _)]; [exact H|lia]].
  - rewrite nth_error_app2, Nat.sub_diag by lia. cbn. split; [intros X; right; split; [reflexivity|congruence]|].
    intros [X|(_ & ->)]; [|reflexivity]. assert (length l < length l)%nat by (apply nth_error_Some; congruence). lia.
  - rewrite nth_error_app2 by lia. destruct (k - length l)%nat as [|i] eqn:E; [lia|]. cbn. destruct i; cbn; (split; [discriminate|]);
      (intros [X|(Y & _)]; [|lia]); assert (k < length l)%nat by (apply nth_error_Some; congruence); lia.
Qed.

Lemma remove_shape : forall A L p j e, Inv A L -> length (stack L p) = S j -> item A j p p e -> e_children e = 0 ->
  Shape (put A j p None) (forget L p).
Proof.
  intros A L p j e I D IT CZ. destruct (leaf_off _ _ _ _ _ I D IT CZ) as (L1 & L2 & EL & -> & _ & A1 & A2 & TOP). constructor.
  - intros g G. apply (i_nice _ _ I). rewrite EL. apply in_app_or in G. apply in_or_app. cbn. tauto.
  - intros k q e' E. destruct (put_cases A j p None k q) as [(_ & _ & X)|(_ & X)]; rewrite X in E; [discriminate|]. exact (i_pos _ _ I _ _ _ E).
  - pose proof (i_ord _ _ I) as OR. rewrite EL in OR. apply ford_app in OR. destruct OR as (O1 & O2 & O3). inversion O2; subst.
    apply ford_app. split; [exact O1|]. split; [assumption|]. intros a b X Y. apply O3; [exact X|right; exact Y].
  - intros x k h. destruct (covers x (region_of p e)) eqn:C.
    + apply covers_iff in C. cbn in C. destruct (TOP x C) as (T1 & T2). rewrite stack_nil1 by exact T1.
      assert (SX : stack L x = stack L2 x ++ [region_of p e]) by (rewrite EL; apply stack_mid; [apply covers_iff; exact C|exact T1]).
      assert (LN : length (stack L2 x) = j) by (unfold stack; rewrite rev_length; exact T2).
      split.
      * intros E. assert (KJ : (k < j)%nat) by (rewrite <- LN; apply nth_error_Some; congruence).
        assert (X : nth_error (stack L x) k = Some h) by (rewrite SX; apply nth_snoc; auto). apply (i_stack _ _ I) in X. destruct X as (q & e' & (X & B) & ->).
        exists q, e'. split; [|reflexivity]. split; [|exact B]. rewrite put_other by lia. exact X.
      * intros (q & e' & (E & B) & ->). destruct (put_cases A j p None k q) as [(_ & _ & X)|(N & X)]; rewrite X in E; [discriminate|].
        assert (AT : nth_error (stack L x) k = Some (region_of q e')) by (apply (i_stack _ _ I); exists q, e'; split; [split; assumption|reflexivity]).
        rewrite SX in AT. apply nth_snoc in AT. destruct AT as [AT|(KK & Y)]; [exact AT|]. exfalso. injection Y as Y _ _. lia.
    + rewrite <- (stack_off L1 L2 (region_of p e) x C), <- EL, (i_stack _ _ I). split; intros (q & e' & (E & B) & ->); exists q, e'; (split; [|reflexivity]); (split; [|exact B]).
      * rewrite put_other; [exact E|]. destruct (Nat.eq_dec k j) as [->|N]; [|auto]. right. intros ->. destruct IT as (E' & _).
        assert (e' = e) by congruence. subst e'. assert (covers x (region_of p e) = true) by (apply covers_iff; exact B). congruence.
      * destruct (put_cases A j p None k q) as [(_ & _ & X)|(N & X)]; rewrite X in E; [discriminate|exact E].
Qed.

Lemma nodup_remove_len : forall (l : list Z) p, NoDup l -> In p l -> Z.of_nat (length (remove Z.eq_dec p l)) = Z.of_nat (length l) - 1.
Proof.
  induction l as [|a l IH]; intros p ND IN; [destruct IN|]. inversion ND; subst. cbn [remove]. destruct (Z.eq_dec p a) as [->|N].
  - rewrite notin_remove by assumption. cbn [length]. lia.
  - destruct IN as [<-|IN]; [congruence|]. cbn [length]. specialize (IH p H2 IN). lia.
Qed.
Lemma nodup_remove : forall (l : list Z) p, NoDup l -> NoDup (remove Z.eq_dec p l).
Proof.
  induction l as [|a l IH]; intros p ND; cbn [remove]; [constructor|]. inversion ND; subst. destruct (Z.eq_dec p a); [apply IH; assumption|].
  constructor; [|apply IH; assumption]. intros X. apply in_remove in X. tauto.
Qed.

Lemma remove_inv : forall A L p j e par, Inv A L -> length (stack L p) = S j -> item A j p p e -> e_children e = 0 -> parent_ok A j par p ->
  Inv (bump (put A j p None) j par (-1)) (forget L p).
Proof.
  intros A L p j e par I D IT CZ PO. apply inv_halves. split; [apply (shape_view _ _ _ (bump_view _ _ _ _)); exact (remove_shape _ _ _ _ _ I D IT CZ)|].
  set (A1 := put A j p None).
  assert (OLD : forall k q e', A1 k q = Some e' -> A k q = Some e' /\ (k <> j \/ q <> p)).
  { intros k q e' E. unfold A1 in E. destruct (put_cases A j p None k q) as [(-> & -> & X)|(N & X)]; rewrite X in E; [discriminate|auto]. }
  destruct j as [|i]; cbn [parent_ok] in PO.
  - subst par. cbn [bump]. intros k q e' E. destruct (OLD _ _ _ E) as (E0 & N).
    apply (kids_move A A1 k q e' e'); [exact (i_kids _ _ I _ _ _ E0)|reflexivity|]. intros c B. unfold A1. rewrite put_other by lia. tauto.
  - destruct PO as (qp & ep & ITP & ->). assert (EP : A1 i qp = Some ep) by (unfold A1; rewrite put_other by lia; exact (proj1 ITP)).
    cbn [bump pred]. rewrite EP. set (A2 := put A1 i qp (Some (add_children (-1) ep))).
    assert (V : same_view A1 A2).
    { pose proof (bump_view A1 (S i) (Some qp) (-1)) as V. cbn [bump pred] in V. rewrite EP in V. exact V. }
    intros k q e' E. unfold A2 in E. destruct (put_cases A1 i qp (Some (add_children (-1) ep)) k q) as [(-> & -> & X)|(N & X)]; rewrite X in E.
    + injection E as <-. destruct (i_kids _ _ I i qp ep (proj1 ITP)) as (l & ND & IN & LN). exists (remove Z.eq_dec p l). split; [|split].
      * apply nodup_remove. exact ND.
      * intros c. cbn [add_children e_size]. rewrite <- (view_pres _ _ _ _ V). unfold A1. split.
        -- intros X'. apply in_remove in X'. destruct X' as (X' & NE). apply IN in X'. destruct X' as (B & Y). split; [exact B|]. rewrite put_other by auto. exact Y.
        -- intros (B & Y). destruct (put_cases A (S i) p None (S i) c) as [(_ & -> & Z)|(NN & Z)]; rewrite Z in Y; [congruence|].
           apply in_in_remove; [lia|]. apply IN. auto.
      * cbn [add_children e_children]. rewrite nodup_remove_len; [lia|exact ND|]. apply IN. split; [exact (proj2 ITP)|]. destruct IT as (X' & _). congruence.
    + destruct (OLD _ _ _ E) as (E0 & N'). apply (kids_move A A2 k q e' e'); [exact (i_kids _ _ I _ _ _ E0)|reflexivity|]. intros c B. rewrite <- (view_pres _ _ _ _ V).
      unfold A1. destruct (put_cases A (S i) p None (S k) c) as [(KK & -> & Z)|(_ & Z)]; rewrite Z; [|tauto]. exfalso.
      injection KK as ->. destruct (item_uniq _ _ I i p q e' qp ep) as (-> & _); [split; [exact E0|exact B]|exact ITP|]. destruct N; congruence.
Qed.
