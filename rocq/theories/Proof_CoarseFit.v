(* Which free block coarse_alloc uses. *)
From Verif Require Import Base Model_Utils Model_Coarse Spec_Coarse Proof_Utils Proof_Coarse Proof_CoarseInv Proof_CoarseAlloc Proof_CoarseOps
  Proof_CoarseProps Proof_CoarseLog.

Lemma class_ge_least : forall al fr s k l, Core al fr -> class_ge fr s = Some (k, l) -> forall g, In g fr -> s <= fst g -> k <= fst g.
Proof.
  intros al fr s k l C G g I L. destruct (class_ge_some _ _ _ _ G) as (_ & f1 & f2 & E & H). pose proof (core_asc _ _ C) as A. rewrite E in *.
  apply in_app_or in I. destruct I as [I|[<-|I]]; [specialize (H _ I); lia|cbn; lia|].
  apply asc_app in A. destruct A as (_ & A). cbn [asc] in A. destruct A as (_ & _ & A). destruct (asc_keys _ _ _ A I) as (X & _). cbn [fst] in X. lia.
Qed.

Lemma rm_aligned_in : forall l al p r, rm_with_alignment_loop l al = (Some p, r) -> In p l.
Proof.
  induction l as [|a l IH]; intros al p r H; cbn in H; [discriminate|]. destruct (IS_ALIGNED a al); [injection H as <- <-; left; reflexivity|].
  destruct (rm_with_alignment_loop l al) as (x, r') eqn:E. injection H as -> <-. right. exact (IH _ _ _ E).
Qed.

Section Fit.
Variable dbg : bool.

Lemma rm_ge_in : forall c s al ck p c', free_blocks_rm_ge dbg c s al ck = Some (Some p, c') -> exists k l, class_ge (free_blocks c) s = Some (k, l) /\ In p l.
Proof.
  intros c s al ck p c' H. unfold free_blocks_rm_ge in H. destruct (class_ge (free_blocks c) s) as [(k, l)|]; [|discriminate].
  exists k, l. split; [reflexivity|]. destruct ck.
  - unfold node_list_rm_first in H. destruct l as [|a l]; [discriminate|]. destruct (IS_NOT_ALIGNED a al); [discriminate|].
    injection H as <- _. left; reflexivity.
  - unfold node_list_rm_with_alignment in H. destruct l as [|a l]; [destruct dbg; discriminate|].
    destruct (rm_with_alignment_loop (a :: l) al) as (x, r) eqn:E. injection H as H _. subst x. exact (rm_aligned_in _ _ _ _ E).
Qed.

(* the search at exactly [size] did not succeed *)
Definition missed (c : coarse) (size al : Z) : Prop :=
  match strat c with
  | FASTEST => True
  | FASTEST_BUT_ONE => class_ge (free_blocks c) size = None \/ exists k a l, class_ge (free_blocks c) size = Some (k, a :: l) /\ a mod al <> 0
  | CHECK_ALL_SIZE => forall k l a, class_ge (free_blocks c) size = Some (k, l) -> In a l -> a mod al <> 0
  end.

Lemma find_fit : forall c size al x c', Core (all_blocks c) (free_blocks c) -> 0 < size < U64 -> pow2 al ->
  find_free_block dbg c size al = Some (x, c') ->
  match x with
  | None => missed c size al
  | Some p => exists k l, In p l /\
      ((strat c <> FASTEST /\ class_ge (free_blocks c) size = Some (k, l)) \/ (class_ge (free_blocks c) (size + al) = Some (k, l) /\ missed c size al))
  end.
Proof.
  intros c size al x c' C S P H. pose proof (pow2_range _ P) as R. unfold find_free_block in H.
  assert (FAST : forall x c', missed c size al -> (if wrap (size + al) <? size then Some (None, c)
      else free_blocks_rm_ge dbg c (wrap (size + al)) 0 CHECK_ONLY_THE_FIRST_BLOCK) = Some (x, c') ->
      match x with None => missed c size al | Some p => exists k l, In p l /\
      ((strat c <> FASTEST /\ class_ge (free_blocks c) size = Some (k, l)) \/ (class_ge (free_blocks c) (size + al) = Some (k, l) /\ missed c size al)) end).
  { intros y c2 M E. destruct y as [p|]; [|exact M]. destruct (Z.lt_ge_cases (size + al) U64) as [L|L].
    - rewrite wrap_id in E by (unfold is_word; lia). destruct (Z.ltb_spec (size + al) size) as [X|_]; [lia|].
      destruct (rm_ge_in _ _ _ _ _ _ E) as (k & l & G & I). exists k, l. split; [exact I|]. right. split; assumption.
    - rewrite wrap_over in E by (unfold U64 in *; lia). destruct (Z.ltb_spec (size + al - U64) size) as [_|X]; [discriminate|lia]. }
  unfold missed in *. destruct (strat c) eqn:ST.
  - destruct (rm_ge_ok dbg c size al CHECK_ONLY_THE_FIRST_BLOCK C) as (y & c1 & E & X). rewrite E in H. destruct y as [p|].
    + injection H as <- <-. destruct (rm_ge_in _ _ _ _ _ _ E) as (k & l & G & I). exists k, l. split; [exact I|]. left. split; [discriminate|exact G].
    + destruct X as (-> & X). apply (FAST x c'); [|exact H]. destruct X as [X|(k & l & G & a & r & -> & NA)]; [left; exact X|right].
      exists k, a, r. split; [exact G|]. rewrite is_not_aligned_spec, (align_test _ _ P) in NA. destruct (Z.eqb_spec (a mod al) 0); [discriminate|assumption].
  - exact (FAST x c' Logic.I H).
  - destruct (rm_ge_ok dbg c size al CHECK_ALL_BLOCKS_OF_SIZE C) as (y & c1 & E & X). rewrite E in H. destruct y as [p|].
    + injection H as <- <-. destruct (rm_ge_in _ _ _ _ _ _ E) as (k & l & G & I). exists k, l. split; [exact I|]. left. split; [discriminate|exact G].
    + destruct X as (-> & X). apply (FAST x c'); [|exact H]. intros k l a G I. destruct X as [X|(k' & l' & G' & NA)]; [congruence|].
      rewrite G in G'. injection G' as <- <-. specialize (NA a I). rewrite (align_test _ _ P) in NA. destruct (Z.eqb_spec (a mod al) 0); [discriminate|assumption].
Qed.

(* the search never calls the alloc callback, nor does using a block *)
Definition quiet (ev : list event) : Prop := forall s a x p, ~ In (EvAlloc s a x p) ev.
Lemma quiet_nil : quiet []. Proof. intros s a x p []. Qed.
Lemma quiet_app : forall a b, quiet a -> quiet b -> quiet (a ++ b).
Proof. intros a b A B s al x p H. apply in_app_or in H. destruct H as [H|H]; [exact (A _ _ _ _ H)|exact (B _ _ _ _ H)]. Qed.
Lemma quiet_merge : forall c p1 p2 u m r c' ev, user_block_merge dbg c p1 p2 u m = Some (r, c', ev) -> quiet ev.
Proof.
  intros c p1 p2 u m r c' ev H. unfold user_block_merge in H.
  destruct (find_block (all_blocks c) p1); [|discriminate]. destruct (find_block (all_blocks c) p2); [|discriminate].
  destruct (assert_fails _ _); [discriminate|]. destruct (negb _); [injection H as <- <- <-; apply quiet_nil|].
  destruct m; try (injection H as <- <- <-; intros s al x p [X|[]]; discriminate X).
  destruct (unlist _ _); [|discriminate]. destruct (unlist _ _); [|discriminate]. injection H as <- <- <-; intros s al x p [X|[]]; discriminate X.
Qed.
Lemma quiet_re_add : forall c p o ok c' ev, free_blocks_re_add dbg c p o = Some (ok, c', ev) -> quiet ev.
Proof.
  intros c p o ok c' ev H. unfold free_blocks_re_add in H.
  destruct (free_block_merge_with_prev dbg c p (o_prev o)) as [((q, c1), ev1)|] eqn:E1; [|discriminate].
  destruct (free_block_merge_with_next dbg c1 q (o_next o)) as [((q', c2), ev2)|] eqn:E2; [|discriminate].
  destruct (free_blocks_add c2 q' (o_back o)) as [(ok', c3)|]; [|discriminate]. injection H as <- <- <-. apply quiet_app.
  - unfold free_block_merge_with_prev in E1. destruct (prev_block (all_blocks c) p); [|injection E1 as <- <- <-; apply quiet_nil].
    destruct (user_block_merge dbg c z p false (o_prev o)) as [((r, c0), ev)|] eqn:M; [|discriminate]. apply quiet_merge in M. destruct r; injection E1 as <- <- <-; exact M.
  - unfold free_block_merge_with_next in E2. destruct (next_block (all_blocks c1) q); [|injection E2 as <- <- <-; apply quiet_nil].
    destruct (user_block_merge dbg c1 q z false (o_next o)) as [((r, c0), ev)|] eqn:M; [|discriminate]. apply quiet_merge in M. injection E2 as <- <- <-; exact M.
Qed.
Lemma quiet_one : forall p t f r, quiet [EvSplit p t f r].
Proof. intros p t f r s a x q [X|[]]; discriminate X. Qed.
Lemma quiet_create : forall c s al p o r q c' ev, create_aligned_block dbg c s al p o = Some (r, q, c', ev) -> quiet ev.
Proof.
  intros c s al p o r q c' ev H. unfold create_aligned_block in H. destruct (find_block _ _) as [b|]; [|discriminate].
  destruct (_ && _); [|injection H as <- <- <- <-; apply quiet_nil].
  destruct (o_split1 o); try (injection H as <- <- <- <-; apply quiet_one).
  destruct (coarse_ravl_add_new _ _ _ _ _ _) as [[l|]|]; [|injection H as <- <- <- <-; apply quiet_one|discriminate].
  destruct (free_blocks_add _ _ _) as [(ok, c2)|]; [|discriminate]. destruct (negb ok); [injection H as <- <- <- <-; apply quiet_one|].
  destruct (assert_fails _ _); [discriminate|]. injection H as <- <- <- <-; apply quiet_one.
Qed.
Lemma quiet_split : forall c p s o r c' ev, split_current_block dbg c p s o = Some (r, c', ev) -> quiet ev.
Proof.
  intros c p s o r c' ev H. unfold split_current_block in H. destruct (find_block _ _) as [b|]; [|discriminate].
  destruct (o_split2 o); try (injection H as <- <- <-; apply quiet_one).
  destruct (coarse_ravl_add_new _ _ _ _ _ _) as [[l|]|]; [|injection H as <- <- <-; apply quiet_one|discriminate].
  destruct (free_blocks_add _ _ _) as [(ok, c2)|]; [|discriminate]. injection H as <- <- <-; apply quiet_one.
Qed.
Lemma quiet_use : forall c s al p o r, use_block dbg c s al p o = Some r -> quiet (r_ev r).
Proof.
  intros c s al p o r H. unfold use_block in H. destruct (find_block _ _) as [b|]; [|discriminate]. destruct (assert_fails _ _); [discriminate|].
  destruct (if al >? 0 then create_aligned_block dbg c s al p o else Some (SUCCESS, p, c, [])) as [(((r1, q), c1), ev1)|] eqn:EC; [|discriminate].
  assert (Q1 : quiet ev1) by (destruct (al >? 0); [exact (quiet_create _ _ _ _ _ _ _ _ _ EC)|injection EC as <- <- <- <-; apply quiet_nil]).
  destruct (result_cases r1) as [->|R1].
  2:{ assert (X : (match free_blocks_re_add dbg c1 q (o_re o) with Some (_, c3, ev3) => finish dbg (Reply r1 None (ev1 ++ ev3) c3) | None => None end) = Some r)
        by (destruct r1; try exact H; contradiction).
      destruct (free_blocks_re_add dbg c1 q (o_re o)) as [((ok, c3), ev3)|] eqn:RA; [|discriminate]. apply finish_in in X. subst r.
      apply quiet_app; [exact Q1|exact (quiet_re_add _ _ _ _ _ _ RA)]. }
  destruct (if b_size b >? s then split_current_block dbg c1 q s o else Some (SUCCESS, c1, [])) as [((r2, c2), ev2)|] eqn:ES; [|discriminate].
  assert (Q2 : quiet ev2) by (destruct (b_size b >? s); [exact (quiet_split _ _ _ _ _ _ _ ES)|injection ES as <- <- <-; apply quiet_nil]).
  destruct (result_cases r2) as [->|R2].
  2:{ assert (X : (match free_blocks_re_add dbg c2 q (o_re o) with Some (_, c3, ev3) => finish dbg (Reply r2 None (ev1 ++ ev2 ++ ev3) c3) | None => None end) = Some r)
        by (destruct r2; try exact H; contradiction).
      destruct (free_blocks_re_add dbg c2 q (o_re o)) as [((ok, c3), ev3)|] eqn:RA; [|discriminate]. apply finish_in in X. subst r.
      apply quiet_app; [exact Q1|]. apply quiet_app; [exact Q2|exact (quiet_re_add _ _ _ _ _ _ RA)]. }
  apply finish_in in H. subst r. apply quiet_app; assumption.
Qed.

(* where inside its block an allocation lies *)
Lemma use_place : forall w c l1 b l2 size al o r,
  (dbg = true -> class_ok w = true) ->
  Core (all_blocks c) (free_blocks c) -> all_blocks c = l1 ++ b :: l2 ->
  b_used b = false -> b_listed b = false -> pow2 al -> 0 < size <= b_size b ->
  (b_data b mod al = 0 \/ size + al <= b_size b) ->
  o_junk o = false -> o_elem (o_add1 o) = true -> (class_ok w = true -> both (o_add1 o)) ->
  use_block dbg c size al (b_data b) o = Some r -> r_res r = SUCCESS ->
  exists q, r_ptr r = Some q /\ q mod al = 0 /\ b_data b <= q < b_data b + al /\ q + size <= b_data b + b_size b.
Proof.
  intros w c l1 b l2 size al o r DS C E U L P S A J O1 OD H RS. pose proof (core_chain _ _ C) as CH.
  pose proof (find_here c l1 b l2 CH E) as F. pose proof (pow2_range _ P) as PR.
  pose proof (bend_word _ 1 b CH ltac:(lia) ltac:(rewrite E; apply in_or_app; right; left; reflexivity)) as (B1 & B2 & B3). unfold bend in B3.
  unfold use_block in H. rewrite F in H. destruct (assert_fails dbg (negb (b_used b))); [discriminate|].
  destruct (Z.gtb_spec al 0) as [_|X]; [|lia].
  destruct (create_aligned_block dbg c size al (b_data b) o) as [(((r1, q), c1), ev1)|] eqn:EC; [|discriminate].
  destruct (result_cases r1) as [->|R1].
  2:{ assert (X : (match free_blocks_re_add dbg c1 q (o_re o) with Some (_, c3, ev3) => finish dbg (Reply r1 None (ev1 ++ ev3) c3) | None => None end) = Some r)
        by (destruct r1; try exact H; contradiction).
      destruct (free_blocks_re_add dbg c1 q (o_re o)) as [((ok, c3), ev3)|]; [|discriminate]. apply finish_in in X. subst r. contradiction. }
  destruct (if b_size b >? size then split_current_block dbg c1 q size o else Some (SUCCESS, c1, [])) as [((r2, c2), ev2)|]; [|discriminate].
  destruct (result_cases r2) as [->|R2].
  2:{ assert (X : (match free_blocks_re_add dbg c2 q (o_re o) with Some (_, c3, ev3) => finish dbg (Reply r2 None (ev1 ++ ev2 ++ ev3) c3) | None => None end) = Some r)
        by (destruct r2; try exact H; contradiction).
      destruct (free_blocks_re_add dbg c2 q (o_re o)) as [((ok, c3), ev3)|]; [|discriminate]. apply finish_in in X. subst r. contradiction. }
  apply finish_in in H. subst r. exists q. split; [reflexivity|].
  unfold create_aligned_block in EC. rewrite F in EC.
  destruct (align_up_in dbg w DS (b_data b) al (b_data b + b_size b) size P B1 ltac:(lia) ltac:(lia) B3 ltac:(lia)) as (z & Z1 & Z2 & Z3 & Z4 & Z5 & Z6 & Z7).
  assert (NW : b_data b + al - 1 < U64).
  { destruct (Z.lt_ge_cases (b_data b + al - 1) U64) as [|G]; [assumption|exfalso]. destruct A as [A|A]; [|lia].
    pose proof (no_multiple (b_data b) al (b_data b) P G A ltac:(lia)). lia. }
  assert (ZL : z < b_data b + al).
  { destruct (Z.eq_dec (b_data b mod al) 0) as [M|M]; [rewrite (Z6 M); lia|].
    rewrite <- Z1. rewrite (align_up_val (b_data b) al P ltac:(lia) NW). pose proof (Z.mod_pos_bound (b_data b + al - 1) al ltac:(lia)).
    pose proof (Z.div_mod (b_data b + al - 1) al ltac:(lia)). lia. }
  rewrite Z1, (wrap_id (z - b_data b)) in EC by (unfold is_word; lia). destruct (Z.gtb_spec al 0) as [_|X]; [|lia]. cbn [andb] in EC.
  assert (QZ : q = z).
  { destruct (Z.gtb_spec (z - b_data b) 0) as [G|G]; [|injection EC as <- _ _; lia].
    destruct (result_cases (o_split1 o)) as [S1|S1]; [rewrite S1 in EC|exfalso; destruct (o_split1 o); try discriminate EC; contradiction].
    destruct (coarse_ravl_add_new _ _ _ _ _ _) as [[l|]|]; try discriminate.
    destruct (free_blocks_add _ _ _) as [(ok, c3)|]; [|discriminate]. destruct (negb ok); [discriminate|]. destruct (assert_fails _ _); [discriminate|].
    injection EC as <- _ _. rewrite wrap_id by (unfold is_word; lia). lia. }
  subst q. split; [exact Z4|]. split; [|exact Z3]. split; [exact Z2|exact ZL].
Qed.


Lemma free_class : forall e c v f, Inv e c v -> class_ok e = true -> free_block c f ->
  exists l, In (b_size f, l) (free_blocks c) /\ In (b_data f) l.
Proof.
  intros e c v f I CO (IB & U). pose proof (i_lost _ _ _ I CO _ IB U) as L. pose proof (i_core _ _ _ I) as C.
  pose proof IB as IB2. apply in_split in IB2. destruct IB2 as (l1 & l2 & E). rewrite E in C.
  destruct (core_class _ _ _ _ C L) as (f1 & l & f2 & -> & IL & _). exists l. split; [apply in_or_app; right; left; reflexivity|exact IL].
Qed.

Lemma class_eq : forall e c v k l f, Inv e c v -> In (k, l) (free_blocks c) -> In (b_data f) l -> free_block c f -> b_size f = k.
Proof.
  intros e c v k l f I IC IL (IB & U). pose proof (i_core _ _ _ I) as C. pose proof (core_chain _ _ C) as CH.
  apply in_split in IC. destruct IC as (f1 & f2 & E). rewrite E in C. destruct (core_elem _ _ _ _ _ _ C IL) as (b & l1 & l2 & Eb & D & SZ & _).
  assert (BB : b = f).
  { apply (chain_disjoint _ _ _ _ (b_data f) CH); [rewrite Eb; apply in_or_app; right; left; reflexivity|exact IB| |].
    - pose proof (bend_word _ 1 b CH ltac:(lia) ltac:(rewrite Eb; apply in_or_app; right; left; reflexivity)). unfold bend in *; lia.
    - pose proof (bend_word _ 1 f CH ltac:(lia) IB). unfold bend in *; lia. }
  congruence.
Qed.

Lemma find_at : forall f1 k (l : list Z) f2 s, (forall e, In e f1 -> fst e < s) -> s <= k -> class_find (f1 ++ (k, l) :: f2) k = Some l.
Proof.
  unfold class_find. intros f1 k l f2 s H L. induction f1 as [|(k0, l0) f1 IH]; cbn [app find fst].
  - rewrite Z.eqb_refl. reflexivity.
  - pose proof (H _ (or_introl eq_refl)) as X. cbn in X. destruct (Z.eqb_spec k0 k); [lia|]. apply IH. intros e I; apply H; right; exact I.
Qed.

(* the smallest sufficient size class has an aligned member *)
Lemma missed_all : forall e c v size al f, Inv e c v -> class_ok e = true -> strat c = CHECK_ALL_SIZE -> missed c size al ->
  free_block c f -> b_data f mod al = 0 -> size <= b_size f -> (forall g, free_block c g -> size <= b_size g -> b_size f <= b_size g) -> False.
Proof.
  intros e c v size al f I CO ST M F AF SF ML. unfold missed in M. rewrite ST in M. pose proof (i_core _ _ _ I) as C.
  destruct (free_class _ _ _ _ I CO F) as (l' & IF & ILf).
  destruct (class_ge (free_blocks c) size) as [(k, l)|] eqn:G; [|pose proof (class_ge_none _ _ G _ IF); cbn in *; lia].
  pose proof (class_ge_least _ _ _ _ _ C G _ IF SF) as K1. cbn [fst] in K1.
  destruct (class_ge_some _ _ _ _ G) as (K2 & f1 & f2 & E & H). pose proof C as C'. rewrite E in C'.
  assert (NN : exists z, In z l).
  { pose proof (core_asc _ _ C) as A. rewrite E in A. apply asc_app in A. destruct A as (_ & A). cbn [asc snd] in A. destruct l as [|z ?]; [tauto|]. exists z; left; reflexivity. }
  destruct NN as (z & Iz). destruct (core_elem _ _ _ _ _ _ C' Iz) as (y & y1 & y2 & Ey & _ & Sy & _ & Uy).
  assert (FY : free_block c y) by (split; [rewrite Ey; apply in_or_app; right; left; reflexivity|exact Uy]).
  pose proof (ML y FY ltac:(lia)) as K3. assert (KE : k = b_size f) by lia.
  destruct F as (IB & U). pose proof (i_lost _ _ _ I CO _ IB U) as L. apply in_split in IB. destruct IB as (b1 & b2 & Eb). pose proof C as C2. rewrite Eb in C2.
  destruct (core_class _ _ _ _ C2 L) as (g1 & l2 & g2 & _ & IL & CF). rewrite E, <- KE, (find_at _ _ _ _ _ H K2) in CF. injection CF as <-.
  exact (M _ _ _ eq_refl IL AF).
Qed.

Definition choice (c : coarse) (size a : Z) (b : block) : Prop :=
  (forall f, free_block c f -> size + a <= b_size f -> b_size b <= b_size f) /\
  (strat c = FASTEST -> size + a <= b_size b) /\
  (strat c <> FASTEST -> (forall f, free_block c f -> b_data f mod a = 0) -> forall f, free_block c f -> size <= b_size f -> b_size b <= b_size f) /\
  (strat c = CHECK_ALL_SIZE -> forall f, free_block c f -> b_data f mod a = 0 -> size <= b_size f ->
     (forall g, free_block c g -> size <= b_size g -> b_size f <= b_size g) -> b_size b = b_size f).

Lemma fit_ok : forall e c v size al o r, (dbg = true -> class_ok e = true) -> Inv e c v -> class_ok e = true ->
  alloc_env e (page_size c) v size al o -> al = 0 \/ pow2 al ->
  coarse_alloc dbg c size al o = Some r ->
  let a := Z.max (page_size c) al in
  ((forall s a x p, ~ In (EvAlloc s a x p) (r_ev r)) -> r_res r = SUCCESS ->
   exists b q, free_block c b /\ r_ptr r = Some q /\ q mod a = 0 /\ b_data b <= q < b_data b + a /\ q + size <= b_data b + b_size b /\ choice c size a b) /\
  (strat c = CHECK_ALL_SIZE -> forall f, free_block c f -> b_data f mod a = 0 -> size <= b_size f ->
     (forall g, free_block c g -> size <= b_size g -> b_size f <= b_size g) -> forall s a x p, ~ In (EvAlloc s a x p) (r_ev r)).
Proof.
  intros e c v size al o r DS I CO (S & W & J & O1 & O2 & O3 & OD & AG & CB) PA H a. pose proof (i_core _ _ _ I) as C.
  pose proof (effective_value _ _ (i_page _ _ _ I) W PA) as EA. fold a in EA.
  destruct (effective_ok _ _ _ (i_page _ _ _ I) W EA) as (P & _). pose proof (pow2_range _ P) as PR.
  unfold coarse_alloc in H. rewrite EA in H. destruct (check dbg c); [discriminate|].
  destruct (find_ok dbg e DS c size a C S P) as (x & c1 & EF & FD & _). rewrite EF in H.
  pose proof (find_fit _ _ _ _ _ C S P EF) as FF.
  destruct x as [p|].
  - destruct FD as (l1 & b & l2 & fr' & E & E1 & E2 & E3 & E4 & E5 & -> & C1). subst p.
    assert (FI : free_block c b) by (split; [rewrite E; apply in_or_app; right; left; reflexivity|exact E3]).
    set (b0 := with_listed false b) in *. set (c1 := put c (l1 ++ b0 :: l2) fr') in *.
    assert (FB : find_block (all_blocks c1) (b_data b0) = Some b0) by (apply (find_here c1 l1 b0 l2); [exact (core_chain _ _ C1)|reflexivity]).
    change (b_data b) with (b_data b0) in H. rewrite FB in H. destruct (Z.leb_spec size (b_size b0)) as [_|X]; [|cbn in X; lia].
    assert (SB : 0 < size <= b_size b0) by (cbn; lia).
    assert (AB : b_data b0 mod a = 0 \/ size + a <= b_size b0) by exact E5.
    split; [|intros; apply (quiet_use _ _ _ _ _ _ H)].
    intros _ RS.
    destruct (use_place e c1 l1 b0 l2 size a o r DS C1 eq_refl E3 eq_refl P SB AB J O1 (fun D => proj1 (OD D)) H RS) as (q & Q1 & Q2 & Q3 & Q4).
    exists b, q. split; [exact FI|]. split; [exact Q1|]. split; [exact Q2|]. split; [exact Q3|]. split; [exact Q4|].
    destruct FF as (k & l & IL & FF).
    assert (KEY : forall s, class_ge (free_blocks c) s = Some (k, l) -> s <= b_size b /\ forall f, free_block c f -> s <= b_size f -> b_size b <= b_size f).
    { intros s G. destruct (class_ge_some _ _ _ _ G) as (G1 & f1 & f2 & G2 & _).
      assert (IC : In (k, l) (free_blocks c)) by (rewrite G2; apply in_or_app; right; left; reflexivity).
      rewrite (class_eq _ _ _ _ _ _ I IC IL FI). split; [exact G1|]. intros f F SF. destruct (free_class _ _ _ _ I CO F) as (l' & IF & _).
      exact (class_ge_least _ _ _ _ _ C G _ IF SF). }
    unfold choice. destruct FF as [(NF & G)|(G & M)]; destruct (KEY _ G) as (K1 & K2).
    + split; [intros f F L; apply K2; [exact F|lia]|]. split; [intros X; contradiction|]. split; [intros _ _; exact K2|].
      intros _ f F _ SF ML. apply Z.le_antisymm; [exact (K2 f F SF)|exact (ML b FI E4)].
    + split; [exact K2|]. split; [intros _; exact K1|].
      split; [|intros ST f F AF SF ML; exfalso; exact (missed_all _ _ _ _ _ _ I CO ST M F AF SF ML)]. unfold missed in M.
      intros NF AL f F SF. exfalso. destruct (free_class _ _ _ _ I CO F) as (l' & IF & _).
        destruct (class_ge (free_blocks c) size) as [(k2, l2')|] eqn:G2; [|pose proof (class_ge_none _ _ G2 _ IF); cbn in *; lia].
        destruct (class_ge_some _ _ _ _ G2) as (_ & f1 & f2 & G3 & _). pose proof C as C'. rewrite G3 in C'.
        assert (ALL : forall z, In z l2' -> z mod a = 0).
        { intros z Iz. destruct (core_elem _ _ _ _ _ _ C' Iz) as (y & y1 & y2 & Ey & <- & _ & _ & Uy). apply AL. split; [rewrite Ey; apply in_or_app; right; left; reflexivity|exact Uy]. }
        assert (NN : exists z, In z l2').
        { pose proof (core_asc _ _ C) as A. rewrite G3 in A. apply asc_app in A. destruct A as (_ & A). cbn [asc snd] in A. destruct l2' as [|z ?]; [tauto|]. exists z; left; reflexivity. }
        destruct NN as (z & Iz). destruct (strat c); [|contradiction|].
        * destruct M as [M|(k3 & z2 & l3 & M1 & M2)]; [discriminate|]. injection M1 as -> ->. apply M2, ALL. left; reflexivity.
        * exact (M _ _ z eq_refl Iz (ALL z Iz)).
  - cbn [found] in FD. subst c1. split; [|intros ST f F AF SF ML; exfalso; exact (missed_all _ _ _ _ _ _ I CO ST FF F AF SF ML)].
    intros Q RS. exfalso. unfold alloc_more in H. destruct (has_alloc c); cbn [negb] in H; [|apply finish_in in H; subst r; discriminate RS].
    destruct (o_cb o) as (r0, p). destruct (result_cases r0) as [->|NR].
    + destruct (assert_fails _ _); [discriminate|]. destruct (coarse_add_used_block _ _ _ _ _) as [(r', c')|]; [|discriminate].
      destruct r'; apply finish_in in H; subst r; try discriminate RS. apply (Q size a SUCCESS p). left; reflexivity.
    + assert (X : r = Reply r0 (Some p) [EvAlloc size a r0 p] c) by (apply (finish_in dbg); destruct r0; try exact H; contradiction). subst r. contradiction.
Qed.
End Fit.
