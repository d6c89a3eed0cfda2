(* Coarse allocator: free, split, merge and adding memory keep the invariant. *)
From Verif Require Import Base Model_Utils Proof_Utils Model_Coarse Spec_Coarse Proof_Coarse Proof_CoarseInv Proof_CoarseAlloc.
From Coq Require Import Permutation.

Lemma lookup : forall d c v p, Inv d c v ->
  match find_block (all_blocks c) p with
  | None => live v p = None
  | Some b => (exists l1 l2, all_blocks c = l1 ++ b :: l2) /\ b_data b = p /\ In b (all_blocks c) /\
              (if b_used b then live v p = Some (b_size b) /\ b_listed b = false else live v p = None)
  end.
Proof.
  intros d c v p I. pose proof (i_core _ _ _ I) as C. pose proof (core_chain _ _ C) as CH.
  destruct (find_block (all_blocks c) p) as [b|] eqn:F.
  - destruct (find_split _ _ _ _ CH F) as (l1 & l2 & E & D & _).
    assert (IB : In b (all_blocks c)) by (rewrite E; apply in_or_app; right; left; reflexivity).
    split; [exists l1, l2; exact E|]. split; [exact D|]. split; [exact IB|]. destruct (b_used b) eqn:U.
    + split; [apply (i_live _ _ _ I), in_used; exists b; repeat split; assumption|].
      destruct (b_listed b) eqn:L; [|reflexivity]. rewrite (core_unused _ _ C _ IB L) in U. discriminate.
    + destruct (live v p) as [n|] eqn:LV; [|reflexivity]. apply (i_live _ _ _ I), in_used in LV.
      destruct LV as (b' & I' & U' & D' & _). rewrite (data_inj _ _ b' b CH I' IB ltac:(congruence)) in U'. congruence.
  - destruct (live v p) as [n|] eqn:LV; [|reflexivity]. apply (i_live _ _ _ I), in_used in LV.
    destruct LV as (b' & I' & _ & D' & _). rewrite <- D', (in_find _ _ _ CH I') in F. discriminate.
Qed.

Lemma live_remove : forall (f : Z -> option Z) l1 b l2,
  mid l1 (b_data b) l2 -> b_used b = true -> (forall p n, f p = Some n <-> In (p, n) (used_keys (l1 ++ b :: l2))) ->
  forall p n, upd_live f (b_data b) None p = Some n <-> In (p, n) (used_keys l1 ++ used_keys l2).
Proof.
  intros f l1 b l2 (M1 & M2) U H p n. unfold upd_live.
  assert (NQ : forall n, ~ In (b_data b, n) (used_keys l1 ++ used_keys l2)).
  { intros m I. apply in_app_or in I. rewrite !in_used in I.
    destruct I as [(x & I & _ & D & _)|(x & I & _ & D & _)]; [apply M1 in I|apply M2 in I]; lia. }
  destruct (Z.eqb_spec p (b_data b)) as [->|N].
  - split; [discriminate|]. intros I. destruct (NQ n I).
  - rewrite H, used_app, used_cons_true by exact U. split; intros I; apply in_app_or in I; apply in_or_app.
    + destruct I as [I|[E|I]]; [left; exact I| |right; exact I]. unfold key in E. congruence.
    + destruct I; [left|right; right]; assumption.
Qed.

Lemma inv_live_eq : forall e c v v', Inv e c v -> (forall p, live v' p = live v p) -> given v' = given v -> Inv e c v'.
Proof.
  intros e c v v' [I1 I2 I3 I4 I5 I6 I7 I8 I9] L G. split; try assumption.
  - intros p n. rewrite L. apply I5.
  - intros x. unfold within_given. rewrite G. apply I6.
  - rewrite G. exact I7.
Qed.

Lemma live_pos : forall e c v p n, Inv e c v -> live v p = Some n -> 0 < p /\ 0 < n /\ p + n <= U64.
Proof.
  intros e c v p n I L. apply (i_live _ _ _ I), in_used in L. destruct L as (b & IB & _ & <- & <-).
  exact (bend_word _ 1 b (core_chain _ _ (i_core _ _ _ I)) ltac:(lia) IB).
Qed.

Lemma next_hit : forall l1 b l2 y, chain 1 (l1 ++ b :: l2) -> In y l2 -> b_data y = bend b -> exists l3, l2 = y :: l3.
Proof.
  intros l1 b l2 y CH IY D. destruct l2 as [|z l3]; [destruct IY|]. destruct IY as [->|IY]; [exists l3; reflexivity|exfalso].
  apply chain_app in CH. destruct CH as (_ & CH). cbn [chain] in CH. destruct CH as (_ & _ & _ & H1 & H2 & _ & H3).
  pose proof (chain_right _ _ _ H3 IY). unfold bend in *. lia.
Qed.

Lemma obtained_app : forall a b, obtained (a ++ b) = obtained a ++ obtained b.
Proof. intros a b. unfold obtained. apply flat_map_app. Qed.

Section Ops.
Variable dbg : bool.
Variable w : env.
Hypothesis DS : dbg = true -> class_ok w = true.

Definition free_facts (c : coarse) (v : view) (p bytes : Z) (r : reply) : Prop :=
  (p = 0 -> r = Reply SUCCESS None [] c) /\
  (p <> 0 -> live v p = None -> r = Reply ERR_INVALID_ARGUMENT None [] c) /\
  (forall n, p <> 0 -> live v p = Some n -> bytes > 0 -> bytes <> n -> r = Reply ERR_INVALID_ARGUMENT None [] c) /\
  (forall n, p <> 0 -> live v p = Some n -> bytes = 0 \/ bytes = n -> r_res r = SUCCESS) /\
  asks (r_ev r) = [].

Lemma free_ok : forall c v p bytes o, Inv w c v -> is_word bytes -> both (o_back o) -> agrees w o ->
  exists r, coarse_free dbg c p bytes o = Some r /\ Inv w (r_st r) (observe v (CFree p bytes o) r) /\
    cfg (r_st r) = cfg c /\ free_facts c v p bytes r.
Proof.
  intros c v p bytes o I WB (OB1 & OB2) AG. unfold coarse_free, free_facts.
  destruct (Z.eqb_spec p 0) as [P0|P0].
  { eexists. split; [reflexivity|]. split; [unfold observe; cbn [r_res r_st]; subst p; exact I|].
    split; [reflexivity|]. repeat (split; [intros; try contradiction; reflexivity|]). reflexivity. }
  rewrite (inv_check _ _ _ _ DS I).
  pose proof (lookup _ _ _ p I) as LK. destruct (find_block (all_blocks c) p) as [b|] eqn:F.
  2:{ eexists. split; [reflexivity|]. split; [exact I|]. split; [reflexivity|].
      split; [contradiction|]. split; [reflexivity|]. rewrite LK. repeat (split; [discriminate|]). reflexivity. }
  destruct LK as ((l1 & l2 & E) & D & IB & LV). destruct (b_used b) eqn:U; cbn [negb].
  2:{ eexists. split; [reflexivity|]. split; [exact I|]. split; [reflexivity|].
      split; [contradiction|]. split; [reflexivity|]. rewrite LV. repeat (split; [discriminate|]). reflexivity. }
  destruct LV as (LV & LS). rewrite LV.
  destruct ((bytes >? 0) && negb (bytes =? b_size b)) eqn:BT.
  { apply andb_prop in BT. destruct BT as (B1 & B2). rewrite Z.gtb_lt in B1. apply negb_true_iff, Z.eqb_neq in B2.
    eexists. split; [reflexivity|]. split; [exact I|]. split; [reflexivity|].
    split; [contradiction|]. split; [discriminate|]. split; [reflexivity|]. split; [|reflexivity].
    intros n _ [= <-] X. lia. }
  assert (BO : ~ (bytes > 0 /\ bytes <> b_size b)).
  { intros (X1 & X2). destruct (Z.gtb_spec bytes 0); [|lia]. destruct (Z.eqb_spec bytes (b_size b)); [contradiction|]. discriminate. }
  pose proof (inv_used_bound _ _ _ I) as UB.
  destruct I as [I1 C I3 I4 I5 I6 I7 I8 I9]. pose proof (core_chain _ _ C) as CH.
  pose proof C as C0. rewrite E in C0. pose proof (chain_mid _ _ _ _ (core_chain _ _ C0)) as M.
  assert (UK : ksum (used_keys l1 ++ used_keys l2) = used_size c - b_size b).
  { rewrite I3, E, used_app, used_cons_true by exact U. rewrite !ksum_app. cbn [ksum key snd]. lia. }
  assert (UP : 0 <= ksum (used_keys l1 ++ used_keys l2)).
  { pose proof (core_flag l1 b l2 _ false C0 LS) as C1. pose proof (used_le _ _ C1) as B.
    rewrite used_app, used_cons_false in B by reflexivity. lia. }
  pose proof (chain_mem_pos _ _ _ CH IB) as SB.
  unfold assert_fails. destruct (Z.leb_spec (b_size b) (used_size c)) as [_|X]; [|lia]. cbn [negb]. rewrite andb_false_r.
  set (c1 := put (set_used c (used_size c - b_size b)) (l1 ++ with_used false b :: l2) (free_blocks c)).
  assert (EC : upd (set_used c (wrap (used_size c - b_size b))) p (with_used false) = c1).
  { rewrite wrap_id by (unfold is_word; lia). unfold upd. cbn [all_blocks set_used]. rewrite E, update_mid; [reflexivity| |exact D].
    rewrite <- D. exact M. }
  rewrite EC. set (v1 := View (upd_live (live v) p None) (given v)).
  assert (I' : Inv weak c1 v1).
  { split; cbn [page_size all_blocks free_blocks used_size alloc_size put set_used c1 v1 live given]; try discriminate.
    - exact I1.
    - apply core_flag; assumption.
    - rewrite used_app, used_cons_false by reflexivity. lia.
    - rewrite I4, E, !sum_app, !sum_cons. reflexivity.
    - rewrite <- D. intros q n. rewrite (used_app l1), used_cons_false by reflexivity. apply live_remove; [exact M|exact U|].
      intros q' n'. rewrite <- E. apply I5.
    - intros x. match goal with |- _ <-> ?g => change g with (within_given v x) end.
      rewrite <- I6, E, !covered_app, !covered_cons. unfold bend; cbn. tauto.
    - exact I7. }
  destruct (back_ok dbg w c1 v1 l1 (with_used false b) l2 (free_blocks c) o) as (ok & c' & ev & RA & AS & I2 & CF).
  { exact I'. } { apply sm_refl. } { apply core_flag; assumption. } { reflexivity. } { exact LS. } { exact OB2. }
  { intros _; split; assumption. }
  { intros X. specialize (I8 X). rewrite E in I8. apply nolost_app in I8. rewrite nolost_cons in I8. tauto. }
  { intros X. specialize (I9 X). rewrite E in I9. apply noadj_app in I9. cbn [noadj] in I9. tauto. }
  { exact AG. }
  change (put c1 (l1 ++ with_used false b :: l2) (free_blocks c)) with c1 in RA. change (b_data (with_used false b)) with (b_data b) in RA.
  rewrite D in RA. rewrite RA.
  assert (OKT : ok = true).
  { destruct (re_add_ok dbg c1 l1 (with_used false b) l2 o) as (ok' & c2 & ev2 & m1 & m2 & lo & hi & fr' & RA' & _ & _ & _ & HD & _ & _).
    { exact (i_core _ _ _ I'). } { reflexivity. } { exact LS. } { reflexivity. } { exact OB2. }
    change (b_data (with_used false b)) with (b_data b) in RA'. rewrite D, RA in RA'. injection RA' as -> _ _.
    destruct ok'; [reflexivity|]. specialize (HD eq_refl). congruence. }
  subst ok. rewrite (finish_st dbg w DS _ _ _ _ _ I2). eexists. split; [reflexivity|].
  unfold observe. cbn [r_res r_st r_ev]. destruct (Z.eqb_spec p 0) as [X|_]; [contradiction|].
  split; [exact I2|]. split; [exact CF|]. split; [contradiction|]. split; [discriminate|].
  split; [intros n _ [= <-] X1 X2; exfalso; apply BO; split; assumption|]. split; [reflexivity|exact AS].
Qed.

Definition split_valid (v : view) (p total first : Z) : Prop :=
  p <> 0 /\ 0 < first < total /\ live v p = Some total.

Definition split_facts (c : coarse) (v : view) (p total first : Z) (s : result) (ok : bool) (r : reply) : Prop :=
  (~ split_valid v p total first -> r = Reply ERR_INVALID_ARGUMENT None [] c) /\
  (split_valid v p total first -> s = SUCCESS -> ok = true -> r_res r = SUCCESS) /\
  (r_res r = SUCCESS -> split_valid v p total first) /\
  (r_res r <> SUCCESS -> r_st r = c).

Lemma split_ok : forall c v p total first s ok, Inv w c v -> is_word p -> is_word total -> is_word first ->
  exists r, coarse_split dbg c p total first s ok = Some r /\ Inv w (r_st r) (observe v (CSplit p total first s ok) r) /\
    cfg (r_st r) = cfg c /\ asks (r_ev r) = [] /\ split_facts c v p total first s ok r.
Proof.
  intros c v p total first s ok I W1 W2 W3. unfold coarse_split, split_facts, split_valid.
  assert (BAD : forall r, r = Reply ERR_INVALID_ARGUMENT None [] c ->
    ~ (p <> 0 /\ 0 < first < total /\ live v p = Some total) ->
    Inv w (r_st r) (observe v (CSplit p total first s ok) r) /\ cfg (r_st r) = cfg c /\ asks (r_ev r) = [] /\
    (~ (p <> 0 /\ 0 < first < total /\ live v p = Some total) -> r = Reply ERR_INVALID_ARGUMENT None [] c) /\
    (p <> 0 /\ 0 < first < total /\ live v p = Some total -> s = SUCCESS -> ok = true -> r_res r = SUCCESS) /\
    (r_res r = SUCCESS -> p <> 0 /\ 0 < first < total /\ live v p = Some total) /\ (r_res r <> SUCCESS -> r_st r = c)).
  { intros r -> NV. split; [exact I|]. split; [reflexivity|]. split; [reflexivity|]. split; [reflexivity|].
    split; [intros; contradiction|]. split; [discriminate|reflexivity]. }
  destruct ((p =? 0) || (first >=? total) || (first =? 0) || (total =? 0)) eqn:T.
  { eexists. split; [reflexivity|]. apply BAD; [reflexivity|]. intros (X1 & X2 & X3).
    rewrite !orb_true_iff, Z.geb_le, !Z.eqb_eq in T. lia. }
  rewrite !orb_false_iff, !Z.eqb_neq in T. destruct T as (((T1 & T2) & T3) & T4).
  assert (T2' : first < total) by (destruct (Z.geb_spec first total); [discriminate|lia]). clear T2.
  unfold is_word in *.
  rewrite (inv_check _ _ _ _ DS I).
  pose proof (lookup _ _ _ p I) as LK. destruct (find_block (all_blocks c) p) as [b|] eqn:F.
  2:{ rewrite (finish_st dbg w DS _ _ _ _ _ I). eexists. split; [reflexivity|]. apply BAD; [reflexivity|]. rewrite LK. intros (_ & _ & X); discriminate. }
  destruct LK as ((l1 & l2 & E) & D & IB & LV).
  destruct (Z.eqb_spec (b_size b) total) as [SZ|SZ]; cbn [negb].
  2:{ rewrite (finish_st dbg w DS _ _ _ _ _ I). eexists. split; [reflexivity|]. apply BAD; [reflexivity|].
      intros (_ & _ & X). destruct (b_used b); [|congruence]. destruct LV. congruence. }
  destruct (b_used b) eqn:U; cbn [negb].
  2:{ rewrite (finish_st dbg w DS _ _ _ _ _ I). eexists. split; [reflexivity|]. apply BAD; [reflexivity|]. rewrite LV. intros (_ & _ & X); discriminate. }
  destruct LV as (LV & LS). rewrite SZ in LV.
  assert (VAL : p <> 0 /\ 0 < first < total /\ live v p = Some total) by (repeat split; try assumption; lia).
  assert (UNCH : forall r e ev, r = Reply e None ev c -> asks ev = [] -> e <> SUCCESS -> (s = SUCCESS -> ok = true -> False) ->
    Inv w (r_st r) (observe v (CSplit p total first s ok) r) /\ cfg (r_st r) = cfg c /\ asks (r_ev r) = [] /\
    (~ (p <> 0 /\ 0 < first < total /\ live v p = Some total) -> r = Reply ERR_INVALID_ARGUMENT None [] c) /\
    (p <> 0 /\ 0 < first < total /\ live v p = Some total -> s = SUCCESS -> ok = true -> r_res r = SUCCESS) /\
    (r_res r = SUCCESS -> p <> 0 /\ 0 < first < total /\ live v p = Some total) /\ (r_res r <> SUCCESS -> r_st r = c)).
  { intros r e ev -> A NE NV. split; [unfold observe; cbn [r_res r_st]; destruct e; try exact I; contradiction|]. split; [reflexivity|].
    split; [exact A|]. split; [intros; contradiction|]. split; [intros; exfalso; auto|]. split; [intros; exact VAL|reflexivity]. }
  destruct (result_cases s) as [->|NS].
  2:{ exists (Reply s None [EvSplit p total first s] c). split.
      - destruct s; try contradiction; rewrite (finish_st dbg w DS _ _ _ _ _ I); reflexivity.
      - eapply UNCH; [reflexivity|reflexivity|exact NS|intros; contradiction]. }
  pose proof I as I0. destruct I as [I1 C I3 I4 I5 I6 I7 I8 I9]. pose proof (core_chain _ _ C) as CH.
  pose proof (bend_word _ 1 b CH ltac:(lia) IB) as (B1 & B2 & B3). unfold bend in B3.
  rewrite SZ, E. rewrite !wrap_id by (unfold is_word; lia).
  pose proof C as C0. rewrite E in C0. pose proof (core_chain _ _ C0) as CH0. pose proof (chain_mid _ _ _ _ CH0) as M.
  rewrite <- D. rewrite (add_new_ok dbg w DS l1 b l2 first (total - first) ok true CH0) by lia. destruct ok.
  2:{ rewrite D. rewrite (finish_st dbg w DS _ _ _ _ _ I0). eexists. split; [reflexivity|].
      eapply UNCH; [reflexivity|reflexivity|discriminate|discriminate]. }
  set (n1 := Block (b_data b) first true false). set (n2 := Block (b_data b + first) (total - first) true false).
  set (c' := put c (l1 ++ n1 :: n2 :: l2) (free_blocks c)).
  pose proof (core_split2 l1 b l2 _ first true true C0 LS ltac:(lia)) as C1. rewrite SZ in C1. fold n1 n2 in C1.
  assert (EC : upd (set_all c (l1 ++ b :: n2 :: l2)) (b_data b) (with_size first) = c').
  { unfold upd. cbn [all_blocks set_all]. rewrite update_mid; [| |reflexivity].
    - unfold with_size. rewrite U, LS. reflexivity.
    - apply (chain_mid l1 n1 (n2 :: l2) 1). exact (core_chain _ _ C1). }
  rewrite EC.
  assert (M1 : mid l1 (b_data n1) l2) by exact M.
  assert (M2 : mid (l1 ++ [n1]) (b_data n2) l2).
  { pose proof (core_chain _ _ C1) as Q. change (l1 ++ n1 :: n2 :: l2) with (l1 ++ [n1] ++ n2 :: l2) in Q. rewrite app_assoc in Q.
    exact (chain_mid _ _ _ _ Q). }
  assert (I' : Inv w c' (View (upd_live (upd_live (live v) (b_data b) (Some first)) (b_data b + first) (Some (total - first))) (given v))).
  { split; cbn [page_size all_blocks free_blocks used_size alloc_size put set_used c' live given].
    - exact I1.
    - exact C1.
    - rewrite I3, E, !used_app, !used_cons_true by (assumption || reflexivity). rewrite !ksum_app. cbn [ksum key snd n1 n2 b_size]. lia.
    - rewrite I4, E, !sum_app, !sum_cons. cbn [n1 n2 b_size]. lia.
    - destruct (live_insert (upd_live (live v) (b_data b) None) l1 l2 (b_data n1) first M1) as (_ & LI1).
      { apply live_remove; [exact M|exact U|]. intros. rewrite <- E. apply I5. }
      destruct (live_insert (upd_live (upd_live (live v) (b_data b) None) (b_data n1) (Some first)) (l1 ++ [n1]) l2 (b_data n2) (total - first) M2) as (_ & LI2).
      { intros q n. rewrite LI1. rewrite (used_app l1), used_app, used_cons_true by reflexivity. rewrite <- app_assoc. cbn [app].
        rewrite (used_cons_true n1) by reflexivity. reflexivity. }
      rewrite <- app_assoc in LI2. cbn [app] in LI2. change (Block (b_data n2) (total - first) true false) with n2 in LI2. intros q n. rewrite <- LI2.
      unfold upd_live. cbn [n1 n2 b_data]. destruct (q =? b_data b + first), (q =? b_data b); reflexivity.
    - intros x. match goal with |- _ <-> ?g => change g with (within_given v x) end.
      rewrite <- I6, E, !covered_app, !covered_cons. unfold bend; cbn [n1 n2 b_data b_size].
      split; (intros [Y|Y]; [left; exact Y|right]); [destruct Y as [Y|[Y|Y]]; [left; lia|left; lia|right; exact Y]|].
      destruct Y as [Y|Y]; [|right; right; exact Y]. destruct (Z.lt_ge_cases x (b_data b + first)); [left; lia|right; left; lia].
    - exact I7.
    - intros X. specialize (I8 X). rewrite E in I8. apply nolost_app in I8. rewrite nolost_cons in I8. apply nolost_app. rewrite !nolost_cons. cbn. intuition discriminate.
    - intros X. specialize (I9 X). rewrite E in I9. apply noadj_app in I9. cbn [noadj] in I9.
      apply noadj_used; [reflexivity|tauto|]. apply (noadj_used [] n2 l2); [reflexivity|exact Logic.I|tauto]. }
  rewrite (finish_st dbg w DS _ _ _ _ _ I'). eexists. split; [reflexivity|]. unfold observe. cbn [r_res r_st r_ev]. rewrite <- D in VAL.
  split; [exact I'|]. split; [reflexivity|]. split; [reflexivity|]. split; [intros; contradiction|]. split; [reflexivity|]. split; [intros; exact VAL|contradiction].
Qed.

Definition merge_valid (v : view) (lo hi total : Z) : Prop :=
  lo <> 0 /\ exists n1 n2, live v lo = Some n1 /\ live v hi = Some n2 /\ hi = lo + n1 /\ total = n1 + n2.
Definition merge_facts (c : coarse) (v : view) (lo hi total : Z) (m : result) (r : reply) : Prop :=
  (~ merge_valid v lo hi total -> r = Reply ERR_INVALID_ARGUMENT None [] c) /\
  (merge_valid v lo hi total -> r_res r = m) /\
  (r_res r = SUCCESS -> merge_valid v lo hi total) /\
  (r_res r <> SUCCESS -> r_st r = c).

Lemma merge2_ok : forall c v lo hi total m, Inv w c v -> is_word lo -> is_word hi -> is_word total ->
  exists r, coarse_merge dbg c lo hi total m = Some r /\ Inv w (r_st r) (observe v (CMerge lo hi total m) r) /\
    cfg (r_st r) = cfg c /\ asks (r_ev r) = [] /\ merge_facts c v lo hi total m r.
Proof.
  intros c v lo hi total m I W1 W2 W3. unfold coarse_merge, merge_facts.
  assert (BAD : forall r, r = Reply ERR_INVALID_ARGUMENT None [] c -> ~ merge_valid v lo hi total ->
    Inv w (r_st r) (observe v (CMerge lo hi total m) r) /\ cfg (r_st r) = cfg c /\ asks (r_ev r) = [] /\
    (~ merge_valid v lo hi total -> r = Reply ERR_INVALID_ARGUMENT None [] c) /\
    (merge_valid v lo hi total -> r_res r = m) /\ (r_res r = SUCCESS -> merge_valid v lo hi total) /\ (r_res r <> SUCCESS -> r_st r = c)).
  { intros r -> NV. split; [exact I|]. split; [reflexivity|]. split; [reflexivity|]. split; [reflexivity|].
    split; [intros; contradiction|]. split; [discriminate|reflexivity]. }
  destruct ((lo =? 0) || (hi =? 0) || (total =? 0) || (hi <=? lo) || (wrap (hi - lo) >=? total)) eqn:T.
  { eexists. split; [reflexivity|]. apply BAD; [reflexivity|]. intros (X & n1 & n2 & L1 & L2 & X2 & X3).
    pose proof (live_pos _ _ _ _ _ I L1). pose proof (live_pos _ _ _ _ _ I L2).
    rewrite wrap_id in T by (unfold is_word; lia).
    rewrite !orb_true_iff, Z.geb_le, !Z.eqb_eq, Z.leb_le in T. lia. }
  rewrite !orb_false_iff, !Z.eqb_neq, Z.leb_gt in T. destruct T as ((((T1 & T2) & T3) & T4) & _).
  rewrite (inv_check _ _ _ _ DS I).
  pose proof (lookup _ _ _ lo I) as LK. destruct (find_block (all_blocks c) lo) as [b|] eqn:F.
  2:{ rewrite (finish_st dbg w DS _ _ _ _ _ I). eexists. split; [reflexivity|]. apply BAD; [reflexivity|].
      intros (X & n1 & n2 & L1 & L2 & X2 & X3). congruence. }
  destruct LK as ((l1 & l2 & E) & D & IB & LV). destruct (b_used b) eqn:U; cbn [negb].
  2:{ rewrite (finish_st dbg w DS _ _ _ _ _ I). eexists. split; [reflexivity|]. apply BAD; [reflexivity|].
      intros (X & n1 & n2 & L1 & L2 & X2 & X3). congruence. }
  destruct LV as (LV & LS).
  pose proof (lookup _ _ _ hi I) as LKh. destruct (find_block (all_blocks c) hi) as [h|] eqn:Fh.
  2:{ rewrite (finish_st dbg w DS _ _ _ _ _ I). eexists. split; [reflexivity|]. apply BAD; [reflexivity|].
      intros (X & n1 & n2 & L1 & L2 & X2 & X3). congruence. }
  destruct LKh as ((k1 & k2 & Eh) & Dh & IBh & LVh). destruct (b_used h) eqn:Uh; cbn [negb].
  2:{ rewrite (finish_st dbg w DS _ _ _ _ _ I). eexists. split; [reflexivity|]. apply BAD; [reflexivity|].
      intros (X & n1 & n2 & L1 & L2 & X2 & X3). congruence. }
  destruct LVh as (LVh & LSh).
  pose proof (live_pos _ _ _ _ _ I LV) as P1. pose proof (live_pos _ _ _ _ _ I LVh) as P2.
  pose proof (core_chain _ _ (i_core _ _ _ I)) as CH. pose proof CH as CH0. rewrite E in CH0. pose proof (chain_mid _ _ _ _ CH0) as M.
  assert (IY : In h l2).
  { rewrite E in IBh. apply in_app_or in IBh. destruct IBh as [X|[X|X]]; [apply (proj1 M) in X; lia|subst; lia|exact X]. }
  destruct (Z.eq_dec hi (lo + b_size b)) as [HC|HC].
  2:{ assert (WH : (hi =? wrap (lo + b_size b)) = false).
      { apply Z.eqb_neq. destruct (Z.eq_dec (lo + b_size b) U64) as [Q|Q]; [|rewrite wrap_id by (unfold is_word; lia); exact HC].
        rewrite Q. unfold wrap. rewrite Z.mod_same by (vm_compute; discriminate). exact T2. }
      rewrite WH. cbn [negb]. rewrite orb_true_r.
      rewrite (finish_st dbg w DS _ _ _ _ _ I). eexists. split; [reflexivity|]. apply BAD; [reflexivity|].
      intros (X & n1 & n2 & L1 & L2 & X2 & X3). congruence. }
  destruct (next_hit _ _ _ _ CH0 IY ltac:(unfold bend; lia)) as (l3 & ->).
  assert (NX : next_block (all_blocks c) lo = Some hi).
  { rewrite E, <- D, (next_mid _ _ _ _ M eq_refl), Dh. reflexivity. }
  rewrite NX, Z.eqb_refl.
  rewrite (wrap_id (lo + b_size b)) by (unfold is_word; lia). destruct (Z.eqb_spec hi (lo + b_size b)) as [_|X]; [|contradiction]. cbn [negb orb].
  rewrite (wrap_id (b_size b + b_size h)) by (unfold is_word; lia).
  destruct (Z.eqb_spec (b_size b + b_size h) total) as [TT|TT]; cbn [negb].
  2:{ rewrite (finish_st dbg w DS _ _ _ _ _ I). eexists. split; [reflexivity|]. apply BAD; [reflexivity|].
      intros (X & n1 & n2 & L1 & L2 & X2 & X3). congruence. }
  assert (VAL : merge_valid v lo hi total).
  { split; [exact T1|]. exists (b_size b), (b_size h). repeat split; try assumption. lia. }
  destruct (merge_ok dbg c l1 b h l3 true m (i_core _ _ _ I) E) as (r & c' & ev & MG & AS & R).
  rewrite D, Dh in MG. rewrite MG.
  destruct R as [(-> & MS & _ & _ & BD & fr' & EC & C')|(NR & -> & NV)].
  2:{ assert (NM : r = m).
      { clear - MG NV NR E CH F Fh D Dh U Uh LS LSh HC P1 P2 T4 TT. unfold user_block_merge in MG. rewrite F, Fh in MG.
        unfold assert_fails in MG. destruct (Z.ltb_spec lo hi) as [_|X]; [|lia]. cbn [negb] in MG. rewrite andb_false_r in MG.
        rewrite U, Uh, D in MG. rewrite wrap_id in MG by (unfold is_word; lia). rewrite Dh in MG. destruct (Z.eqb_spec (lo + b_size b) hi); [|lia].
        cbn in MG. destruct m; try (injection MG as <- _; reflexivity).
        destruct NV. unfold bend. repeat split; try assumption; lia. }
      rewrite (finish_st dbg w DS _ _ _ _ _ I). eexists. split; [reflexivity|]. unfold observe; cbn [r_res r_st r_ev].
      split; [destruct r; try exact I; contradiction|]. split; [reflexivity|]. split; [exact AS|]. split; [intros; contradiction|].
      split; [intros; exact NM|]. split; [intros; contradiction|reflexivity]. }
  set (n := Block (b_data b) (b_size b + b_size h) true false) in *. subst m.
  assert (I' : Inv w c' (View (upd_live (upd_live (live v) hi None) lo (Some total)) (given v))).
  { destruct I as [I1 C I3 I4 I5 I6 I7 I8 I9]. rewrite E in *. pose proof (chain_mid _ _ _ _ (core_chain _ _ C')) as M'.
    subst c'. split; cbn [page_size all_blocks free_blocks used_size alloc_size put live given].
    - exact I1.
    - exact C'.
    - rewrite I3, !used_app, !used_cons_true by (assumption || reflexivity). rewrite !ksum_app. cbn [ksum key snd n b_size]. lia.
    - rewrite I4, !sum_app, !sum_cons. cbn [n b_size]. lia.
    - change (l1 ++ b :: h :: l3) with (l1 ++ [b] ++ h :: l3) in *.
      assert (Mh : mid (l1 ++ [b]) (b_data h) l3).
      { pose proof CH0 as Q. rewrite app_assoc in Q. exact (chain_mid _ _ _ _ Q). }
      assert (LR : forall q k, upd_live (live v) (b_data h) None q = Some k <-> In (q, k) (used_keys (l1 ++ [b]) ++ used_keys l3)).
      { apply live_remove; [exact Mh|exact Uh|]. intros. rewrite <- app_assoc. apply I5. }
      assert (Ml : mid l1 (b_data b) l3).
      { split; [exact (proj1 M')|exact (proj2 M')]. }
      assert (LR2 : forall q k, upd_live (upd_live (live v) (b_data h) None) (b_data b) None q = Some k <-> In (q, k) (used_keys l1 ++ used_keys l3)).
      { apply live_remove; [exact Ml|exact U|]. intros q k. rewrite LR. rewrite !used_app, !used_cons_true by exact U.
        rewrite <- app_assoc. reflexivity. }
      destruct (live_insert _ l1 l3 (b_data b) total Ml LR2) as (_ & LI).
      intros q k. replace n with (Block (b_data b) total true false) by (unfold n; rewrite TT; reflexivity). rewrite <- LI.
      unfold upd_live. rewrite D, Dh. destruct (q =? lo); reflexivity.
    - intros x. match goal with |- _ <-> ?g => change g with (within_given v x) end.
      rewrite <- I6, !covered_app, !covered_cons. unfold bend in *; cbn [n b_data b_size].
      split; (intros [Y|Y]; [left; exact Y|right]).
      + destruct Y as [Y|Y]; [|right; right; exact Y]. destruct (Z.lt_ge_cases x (b_data h)); [left; lia|right; left; lia].
      + destruct Y as [Y|[Y|Y]]; [left; lia|left; lia|right; exact Y].
    - exact I7.
    - intros X. specialize (I8 X). apply nolost_app in I8. rewrite !nolost_cons in I8. apply nolost_app. rewrite !nolost_cons. cbn. intuition discriminate.
    - intros X. specialize (I9 X). apply noadj_app in I9. cbn [noadj] in I9.
      apply noadj_used; [reflexivity|tauto|tauto]. }
  rewrite (finish_st dbg w DS _ _ _ _ _ I'). eexists. split; [reflexivity|]. unfold observe. cbn [r_res r_st r_ev].
  split; [exact I'|]. split; [subst c'; reflexivity|]. split; [exact AS|]. split; [intros; contradiction|]. split; [reflexivity|]. split; [intros; exact VAL|contradiction].
Qed.

Lemma add_provider_ok : forall c v size o f, Inv w c v -> call_env w (page_size c) v (CAddProvider size o f) ->
  exists r, coarse_add_memory_from_provider dbg c size o f = Some r /\
    Inv w (r_st r) (observe v (CAddProvider size o f) r) /\ cfg (r_st r) = cfg c.
Proof.
  intros c v size o f I (W & AE & OF & AG). unfold coarse_add_memory_from_provider.
  destruct (Z.eqb_spec size 0) as [Z0|Z0]; [eexists; split; [reflexivity|]; split; [exact I|reflexivity]|].
  destruct (has_alloc c); cbn [negb]; [|eexists; split; [reflexivity|]; split; [exact I|reflexivity]].
  destruct (alloc_ok dbg w DS c v size (page_size c) o I (AE Z0)) as (r & -> & I1 & CF & FC & _).
  destruct (result_cases (r_res r)) as [RS|RS].
  2:{ exists (Reply (r_res r) None (r_ev r) (r_st r)). split; [destruct (r_res r); try reflexivity; contradiction|].
      split; [|exact CF]. unfold observe in *. cbn [r_res r_st]. destruct (r_res r); try exact I1; contradiction. }
  destruct (FC RS) as (p & a & RP & _ & _ & LN & _). rewrite RS, RP.
  unfold observe in I1. rewrite RS, RP in I1.
  set (v1 := View (upd_live (live v) p (Some size)) (given v ++ obtained (r_ev r))) in *.
  destruct (free_ok (r_st r) v1 p size f I1 W OF AG) as (r2 & -> & I2 & CF2 & F1 & F2 & F3 & F4 & F5).
  assert (LP : live v1 p = Some size) by (unfold v1, upd_live; cbn [live]; rewrite Z.eqb_refl; reflexivity).
  assert (P0 : p <> 0) by (pose proof (live_pos _ _ _ _ _ I1 LP); lia).
  pose proof (F4 size P0 LP (or_intror eq_refl)) as R2.
  eexists. split; [reflexivity|]. cbn [r_st r_ev]. split; [|congruence].
  unfold observe in *. cbn [r_res]. rewrite R2 in *. destruct (Z.eqb_spec p 0) as [|_]; [contradiction|].
  eapply inv_live_eq; [exact I2| |].
  - intros q. cbn [live v1]. unfold upd_live. destruct (Z.eqb_spec q p) as [->|]; [exact LN|reflexivity].
  - cbn [given v1 r_ev]. rewrite obtained_app, (asks_obtained _ F5), app_nil_r. reflexivity.
Qed.

Lemma add_fixed_ok : forall c v addr size ok f, Inv w c v -> call_env w (page_size c) v (CAddFixed addr size ok f) ->
  exists r, coarse_add_memory_fixed dbg c addr size ok f = Some r /\
    Inv w (r_st r) (observe v (CAddFixed addr size ok f) r) /\ cfg (r_st r) = cfg c.
Proof.
  intros c v addr size ok f I (W1 & W2 & OF & AG & FR). unfold coarse_add_memory_fixed.
  destruct (Z.eqb_spec addr 0) as [A0|A0]; [eexists; split; [reflexivity|]; split; [exact I|reflexivity]|].
  destruct (Z.eqb_spec size 0) as [Z0|Z0]; [eexists; split; [reflexivity|]; split; [exact I|reflexivity]|]. cbn [orb].
  destruct (has_alloc c || has_free c); [eexists; split; [reflexivity|]; split; [exact I|reflexivity]|].
  rewrite (inv_check _ _ _ _ DS I).
  pose proof (add_used_ok dbg w DS w c v addr size ok I (FR A0 Z0)) as A. destruct ok.
  - destruct A as (c' & -> & I1 & LN & CF). rewrite (inv_check _ _ _ _ DS I1).
    set (v1 := View (upd_live (live v) addr (Some size)) (given v ++ [(addr, size)])) in *.
    destruct (free_ok c' v1 addr size f I1 W2 OF AG) as (r2 & -> & I2 & CF2 & F1 & F2 & F3 & F4 & F5).
    assert (LP : live v1 addr = Some size) by (unfold v1, upd_live; cbn [live]; rewrite Z.eqb_refl; reflexivity).
    pose proof (F4 size A0 LP (or_intror eq_refl)) as R2.
    eexists. split; [reflexivity|]. cbn [r_st r_ev]. split; [|congruence].
    unfold observe in *. cbn [r_res]. rewrite R2 in *. destruct (Z.eqb_spec addr 0) as [|_]; [contradiction|].
    eapply inv_live_eq; [exact I2| |reflexivity].
    intros q. cbn [live v1]. unfold upd_live. destruct (Z.eqb_spec q addr) as [->|]; [exact LN|reflexivity].
  - rewrite A, (inv_check _ _ _ _ DS I). eexists. split; [reflexivity|]. split; [exact I|reflexivity].
Qed.

Lemma step_ok : forall c v k, Inv w c v -> call_env w (page_size c) v k ->
  exists r, step dbg c k = Some r /\ Inv w (r_st r) (observe v k r) /\ cfg (r_st r) = cfg c.
Proof.
  intros c v k I CE. destruct k as [size al o|p bytes o|p total first s ok|lo hi total m|size o f|addr size ok f]; cbn [step].
  - destruct (alloc_ok dbg w DS c v size al o I CE) as (r & A & B & C & _). exists r. tauto.
  - destruct CE as (W1 & W2 & O & AG). destruct (free_ok c v p bytes o I W2 O AG) as (r & A & B & C & _). exists r. tauto.
  - destruct CE as (W1 & W2 & W3). destruct (split_ok c v p total first s ok I W1 W2 W3) as (r & A & B & C & _). exists r. tauto.
  - destruct CE as (W1 & W2 & W3). destruct (merge2_ok c v lo hi total m I W1 W2 W3) as (r & A & B & C & _). exists r. tauto.
  - exact (add_provider_ok c v size o f I CE).
  - exact (add_fixed_ok c v addr size ok f I CE).
Qed.
End Ops.

Lemma new_inv : forall e n s ha hf, 0 <= n < 64 -> Inv e (coarse_new (2 ^ n) s ha hf) no_view.
Proof.
  intros e n s ha hf N. split; cbn; try reflexivity.
  - exists n. split; [exact N|reflexivity].
  - split; cbn; try exact I; [constructor|intros b []].
  - intros p m. split; [discriminate|intros []].
  - intros x. split; [intros (b & [] & _)|intros (r & [] & _)].
  - intros _ b [].
Qed.

Lemma reached_env : forall e c v, reached e c v -> debug e = true -> class_ok e = true.
Proof. intros e c v R. induction R; assumption. Qed.

Lemma reached_inv : forall e c v, reached e c v -> Inv e c v.
Proof.
  intros e c v R. induction R as [n s ha hf N D|c v k r R IH CE ST].
  - apply new_inv; exact N.
  - destruct (step_ok (debug e) e (reached_env _ _ _ R) c v k IH CE) as (r' & ST' & IV & _). rewrite ST in ST'. injection ST' as <-. exact IV.
Qed.
