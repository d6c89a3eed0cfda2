(* The invariant of the coarse allocator over every reachable state. *)
From Coq Require Import Permutation.
From Verif Require Import Base Model_Utils Proof_Utils Model_Coarse Spec_Coarse Proof_Coarse.

Definition covered (al : list block) (x : Z) : Prop := exists b, In b al /\ b_data b <= x < bend b.
Definition used_keys (al : list block) : list (Z * Z) := map key (filter b_used al).

Record same_mem (al al' : list block) : Prop := {
  sm_used : used_keys al' = used_keys al;
  sm_sum : sum_sizes al' = sum_sizes al;
  sm_cover : forall x, covered al' x <-> covered al x }.

Lemma sum_app : forall a b, sum_sizes (a ++ b) = sum_sizes a + sum_sizes b.
Proof. induction a as [|x a IH]; intros b; cbn; [reflexivity|]. unfold sum_sizes in *. rewrite IH. lia. Qed.
Lemma sum_cons : forall x a, sum_sizes (x :: a) = b_size x + sum_sizes a.
Proof. reflexivity. Qed.
Lemma used_app : forall a b, used_keys (a ++ b) = used_keys a ++ used_keys b.
Proof. intros. unfold used_keys. rewrite filter_app, map_app. reflexivity. Qed.
Lemma used_cons_true : forall b l, b_used b = true -> used_keys (b :: l) = key b :: used_keys l.
Proof. intros b l H. unfold used_keys. cbn [filter]. rewrite H. reflexivity. Qed.
Lemma used_cons_false : forall b l, b_used b = false -> used_keys (b :: l) = used_keys l.
Proof. intros b l H. unfold used_keys. cbn [filter]. rewrite H. reflexivity. Qed.
Lemma covered_app : forall a b x, covered (a ++ b) x <-> covered a x \/ covered b x.
Proof.
  intros a b x. unfold covered. split.
  - intros (y & I & H). apply in_app_or in I. destruct I; [left|right]; exists y; tauto.
  - intros [(y & I & H)|(y & I & H)]; exists y; (split; [|exact H]); apply in_or_app; tauto.
Qed.
Lemma covered_cons : forall b l x, covered (b :: l) x <-> b_data b <= x < bend b \/ covered l x.
Proof.
  intros b l x. unfold covered. split.
  - intros (y & [<-|I] & H); [left; exact H|right; exists y; tauto].
  - intros [H|(y & I & H)]; [exists b|exists y]; split; try exact H; [left; reflexivity|right; exact I].
Qed.
Lemma covered_nil : forall x, covered [] x <-> False.
Proof. intros x. unfold covered. split; [intros (? & [] & _)|tauto]. Qed.

Lemma sm_refl : forall a, same_mem a a.
Proof. intros. split; [reflexivity|reflexivity|tauto]. Qed.
Lemma sm_trans : forall a b c, same_mem a b -> same_mem b c -> same_mem a c.
Proof.
  intros a b c [H1 H2 H3] [H4 H5 H6]. split; [congruence|congruence|]. intros x. rewrite H6. apply H3.
Qed.
Lemma sm_sym : forall a b, same_mem a b -> same_mem b a.
Proof. intros a b [H1 H2 H3]. split; [congruence|congruence|]. intros x. symmetry. apply H3. Qed.
Lemma sm_app : forall a a' b b', same_mem a a' -> same_mem b b' -> same_mem (a ++ b) (a' ++ b').
Proof.
  intros a a' b b' [H1 H2 H3] [H4 H5 H6]. split.
  - rewrite !used_app. congruence.
  - rewrite !sum_app. congruence.
  - intros x. rewrite !covered_app, H3, H6. tauto.
Qed.
Lemma sm_free1 : forall b b', b_used b = false -> b_used b' = false -> b_data b' = b_data b -> b_size b' = b_size b ->
  same_mem [b] [b'].
Proof.
  intros b b' U U' E1 E2. split.
  - rewrite !used_cons_false by assumption. reflexivity.
  - rewrite !sum_cons. lia.
  - intros x. rewrite !covered_cons. unfold bend. rewrite E1, E2. tauto.
Qed.
Lemma sm_free2 : forall x y z, b_used x = false -> b_used y = false -> b_used z = false ->
  0 < b_size x -> 0 < b_size y -> bend x = b_data y -> b_data z = b_data x -> bend z = bend y ->
  same_mem [x; y] [z].
Proof.
  intros x y z U1 U2 U3 S1 S2 E1 E2 E3. split.
  - rewrite !used_cons_false by assumption. reflexivity.
  - unfold sum_sizes; cbn [fold_right]. unfold bend in *. lia.
  - intros w. rewrite !covered_cons, !covered_nil. unfold bend in *. lia.
Qed.

Lemma chain_mem_pos : forall al lo b, chain lo al -> In b al -> 0 < b_size b.
Proof. intros al lo b C I. exact (proj1 (proj2 (chain_left _ _ _ C I))). Qed.

Lemma re_add_mem : forall l1 b l2 m1 m2 lo hi ok r1 r2 lo0,
  chain lo0 (l1 ++ b :: l2) -> b_used b = false ->
  left_part l1 b m1 lo r1 -> right_part l2 b m2 hi r2 ->
  same_mem (l1 ++ b :: l2) (m1 ++ Block lo (hi - lo) false ok :: m2).
Proof.
  intros l1 b l2 m1 m2 lo hi ok r1 r2 lo0 C U LP RP.
  assert (SB : 0 < b_size b) by (eapply chain_mem_pos; [exact C|]; apply in_or_app; right; left; reflexivity).
  (* first the left, then the right *)
  apply sm_trans with (m1 ++ Block lo (bend b - lo) false ok :: l2).
  - destruct LP as [(-> & -> & _)|(x & -> & Ux & Ex & ->)].
    + change (m1 ++ b :: l2) with (m1 ++ [b] ++ l2).
      change (m1 ++ Block (b_data b) (bend b - b_data b) false ok :: l2) with (m1 ++ [Block (b_data b) (bend b - b_data b) false ok] ++ l2).
      apply sm_app; [apply sm_refl|]. apply sm_app; [|apply sm_refl].
      apply sm_free1; cbn; try reflexivity; try assumption. unfold bend; lia.
    + assert (SX : 0 < b_size x) by (eapply chain_mem_pos; [exact C|]; apply in_or_app; left; apply in_or_app; right; left; reflexivity).
      rewrite <- app_assoc. cbn [app].
      change (m1 ++ x :: b :: l2) with (m1 ++ [x; b] ++ l2).
      change (m1 ++ Block (b_data x) (bend b - b_data x) false ok :: l2) with (m1 ++ [Block (b_data x) (bend b - b_data x) false ok] ++ l2).
      apply sm_app; [apply sm_refl|]. apply sm_app; [|apply sm_refl].
      apply sm_free2; cbn; try reflexivity; try assumption. unfold bend; cbn. lia.
  - assert (LO : lo <= b_data b).
    { destruct LP as [(-> & -> & _)|(x & -> & Ux & Ex & ->)]; [lia|].
      assert (SX : 0 < b_size x) by (eapply chain_mem_pos; [exact C|]; apply in_or_app; left; apply in_or_app; right; left; reflexivity).
      unfold bend in *. lia. }
    destruct RP as [(-> & -> & _)|(x & -> & Ux & Ex & ->)]; [apply sm_refl|].
    assert (SX : 0 < b_size x) by (eapply chain_mem_pos; [exact C|]; apply in_or_app; right; right; left; reflexivity).
    change (m1 ++ Block lo (bend b - lo) false ok :: x :: m2) with (m1 ++ [Block lo (bend b - lo) false ok; x] ++ m2).
    change (m1 ++ Block lo (bend x - lo) false ok :: m2) with (m1 ++ [Block lo (bend x - lo) false ok] ++ m2).
    apply sm_app; [apply sm_refl|]. apply sm_app; [|apply sm_refl].
    apply sm_free2; cbn; try reflexivity; try assumption; unfold bend in *; cbn; lia.
Qed.

(* no free block is missing from the free lists *)
Definition nolost (al : list block) : Prop := forall b, In b al -> b_used b = false -> b_listed b = true.
Lemma nolost_app : forall a b, nolost (a ++ b) <-> nolost a /\ nolost b.
Proof.
  intros a b. unfold nolost. split.
  - intros H. split; intros x I; apply H; apply in_or_app; tauto.
  - intros (H1 & H2) x I. apply in_app_or in I. destruct I; [apply H1|apply H2]; assumption.
Qed.
Lemma nolost_cons : forall x a, nolost (x :: a) <-> (b_used x = false -> b_listed x = true) /\ nolost a.
Proof.
  intros x a. unfold nolost. split.
  - intros H. split; [apply H; left; reflexivity|]. intros y I. apply H. right; exact I.
  - intros (H1 & H2) y [<-|I]; [exact H1|]. exact (H2 _ I).
Qed.

Lemma re_add_lost : forall l1 b l2 m1 m2 lo hi ok r1 r2,
  nolost l1 -> nolost l2 -> ok = true ->
  left_part l1 b m1 lo r1 -> right_part l2 b m2 hi r2 ->
  nolost (m1 ++ Block lo (hi - lo) false ok :: m2).
Proof.
  intros l1 b l2 m1 m2 lo hi ok r1 r2 N1 N2 -> LP RP. rewrite nolost_app, nolost_cons. split; [|split; [reflexivity|]].
  - destruct LP as [(-> & _)|(x & -> & _)]; [exact N1|]. apply nolost_app in N1. tauto.
  - destruct RP as [(-> & _)|(x & -> & _)]; [exact N2|]. apply nolost_cons in N2. tauto.
Qed.

(* ---- sums ---- *)
Lemma chain_sum : forall l lo, chain lo l -> sum_sizes l <= fin lo l - lo.
Proof.
  induction l as [|b l IH]; intros lo C; [cbn; lia|]. cbn [chain] in C. destruct C as (A & B & D & E).
  apply IH in E. rewrite sum_cons. unfold fin in *; cbn [fold_left]. unfold bend in *. lia.
Qed.
Lemma fin_le : forall l lo, chain lo l -> l <> [] -> fin lo l <= U64.
Proof.
  induction l as [|b l IH]; intros lo C N; [contradiction|]. cbn [chain] in C. destruct C as (A & B & D & E).
  unfold fin; cbn [fold_left]. destruct l as [|b' l]; [exact D|]. apply (IH _ E). discriminate.
Qed.
Lemma chain_total : forall l, chain 1 l -> 0 <= sum_sizes l < U64.
Proof.
  intros l C. split.
  - assert (P : forall b, In b l -> 0 < b_size b) by (intros b; apply chain_mem_pos with 1; exact C). clear C.
    induction l as [|b l IH]; [cbn; lia|]. rewrite sum_cons. specialize (P b (or_introl eq_refl)) as P1.
    enough (0 <= sum_sizes l) by lia. apply IH. intros x I; apply P; right; exact I.
  - destruct l as [|b l]; [reflexivity|]. pose proof (chain_sum _ _ C). pose proof (fin_le _ _ C ltac:(discriminate)). lia.
Qed.
Lemma filter_sum : forall (f : block -> bool) l, (forall b, In b l -> 0 < b_size b) -> 0 <= sum_sizes (filter f l) <= sum_sizes l.
Proof.
  intros f l P. induction l as [|b l IH]; [cbn; lia|]. cbn [filter].
  specialize (P b (or_introl eq_refl)) as P1. destruct IH as (A & B). { intros x I; apply P; right; exact I. }
  destruct (f b); rewrite ?sum_cons; lia.
Qed.

Fixpoint ksum (l : list (Z * Z)) : Z := match l with [] => 0 | e :: r => snd e + ksum r end.
Lemma used_ksum : forall al, sum_sizes (filter b_used al) = ksum (used_keys al).
Proof.
  intros al. unfold used_keys. induction (filter b_used al) as [|b l IH]; [reflexivity|]. rewrite sum_cons. cbn. rewrite IH. reflexivity.
Qed.

(* no two adjacent free blocks *)
Definition adj (x y : block) : Prop := b_used x = false /\ b_used y = false /\ bend x = b_data y.
Fixpoint noadj (l : list block) : Prop :=
  match l with
  | [] => True
  | x :: r => match r with [] => True | y :: _ => ~ adj x y end /\ noadj r
  end.
Definition joint (a b : list block) : Prop := forall a' x y b', a = a' ++ [x] -> b = y :: b' -> ~ adj x y.
Lemma joint_nil : forall b, joint [] b.
Proof. intros b a' x y b' E. destruct a'; discriminate. Qed.
Lemma joint_one : forall x b, joint [x] b <-> match b with [] => True | y :: _ => ~ adj x y end.
Proof.
  intros x b. split.
  - intros J. destruct b as [|y b]; [exact I|]. exact (J [] x y b eq_refl eq_refl).
  - intros H a' u w b' E ->. destruct a' as [|z [|? ?]]; inversion E; subst. exact H.
Qed.
Lemma joint_cons : forall x y a b, joint (x :: y :: a) b <-> joint (y :: a) b.
Proof.
  intros x y a b. split; intros J a' u w b' E1 E2.
  - apply (J (x :: a') u w b'); [rewrite E1; reflexivity|exact E2].
  - destruct a' as [|z a']; [discriminate E1|]. injection E1 as <- E1. exact (J a' u w b' E1 E2).
Qed.
Lemma noadj_app : forall a b, noadj (a ++ b) <-> noadj a /\ noadj b /\ joint a b.
Proof.
  induction a as [|x a IH]; intros b.
  - cbn. pose proof (joint_nil b). tauto.
  - destruct a as [|y a].
    + rewrite joint_one. cbn [app noadj]. tauto.
    + rewrite joint_cons. cbn [app] in *. cbn [noadj] in *. rewrite IH. tauto.
Qed.
(* a free block may be replaced by one with the same start / the same end *)
Lemma noadj_left : forall l1 b l2 b', noadj (l1 ++ b :: l2) -> b_used b = false -> b_data b' = b_data b -> noadj (l1 ++ [b']).
Proof.
  intros l1 b l2 b' H U D. apply noadj_app in H. destruct H as (H1 & _ & J). apply noadj_app. split; [exact H1|]. split; [cbn; tauto|].
  intros a x y r E1 E2 (X1 & _ & X3). injection E2 as <- <-. apply (J a x b l2 E1 eq_refl). repeat split; [exact X1|exact U|congruence].
Qed.
Lemma noadj_right : forall l1 b l2 b', noadj (l1 ++ b :: l2) -> b_used b = false -> bend b' = bend b -> noadj (b' :: l2).
Proof.
  intros l1 b l2 b' H U D. apply noadj_app in H. destruct H as (_ & (H1 & H2) & _). cbn [noadj]. split; [|exact H2].
  destruct l2 as [|y l2]; [exact I|]. intros (X1 & X2 & X3). apply H1. repeat split; [exact U|exact X2|congruence].
Qed.
Lemma noadj_used : forall l1 b l2, b_used b = true -> noadj l1 -> noadj l2 -> noadj (l1 ++ b :: l2).
Proof.
  intros l1 b l2 U H1 H2. apply noadj_app. split; [exact H1|]. split.
  - cbn [noadj]. split; [|exact H2]. destruct l2; [exact I|]. intros (X & _). congruence.
  - intros a x y r _ E (_ & X & _). injection E as <- <-. congruence.
Qed.
Lemma noadj_same : forall l1 b b' l2, b_used b' = b_used b -> b_data b' = b_data b -> b_size b' = b_size b ->
  noadj (l1 ++ b :: l2) -> noadj (l1 ++ b' :: l2).
Proof.
  intros l1 b b' l2 U D S. rewrite !noadj_app. cbn [noadj]. intros (H1 & (H2 & H3) & J). split; [exact H1|]. split.
  - split; [|exact H3]. destruct l2 as [|y l2]; [exact I|]. unfold adj, bend in *. rewrite U, D, S. exact H2.
  - intros a x y r E1 E2 X. injection E2 as <- <-. apply (J a x b l2 E1 eq_refl). unfold adj in *. rewrite <- U, <- D. exact X.
Qed.
Lemma re_add_adj : forall l1 b l2 m1 m2 lo hi ok,
  noadj l1 -> noadj l2 -> left_part l1 b m1 lo SUCCESS -> right_part l2 b m2 hi SUCCESS ->
  noadj (m1 ++ Block lo (hi - lo) false ok :: m2).
Proof.
  intros l1 b l2 m1 m2 lo hi ok N1 N2 LP RP.
  assert (L : noadj m1 /\ forall a x, m1 = a ++ [x] -> b_used x = false -> bend x = lo -> False).
  { destruct LP as [(-> & -> & H)|(x & -> & U & B & ->)].
    - split; [exact N1|]. intros a x E X1 X2. apply (H a x E). repeat split; assumption.
    - apply noadj_app in N1. destruct N1 as (N1 & _ & J). split; [exact N1|]. intros a y -> X1 X2.
      apply (J a y x [] eq_refl eq_refl). repeat split; assumption. }
  assert (R : noadj m2 /\ forall y a, m2 = y :: a -> b_used y = false -> hi = b_data y -> False).
  { destruct RP as [(-> & -> & H)|(x & -> & U & B & ->)].
    - split; [exact N2|]. intros y a E X1 X2. apply (H a y E). repeat split; assumption.
    - destruct N2 as (J & N2). split; [exact N2|]. intros y a -> X1 X2. apply J. repeat split; assumption. }
  destruct L as (L1 & L2), R as (R1 & R2). apply noadj_app. split; [exact L1|]. split.
  - cbn [noadj]. split; [|exact R1]. destruct m2 as [|y m2]; [exact I|]. intros (_ & X2 & X3).
    unfold bend in X3; cbn [b_data b_size] in X3. apply (R2 y m2 eq_refl X2). lia.
  - intros a x y r E1 E2 (X1 & X2 & X3). injection E2 as <- <-. exact (L2 a x E1 X1 X3).
Qed.

(* ---- the invariant ---- *)
Record Inv (e : env) (c : coarse) (v : view) : Prop := {
  i_page : pow2 (page_size c);
  i_core : Core (all_blocks c) (free_blocks c);
  i_used : used_size c = ksum (used_keys (all_blocks c));
  i_alloc : alloc_size c = sum_sizes (all_blocks c);
  i_live : forall p n, live v p = Some n <-> In (p, n) (used_keys (all_blocks c));
  i_cover : forall x, covered (all_blocks c) x <-> within_given v x;
  i_given : alloc_size c = ksum (given v);
  i_lost : class_ok e = true -> nolost (all_blocks c);
  i_adj : merges e = true -> noadj (all_blocks c) }.

Lemma inv_same : forall d e c v al fr, Inv d c v -> same_mem (all_blocks c) al -> Core al fr ->
  (class_ok e = true -> nolost al) -> (merges e = true -> noadj al) -> Inv e (put c al fr) v.
Proof.
  intros d e c v al fr [I1 I2 I3 I4 I5 I6 I7 I8 I9] [S1 S2 S3] C N NA.
  split; cbn [page_size all_blocks free_blocks used_size alloc_size put]; try assumption.
  - rewrite S1. exact I3.
  - rewrite S2. exact I4.
  - intros p n. rewrite S1. apply I5.
  - intros x. rewrite S3. apply I6.
Qed.

Lemma count_members : forall fr, count_free fr = Z.of_nat (length (members fr)).
Proof.
  induction fr as [|[k l] fr IH]; [reflexivity|]. rewrite members_cons, app_length, map_length. cbn [count_free fold_right snd].
  unfold count_free in IH. rewrite IH. lia.
Qed.

Lemma chain_verify : forall l lo, 1 <= lo -> chain lo l -> verify_blocks l = true.
Proof.
  induction l as [|b l IH]; intros lo L C; [reflexivity|]. cbn [chain] in C. destruct C as (A & B & D & E).
  cbn [verify_blocks]. rewrite (IH (bend b)); [|unfold bend; lia|exact E].
  destruct (Z.eqb_spec (b_data b) 0); [lia|]. destruct (Z.gtb_spec (b_size b) 0); [|lia]. cbn [negb andb].
  destruct l as [|nb l]; [reflexivity|]. cbn [chain] in E. destruct E as (E1 & E2 & E3 & _).
  unfold bend in *. destruct (Z.ltb_spec (b_data b) (b_data nb)); [|lia].
  rewrite wrap_id by (unfold is_word; lia).
  destruct (Z.leb_spec (b_data b + b_size b) (b_data nb)); [|lia]. reflexivity.
Qed.

Lemma inv_used_bound : forall e c v, Inv e c v -> 0 <= used_size c <= alloc_size c /\ alloc_size c < U64.
Proof.
  intros e c v I. pose proof (i_core _ _ _ I) as C. pose proof (chain_total _ (core_chain _ _ C)) as T.
  rewrite (i_used _ _ _ I), (i_alloc _ _ _ I), <- used_ksum.
  pose proof (filter_sum b_used (all_blocks c)) as F.
  assert (P : forall b, In b (all_blocks c) -> 0 < b_size b) by (intros b; apply chain_mem_pos with 1; exact (core_chain _ _ C)).
  specialize (F P). lia.
Qed.

Lemma inv_check : forall dbg e c v, (dbg = true -> class_ok e = true) -> Inv e c v -> check dbg c = false.
Proof.
  intros dbg e c v DS I. unfold check, assert_fails. destruct dbg; [|reflexivity]. cbn [andb].
  enough (debug_check c = true) as -> by reflexivity.
  pose proof (inv_used_bound _ _ _ I) as B.
  destruct I as [I1 C I3 I4 I5 I6 I7 I8 I9]. specialize (I8 (DS eq_refl)). unfold debug_check.
  pose proof (chain_total _ (core_chain _ _ C)) as T.
  rewrite (chain_verify _ 1); [|lia|exact (core_chain _ _ C)].
  rewrite used_ksum, <- I3. rewrite <- I4. rewrite !wrap_id by (unfold is_word; lia). rewrite !Z.eqb_refl.
  destruct (Z.leb_spec (used_size c) (alloc_size c)); [|lia].
  assert (F : forallb (fun e : Z * list Z => match snd e with [] => false | _ => true end) (free_blocks c) = true).
  { apply forallb_forall. intros g Ie. destruct (asc_keys _ _ _ (core_asc _ _ C) Ie) as (_ & N). destruct (snd g); [contradiction|reflexivity]. }
  rewrite F. rewrite count_members, (Permutation_length (core_perm _ _ C)). unfold listed_keys. rewrite map_length.
  replace (filter (fun b => negb (b_used b)) (all_blocks c)) with (filter b_listed (all_blocks c)); [rewrite Z.eqb_refl; reflexivity|].
  apply filter_ext_in. intros b Ib. destruct (b_listed b) eqn:L.
  - rewrite (core_unused _ _ C _ Ib L). reflexivity.
  - destruct (b_used b) eqn:U; [reflexivity|]. rewrite (I8 _ Ib U) in L. discriminate.
Qed.
