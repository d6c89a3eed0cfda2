(* coarse_alloc preserves the invariant and returns a suitable block. *)
From Coq Require Import Permutation.
From Verif Require Import Base Model_Utils Proof_Utils Model_Coarse Spec_Coarse Proof_Coarse Proof_CoarseInv.

Lemma mod_trans : forall p a b, 0 < a -> 0 < b -> p mod a = 0 -> a mod b = 0 -> p mod b = 0.
Proof.
  intros p a b A B H1 H2. apply mod_multiple in H1; [|exact A]. apply mod_multiple in H2; [|exact B].
  apply mod_multiple; [exact B|]. destruct H1 as (q & ->). destruct H2 as (r & E). exists (q * r). rewrite E. lia.
Qed.

Lemma pow2_compare : forall a b, pow2 a -> pow2 b -> a mod b = 0 \/ (a < b /\ b mod a = 0).
Proof.
  intros a b (n & Hn & ->) (m & Hm & ->). destruct (Z.le_gt_cases m n) as [L|L].
  - left. replace n with ((n - m) + m) by lia. rewrite Z.pow_add_r by lia. apply Z.mod_mul.
    assert (0 < 2 ^ m) by (apply Z.pow_pos_nonneg; lia). lia.
  - right. split; [apply Z.pow_lt_mono_r; lia|]. replace m with ((m - n) + n) by lia. rewrite Z.pow_add_r by lia. apply Z.mod_mul.
    assert (0 < 2 ^ n) by (apply Z.pow_pos_nonneg; lia). lia.
Qed.

Lemma align_test : forall v a, pow2 a -> IS_ALIGNED v a = (v mod a =? 0).
Proof.
  intros v a P. pose proof (is_aligned_spec v a P). destruct (IS_ALIGNED v a); destruct (Z.eqb_spec (v mod a) 0); tauto || intuition discriminate.
Qed.

Lemma effective_ok : forall page al a, pow2 page -> is_word al -> effective_alignment page al = Some a ->
  pow2 a /\ a mod page = 0 /\ (al <> 0 -> a mod al = 0 /\ pow2 al).
Proof.
  intros page al a P W H. pose proof (pow2_range _ P) as RP. unfold effective_alignment in H.
  destruct (Z.eqb_spec al 0) as [->|N].
  { injection H as <-. split; [exact P|]. split; [apply Z.mod_same; lia|]. intros X; contradiction. }
  destruct (Z.eqb_spec (Z.land al (wrap (al - 1))) 0) as [L|L]; cbn [negb orb] in H; [|discriminate].
  assert (PA : pow2 al).
  { apply is_pow2_spec; [exact W|]. unfold IS_POWER_OF_2. rewrite L. destruct (Z.eqb_spec al 0); [contradiction|reflexivity]. }
  pose proof (pow2_range _ PA) as RA.
  destruct (negb (al mod page =? 0) && negb (page mod al =? 0)); [discriminate|].
  rewrite is_not_aligned_spec, (align_test al page P) in H.
  destruct (Z.eqb_spec (al mod page) 0) as [M|M]; cbn [negb] in H.
  - injection H as <-. repeat split; try assumption. apply Z.mod_same. lia.
  - injection H as <-. destruct (pow2_compare al page PA P) as [X|(LT & X)]; [contradiction|].
    rewrite align_up_safe_word by assumption.
    assert (HP : page <= U64 / 2).
    { destruct P as (n & Hn & ->). change (U64 / 2) with (2 ^ 63). apply Z.pow_le_mono_r; lia. }
    change (U64 / 2) with 9223372036854775808 in HP. assert (HU : U64 = 18446744073709551616) by reflexivity.
    destruct (Z.leb_spec U64 (al + page - 1)) as [Q|Q]; [lia|].
    replace ((al + page - 1) mod page) with (al - 1).
    2:{ replace (al + page - 1) with ((al - 1) + 1 * page) by lia. rewrite Z.mod_add by lia. rewrite Z.mod_small; lia. }
    replace (al + page - 1 - (al - 1)) with page by lia. repeat split; try assumption. apply Z.mod_same; lia.
Qed.

Lemma effective_some : forall page al, pow2 page -> is_word al -> (al = 0 \/ pow2 al) -> effective_alignment page al <> None.
Proof.
  intros page al P W H. unfold effective_alignment. destruct (Z.eqb_spec al 0) as [->|N]; [discriminate|].
  destruct H as [H|PA]; [contradiction|]. pose proof (proj2 (is_pow2_spec al W) PA) as Q. unfold IS_POWER_OF_2 in Q.
  apply andb_true_iff in Q. destruct Q as (_ & Q). rewrite Q. cbn [negb orb].
  destruct (pow2_compare al page PA P) as [X|(_ & X)]; rewrite X; cbn [Z.eqb negb andb]; rewrite ?andb_false_r; destruct (IS_NOT_ALIGNED al page); discriminate.
Qed.

Lemma in_used : forall al p s, In (p, s) (used_keys al) <-> exists b, In b al /\ b_used b = true /\ b_data b = p /\ b_size b = s.
Proof.
  intros al p s. unfold used_keys. rewrite in_map_iff. unfold key. split.
  - intros (b & E & I). apply filter_In in I. injection E as <- <-. exists b. tauto.
  - intros (b & I & L & <- & <-). exists b. split; [reflexivity|]. apply filter_In. tauto.
Qed.

Lemma live_insert : forall (f : Z -> option Z) m1 m2 q size,
  mid m1 q m2 -> (forall p n, f p = Some n <-> In (p, n) (used_keys m1 ++ used_keys m2)) ->
  f q = None /\
  forall p n, upd_live f q (Some size) p = Some n <-> In (p, n) (used_keys (m1 ++ Block q size true false :: m2)).
Proof.
  intros f m1 m2 q size (M1 & M2) H.
  assert (NQ : forall n, ~ In (q, n) (used_keys m1 ++ used_keys m2)).
  { intros n I. apply in_app_or in I. rewrite !in_used in I.
    destruct I as [(b & I & _ & D & _)|(b & I & _ & D & _)]; [apply M1 in I|apply M2 in I]; lia. }
  split; [destruct (f q) as [n|] eqn:F; [|reflexivity]; apply H in F; destruct (NQ _ F)|].
  intros p n. rewrite used_app, used_cons_true by reflexivity. unfold upd_live, key. cbn [b_data b_size].
  destruct (Z.eqb_spec p q) as [->|N].
  - split.
    + intros [= ->]. apply in_or_app; right; left; reflexivity.
    + intros I. apply in_app_or in I. destruct I as [I|[E|I]].
      * destruct (NQ n). apply in_or_app; left; exact I.
      * congruence.
      * destruct (NQ n). apply in_or_app; right; exact I.
  - rewrite H. split; intros I; apply in_app_or in I; apply in_or_app.
    + destruct I; [left|right; right]; assumption.
    + destruct I as [I|[E|I]]; [left; exact I|congruence|right; exact I].
Qed.

Lemma ksum_app : forall a b, ksum (a ++ b) = ksum a + ksum b.
Proof. induction a as [|x a IH]; intros b; cbn; [reflexivity|]. rewrite IH. lia. Qed.

Lemma used_le : forall al fr, Core al fr -> 0 <= ksum (used_keys al) <= sum_sizes al /\ sum_sizes al < U64.
Proof.
  intros al fr C. pose proof (chain_total _ (core_chain _ _ C)) as T. rewrite <- used_ksum.
  pose proof (filter_sum b_used al (fun b => chain_mem_pos al 1 b (core_chain _ _ C))). lia.
Qed.

Lemma chain_insert : forall l lo p n u li, chain lo l -> lo <= p -> 0 < n -> p + n <= U64 ->
  (forall x, p <= x < p + n -> ~ covered l x) ->
  exists l1 l2, l = l1 ++ l2 /\ mid l1 p l2 /\ chain lo (l1 ++ Block p n u li :: l2).
Proof.
  induction l as [|b l IH]; intros lo p n u li C L N W NC.
  - exists [], []. split; [reflexivity|]. split; [split; intros x []|]. cbn [app chain b_data b_size]. unfold bend; cbn [b_data b_size]. repeat split; lia.
  - cbn [chain] in C. destruct C as (C1 & C2 & C3 & C4).
    destruct (Z.le_gt_cases (bend b) p) as [G|G].
    + destruct (IH (bend b) p n u li C4 G N W) as (l1 & l2 & -> & (M1 & M2) & CH).
      { intros x X Y. apply (NC x X). apply covered_cons. right; exact Y. }
      exists (b :: l1), l2. split; [reflexivity|]. split.
      * split; [|exact M2]. intros x [<-|I]; [unfold bend in G; lia|exact (M1 _ I)].
      * cbn [app chain]. repeat split; assumption.
    + assert (PB : p + n <= b_data b).
      { destruct (Z.le_gt_cases (p + n) (b_data b)) as [|G2]; [assumption|exfalso].
        apply (NC (Z.max p (b_data b))); [lia|]. apply covered_cons. left. unfold bend in *. lia. }
      exists [], (b :: l). split; [reflexivity|]. split.
      * split; [intros x []|]. intros x [<-|I]; [lia|]. pose proof (chain_right _ _ _ C4 I). unfold bend in *. lia.
      * cbn [app chain b_data b_size]. unfold bend at 1 2; cbn [b_data b_size]. repeat split; try assumption; lia.
Qed.

Definition weak : env := Env false false false.

Section Alloc.
Variable dbg : bool.
Variable w : env.
Hypothesis DS : dbg = true -> class_ok w = true.

Definition found (c : coarse) (size al : Z) (x : option Z) (c' : coarse) : Prop :=
  match x with
  | None => c' = c
  | Some p => exists l1 b l2 fr', all_blocks c = l1 ++ b :: l2 /\ b_data b = p /\ b_listed b = true /\ b_used b = false /\
      size <= b_size b /\ (p mod al = 0 \/ size + al <= b_size b) /\
      c' = put c (l1 ++ with_listed false b :: l2) fr' /\ Core (l1 ++ with_listed false b :: l2) fr'
  end.

Lemma fastest_ok : forall c size al, Core (all_blocks c) (free_blocks c) -> 0 < size < U64 -> pow2 al ->
  exists x c', (if wrap (size + al) <? size then Some (None, c)
                else free_blocks_rm_ge dbg c (wrap (size + al)) 0 CHECK_ONLY_THE_FIRST_BLOCK) = Some (x, c') /\ found c size al x c' /\
    (x = None -> forall e, In e (free_blocks c) -> fst e < size + al).
Proof.
  intros c size al C S P. pose proof (pow2_range _ P) as R.
  assert (HU : forall e, In e (free_blocks c) -> fst e < U64).
  { intros [k l] I. destruct (asc_keys _ _ _ (core_asc _ _ C) I) as (_ & N). cbn [snd fst] in *.
    destruct l as [|a l]; [contradiction|]. apply in_split in I. destruct I as (f1 & f2 & F). pose proof C as C0. rewrite F in C0.
    destruct (core_elem _ _ _ _ _ a C0 (or_introl eq_refl)) as (b & l1 & l2 & E & E1 & E2 & _ & _).
    pose proof (bend_word _ 1 b (core_chain _ _ C) ltac:(lia)) as B. rewrite E in B.
    specialize (B ltac:(apply in_or_app; right; left; reflexivity)). unfold bend in B. lia. }
  destruct (Z.lt_ge_cases (size + al) U64) as [L|L].
  - rewrite wrap_id by (unfold is_word; lia). destruct (Z.ltb_spec (size + al) size) as [X|_]; [lia|].
    destruct (rm_ge_ok dbg c (size + al) 0 CHECK_ONLY_THE_FIRST_BLOCK C) as (x & c' & -> & H).
    exists x, c'. split; [reflexivity|]. destruct x as [p|]; cbn [found].
    + split; [|discriminate]. destruct H as (l1 & b & l2 & fr' & E & E1 & E2 & E3 & E4 & E5 & E6 & E7).
      exists l1, b, l2, fr'. repeat (split; [assumption || lia|]). exact E7.
    + destruct H as (-> & H). split; [reflexivity|]. intros _ e I.
      destruct H as [G|(k & l & G & a & r & -> & NA)]; [exact (class_ge_none _ _ G _ I)|]. discriminate NA.
  - rewrite wrap_over by (unfold U64 in *; lia). destruct (Z.ltb_spec (size + al - U64) size) as [_|X]; [|lia].
    exists None, c. repeat split. intros _ e I. specialize (HU _ I). lia.
Qed.

(* a free block that the search must find *)
Definition fits (c : coarse) (size al : Z) : Prop :=
  (exists g, In g (free_blocks c) /\ size + al <= fst g) \/
  (strat c <> FASTEST /\ (forall b, In b (all_blocks c) -> b_listed b = true -> b_data b mod al = 0) /\
   exists g, In g (free_blocks c) /\ size <= fst g).

Lemma fits_aligned : forall c size al k l a, Core (all_blocks c) (free_blocks c) -> pow2 al -> fits c size al ->
  (forall g, In g (free_blocks c) -> fst g < size + al) -> class_ge (free_blocks c) size = Some (k, l) -> In a l -> IS_ALIGNED a al = true.
Proof.
  intros c size al k l a C P F N G IA. destruct F as [(g & Ig & L)|(_ & AL & _)]; [specialize (N g Ig); lia|].
  destruct (class_ge_some _ _ _ _ G) as (_ & f1 & f2 & E & _). rewrite E in C.
  destruct (core_elem _ _ _ _ _ a C IA) as (b & l1 & l2 & Ea & E1 & E2 & E3 & _).
  rewrite (align_test _ _ P). apply Z.eqb_eq. subst a. apply AL; [|exact E3]. rewrite Ea. apply in_or_app; right; left; reflexivity.
Qed.

Lemma fits_some : forall c size al, pow2 al -> fits c size al -> class_ge (free_blocks c) size <> None.
Proof.
  intros c size al P F N. pose proof (pow2_range _ P). pose proof (class_ge_none _ _ N) as H0.
  destruct F as [(g & Ig & L)|(_ & _ & g & Ig & L)]; specialize (H0 g Ig); lia.
Qed.

Lemma find_ok : forall c size al, Core (all_blocks c) (free_blocks c) -> 0 < size < U64 -> pow2 al ->
  exists x c', find_free_block dbg c size al = Some (x, c') /\ found c size al x c' /\ (x = None -> ~ fits c size al).
Proof.
  intros c size al C S P. unfold find_free_block.
  assert (FAST : forall H : fits c size al -> (forall g, In g (free_blocks c) -> fst g < size + al) -> False,
    exists x c', (if wrap (size + al) <? size then Some (None, c)
                else free_blocks_rm_ge dbg c (wrap (size + al)) 0 CHECK_ONLY_THE_FIRST_BLOCK) = Some (x, c') /\ found c size al x c' /\
    (x = None -> ~ fits c size al)).
  { intros H. destruct (fastest_ok c size al C S P) as (x & c' & E & FD & N). exists x, c'. split; [exact E|]. split; [exact FD|].
    intros X F. exact (H F (N X)). }
  destruct (strat c) eqn:ST.
  - destruct (rm_ge_ok dbg c size al CHECK_ONLY_THE_FIRST_BLOCK C) as (x & c' & -> & H). destruct x as [p|].
    + eexists (Some p), c'. split; [reflexivity|]. split; [|discriminate].
      destruct H as (l1 & b & l2 & fr' & E & E1 & E2 & E3 & E4 & E5 & E6 & E7). exists l1, b, l2, fr'.
      rewrite (align_test _ _ P) in E5. repeat (split; [assumption || lia|]). exact E7.
    + destruct H as (-> & H). apply FAST. intros F N. pose proof (fits_some _ _ _ P F) as NN.
      destruct H as [G|(k & l & G & a & r & -> & NA)]; [contradiction|].
      rewrite is_not_aligned_spec, (fits_aligned _ _ _ _ _ a C P F N G (or_introl eq_refl)) in NA. discriminate.
  - apply FAST. intros [(g & Ig & L)|(X & _)] N; [specialize (N g Ig); lia|contradiction].
  - destruct (rm_ge_ok dbg c size al CHECK_ALL_BLOCKS_OF_SIZE C) as (x & c' & -> & H). destruct x as [p|].
    + eexists (Some p), c'. split; [reflexivity|]. split; [|discriminate].
      destruct H as (l1 & b & l2 & fr' & E & E1 & E2 & E3 & E4 & E5 & E6 & E7). exists l1, b, l2, fr'.
      rewrite (align_test _ _ P) in E5. repeat (split; [assumption || lia|]). exact E7.
    + destruct H as (-> & H). apply FAST. intros F N. pose proof (fits_some _ _ _ P F) as NN.
      destruct H as [G|(k & l & G & NA)]; [contradiction|].
      destruct (class_ge_some _ _ _ _ G) as (_ & f1 & f2 & Ef & _). pose proof (core_asc _ _ C) as A. rewrite Ef in A.
      apply asc_app in A. destruct A as (_ & A). cbn [asc snd] in A. destruct l as [|a l]; [tauto|].
      specialize (NA a (or_introl eq_refl)). rewrite (fits_aligned _ _ _ _ _ a C P F N G (or_introl eq_refl)) in NA. discriminate.
Qed.

Lemma align_up_in : forall p al b_end size, pow2 al -> 0 < p -> 0 < size -> p + size <= b_end -> b_end <= U64 ->
  (p mod al = 0 \/ p + size + al <= b_end) ->
  exists q, ALIGN_UP p al = q /\ p <= q /\ q + size <= b_end /\ q mod al = 0 /\ q < U64 /\ (p mod al = 0 -> q = p) /\
     (p mod al <> 0 -> p < q /\ q + size < b_end).
Proof.
  intros p al e size P Hp Hs He Hu H. pose proof (pow2_range _ P) as R.
  assert (NW : p + al - 1 < U64).
  { destruct H as [H|H]; [|lia]. destruct (Z.lt_ge_cases (p + al - 1) U64) as [|G]; [assumption|].
    pose proof (no_multiple p al p P G H ltac:(lia)). lia. }
  rewrite (align_up_val _ _ P) by lia.
  destruct (round_up_least p al ltac:(lia)) as (Q1 & Q2 & Q3). set (q := p + al - 1 - (p + al - 1) mod al) in *. clearbody q.
  exists q. destruct H as [H|H].
  - specialize (Q3 p H ltac:(lia)). repeat split; lia.
  - repeat split; try lia.
    + intros E. specialize (Q3 p E ltac:(lia)). lia.
    + destruct (Z.eq_dec p q) as [->|]; [contradiction|lia].
Qed.

Lemma result_cases : forall r, r = SUCCESS \/ r <> SUCCESS.
Proof. destruct r; (left; reflexivity) || (right; discriminate). Qed.

(* inserting the second half of a split block *)
Lemma add_new_ok : forall l1 b l2 s sz okb junk, chain 1 (l1 ++ b :: l2) -> 0 < s < b_size b -> sz <> 0 ->
  coarse_ravl_add_new dbg (l1 ++ b :: l2) (b_data b + s) sz okb junk =
    Some (if okb then Some (l1 ++ b :: Block (b_data b + s) sz junk false :: l2) else None).
Proof.
  intros l1 b l2 s sz okb junk C S Z0. unfold coarse_ravl_add_new, assert_fails.
  assert (D : 0 < b_data b).
  { apply (bend_word _ 1 b C ltac:(lia)). apply in_or_app; right; left; reflexivity. }
  destruct (chain_between _ _ _ _ (b_data b + s) C ltac:(unfold bend; lia)) as (M1 & M2).
  assert (MID : mid (l1 ++ [b]) (b_data b + s) l2).
  { split; [|exact M2]. intros x I. apply in_app_or in I. destruct I as [I|[<-|[]]]; [exact (M1 _ I)|lia]. }
  assert (F : find_block (l1 ++ b :: l2) (b_data b + s) = None).
  { change (l1 ++ b :: l2) with (l1 ++ [b] ++ l2). rewrite app_assoc. apply find_none_mid. exact MID. }
  rewrite F. destruct (Z.eqb_spec (b_data b + s) 0); [lia|]. destruct (Z.eqb_spec sz 0); [contradiction|].
  cbn [negb]. rewrite !andb_false_r. cbn [orb]. destruct okb; cbn [negb]; [|reflexivity].
  do 2 f_equal. change (l1 ++ b :: l2) with (l1 ++ [b] ++ l2). rewrite app_assoc, insert_mid by exact MID.
  rewrite <- app_assoc. reflexivity.
Qed.

Record created (c : coarse) (l1 : list block) (b : block) (l2 : list block) (size al : Z) (o : alloc_oracle)
    (r : result) (q : Z) (c' : coarse) (l1' : list block) (b' : block) (l2' : list block) (fr' : list (Z * list Z)) : Prop := {
  cr_st : c' = put c (l1' ++ b' :: l2') fr';
  cr_core : Core (l1' ++ b' :: l2') fr';
  cr_b : b_data b' = q /\ b_used b' = false /\ b_listed b' = false;
  cr_mem : same_mem (l1 ++ b :: l2) (l1' ++ b' :: l2');
  cr_lost : class_ok w = true -> nolost l1 -> nolost l2 -> nolost l1' /\ nolost l2';
  cr_adj : noadj (l1 ++ b :: l2) -> noadj l1' /\ noadj l2';
  cr_ok : r = SUCCESS -> q mod al = 0 /\ bend b' = bend b /\ l2' = l2 /\
      ((l1' = l1 /\ b' = b) \/
       (exists pad, 0 < pad /\ l1' = l1 ++ [Block (b_data b) pad false true] /\ b_data b + pad = q /\
          size < b_size b' /\ size < b_size b));
  cr_live : o_split1 o = SUCCESS -> o_new1 o = true -> both (o_add1 o) -> r = SUCCESS;
  cr_fail : r <> SUCCESS -> (l1' = l1 /\ l2' = l2 /\ b' = b) \/ o_head (o_add1 o) = false }.

Lemma create_ok : forall c l1 b l2 size al o,
  Core (all_blocks c) (free_blocks c) -> all_blocks c = l1 ++ b :: l2 ->
  b_used b = false -> b_listed b = false -> pow2 al -> 0 < size <= b_size b ->
  (b_data b mod al = 0 \/ size + al <= b_size b) ->
  o_junk o = false -> o_elem (o_add1 o) = true -> (class_ok w = true -> both (o_add1 o)) ->
  exists r q c' ev l1' b' l2' fr',
    create_aligned_block dbg c size al (b_data b) o = Some (r, q, c', ev) /\ asks ev = [] /\
    created c l1 b l2 size al o r q c' l1' b' l2' fr'.
Proof.
  intros c l1 b l2 size al o C E U L P S H J O1 OD. pose proof (pow2_range _ P) as R.
  pose proof (core_chain _ _ C) as CH. 
  assert (IB : In b (all_blocks c)) by (rewrite E; apply in_or_app; right; left; reflexivity).
  pose proof (bend_word _ 1 b CH ltac:(lia) IB) as (B1 & B2 & B3).
  destruct (align_up_in (b_data b) al (bend b) size P B1 ltac:(lia) ltac:(unfold bend; lia) B3 ltac:(unfold bend; lia))
    as (q & Q & Q1 & Q2 & Q3 & Q4 & Q5 & Q6).
  unfold create_aligned_block. rewrite (find_here c l1 b l2 CH E), Q.
  rewrite (wrap_id (q - b_data b)) by (unfold is_word; lia).
  destruct (Z.gtb_spec al 0) as [_|X]; [|lia]. cbn [andb].
  assert (SELF : forall r q', q' = b_data b -> (r = SUCCESS -> q' mod al = 0) -> 
      (o_split1 o = SUCCESS -> o_new1 o = true -> both (o_add1 o) -> r = SUCCESS) ->
     created c l1 b l2 size al o r q' c l1 b l2 (free_blocks c)).
  { intros r q' Eq Hq Hl. split.
    - rewrite <- E. symmetry. apply put_same.
    - rewrite <- E. exact C.
    - auto.
    - apply sm_refl.
    - auto.
    - intros X. apply noadj_app in X. destruct X as (X1 & X2 & _). cbn [noadj] in X2. tauto.
    - intros Er. repeat split; [exact (Hq Er)|]. left; split; reflexivity.
    - exact Hl.
    - intros _. left. repeat split. }
  destruct (Z.gtb_spec (q - b_data b) 0) as [G|G].
  2:{ assert (q = b_data b) by lia. exists SUCCESS, (b_data b), c, [], l1, b, l2, (free_blocks c).
      split; [reflexivity|]. split; [reflexivity|]. apply SELF; [reflexivity| |reflexivity]. intros _. congruence. }
  assert (NM : b_data b mod al <> 0) by (intros X; specialize (Q5 X); lia). specialize (Q6 NM).
  destruct (result_cases (o_split1 o)) as [S1|S1].
  2:{ exists (o_split1 o), (b_data b), c, [EvSplit (b_data b) (b_size b) (q - b_data b) (o_split1 o)], l1, b, l2, (free_blocks c).
      split; [destruct (o_split1 o); try reflexivity; contradiction|]. split; [reflexivity|].
      apply SELF; [reflexivity| |]; intros X; contradiction. }
  rewrite S1. set (pad := q - b_data b) in *.
  assert (PQ : wrap (b_data b + pad) = b_data b + pad) by (apply wrap_id; unfold is_word, bend in *; lia). rewrite PQ.
  assert (PR : wrap (b_size b - pad) = b_size b - pad) by (apply wrap_id; unfold is_word, bend in *; lia). rewrite PR.
  rewrite E. rewrite add_new_ok; [|rewrite <- E; exact CH|unfold bend in *; lia|unfold bend in *; lia].
  destruct (o_new1 o) eqn:N1.
  2:{ exists ERR_OUT_OF_HOST_MEMORY, (b_data b), c. eexists. exists l1, b, l2, (free_blocks c).
      split; [reflexivity|]. split; [reflexivity|]. apply SELF; [reflexivity|discriminate|intros _ X; discriminate]. }
  rewrite J.
  set (n1 := Block (b_data b) pad false false). set (n2 := Block (b_data b + pad) (b_size b - pad) false false).
  rewrite E in C. pose proof (core_split2 l1 b l2 (free_blocks c) pad false false C L ltac:(unfold bend in *; lia)) as C1.
  assert (UP : upd (set_all c (l1 ++ b :: n2 :: l2)) (b_data b) (fun b0 => with_size pad (with_used false b0)) = put c (l1 ++ n1 :: n2 :: l2) (free_blocks c)).
  { unfold upd. cbn [all_blocks set_all].
    rewrite update_mid; [| |reflexivity].
    - unfold with_size, with_used. cbn. rewrite L. reflexivity.
    - apply (chain_mid l1 n1 (n2 :: l2) 1). exact (core_chain _ _ C1). }
  rewrite UP.
  destruct (add_ok (put c (l1 ++ n1 :: n2 :: l2) (free_blocks c)) l1 n1 (n2 :: l2) (o_add1 o) C1 eq_refl eq_refl eq_refl O1) as [(fr' & A & C2)|(A & HD)];
    change (b_data n1) with (b_data b) in A; rewrite A; cbn [negb].
  - unfold assert_fails. destruct (Z.leb_spec size (b_size b - pad)) as [_|X]; [|unfold bend in *; lia]. cbn [negb]. rewrite andb_false_r.
    exists SUCCESS, (b_data b + pad). eexists. eexists. exists (l1 ++ [with_listed true n1]), n2, l2, fr'.
    split; [reflexivity|]. split; [reflexivity|]. split.
    + rewrite <- app_assoc. reflexivity.
    + rewrite <- app_assoc. exact C2.
    + auto.
    + rewrite <- app_assoc. cbn [app].
      change (l1 ++ b :: l2) with (l1 ++ [b] ++ l2). change (l1 ++ with_listed true n1 :: n2 :: l2) with (l1 ++ [with_listed true n1; n2] ++ l2).
      apply sm_app; [apply sm_refl|]. apply sm_app; [|apply sm_refl]. apply sm_sym.
      apply sm_free2; cbn; try reflexivity; try assumption; unfold bend in *; cbn; lia.
    + intros _ X1 X2. split; [|exact X2]. apply nolost_app. split; [exact X1|]. apply nolost_cons. split; [reflexivity|]. intros ? [].
    + intros X. split; [eapply noadj_left; [exact X|exact U|reflexivity]|]. apply noadj_app in X. destruct X as (_ & X & _). cbn [noadj] in X. tauto.
    + intros _. split; [replace (b_data b + pad) with q by lia; exact Q3|].
      split; [unfold bend; cbn; lia|]. split; [reflexivity|]. right. exists pad. repeat split; try lia; unfold bend in *; cbn; lia.
    + reflexivity.
    + intros X; contradiction.
  - exists ERR_OUT_OF_HOST_MEMORY, (b_data b). eexists. eexists. exists l1, n1, (n2 :: l2), (free_blocks c).
    split; [reflexivity|]. split; [reflexivity|]. split.
    + reflexivity.
    + exact C1.
    + auto.
    + change (l1 ++ b :: l2) with (l1 ++ [b] ++ l2). change (l1 ++ n1 :: n2 :: l2) with (l1 ++ [n1; n2] ++ l2).
      apply sm_app; [apply sm_refl|]. apply sm_app; [|apply sm_refl]. apply sm_sym.
      apply sm_free2; cbn; try reflexivity; try assumption; unfold bend in *; cbn; lia.
    + intros D. destruct (OD D). congruence.
    + intros X. split; [apply noadj_app in X; tauto|]. eapply noadj_right; [exact X|exact U|unfold bend; cbn; lia].
    + discriminate.
    + intros _ _ (X & _). congruence.
    + intros _. right. exact HD.
Qed.

Lemma split_cur_ok : forall c l1 b l2 size o,
  Core (all_blocks c) (free_blocks c) -> all_blocks c = l1 ++ b :: l2 ->
  b_used b = false -> b_listed b = false -> 0 < size < b_size b -> both (o_add2 o) ->
  exists r c' ev, split_current_block dbg c (b_data b) size o = Some (r, c', ev) /\ asks ev = [] /\
    ((r = SUCCESS /\ exists fr', c' = put c (l1 ++ b :: Block (b_data b + size) (b_size b - size) false true :: l2) fr' /\
        Core (l1 ++ Block (b_data b) size false false :: Block (b_data b + size) (b_size b - size) false true :: l2) fr') \/
     (r <> SUCCESS /\ c' = c /\ ~ (o_split2 o = SUCCESS /\ o_new2 o = true))).
Proof.
  intros c l1 b l2 size o C E U L S (O1 & O2). pose proof (core_chain _ _ C) as CH.
  assert (IB : In b (all_blocks c)) by (rewrite E; apply in_or_app; right; left; reflexivity).
  pose proof (bend_word _ 1 b CH ltac:(lia) IB) as (B1 & B2 & B3).
  unfold split_current_block. rewrite (find_here c l1 b l2 CH E).
  destruct (result_cases (o_split2 o)) as [S1|S1].
  2:{ exists (o_split2 o), c, [EvSplit (b_data b) (b_size b) size (o_split2 o)].
      split; [destruct (o_split2 o); try reflexivity; contradiction|]. split; [reflexivity|]. right.
      repeat split; [exact S1|]. intros (X & _); contradiction. }
  rewrite S1.
  assert (PQ : wrap (b_data b + size) = b_data b + size) by (apply wrap_id; unfold is_word, bend in *; lia). rewrite PQ.
  assert (PR : wrap (b_size b - size) = b_size b - size) by (apply wrap_id; unfold is_word, bend in *; lia). rewrite PR.
  rewrite E. rewrite add_new_ok; [|rewrite <- E; exact CH|lia|lia].
  destruct (o_new2 o) eqn:N2.
  2:{ eexists _, c, _. split; [reflexivity|]. split; [reflexivity|]. right. repeat split; [discriminate|]. intros (_ & X); discriminate. }
  set (n := Block (b_data b + size) (b_size b - size) false false).
  rewrite E in C. pose proof (core_split2 l1 b l2 (free_blocks c) size false false C L S) as C1.
  set (c1 := set_all c (l1 ++ b :: n :: l2)).
  destruct (add_gen c1 (l1 ++ [b]) n l2 (o_add2 o) (l1 ++ [Block (b_data b) size false false]) l2) as [(fr' & A & C2)|(A & HD)].
  - rewrite <- app_assoc. exact C1.
  - rewrite <- app_assoc. reflexivity.
  - cbn [b_data n]. destruct (chain_between _ _ _ _ (b_data b + size) (core_chain _ _ C) ltac:(unfold bend; lia)) as (M1 & M2).
    split; [|exact M2]. intros x I. apply in_app_or in I. destruct I as [I|[<-|[]]]; [exact (M1 _ I)|lia].
  - reflexivity.
  - reflexivity.
  - exact O2.
  - change (b_data n) with (b_data b + size) in A. rewrite A. eexists SUCCESS, _, _.
    split; [reflexivity|]. split; [reflexivity|]. left. split; [reflexivity|]. exists fr'.
    rewrite <- app_assoc in *. split; [reflexivity|exact C2].
  - rewrite HD in O1. discriminate.
Qed.

Record served (c : coarse) (size al : Z) (q : Z) (c' : coarse) (m1 m2 : list block) (fr' : list (Z * list Z)) : Prop := {
  sv_st : c' = set_used (put c (m1 ++ Block q size true false :: m2) fr') (wrap (used_size c + size));
  sv_core : Core (m1 ++ Block q size true false :: m2) fr';
  sv_used : used_keys (all_blocks c) = used_keys m1 ++ used_keys m2;
  sv_sum : sum_sizes (m1 ++ Block q size true false :: m2) = sum_sizes (all_blocks c);
  sv_cover : forall x, covered (m1 ++ Block q size true false :: m2) x <-> covered (all_blocks c) x;
  sv_align : q mod al = 0;
  sv_lost : class_ok w = true -> nolost m1 /\ nolost m2;
  sv_adj : noadj (all_blocks c) -> noadj m1 /\ noadj m2 }.

(* the parameters fixed at creation *)
Definition cfg (c : coarse) := (page_size c, strat c, has_alloc c, has_free c).

(* the block-list part of a successful use of a free block *)
Lemma serve : forall l1 b l2 size fr u,
  Core (l1 ++ b :: l2) fr -> b_listed b = false -> b_used b = false -> b_size b = size ->
  u = Block (b_data b) size true false ->
  Core (l1 ++ u :: l2) fr /\ used_keys (l1 ++ b :: l2) = used_keys l1 ++ used_keys l2 /\
  sum_sizes (l1 ++ u :: l2) = sum_sizes (l1 ++ b :: l2) /\ (forall x, covered (l1 ++ u :: l2) x <-> covered (l1 ++ b :: l2) x).
Proof.
  intros l1 b l2 size fr u C L U S ->. subst size.
  assert (E : Block (b_data b) (b_size b) true false = with_used true b) by (unfold with_used; rewrite L; reflexivity).
  rewrite E. split; [apply core_flag; assumption|]. split; [rewrite used_app, used_cons_false by exact U; reflexivity|].
  split; [rewrite !sum_app, !sum_cons; reflexivity|]. intros x. rewrite !covered_app, !covered_cons. unfold bend. cbn. tauto.
Qed.

Lemma back_ok : forall c v l1 b l2 fr o, Inv weak c v -> same_mem (all_blocks c) (l1 ++ b :: l2) -> Core (l1 ++ b :: l2) fr ->
  b_used b = false -> b_listed b = false -> o_elem (o_back o) = true -> (class_ok w = true -> both (o_back o)) ->
  (class_ok w = true -> nolost l1 /\ nolost l2) -> (merges w = true -> noadj l1 /\ noadj l2) -> agrees w o ->
  exists ok c' ev, free_blocks_re_add dbg (put c (l1 ++ b :: l2) fr) (b_data b) o = Some (ok, c', ev) /\ asks ev = [] /\ Inv w c' v /\ cfg c' = cfg c.
Proof.
  intros c v l1 b l2 fr o I SM C U L O OD NL NA AG.
  destruct (re_add_ok dbg (put c (l1 ++ b :: l2) fr) l1 b l2 o C eq_refl L U O)
    as (ok & c' & ev & m1 & m2 & lo & hi & fr' & -> & AS & LP & RP & HD & -> & C').
  exists ok. eexists _, ev. split; [reflexivity|]. split; [exact AS|].
  split; [|reflexivity]. rewrite put_put. apply (inv_same weak).
  - exact I.
  - eapply sm_trans; [exact SM|]. eapply re_add_mem; [exact (core_chain _ _ C)|exact U|exact LP|exact RP].
  - exact C'.
  - intros D. destruct (NL D) as (N1 & N2). eapply re_add_lost; [exact N1|exact N2| |exact LP|exact RP].
    destruct ok; [reflexivity|]. specialize (HD eq_refl). destruct (OD D). congruence.
  - intros M. destruct (NA M) as (N1 & N2). destruct (AG M) as (A1 & A2). rewrite A1 in LP. rewrite A2 in RP. exact (re_add_adj _ _ _ _ _ _ _ ok N1 N2 LP RP).
Qed.

Lemma use_ok : forall c v l1 b l2 size al o,
  Inv weak c v -> all_blocks c = l1 ++ b :: l2 ->
  b_used b = false -> b_listed b = false -> pow2 al -> 0 < size <= b_size b ->
  (b_data b mod al = 0 \/ size + al <= b_size b) ->
  (class_ok w = true -> nolost l1 /\ nolost l2) -> (merges w = true -> noadj (all_blocks c)) -> agrees w (o_re o) ->
  o_junk o = false -> o_elem (o_add1 o) = true -> both (o_add2 o) -> o_elem (o_back (o_re o)) = true ->
  (class_ok w = true -> both (o_add1 o) /\ both (o_back (o_re o))) ->
  exists r0, use_block dbg c size al (b_data b) o = finish dbg r0 /\ asks (r_ev r0) = [] /\
    ((r_res r0 = SUCCESS /\ exists q m1 m2 fr', r_ptr r0 = Some q /\ served c size al q (r_st r0) m1 m2 fr') \/
     (r_res r0 <> SUCCESS /\ Inv w (r_st r0) v /\ cfg (r_st r0) = cfg c /\
        ~ (o_split1 o = SUCCESS /\ o_new1 o = true /\ both (o_add1 o) /\ o_split2 o = SUCCESS /\ o_new2 o = true))).
Proof.
  intros c v l1 b l2 size al o I E U L P S H NL NA AG J O1 O2 O3 OD.
  pose proof (i_core _ _ _ I) as C. pose proof (core_chain _ _ C) as CH.
  unfold use_block. rewrite (find_here c l1 b l2 CH E), U. unfold assert_fails at 1. cbn [negb]. rewrite andb_false_r.
  pose proof (pow2_range _ P) as R. destruct (Z.gtb_spec al 0) as [_|X]; [|lia].
  destruct (create_ok c l1 b l2 size al o C E U L P S H J O1 (fun d => proj1 (OD d)))
    as (r1 & q & c1 & ev1 & l1' & b' & l2' & fr1 & -> & OB1 & CR).
  destruct CR as [K1 K2 (K3 & K4 & K5) K6 K7 K11 K8 K9 K10]. rewrite <- E in K11.
  assert (NA' : merges w = true -> noadj l1' /\ noadj l2') by (intros D; apply K11, NA, D).
  assert (NL' : class_ok w = true -> nolost l1' /\ nolost l2') by (intros D; destruct (NL D); apply K7; assumption).
  rewrite <- E in K6.
  destruct (result_cases r1) as [R1|R1].
  2:{ destruct (back_ok c v l1' b' l2' fr1 (o_re o) I K6 K2 K4 K5 O3 (fun d => proj2 (OD d)) NL' NA' AG) as (ok & c3 & ev3 & RA & A3 & I3 & G3).
      rewrite K3 in RA. rewrite <- K1 in RA. rewrite RA.
      exists (Reply r1 None (ev1 ++ ev3) c3). cbn [r_ev r_res r_st].
      split; [destruct r1; try reflexivity; contradiction|]. split; [rewrite asks_app, OB1, A3; reflexivity|]. right.
      split; [exact R1|]. split; [exact I3|]. split; [exact G3|]. intros (X1 & X2 & X3 & _). apply R1. apply K9; assumption. }
  subst r1. destruct (K8 eq_refl) as (Q1 & Q2 & Q3 & Q4). subst l2'.
  assert (SB : size <= b_size b' /\ (b_size b > size <-> b_size b' > size)).
  { clear - Q4 S R. destruct Q4 as [(-> & ->)|(pad & ? & -> & ? & ? & ?)]; lia. }
  destruct SB as (SB1 & SB2).
  destruct (Z.gtb_spec (b_size b) size) as [G|G].
  - destruct (split_cur_ok c1 l1' b' l2 size o) as (r2 & c2 & ev2 & SP & A2 & D).
    { rewrite K1. exact K2. } { rewrite K1. reflexivity. } { exact K4. } { exact K5. } { clear - SB2 G S. lia. } { exact O2. }
    rewrite K3 in SP. rewrite SP.
    destruct D as [(-> & fr2 & -> & C2)|(N2 & -> & N3)].
    + set (u := Block (b_data b' + size) (b_size b' - size) false true) in *.
      rewrite K1. rewrite put_put.
      assert (UP : upd (upd (put c (l1' ++ b' :: u :: l2) fr2) q (with_size size)) q (with_used true)
                   = put c (l1' ++ Block q size true false :: u :: l2) fr2).
      { assert (M : mid l1' q (u :: l2)).
        { rewrite <- K3. exact (chain_mid _ _ _ _ (core_chain _ _ C2)). }
        unfold upd at 2. cbn [all_blocks put]. rewrite (update_mid _ _ _ _ _ M K3). unfold upd. cbn [all_blocks set_all].
        rewrite (update_mid _ _ _ _ _ M) by exact K3. unfold with_size, with_used, set_all, put; cbn. rewrite K5, K3. reflexivity. }
      eexists (Reply SUCCESS (Some q) (ev1 ++ ev2) _). cbn [r_ev r_res r_st r_ptr].
      split; [reflexivity|]. split; [rewrite asks_app, OB1, A2; reflexivity|]. left. split; [reflexivity|].
      exists q, l1', (u :: l2), fr2. split; [reflexivity|].
      destruct (serve l1' (Block (b_data b') size false false) (u :: l2) size fr2 (Block q size true false) C2 eq_refl eq_refl eq_refl)
        as (V1 & V2 & V3 & V4); [cbn; rewrite K3; reflexivity|].
      assert (SM : same_mem (all_blocks c) (l1' ++ Block (b_data b') size false false :: u :: l2)).
      { eapply sm_trans; [exact K6|]. change (l1' ++ b' :: l2) with (l1' ++ [b'] ++ l2).
        change (l1' ++ Block (b_data b') size false false :: u :: l2) with (l1' ++ [Block (b_data b') size false false; u] ++ l2).
        apply sm_app; [apply sm_refl|]. apply sm_app; [|apply sm_refl]. apply sm_sym.
        apply sm_free2; cbn; try reflexivity; try assumption; unfold bend; cbn; clear - SB1 SB2 G S; lia. }
      destruct SM as [M1 M2 M3]. split.
      * rewrite UP. reflexivity.
      * exact V1.
      * rewrite <- M1. exact V2.
      * rewrite V3. exact M2.
      * intros x. rewrite V4. apply M3.
      * exact Q1.
      * intros D. destruct (NL' D) as (N1 & N2). split; [exact N1|]. apply nolost_cons. split; [reflexivity|exact N2].
      * intros X. split; [exact (proj1 (K11 X))|]. rewrite E in X. eapply noadj_right; [exact X|exact U|]. rewrite <- Q2. unfold bend; cbn; clear; lia.
    + destruct (back_ok c v l1' b' l2 fr1 (o_re o) I K6 K2 K4 K5 O3 (fun d => proj2 (OD d)) NL' NA' AG) as (ok & c3 & ev3 & RA & A3 & I3 & G3).
      rewrite K3 in RA. rewrite <- K1 in RA. rewrite RA.
      exists (Reply r2 None (ev1 ++ ev2 ++ ev3) c3). cbn [r_ev r_res r_st].
      split; [destruct r2; try reflexivity; contradiction|]. split; [rewrite !asks_app, OB1, A2, A3; reflexivity|]. right.
      split; [exact N2|]. split; [exact I3|]. split; [exact G3|]. intros (_ & _ & _ & X). exact (N3 X).
  - assert (SE : b_size b' = size) by (clear - G SB1 SB2; lia).
    eexists (Reply SUCCESS (Some q) (ev1 ++ []) _). cbn [r_ev r_res r_st r_ptr].
    split; [reflexivity|]. split; [rewrite asks_app, OB1; reflexivity|]. left. split; [reflexivity|].
    exists q, l1', l2, fr1. split; [reflexivity|].
    destruct (serve l1' b' l2 size fr1 (Block q size true false) K2 K5 K4 SE) as (V1 & V2 & V3 & V4); [rewrite K3; reflexivity|].
    destruct K6 as [M1 M2 M3]. split.
    * rewrite K1. unfold upd. cbn [all_blocks put].
      rewrite update_mid; [| |exact K3].
      -- unfold with_used. rewrite K3, SE, K5. reflexivity.
      -- rewrite <- K3. exact (chain_mid _ _ _ _ (core_chain _ _ K2)).
    * exact V1.
    * rewrite <- M1. exact V2.
    * rewrite V3. exact M2.
    * intros x. rewrite V4. apply M3.
    * exact Q1.
    * exact NL'.
    * exact K11.
Qed.

Lemma served_inv : forall c v size al q c' m1 m2 fr', Inv weak c v -> (merges w = true -> noadj (all_blocks c)) -> served c size al q c' m1 m2 fr' ->
  Inv w c' (View (upd_live (live v) q (Some size)) (given v)) /\ live v q = None /\
  cfg c' = cfg c /\ (forall x, q <= x < q + size -> within_given v x).
Proof.
  intros c v size al q c' m1 m2 fr' IW NA SV. destruct IW as [I1 I2 I3 I4 I5 I6 I7 I8 I9]. destruct SV as [S1 S2 S3 S4 S5 S6 S7 S8].
  pose proof (chain_mid _ _ _ _ (core_chain _ _ S2)) as M. cbn [b_data] in M.
  destruct (live_insert (live v) m1 m2 q size M) as (L1 & L2).
  { intros p n. rewrite I5, S3. reflexivity. }
  pose proof (used_le _ _ S2) as B.
  assert (UK : ksum (used_keys (m1 ++ Block q size true false :: m2)) = used_size c + size).
  { rewrite used_app, used_cons_true by reflexivity. rewrite ksum_app. cbn [ksum key snd b_size]. rewrite I3, S3, ksum_app. lia. }
  split; [|split; [exact L1|split]].
  - subst c'. split; cbn [page_size all_blocks free_blocks used_size alloc_size set_used put live given]; try assumption.
    + rewrite UK. apply wrap_id. unfold is_word. lia.
    + rewrite S4. exact I4.
    + intros x. rewrite S5. apply I6.
    + intros D. destruct (S7 D). apply nolost_app. split; [assumption|]. apply nolost_cons. split; [discriminate|assumption].
    + intros M'. destruct (S8 (NA M')). apply noadj_used; [reflexivity|assumption|assumption].
  - subst c'. reflexivity.
  - intros x X. apply I6, S5. rewrite covered_app, covered_cons. right; left. unfold bend; cbn. exact X.
Qed.

Lemma add_used_ok : forall d c v p n (okb : bool), Inv d c v -> fresh_region v p n ->
  if okb then
    exists c', coarse_add_used_block dbg c p n true = Some (SUCCESS, c') /\
      Inv d c' (View (upd_live (live v) p (Some n)) (given v ++ [(p, n)])) /\ live v p = None /\ cfg c' = cfg c
  else coarse_add_used_block dbg c p n false = Some (ERR_OUT_OF_HOST_MEMORY, c).
Proof.
  intros d c v p n okb [I1 I2 I3 I4 I5 I6 I7 I8 I9] (F1 & F2 & F3 & F4).
  unfold coarse_add_used_block, coarse_ravl_add_new, assert_fails.
  destruct (chain_insert (all_blocks c) 1 p n true false (core_chain _ _ I2) ltac:(lia) F2 F3) as (l1 & l2 & E & M & CH).
  { intros x X Y. apply I6 in Y. destruct Y as (r & Ir & Y). apply (F4 _ Ir x X Y). }
  rewrite E. rewrite (find_none_mid _ _ _ M).
  destruct (Z.eqb_spec p 0); [lia|]. destruct (Z.eqb_spec n 0); [lia|]. cbn [negb]. rewrite !andb_false_r. cbn [orb].
  destruct okb; cbn [negb]; [|reflexivity]. rewrite insert_mid by exact M.
  rewrite E in *.
  assert (C' : Core (l1 ++ Block p n true false :: l2) (free_blocks c)).
  { destruct I2 as [C1 C2 C3 C4]. split; [exact CH|exact C2| |].
    - rewrite C3, !listed_app. rewrite (listed_false (Block p n true false)) by reflexivity. reflexivity.
    - intros x I LX. apply in_app_or in I. destruct I as [I|[<-|I]]; [|discriminate|]; apply C4; try assumption; apply in_or_app; tauto. }
  pose proof (used_le _ _ C') as B.
  destruct (live_insert (live v) l1 l2 p n M) as (L1 & L2).
  { intros q m. rewrite I5, used_app. reflexivity. }
  assert (SS : sum_sizes (l1 ++ Block p n true false :: l2) = alloc_size c + n).
  { rewrite I4, !sum_app, sum_cons. cbn [b_size]. lia. }
  assert (UK : ksum (used_keys (l1 ++ Block p n true false :: l2)) = used_size c + n).
  { rewrite used_app, used_cons_true by reflexivity. rewrite I3, used_app, !ksum_app. cbn [ksum key snd b_size]. lia. }
  pose proof (used_le _ _ I2) as B0.
  eexists. split; [reflexivity|]. split; [|split; [exact L1|reflexivity]].
  split; cbn [page_size all_blocks free_blocks used_size alloc_size set_used set_alloc set_all live given]; try assumption.
  - rewrite UK. apply wrap_id. unfold is_word. lia.
  - rewrite SS. apply wrap_id. unfold is_word. lia.
  - intros x. unfold within_given. cbn [given]. rewrite covered_app, covered_cons. unfold bend; cbn [b_data b_size].
    pose proof (I6 x) as I6x. rewrite covered_app in I6x. unfold within_given in I6x.
    split.
    + intros [A|[A|A]].
      * destruct (proj1 I6x (or_introl A)) as (r & R1 & R2). exists r. split; [apply in_or_app; left; exact R1|exact R2].
      * exists (p, n). split; [apply in_or_app; right; left; reflexivity|exact A].
      * destruct (proj1 I6x (or_intror A)) as (r & R1 & R2). exists r. split; [apply in_or_app; left; exact R1|exact R2].
    + intros (r & R1 & R2). apply in_app_or in R1. destruct R1 as [R1|[<-|[]]].
      * destruct (proj2 I6x (ex_intro _ r (conj R1 R2))); tauto.
      * right; left; exact R2.
  - rewrite ksum_app. cbn [ksum snd]. rewrite <- I7. rewrite <- SS, Z.add_0_r. rewrite SS. apply wrap_id. unfold is_word. lia.
  - intros D. specialize (I8 D). apply nolost_app in I8. apply nolost_app. split; [tauto|]. apply nolost_cons. split; [discriminate|tauto].
  - intros D. specialize (I9 D). apply noadj_app in I9. apply noadj_used; [reflexivity|tauto|tauto].
Qed.

Definition alloc_facts (c : coarse) (v : view) (size al : Z) (o : alloc_oracle) (r : reply) : Prop :=
  (r_res r = SUCCESS -> exists p a, r_ptr r = Some p /\ effective_alignment (page_size c) al = Some a /\ p mod a = 0 /\
     live v p = None /\
     ((asks (r_ev r) = [] /\ forall x, p <= x < p + size -> within_given v x) \/ obtained (r_ev r) = [(p, size)])) /\
  (forall a, effective_alignment (page_size c) al = Some a -> fits c size a ->
     asks (r_ev r) = [] /\
     (o_split1 o = SUCCESS -> o_new1 o = true -> both (o_add1 o) -> o_split2 o = SUCCESS -> o_new2 o = true -> r_res r = SUCCESS)) /\
  (effective_alignment (page_size c) al = None -> r = Reply ERR_INVALID_ALIGNMENT None [] c).

Lemma inv_weaken : forall d c v, Inv d c v -> Inv weak c v.
Proof. intros d c v [I1 I2 I3 I4 I5 I6 I7 I8 I9]. split; try assumption; discriminate. Qed.

Lemma finish_ok : forall r v, Inv w (r_st r) v -> finish dbg r = Some r.
Proof. intros r v I. unfold finish. rewrite (inv_check _ _ _ _ DS I). reflexivity. Qed.

Lemma finish_st : forall res p ev c v, Inv w c v -> finish dbg (Reply res p ev c) = Some (Reply res p ev c).
Proof. intros res p ev c v I. exact (finish_ok (Reply res p ev c) v I). Qed.

Lemma more_ok : forall c v size al a o, Inv w c v -> alloc_env w (page_size c) v size al o ->
  effective_alignment (page_size c) al = Some a -> pow2 a ->
  exists r, alloc_more dbg c size a o = Some r /\ Inv w (r_st r) (observe v (CAlloc size al o) r) /\ cfg (r_st r) = cfg c /\
  (r_res r = SUCCESS -> exists p, r_ptr r = Some p /\ p mod a = 0 /\ live v p = None /\ obtained (r_ev r) = [(p, size)]).
Proof.
  intros c v size al a o I (S & W & J & O1 & O2 & O3 & OD & AG & CB) EA P. unfold alloc_more.
  destruct (has_alloc c); cbn [negb].
  2:{ rewrite (finish_st _ _ _ _ v I). eexists. split; [reflexivity|]. cbn [r_st r_res observe]. repeat (split; [exact I || reflexivity|]). discriminate. }
  destruct (o_cb o) as [r p] eqn:OC. destruct (result_cases r) as [->|NR].
  - destruct (CB p eq_refl) as (FR & AL). specialize (AL _ EA).
    unfold assert_fails. rewrite (align_test _ _ P), AL. cbn [Z.eqb negb]. rewrite andb_false_r.
    pose proof (add_used_ok w c v p size (o_newb o) I FR) as A. destruct (o_newb o).
    + destruct A as (c' & -> & I' & L & PG). rewrite (finish_st _ _ _ _ _ I'). eexists. split; [reflexivity|].
      split; [exact I'|]. split; [exact PG|]. intros _. exists p. repeat split; assumption.
    + rewrite A. rewrite (finish_st _ _ _ _ v I). eexists. split; [reflexivity|]. split; [exact I|]. split; [reflexivity|]. discriminate.
  - exists (Reply r (Some p) [EvAlloc size a r p] c). split.
    { destruct r; try contradiction; rewrite (finish_st _ _ _ _ v I); reflexivity. }
    split; [|split; [reflexivity|intros X; contradiction]]. unfold observe; cbn [r_res r_st]. destruct r; try exact I; contradiction.
Qed.

Lemma alloc_ok : forall c v size al o, Inv w c v -> alloc_env w (page_size c) v size al o ->
  exists r, coarse_alloc dbg c size al o = Some r /\ Inv w (r_st r) (observe v (CAlloc size al o) r) /\
    cfg (r_st r) = cfg c /\ alloc_facts c v size al o r.
Proof.
  intros c v size al o I EV. pose proof EV as (S & W & J & O1 & O2 & O3 & OD & AG & CB).
  unfold coarse_alloc, alloc_facts. destruct (effective_alignment (page_size c) al) as [a|] eqn:EA.
  2:{ eexists. split; [reflexivity|]. cbn [r_st r_res r_ev]. split; [exact I|]. split; [reflexivity|]. split; [discriminate|].
      split; [discriminate|reflexivity]. }
  destruct (effective_ok _ _ _ (i_page _ _ _ I) W EA) as (P & AP & _).
  rewrite (inv_check _ _ _ _ DS I).
  destruct (find_ok c size a (i_core _ _ _ I) S P) as (x & c1 & -> & F & FN).
  destruct x as [p|].
  - destruct F as (l1 & b & l2 & fr' & E & E1 & E2 & E3 & E4 & E5 & -> & C1).
    set (b0 := with_listed false b) in *. set (c1 := put c (l1 ++ b0 :: l2) fr') in *.
    assert (I1 : Inv weak c1 v).
    { apply (inv_same w); [exact I| |exact C1|discriminate|discriminate]. rewrite E. change (l1 ++ b :: l2) with (l1 ++ [b] ++ l2).
      change (l1 ++ b0 :: l2) with (l1 ++ [b0] ++ l2). apply sm_app; [apply sm_refl|]. apply sm_app; [|apply sm_refl].
      apply sm_free1; try reflexivity; exact E3. }
    assert (NA1 : merges w = true -> noadj (all_blocks c1)).
    { intros D. pose proof (i_adj _ _ _ I D) as N. rewrite E in N. apply (noadj_same l1 b b0 l2); try reflexivity. exact N. }
    assert (FB : find_block (all_blocks c1) p = Some b0).
    { rewrite <- E1. change (b_data b) with (b_data b0). apply (find_here c1 l1 b0 l2); [exact (core_chain _ _ C1)|reflexivity]. }
    rewrite FB. change (b_size b0) with (b_size b). destruct (Z.leb_spec size (b_size b)) as [_|X]; [|lia].
    destruct (use_ok c1 v l1 b0 l2 size a o I1 eq_refl E3 eq_refl P) as (r & UB & AS & D); try assumption.
    { change (b_size b0) with (b_size b). lia. }
    { change (b_data b0) with (b_data b). rewrite E1. exact E5. }
    { intros D. pose proof (i_lost _ _ _ I D) as NL. rewrite E in NL. apply nolost_app in NL. destruct NL as (N1 & N2).
      apply nolost_cons in N2. tauto. }
    change (b_data b0) with (b_data b) in UB. rewrite E1 in UB. rewrite UB.
    destruct D as [(RS & q & m1 & m2 & fr2 & RP & SV)|(RS & I' & PG & NF)].
    + destruct (served_inv _ _ _ _ _ _ _ _ _ I1 NA1 SV) as (I' & L & PG & WG).
      rewrite (finish_ok _ _ I'). exists r. split; [reflexivity|].
      assert (OE : observe v (CAlloc size al o) r = View (upd_live (live v) q (Some size)) (given v)).
      { unfold observe. rewrite RS, RP, (asks_obtained _ AS), app_nil_r. reflexivity. }
      rewrite OE. split; [exact I'|]. split; [exact PG|]. split; [|split; [|discriminate]].
      * intros _. exists q, a. repeat split; try assumption. { exact (sv_align _ _ _ _ _ _ _ _ SV). } left. split; assumption.
      * intros _ _ _. split; [exact AS|]. intros; exact RS.
    + rewrite (finish_ok _ _ I'). exists r. split; [reflexivity|].
      assert (OE : observe v (CAlloc size al o) r = v) by (unfold observe; destruct (r_res r); try reflexivity; contradiction).
      rewrite OE. split; [exact I'|]. split; [exact PG|].
      split; [intros X; contradiction|]. split; [|discriminate].
      intros _ _ _. split; [exact AS|]. intros X1 X2 X3 X4 X5. destruct NF. repeat split; assumption || apply X3.
  - cbn [found] in F. subst c1.
    destruct (more_ok c v size al a o I EV EA P) as (r & -> & I' & PG & FC). exists r. split; [reflexivity|].
    split; [exact I'|]. split; [exact PG|]. split; [|split; [|discriminate]].
    + intros X. destruct (FC X) as (p & A1 & A2 & A3 & A4). exists p, a. repeat split; try assumption. right; exact A4.
    + intros a' [= <-] X. destruct (FN eq_refl X).
Qed.
End Alloc.
