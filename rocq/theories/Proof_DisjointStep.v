(* Preservation of the invariant by the steps of the disjoint pool. *)
From Verif Require Import Base Model_Utils Spec_Utils Proof_Utils Model_Disjoint Spec_Disjoint Proof_DisjointClass Proof_DisjointBits Proof_Disjoint.
From Coq Require Import Permutation.
Local Opaque bucket_table.

(* ---- lists of a bucket ---- *)
Section Lists.
Variables (slabs : list slab) (x : Z) (sl sl' : slab) (b : bucket).
Hypothesis (H : lk slabs x = Some sl) (M : s_mem sl' = x) (B : s_bucket sl' = s_bucket sl) (T : s_total sl' = s_total sl).
Lemma look : forall y, lk (set_slab sl' slabs) y = if y =? x then Some sl' else lk slabs y.
Proof. intros y. rewrite (lk_set_eq _ _ _ sl); rewrite M; [reflexivity|exact H]. Qed.
Lemma lists_other : forall j, lists_ok slabs j b -> (j <> s_bucket sl \/ (s_alloc sl < s_total sl /\ s_alloc sl' < s_total sl')) -> lists_ok (set_slab sl' slabs) j b.
Proof.
  intros j (N1 & N2 & A & U) OR. split; [exact N1|]. split; [exact N2|]. split; intros y.
  - rewrite A, look. destruct (Z.eqb_spec y x) as [->|NE]; [|reflexivity]. rewrite H. split; intros (z & Z1 & Z2 & Z3); injection Z1 as <-; eexists; (split; [reflexivity|]); destruct OR as [OR|OR]; intuition congruence.
  - rewrite U, look. destruct (Z.eqb_spec y x) as [->|NE]; [|reflexivity]. rewrite H. split; intros (z & Z1 & Z2 & Z3); injection Z1 as <-; eexists; (split; [reflexivity|]); destruct OR as [OR|OR]; try (exfalso; clear - OR Z3 Z2 B; intuition congruence); lia.
Qed.
Lemma lists_full : lists_ok slabs (s_bucket sl) b -> s_alloc sl < s_total sl -> s_alloc sl' = s_total sl' ->
  lists_ok (set_slab sl' slabs) (s_bucket sl) (Bucket (b_size b) (dl_delete x (b_avail b)) (x :: b_unavail b) (b_inpool b)).
Proof.
  intros (N1 & N2 & A & U) L F. split; [apply nodup_filter; exact N1|]. split.
  - cbn. constructor; [|exact N2]. rewrite U. rewrite H. intros (z & Z1 & _ & Z3). injection Z1 as <-. lia.
  - cbn [b_avail b_unavail]. split; intros y.
    + rewrite in_dl, A, look. destruct (Z.eqb_spec y x) as [->|NE]; [|tauto]. split; [tauto|]. intros (z & Z1 & _ & Z3). injection Z1 as <-. lia.
    + cbn [In]. rewrite U, look. destruct (Z.eqb_spec y x) as [->|NE].
      * split; [intros _; exists sl'; auto|auto].
      * split; [intros [X|X]; [congruence|exact X]|auto].
Qed.
Lemma lists_unfull : lists_ok slabs (s_bucket sl) b -> s_alloc sl = s_total sl -> s_alloc sl' < s_total sl' ->
  lists_ok (set_slab sl' slabs) (s_bucket sl) (Bucket (b_size b) (x :: b_avail b) (dl_delete x (b_unavail b)) (b_inpool b)).
Proof.
  intros (N1 & N2 & A & U) L F. split.
  - cbn. constructor; [|exact N1]. rewrite A. rewrite H. intros (z & Z1 & _ & Z3). injection Z1 as <-. lia.
  - split; [apply nodup_filter; exact N2|]. cbn [b_avail b_unavail]. split; intros y.
    + cbn [In]. rewrite A, look. destruct (Z.eqb_spec y x) as [->|NE].
      * split; [intros _; exists sl'; auto|auto].
      * split; [intros [X|X]; [congruence|exact X]|auto].
    + rewrite in_dl, U, look. destruct (Z.eqb_spec y x) as [->|NE]; [|tauto]. split; [tauto|]. intros (z & Z1 & _ & Z3). injection Z1 as <-. lia.
Qed.
Lemma lists_gone : forall j, lists_ok slabs j b -> s_alloc sl < s_total sl ->
  lists_ok (filter (fun y => negb (s_mem y =? x)) slabs) j (if Nat.eqb j (s_bucket sl) then Bucket (b_size b) (dl_delete x (b_avail b)) (b_unavail b) (b_inpool b) else b).
Proof.
  clear M B T sl'. intros j (N1 & N2 & A & U) L.
  assert (UN : forall y, In y (b_unavail b) <-> exists z, lk (filter (fun y => negb (s_mem y =? x)) slabs) y = Some z /\ s_bucket z = j /\ s_alloc z = s_total z).
  { intros y. rewrite U, lk_filter. destruct (Z.eqb_spec y x) as [->|NE]; [|reflexivity]. rewrite H. split; [intros (z & Z1 & _ & Z3); injection Z1 as <-; lia|intros (z & Z1 & _); discriminate]. }
  destruct (Nat.eqb_spec j (s_bucket sl)) as [->|NE].
  - split; [apply nodup_filter; exact N1|]. split; [exact N2|]. split; [|exact UN]. intros y. cbn [b_avail]. rewrite in_dl, A, lk_filter.
    destruct (Z.eqb_spec y x) as [->|NE]; [|tauto]. split; [tauto|intros (z & Z1 & _); discriminate].
  - split; [exact N1|]. split; [exact N2|]. split; [|exact UN]. intros y. rewrite A, lk_filter. destruct (Z.eqb_spec y x) as [->|NY]; [|reflexivity].
    rewrite H. split; [intros (z & Z1 & Z2 & _); injection Z1 as <-; congruence|intros (z & Z1 & _); discriminate].
Qed.
End Lists.

Lemma lists_inpool : forall slabs j b b', lists_ok slabs j b -> b_avail b' = b_avail b -> b_unavail b' = b_unavail b -> lists_ok slabs j b'.
Proof. unfold lists_ok. intros slabs j b b' L -> ->. exact L. Qed.

(* the invariant does not depend on the counters *)
Lemma core_buckets : forall P s v G bs t, Core P s v G -> map b_size bs = map b_size (p_buckets s) ->
  (forall j b, nth_error bs j = Some b -> exists b0, nth_error (p_buckets s) j = Some b0 /\ b_avail b = b_avail b0 /\ b_unavail b = b_unavail b0) ->
  Core P (Pool (p_slabs s) bs t (p_regions s)) v G.
Proof.
  intros P s v G bs t I E L. destruct I. constructor; cbn [p_slabs p_buckets p_regions p_total]; try assumption.
  - rewrite E. assumption.
  - intros j b B. destruct (L j b B) as (b0 & B0 & A & U). eapply lists_inpool; [apply c_lists; exact B0|assumption|assumption].
Qed.
Lemma set_bucket_same : forall (bs : list bucket) i b b', nth_error bs i = Some b -> b_size b' = b_size b -> b_avail b' = b_avail b -> b_unavail b' = b_unavail b ->
  map b_size (set_nth i bs b') = map b_size bs /\
  forall j c, nth_error (set_nth i bs b') j = Some c -> exists b0, nth_error bs j = Some b0 /\ b_avail c = b_avail b0 /\ b_unavail c = b_unavail b0.
Proof.
  intros bs i b b' B E A U. split; [eapply set_nth_map; eassumption|]. intros j c C. rewrite set_nth_get in C by (apply nth_error_Some; congruence).
  destruct (Nat.eqb_spec j i) as [->|NE]; [injection C as <-; exists b; auto|exists c; auto].
Qed.

(* ---- placements ---- *)
Lemma placed_mono : forall P slabs slabs' R R' l m i, (forall sl, lk slabs m = Some sl -> exists sl2, lk slabs' m = Some sl2 /\ s_bucket sl2 = s_bucket sl /\ s_total sl2 = s_total sl) ->
  (In (Region m (l_size l) None) R -> In (Region m (l_size l) None) R') -> placed P slabs R l m i -> placed P slabs' R' l m i.
Proof.
  intros P slabs slabs' R R' l m i S RI (L0 & [(E & A & B)|(I0 & sl & c & H & T & X)]); split; try exact L0; [left; auto|right]. split; [exact I0|].
  destruct (S sl H) as (sl2 & H2 & E1 & E2). exists sl2, c. rewrite E1, E2. auto.
Qed.
Lemma count_cons : forall m q C, count m (q :: C) = (if in_slab m q then 1 else 0) + count m C.
Proof. intros. unfold count. cbn [filter]. destruct (in_slab m q); cbn [length]; lia. Qed.
Lemma count_mid : forall m q C1 C2, count m (C1 ++ q :: C2) = (if in_slab m q then 1 else 0) + count m (C1 ++ C2).
Proof. intros. unfold count. rewrite !filter_app, !app_length. cbn [filter]. destruct (in_slab m q); cbn [length]; lia. Qed.
Lemma in_slab_at : forall m x i, 0 <= i -> in_slab m (x, i) = (x =? m).
Proof. intros. unfold in_slab. cbn. rewrite (proj2 (Z.leb_le 0 i)) by lia. apply andb_true_r. Qed.

(* slabs other than x are not affected by a change of the places in x *)
Lemma slab_ok_other : forall P R R' C C' sl c, slab_ok P R C sl c ->
  (forall i, 0 <= i -> (In (s_mem sl, i) C' <-> In (s_mem sl, i) C)) -> count (s_mem sl) C' = count (s_mem sl) C ->
  (In (Region (s_mem sl) (s_size sl) (Some c)) R -> In (Region (s_mem sl) (s_size sl) (Some c)) R') -> slab_ok P R' C' sl c.
Proof.
  intros P R R' C C' sl c O E N RI. destruct O. constructor; try assumption; auto.
  - intros i I0. rewrite so_bits by exact I0. rewrite (E i I0). reflexivity.
  - congruence.
Qed.

Definition take_bucket (x : Z) (b : bucket) (sl' : slab) : bucket :=
  if s_alloc sl' <? s_total sl' then b else Bucket (b_size b) (dl_delete x (b_avail b)) (x :: b_unavail b) (b_inpool b).

Lemma take_core : forall P s v G i b x rest sl, valid P -> Core P s v G -> nth_error (p_buckets s) i = Some b -> b_avail b = x :: rest -> lk (p_slabs s) x = Some sl ->
  exists idx sl', slab_get_chunk (b_size b) sl = Some (x + idx * b_size b, sl') /\
    s_mem sl' = x /\ s_alloc sl' = s_alloc sl + 1 /\ s_bucket sl' = i /\ s_bucket sl = i /\ s_size sl' = s_size sl /\ 0 <= idx < slab_chunks P (b_size b) /\ 0 <= s_alloc sl /\
    In (Region x (slab_bytes P (b_size b)) (Some (b_size b))) (v_regions v) /\
    forall l, 0 < l_size l -> x + idx * b_size b <= l_ptr l -> l_ptr l + l_size l <= x + (idx + 1) * b_size b -> l_ptr l < x + slab_min_size P ->
      Core P (Pool (set_slab sl' (p_slabs s)) (set_nth i (p_buckets s) (take_bucket x b sl')) (p_total s) (p_regions s))
             (View (v_regions v) (v_lost v) (l :: v_live v) (v_others v)) ((l, (x, idx)) :: G).
Proof.
  intros P s v G i b x rest sl V I NB AV H.
  assert (AVL : s_bucket sl = i /\ s_alloc sl < s_total sl).
  { destruct (c_lists _ _ _ _ I i b NB) as (_ & _ & A & _). destruct (proj1 (A x)) as (z & Z1 & Z2 & Z3); [rewrite AV; left; reflexivity|]. rewrite H in Z1. injection Z1 as <-. auto. }
  destruct AVL as (BI & LT). destruct (slab_facts P s v G V I x sl H) as (c & O & C8 & E & X0 & X1 & X2 & _).
  assert (c = b_size b) as EC. { pose proof (bucket_size_of P s v G I i b NB). pose proof (so_class _ _ _ _ _ O) as X. rewrite BI in X. congruence. }
  rewrite <- EC in *. unfold slab_get_chunk.
  pose proof (find_first_spec (s_chunks sl) 0 (so_words _ _ _ _ _ O) ltac:(lia)) as F. destruct (slab_find_first_available_chunk_idx (s_chunks sl) 0) as [idx|].
  2:{ destruct (free_chunk_exists P s v G V I x sl H LT) as (i0 & I0 & B0). rewrite (F i0 I0) in B0. discriminate. }
  destruct F as (I0 & B0 & _). replace (idx - 64 * 0) with idx in B0 by lia. replace (64 * 0) with 0 in I0 by lia.
  destruct (proj1 (so_bits _ _ _ _ _ O idx I0) B0) as (IT & NIN). rewrite E in NIN.
  set (sl' := Slab (s_mem sl) (s_size sl) (s_total sl) (s_alloc sl + 1) (s_bucket sl) (slab_set_chunk_bit (s_chunks sl) idx false)).
  assert (IT' : idx < slab_chunks P c) by (rewrite <- (so_total _ _ _ _ _ O); exact IT).
  pose proof (chunks_fit P V c idx ltac:(lia) (conj I0 IT')) as (F1 & _). rewrite <- (so_size _ _ _ _ _ O) in F1.
  exists idx, sl'. split; [rewrite E, wrap_id by (unfold is_word; nia); reflexivity|].
  split; [exact E|]. split; [reflexivity|]. split; [exact BI|]. split; [exact BI|]. split; [reflexivity|]. split; [lia|].
  split; [rewrite (so_alloc _ _ _ _ _ O); unfold count; lia|]. split; [rewrite <- (so_size _ _ _ _ _ O), <- E; exact (so_region _ _ _ _ _ O)|].
  intros l L0 L1 L2 L3.
  assert (LK : forall y, lk (set_slab sl' (p_slabs s)) y = if y =? x then Some sl' else lk (p_slabs s) y) by (intros; apply (look _ x sl sl'); [exact H|exact E]).
  assert (O' : slab_ok P (v_regions v) ((x, idx) :: map snd G) sl' c).
  { destruct O. constructor; cbn [s_mem s_size s_total s_alloc s_bucket s_chunks sl']; try assumption.
    - apply set_bit_ok. assumption.
    - intros j J. unfold in_words in *. rewrite set_bit_length. apply so_map. exact J.
    - intros j J. rewrite set_bit_read by (try assumption; apply so_map; lia). destruct (Z.eqb_spec j idx) as [->|NJ].
      + split; [discriminate|]. intros (_ & N). destruct N. left. congruence.
      + rewrite so_bits by exact J. cbn [In]. rewrite E. split; intros (A & N); (split; [exact A|]); [intros [EQ|Y]; [injection EQ; congruence|auto]|auto].
    - rewrite count_cons, in_slab_at by exact I0. rewrite E in *. rewrite Z.eqb_refl. lia.
    - lia. }
  constructor; cbn [p_slabs p_buckets p_regions p_total v_regions v_lost v_live v_others map snd fst].
  - rewrite set_keys. exact (c_keys _ _ _ _ I).
  - intros y z. rewrite LK. destruct (Z.eqb_spec y x) as [->|NE]; [intros Z; injection Z as <-; exists c; exact O'|].
    intros Z. destruct (c_slab _ _ _ _ I y z Z) as (c' & OZ). exists c'. destruct (lk_mem _ _ _ Z) as (MZ & _). apply (slab_ok_other P (v_regions v) _ (map snd G)); [exact OZ| | |auto].
    + intros j J. cbn [In]. rewrite MZ. split; [intros [EQ|Y]; [injection EQ; congruence|exact Y]|auto].
    + rewrite count_cons, in_slab_at by exact I0. rewrite MZ, (proj2 (Z.eqb_neq x y)) by congruence. lia.
  - rewrite <- (c_tab _ _ _ _ I). eapply set_nth_map; [exact NB|]. unfold take_bucket. destruct (_ <? _); reflexivity.
  - intros j b' B'. rewrite set_nth_get in B' by (apply nth_error_Some; congruence). destruct (Nat.eqb_spec j i) as [->|NJ].
    + injection B' as <-. pose proof (c_lists _ _ _ _ I i b NB) as L. unfold take_bucket. cbn [s_alloc s_total sl']. rewrite <- BI in *. destruct (Z.ltb_spec (s_alloc sl + 1) (s_total sl)) as [X|X].
      * apply (lists_other _ x sl); auto; cbn; lia.
      * apply (lists_full _ x sl); auto; cbn; lia.
    + apply (lists_other _ x sl); auto. * apply (c_lists _ _ _ _ I). exact B'. * left. congruence.
  - exact (c_regs _ _ _ _ I).
  - exact (c_nodup _ _ _ _ I).
  - exact (c_apart _ _ _ _ I).
  - exact (c_page _ _ _ _ I).
  - intros g GI. pose proof (c_own _ _ _ _ I g GI) as OW. destruct (g_class g).
    + rewrite LK. destruct (g_base g =? x); [eauto|exact OW].
    + destruct OW as (l' & L'). exists l'. right. exact L'.
  - exact (c_track _ _ _ _ I).
  - f_equal. exact (c_live _ _ _ _ I).
  - constructor; [exact NIN|exact (c_places _ _ _ _ I)].
  - intros l' m j [EQ|IN].
    + injection EQ as <- <- <-. split; [exact L0|]. right. split; [exact I0|]. exists sl', c. rewrite LK, Z.eqb_refl. split; [reflexivity|]. cbn [s_bucket s_total sl']. split; [exact (so_class _ _ _ _ _ O)|]. auto.
    + apply (placed_mono P (p_slabs s) _ (v_regions v)); [|auto|exact (c_place _ _ _ _ I _ _ _ IN)]. intros z Z. rewrite LK. destruct (Z.eqb_spec m x) as [->|]; [|eauto].
      rewrite H in Z. injection Z as <-. exists sl'. auto.
Qed.

Definition free_bucket (x : Z) (b : bucket) (full : bool) : bucket :=
  if full then Bucket (b_size b) (x :: b_avail b) (dl_delete x (b_unavail b)) (b_inpool b) else b.

Lemma free_core : forall dbg P s v G1 G2 l x idx, valid P -> Core P s v (G1 ++ (l, (x, idx)) :: G2) -> 0 <= idx ->
  exists sl b sl', lk (p_slabs s) x = Some sl /\ nth_error (p_buckets s) (s_bucket sl) = Some b /\ slab_of P s (l_ptr l) = Some sl /\
    get_chunk_idx (b_size b) (l_ptr l) sl = idx /\ slab_free_chunk dbg sl idx = Some sl' /\ s_mem sl = x /\ s_mem sl' = x /\
    s_alloc sl' = s_alloc sl - 1 /\ 0 <= s_alloc sl' < s_total sl' /\ s_total sl' < U64 /\ s_bucket sl' = s_bucket sl /\ s_size sl' = s_size sl /\ s_total sl' = s_total sl /\ s_size sl = slab_bytes P (b_size b) /\
    (let full := s_alloc sl =? s_total sl in
     (full = true -> In x (b_unavail b)) /\
     Core P (Pool (set_slab sl' (p_slabs s)) (set_nth (s_bucket sl) (p_buckets s) (free_bucket x b full)) (p_total s) (p_regions s))
            (View (v_regions v) (v_lost v) (map fst (G1 ++ G2)) (v_others v)) (G1 ++ G2)).
Proof.
  intros dbg P s v G1 G2 l x idx V I I0. assert (IN : In (l, (x, idx)) (G1 ++ (l, (x, idx)) :: G2)) by (apply in_or_app; right; left; reflexivity).
  destruct (live_chunk P s v _ V I l x idx IN I0) as (sl & c & H & O & C8 & E & IT & L1 & L0 & L2 & SO & IDX & F1 & X1 & X0).
  destruct (bucket_exists P s v _ I _ c (so_class _ _ _ _ _ O)) as (b & NB & EC).
  pose proof (c_places _ _ _ _ I) as ND. rewrite map_app in ND. cbn [map snd] in ND. pose proof (NoDup_remove_2 _ _ _ ND) as NIN. pose proof (NoDup_remove_1 _ _ _ ND) as ND'. rewrite <- map_app in NIN, ND'.
  assert (INC : forall q, In q (map snd (G1 ++ (l, (x, idx)) :: G2)) <-> q = (x, idx) \/ In q (map snd (G1 ++ G2))).
  { intros q. rewrite !map_app. cbn [map snd]. rewrite !in_app_iff. cbn [In]. intuition congruence. }
  assert (CNT : forall m, count m (map snd (G1 ++ (l, (x, idx)) :: G2)) = (if x =? m then 1 else 0) + count m (map snd (G1 ++ G2))).
  { intros m. rewrite !map_app. cbn [map snd]. rewrite count_mid, in_slab_at by exact I0. reflexivity. }
  set (sl' := Slab (s_mem sl) (s_size sl) (s_total sl) (s_alloc sl - 1) (s_bucket sl) (slab_set_chunk_bit (s_chunks sl) idx true)).
  assert (CX : 0 <= count x (map snd (G1 ++ G2))) by (unfold count; lia).
  assert (AL : s_alloc sl = 1 + count x (map snd (G1 ++ G2))) by (rewrite (so_alloc _ _ _ _ _ O), E, CNT, Z.eqb_refl; reflexivity).
  assert (TW : s_total sl < U64). { rewrite (so_total _ _ _ _ _ O). unfold slab_chunks. pose proof (valid_words P V) as (W & _). unfold is_word in W. assert (slab_min_size P / c <= slab_min_size P) by (apply Z.div_le_upper_bound; nia). unfold U64 in *. lia. }
  pose proof (so_max _ _ _ _ _ O) as MX.
  assert (O' : slab_ok P (v_regions v) (map snd (G1 ++ G2)) sl' c).
  { destruct O. constructor; cbn [s_mem s_size s_total s_alloc s_bucket s_chunks sl']; try assumption.
    - apply set_bit_ok. assumption.
    - intros j J. unfold in_words in *. rewrite set_bit_length. apply so_map. exact J.
    - intros j J. rewrite set_bit_read by (try assumption; apply so_map; lia). destruct (Z.eqb_spec j idx) as [->|NJ].
      + split; [intros _|reflexivity]. split; [exact IT|]. rewrite E. exact NIN.
      + rewrite so_bits by exact J. rewrite INC, E. split; intros (A & N); (split; [exact A|]); [auto|]. intros [EQ|Y]; [injection EQ; congruence|auto].
    - rewrite E. lia.
    - lia. }
  exists sl, b, sl'. split; [exact H|]. split; [exact NB|]. split; [exact SO|]. split; [rewrite EC; exact IDX|]. split.
  { unfold slab_free_chunk. rewrite (proj2 (Z.leb_gt _ _)) by lia. assert (BF : bit (s_chunks sl) idx = false).
    { destruct (bit (s_chunks sl) idx) eqn:BT; [|reflexivity]. apply (so_bits _ _ _ _ _ O idx I0) in BT. destruct BT as (_ & N). destruct N. rewrite E, INC. left. reflexivity. }
    rewrite BF, andb_false_r. rewrite wrap_id by (unfold is_word; lia). reflexivity. }
  split; [exact E|]. split; [exact E|]. split; [reflexivity|]. cbn [s_alloc s_total s_bucket s_size s_mem sl']. split; [lia|]. split; [exact TW|]. split; [reflexivity|]. split; [reflexivity|]. split; [reflexivity|].
  split; [rewrite EC; exact (so_size _ _ _ _ _ O)|]. fold sl'. cbv zeta.
  assert (LK : forall y, lk (set_slab sl' (p_slabs s)) y = if y =? x then Some sl' else lk (p_slabs s) y) by (intros; apply (look _ x sl sl'); [exact H|exact E]).
  split.
  { intros FU. apply Z.eqb_eq in FU. destruct (c_lists _ _ _ _ I _ b NB) as (_ & _ & _ & U). apply U. exists sl. auto. }
  constructor; cbn [p_slabs p_buckets p_regions p_total v_regions v_lost v_live v_others].
  - rewrite set_keys. exact (c_keys _ _ _ _ I).
  - intros y z. rewrite LK. destruct (Z.eqb_spec y x) as [->|NE]; [intros Z; injection Z as <-; exists c; exact O'|].
    intros Z. destruct (c_slab _ _ _ _ I y z Z) as (c' & OZ). exists c'. destruct (lk_mem _ _ _ Z) as (MZ & _). apply (slab_ok_other P (v_regions v) _ (map snd (G1 ++ (l, (x, idx)) :: G2))); [exact OZ| | |auto].
    + intros j J. rewrite INC, MZ. split; [auto|intros [EQ|Y]; [injection EQ; congruence|exact Y]].
    + rewrite CNT, MZ, (proj2 (Z.eqb_neq x y)) by congruence. lia.
  - rewrite <- (c_tab _ _ _ _ I). eapply set_nth_map; [exact NB|]. unfold free_bucket. destruct (_ =? _); reflexivity.
  - intros j b' B'. rewrite set_nth_get in B' by (apply nth_error_Some; congruence). destruct (Nat.eqb_spec j (s_bucket sl)) as [->|NJ].
    + injection B' as <-. pose proof (c_lists _ _ _ _ I _ b NB) as L. unfold free_bucket. destruct (Z.eqb_spec (s_alloc sl) (s_total sl)) as [X|X].
      * apply (lists_unfull _ x sl); auto; cbn; lia.
      * apply (lists_other _ x sl); auto; cbn; lia.
    + apply (lists_other _ x sl); auto. apply (c_lists _ _ _ _ I). exact B'.
  - exact (c_regs _ _ _ _ I).
  - exact (c_nodup _ _ _ _ I).
  - exact (c_apart _ _ _ _ I).
  - exact (c_page _ _ _ _ I).
  - intros g GI. pose proof (c_own _ _ _ _ I g GI) as OW. destruct (g_class g).
    + rewrite LK. destruct (g_base g =? x); [eauto|exact OW].
    + destruct OW as (l' & L'). exists l'. apply in_app_or in L'. apply in_or_app. destruct L' as [Y|[EQ|Y]]; auto. injection EQ; intros; subst; lia.
  - exact (c_track _ _ _ _ I).
  - reflexivity.
  - exact ND'.
  - intros l' m j IN'. assert (IN2 : In (l', (m, j)) (G1 ++ (l, (x, idx)) :: G2)) by (apply in_app_or in IN'; apply in_or_app; destruct IN'; [left|right; right]; assumption).
    apply (placed_mono P (p_slabs s) _ (v_regions v)); [|auto|exact (c_place _ _ _ _ I _ _ _ IN2)]. intros z Z. rewrite LK. destruct (Z.eqb_spec m x) as [->|]; [|eauto].
    rewrite H in Z. injection Z as <-. exists sl'. auto.
Qed.
