(* What the invariant of the disjoint pool says about the user's view. *)
From Verif Require Import Base Model_Utils Spec_Utils Proof_Utils Model_Disjoint Spec_Disjoint Proof_DisjointClass Proof_DisjointBits Proof_Disjoint Proof_DisjointStep Proof_DisjointMem Proof_DisjointRun Proof_DisjointCalls.
Local Opaque bucket_table new_chunks.

Lemma table_inj : forall P i j c, power_of_two (min_bucket_size P) -> nth_error (bucket_table P) i = Some c -> nth_error (bucket_table P) j = Some c -> i = j.
Proof.
  intros P i j c PW HI HJ. destruct (first_size P PW) as (e & SM & EX & F). destruct (table_facts P e EX F) as (A & B & L). unfold exp_ok in EX.
  assert (K : forall n, nth_error (bucket_table P) n = Some c -> exists p, e <= p <= 31 /\ ((Z.of_nat n = (p - e) * 2 /\ c = 2 ^ p) \/ (Z.of_nat n = (p - e) * 2 + 1 /\ c = 3 * 2 ^ (p - 1)))).
  { intros n N. assert (LN : (n < length (bucket_table P))%nat) by (apply nth_error_Some; congruence). destruct (Z.Even_or_Odd (Z.of_nat n)) as [(m & M)|(m & M)]; exists (e + m).
    - split; [lia|]. left. split; [lia|]. specialize (A (e + m) ltac:(lia)). replace (Z.to_nat ((e + m - e) * 2)) with n in A by lia. congruence.
    - split; [lia|]. right. split; [lia|]. specialize (B (e + m) ltac:(lia)). replace (Z.to_nat ((e + m - e) * 2 + 1)) with n in B by lia. congruence. }
  destruct (K i HI) as (p & P1 & P2). destruct (K j HJ) as (q & Q1 & Q2).
  assert (ST : forall a b, 1 <= a -> a < b -> 2 * 2 ^ a <= 2 ^ b) by (intros a b A0 AB; replace (2 * 2 ^ a) with (2 ^ (Z.succ a)) by (rewrite Z.pow_succ_r by lia; reflexivity); apply Z.pow_le_mono_r; lia).
  assert (HF : forall a, 1 <= a -> 2 ^ a = 2 * 2 ^ (a - 1)) by (intros a A0; replace a with (Z.succ (a - 1)) at 1 by lia; rewrite Z.pow_succ_r by lia; reflexivity).
  pose proof (Z.pow_pos_nonneg 2 (p - 1) ltac:(lia) ltac:(lia)). pose proof (Z.pow_pos_nonneg 2 (q - 1) ltac:(lia) ltac:(lia)).
  pose proof (HF p ltac:(lia)). pose proof (HF q ltac:(lia)). destruct (Z.lt_total p q) as [LT|[EQ|GT]]; [pose proof (ST p q ltac:(lia) LT)|subst q|pose proof (ST q p ltac:(lia) GT)]; lia.
Qed.

Section View.
Variables (P : params) (s : pool) (v : view) (G : list (live * place)).
Hypothesis (V : valid P) (I : Core P s v G).

(* the region of a live allocation *)
Lemma region_of_live : forall l m i, In (l, (m, i)) G -> exists g, In g (v_regions v) /\ g_base g = m /\ m <= l_ptr l /\ 0 < l_size l /\ l_ptr l + l_size l <= m + g_size g /\
  0 < l_ptr l /\
  match g_class g with
  | Some c => 0 <= i /\ 8 <= c /\ m + i * c <= l_ptr l /\ l_ptr l + l_size l <= m + (i + 1) * c /\ m + (i + 1) * c <= m + g_size g /\
              disjoint_pool_malloc_usable_size P s (l_ptr l) = m + (i + 1) * c - l_ptr l
  | None => i = -1 /\ l_ptr l = m /\ l_size l = g_size g /\ disjoint_pool_malloc_usable_size P s (l_ptr l) = g_size g
  end.
Proof.
  intros l m i IN. pose proof (live_ptr P s v G V I l (m, i) IN) as LP. destruct (c_place _ _ _ _ I l m i IN) as (L0 & [(EI & EP & R)|(I0 & _)]).
  - exists (Region m (l_size l) None). cbn [g_base g_size g_class]. subst i. destruct (live_direct P s v G V I l m IN) as (_ & _ & _ & _ & SO & TS).
    split; [exact R|]. split; [reflexivity|]. split; [lia|]. split; [exact L0|]. split; [lia|]. split; [exact LP|]. split; [reflexivity|]. split; [exact EP|]. split; [reflexivity|].
    unfold disjoint_pool_malloc_usable_size. rewrite EP, SO, TS. rewrite (proj2 (Z.eqb_neq _ _)) by lia. reflexivity.
  - destruct (live_chunk P s v G V I l m i IN I0) as (sl & c & H & O & C8 & E & IT & A1 & _ & A2 & SO & GI & A3 & A4 & M0).
    exists (Region (s_mem sl) (s_size sl) (Some c)). cbn [g_base g_size g_class]. rewrite E in *. split; [pose proof (so_region _ _ _ _ _ O) as R; rewrite E in R; exact R|]. split; [reflexivity|].
    assert (0 <= i * c) by (clear - I0 C8; nia). split; [lia|]. split; [exact L0|]. split; [lia|]. split; [exact LP|]. split; [exact I0|]. split; [lia|]. split; [exact A1|]. split; [exact A2|]. split; [lia|].
    unfold disjoint_pool_malloc_usable_size. rewrite (proj2 (Z.eqb_neq _ _)) by lia. rewrite SO. destruct (bucket_exists P s v G I _ c (so_class _ _ _ _ _ O)) as (b & NB & EC).
    unfold size_of_bucket. rewrite NB, EC, GI, E. change (2 ^ 31) with 2147483648 in C8. unfold U64 in *. rewrite (wrap_id (m + i * c)) by (unfold is_word, U64; lia). rewrite (wrap_id (l_ptr l - (m + i * c))) by (unfold is_word, U64; lia). rewrite wrap_id by (unfold is_word, U64; lia). lia.
Qed.
Lemma live_in_G : forall l, In l (v_live v) <-> exists q, In (l, q) G.
Proof. intros l. rewrite <- (c_live _ _ _ _ I). rewrite in_map_iff. split; [intros ((l', q) & E & IN); cbn in E; subst; eauto|intros (q & IN); exists (l, q); auto]. Qed.

(* usable sizes, from the user's view *)
Definition usable_of (l : live) (g : region) : Z := match g_class g with Some c => c - (l_ptr l - g_base g) mod c | None => g_size g end.
Lemma usable_view : forall l, In l (v_live v) -> exists g, In g (v_regions v) /\ insideb l g = true /\ 0 < l_size l /\ disjoint_pool_malloc_usable_size P s (l_ptr l) = usable_of l g /\
  l_size l <= usable_of l g /\ within (l_ptr l) (usable_of l g) g.
Proof.
  intros l IN. apply live_in_G in IN. destruct IN as ((m, i) & IN). destruct (region_of_live l m i IN) as (g & GI & GB & A & B & C & LP & D). exists g. unfold usable_of, within, insideb. rewrite GB.
  split; [exact GI|]. split; [lia|]. split; [exact B|]. destruct (g_class g) as [c|].
  - destruct D as (I0 & C8 & D1 & D2 & D3 & ->). assert (MM : (l_ptr l - m) mod c = l_ptr l - m - i * c). { symmetry. apply Z.mod_unique with i; [left; lia|lia]. } rewrite MM. lia.
  - destruct D as (_ & D1 & D2 & ->). lia.
Qed.
Lemma region_unique : forall l g h, In g (v_regions v) -> In h (v_regions v) -> insideb l g = true -> insideb l h = true -> g = h.
Proof. intros l g h A B X Y. unfold insideb in *. apply (reg_one P s v G I g h (l_ptr l)); [apply in_or_app; auto|apply in_or_app; auto|lia|lia]. Qed.

Lemma places_apart : forall a b p q, In (a, p) G -> In (b, q) G -> p <> q ->
  apart (l_ptr a) (disjoint_pool_malloc_usable_size P s (l_ptr a)) (l_ptr b) (disjoint_pool_malloc_usable_size P s (l_ptr b)).
Proof.
  intros a b (m, i) (n, j) A B NE. destruct (region_of_live a m i A) as (g & GI & GB & A1 & A2 & A3 & _ & A4). destruct (region_of_live b n j B) as (h & HI & HB & B1 & B2 & B3 & _ & B4).
  destruct (Z.eq_dec m n) as [E|NM].
  - assert (g = h) as <- by (apply (reg_inj P s v G I); auto; congruence). subst n. unfold apart. destruct (g_class g) as [c|].
    + destruct A4 as (I0 & C8 & D1 & D2 & D3 & ->). destruct B4 as (J0 & _ & E1 & E2 & E3 & ->). assert (i <> j) by congruence. clear - D1 D2 E1 E2 H A2 B2 C8 GB. destruct (Z_lt_le_dec i j); [left; assert ((i + 1) * c <= j * c) by (apply Z.mul_le_mono_nonneg_r; lia)|right; assert ((j + 1) * c <= i * c) by (apply Z.mul_le_mono_nonneg_r; lia)]; lia.
    + destruct A4 as (-> & _). destruct B4 as (-> & _). congruence.
  - assert (AP : apart (g_base g) (g_size g) (g_base h) (g_size h)) by (apply (c_apart _ _ _ _ I); [apply in_or_app; auto|apply in_or_app; auto|congruence]). unfold apart in *. rewrite GB, HB in AP.
    destruct (g_class g) as [c|]; [destruct A4 as (_ & _ & _ & _ & A5 & ->)|destruct A4 as (_ & A5 & _ & ->)]; (destruct (g_class h) as [d|]; [destruct B4 as (_ & _ & _ & _ & B5 & ->)|destruct B4 as (_ & B5 & _ & ->)]); lia.
Qed.
Lemma live_apart : forall l1 a l2 b l3, v_live v = l1 ++ a :: l2 ++ b :: l3 ->
  apart (l_ptr a) (disjoint_pool_malloc_usable_size P s (l_ptr a)) (l_ptr b) (disjoint_pool_malloc_usable_size P s (l_ptr b)).
Proof.
  intros l1 a l2 b l3 E. rewrite <- (c_live _ _ _ _ I) in E. pose proof (c_places _ _ _ _ I) as ND.
  assert (SP : forall L1 x (L2 : list live) (GG : list (live * place)), map fst GG = L1 ++ x :: L2 -> exists G1 p G2, GG = G1 ++ (x, p) :: G2 /\ map fst G1 = L1 /\ map fst G2 = L2).
  { clear. induction L1 as [|y L1 IH]; intros x L2 [|(z, p) GG] E; try discriminate; cbn in E; injection E as E1 E2.
    - subst. exists [], p, GG. auto.
    - destruct (IH x L2 GG E2) as (G1 & q & G2 & -> & A & B). exists ((z, p) :: G1), q, G2. cbn. rewrite A, E1. auto. }
  destruct (SP _ _ _ _ E) as (G1 & p & G2 & EG & _ & E2). destruct (SP _ _ _ _ E2) as (G3 & q & G4 & EG2 & _ & _).
  apply (places_apart a b p q); [rewrite EG; apply in_or_app; right; left; reflexivity|rewrite EG, EG2; apply in_or_app; right; right; apply in_or_app; right; left; reflexivity|].
  rewrite EG, EG2 in ND. rewrite !map_app in ND. cbn [map snd] in ND. rewrite map_app in ND. cbn [map snd] in ND. apply NoDup_remove_2 in ND. intros ->. apply ND. rewrite !in_app_iff. cbn [In]. auto.
Qed.

(* ---- allocations in a slab ---- *)
Lemma live_in_count : forall m sl g, lk (p_slabs s) m = Some sl -> In g (v_regions v) -> g_base g = m -> Z.of_nat (length (live_in v g)) = s_alloc sl.
Proof.
  intros m sl g H GI GB. destruct (slab_facts P s v G V I m sl H) as (c & O & C8 & E & X0 & X1 & X2 & T0). rewrite (so_alloc _ _ _ _ _ O), E. unfold live_in, count. rewrite <- (c_live _ _ _ _ I).
  assert (EG : g = Region m (s_size sl) (Some c)). { apply (reg_inj P s v G I); [exact GI|rewrite <- E; exact (so_region _ _ _ _ _ O)|exact GB]. }
  assert (PW : forall l q, In (l, q) G -> insideb l g = in_slab m q).
  { intros l (n, i) IN. destruct (region_of_live l n i IN) as (h & HI & HB & A1 & A2 & A3 & _ & A4). assert (INH : insideb l h = true) by (unfold insideb; rewrite HB; lia). unfold in_slab. cbn [fst snd].
    destruct (Z.eqb_spec n m) as [->|NE].
    - assert (h = g) as -> by (apply (reg_inj P s v G I); auto; congruence). rewrite INH. rewrite EG in A4. cbn [g_class] in A4. cbn [andb]. destruct A4 as (I0 & _). lia.
    - cbn [andb]. destruct (insideb l g) eqn:IG; [|reflexivity]. pose proof (region_unique l g h GI HI IG INH). congruence. }
  f_equal. revert PW. clear. induction G as [|(l, q) L IH]; intros PW; [reflexivity|]. cbn [map fst snd filter]. rewrite (PW l q (or_introl eq_refl)). specialize (IH (fun l q H => PW l q (or_intror H))). destruct (in_slab m q); cbn [length]; congruence.
Qed.
Lemma region_slab : forall g c, In g (v_regions v) -> g_class g = Some c -> exists sl, lk (p_slabs s) (g_base g) = Some sl /\ s_size sl = g_size g /\ nth_error (bucket_table P) (s_bucket sl) = Some c /\ s_total sl = slab_chunks P c /\ s_alloc sl <= s_total sl /\ g_size g = slab_bytes P c.
Proof.
  intros g c GI GC. pose proof (c_own _ _ _ _ I g GI) as OW. rewrite GC in OW. destruct OW as (sl & H). exists sl. split; [exact H|]. destruct (slab_facts P s v G V I _ sl H) as (c' & O & C8 & E & _).
  assert (Q : g = Region (s_mem sl) (s_size sl) (Some c')) by (apply (reg_inj P s v G I); [exact GI|exact (so_region _ _ _ _ _ O)|cbn [g_base]; congruence]).
  rewrite Q in GC. cbn [g_class] in GC. injection GC as ->. rewrite Q. cbn [g_size]. split; [reflexivity|]. split; [exact (so_class _ _ _ _ _ O)|]. split; [exact (so_total _ _ _ _ _ O)|]. split; [exact (so_max _ _ _ _ _ O)|exact (so_size _ _ _ _ _ O)].
Qed.
Lemma direct_used : forall g, In g (v_regions v) -> g_class g = None -> live_in v g <> [].
Proof.
  intros g GI GC. pose proof (c_own _ _ _ _ I g GI) as OW. rewrite GC in OW. destruct OW as (l & IN). destruct (region_of_live l _ _ IN) as (h & HI & HB & A1 & A2 & A3 & _ & A4).
  assert (h = g) as -> by (apply (reg_inj P s v G I); auto). assert (X : In l (live_in v g)). { unfold live_in. apply filter_In. split; [apply live_in_G; eauto|]. unfold insideb. lia. } intros E. rewrite E in X. destruct X.
Qed.
Lemma in_kept : forall g, In g (kept v) <-> In g (v_regions v) /\ exists sl c, g_class g = Some c /\ lk (p_slabs s) (g_base g) = Some sl /\ s_alloc sl = 0.
Proof.
  intros g. unfold kept. rewrite filter_In. split.
  - intros (GI & K). split; [exact GI|]. destruct (g_class g) as [c|] eqn:GC.
    + destruct (region_slab g c GI GC) as (sl & H & _). exists sl, c. split; [reflexivity|]. split; [exact H|]. rewrite <- (live_in_count _ sl g H GI eq_refl). destruct (live_in v g); [reflexivity|discriminate].
    + pose proof (direct_used g GI GC). destruct (live_in v g); [congruence|discriminate].
  - intros (GI & sl & c & GC & H & A0). split; [exact GI|]. pose proof (live_in_count _ sl g H GI eq_refl) as LC. destruct (live_in v g); [reflexivity|cbn [length] in LC; lia].
Qed.
End View.

(* ---- sums over kept regions and over empty slabs ---- *)
Definition gsum (f : region -> Z) (l : list region) : Z := fold_right (fun g n => f g + n) 0 l.
Lemma sum_match : forall (f : region -> Z) (w : slab -> Z) L ss, NoDup (map g_base L) -> NoDup (map s_mem ss) ->
  (forall g, In g L -> exists sl, lk ss (g_base g) = Some sl /\ f g = w sl) -> (forall sl, In sl ss -> w sl <> 0 -> exists g, In g L /\ g_base g = s_mem sl) -> gsum f L = wsum w ss.
Proof.
  induction L as [|g L IH]; intros ss N1 N2 A B.
  - cbn. symmetry. assert (Z0 : forall y, In y ss -> w y = 0) by (intros y Y; destruct (Z.eq_dec (w y) 0); [assumption|]; destruct (B y Y ltac:(assumption)) as (g & [] & _)). clear - Z0. induction ss as [|y ss IH]; [reflexivity|]. unfold wsum in *. cbn [fold_right]. rewrite (Z0 y (or_introl eq_refl)). rewrite IH; [reflexivity|]. intros. apply Z0. right. assumption.
  - cbn in N1. inversion N1 as [|? ? NI N1']; subst. destruct (A g (or_introl eq_refl)) as (sl & H & E). pose proof (wsum_filter w ss (g_base g) sl N2 H) as WF. cbn [gsum fold_right]. fold (gsum f L).
    rewrite (IH (filter (fun z => negb (s_mem z =? g_base g)) ss)); [lia|exact N1'|apply filter_keys; exact N2| |].
    + intros h HI. destruct (A h (or_intror HI)) as (z & Z1 & Z2). exists z. rewrite lk_filter. rewrite (proj2 (Z.eqb_neq _ _)); [auto|]. intros X. apply NI. rewrite <- X. apply in_map. exact HI.
    + intros y Y W. apply filter_In in Y. destruct Y as (Y & NE). destruct (B y Y W) as (h & [<-|HI] & HB); [rewrite HB, Z.eqb_refl in NE; discriminate|eauto].
Qed.
Lemma nodup_map_filter : forall {A B} (f : A -> B) p l, NoDup (map f l) -> NoDup (map f (filter p l)).
Proof.
  intros A B f p l. induction l as [|g L IH]; intros N; [constructor|]. cbn in N. inversion N as [|? ? N1 N2]; subst. cbn [filter]. destruct (p g); [|auto]. cbn. constructor; [|auto].
  intros X. apply N1. apply in_map_iff in X. destruct X as (h & E & X). apply filter_In in X. rewrite <- E. apply in_map. tauto.
Qed.
Lemma kept_sums : forall P s v G, valid P -> Core P s v G -> total_size (kept v) = pooled (p_slabs s) /\
  forall i c, nth_error (bucket_table P) i = Some c -> Z.of_nat (length (filter (of_class c) (kept v))) = nempty i (p_slabs s).
Proof.
  intros P s v G V I.
  assert (ND : NoDup (map g_base (kept v))).
  { pose proof (c_nodup _ _ _ _ I) as N. rewrite map_app in N. assert (N1 : NoDup (map g_base (v_regions v))) by (revert N; generalize (map g_base (v_regions v)), (map g_base (v_lost v)); clear; intros A B; induction B as [|b B IH]; intros N; [rewrite app_nil_r in N; exact N|apply NoDup_remove_1 in N; auto]).
    apply nodup_map_filter. exact N1. }
  assert (BACK : forall sl, In sl (p_slabs s) -> s_alloc sl = 0 -> exists g, In g (kept v) /\ g_base g = s_mem sl).
  { intros sl SI A0. pose proof (lk_in _ sl (c_keys _ _ _ _ I) SI) as H. destruct (slab_facts P s v G V I _ sl H) as (c & O & _). exists (Region (s_mem sl) (s_size sl) (Some c)). split; [|reflexivity]. apply (in_kept P s v G V I). split; [exact (so_region _ _ _ _ _ O)|]. exists sl, c. auto. }
  split.
  - change (total_size (kept v)) with (gsum g_size (kept v)). apply sum_match; [exact ND|exact (c_keys _ _ _ _ I)| |].
    + intros g K. apply (in_kept P s v G V I) in K. destruct K as (GI & sl & c & GC & H & A0). exists sl. split; [exact H|]. unfold bytes1. rewrite A0. cbn [Z.eqb]. destruct (region_slab P s v G V I g c GI GC) as (sl2 & H2 & SZ & _). congruence.
    + intros sl SI W. apply BACK; [exact SI|]. unfold bytes1 in W. destruct (Z.eqb_spec (s_alloc sl) 0); [assumption|congruence].
  - intros i c T. assert (LS : Z.of_nat (length (filter (of_class c) (kept v))) = gsum (fun g => if of_class c g then 1 else 0) (kept v)).
    { generalize (kept v). clear. induction l as [|g L IH]; [reflexivity|]. cbn [filter gsum fold_right]. fold (gsum (fun g => if of_class c g then 1 else 0) L). destruct (of_class c g); cbn [length]; lia. }
    rewrite LS. apply sum_match; [exact ND|exact (c_keys _ _ _ _ I)| |].
    + intros g K. apply (in_kept P s v G V I) in K. destruct K as (GI & sl & d & GC & H & A0). exists sl. split; [exact H|]. unfold empty1, of_class. rewrite A0, GC. cbn [Z.eqb]. rewrite andb_true_r.
      destruct (region_slab P s v G V I g d GI GC) as (sl2 & H2 & _ & T2 & _). assert (sl2 = sl) as -> by congruence. destruct (Z.eqb_spec c d) as [->|NE].
      * rewrite (table_inj P (s_bucket sl) i d (valid_bucket P V) T2 T), Nat.eqb_refl. reflexivity.
      * destruct (Nat.eqb_spec (s_bucket sl) i) as [EB|]; [|reflexivity]. rewrite EB in T2. congruence.
    + intros sl SI W. apply BACK; [exact SI|]. unfold empty1 in W. destruct (Z.eqb_spec (s_alloc sl) 0); [assumption|]. rewrite andb_false_r in W. congruence.
Qed.

(* ---- the slabs of a destroyed pool ---- *)
Lemma nodup_concat : forall {A} (f : A -> list Z) (key : Z -> nat -> Prop) L k, (forall x i j, key x i -> key x j -> i = j) ->
  (forall j b, nth_error L j = Some b -> NoDup (f b) /\ forall x, In x (f b) -> key x (k + j)%nat) -> NoDup (concat (map f L)).
Proof.
  intros A f key L. induction L as [|b L IH]; intros k U H; [constructor|]. cbn [map concat]. destruct (H O b eq_refl) as (N & K).
  assert (NR : NoDup (concat (map f L))). { apply (IH (S k) U). intros j c C. destruct (H (S j) c C) as (N' & K'). split; [exact N'|]. intros x X. replace (S k + j)%nat with (k + S j)%nat by lia. apply K'. exact X. }
  assert (DJ : forall x, In x (f b) -> ~ In x (concat (map f L))).
  { intros x X Y. apply in_concat in Y. destruct Y as (l & L1 & L2). apply in_map_iff in L1. destruct L1 as (c & <- & C). apply In_nth_error in C. destruct C as (j & C). destruct (H (S j) c C) as (_ & K'). pose proof (U x _ _ (K x X) (K' x L2)). lia. }
  revert N DJ. generalize (f b). clear - NR. induction l as [|x l IH]; intros N DJ; [exact NR|]. inversion N as [|? ? N1 N2]; subst. cbn. constructor; [rewrite in_app_iff; intros [X|X]; [auto|exact (DJ x (or_introl eq_refl) X)]|]. apply IH; [exact N2|]. intros y Y. apply DJ. right. exact Y.
Qed.
Lemma finalize_slabs : forall P s v G, Core P s v G -> valid P -> NoDup (disjoint_pool_finalize s) /\ forall x, In x (disjoint_pool_finalize s) <-> exists sl, lk (p_slabs s) x = Some sl.
Proof.
  intros P s v G I V. unfold disjoint_pool_finalize. split.
  - apply (nodup_concat _ (fun x j => exists sl, lk (p_slabs s) x = Some sl /\ s_bucket sl = j) _ 0).
    + intros x i j (a & A1 & A2) (b & B1 & B2). congruence.
    + intros j b B. destruct (c_lists _ _ _ _ I j b B) as (N1 & N2 & A & U). split.
      * assert (DJ : forall x, In x (b_avail b) -> ~ In x (b_unavail b)). { intros x X Y. apply A in X. apply U in Y. destruct X as (a & A1 & _ & A3). destruct Y as (c & C1 & _ & C3). rewrite A1 in C1. injection C1 as <-. lia. }
        revert N1 DJ. generalize (b_avail b). clear - N2. induction l as [|x l IH]; intros N DJ; [exact N2|]. inversion N as [|? ? X1 X2]; subst. cbn. constructor; [rewrite in_app_iff; intros [X|X]; [auto|exact (DJ x (or_introl eq_refl) X)]|]. apply IH; [exact X2|]. intros y Y. apply DJ. right. exact Y.
      * intros x X. apply in_app_iff in X. destruct X as [X|X]; [apply A in X|apply U in X]; destruct X as (sl & S1 & S2 & _); exists sl; auto.
  - intros x. rewrite in_concat. split.
    + intros (l & L1 & L2). apply in_map_iff in L1. destruct L1 as (b & <- & BI). apply In_nth_error in BI. destruct BI as (j & B). destruct (c_lists _ _ _ _ I j b B) as (_ & _ & A & U). apply in_app_iff in L2. destruct L2 as [X|X]; [apply A in X|apply U in X]; destruct X as (sl & S1 & _); eauto.
    + intros (sl & H). destruct (slab_facts P s v G V I x sl H) as (c & O & _). destruct (bucket_exists P s v G I _ c (so_class _ _ _ _ _ O)) as (b & NB & _). exists (b_avail b ++ b_unavail b). split; [apply in_map_iff; exists b; split; [reflexivity|eapply nth_error_In; exact NB]|].
      destruct (c_lists _ _ _ _ I _ b NB) as (_ & _ & A & U). apply in_app_iff. pose proof (so_max _ _ _ _ _ O). destruct (Z_lt_le_dec (s_alloc sl) (s_total sl)); [left; apply A|right; apply U]; exists sl; (split; [exact H|]); (split; [reflexivity|lia]).
Qed.
