(* Proofs about one callback of the file provider. *)
From Verif Require Import Base Model_Utils Proof_Utils Model_OsProvider Spec_OsProvider Proof_OsProvider Proof_OsHistory Model_Coarse Spec_Coarse Model_FileProvider Spec_FileProvider.

Lemma page_up_val : forall page x, pow2 page -> is_word x -> page_up page x = wrap (up page x).
Proof.
  intros page x P W. pose proof (pow2_range _ P) as R. unfold page_up. rewrite (mask_mod _ _ P).
  destruct (x mod page =? 0) eqn:E.
  - apply Z.eqb_eq in E. rewrite (up_multiple page x ltac:(lia) E). symmetry. apply wrap_id. exact W.
  - apply Z.eqb_neq in E. f_equal. symmetry. apply up_unique; [lia| |].
    + replace (x + (page - x mod page)) with ((x / page + 1) * page) by (pose proof (Z.div_mod x page ltac:(lia)); lia).
      apply Z.mod_mul. lia.
    + pose proof (Z.mod_pos_bound x page ltac:(lia)). lia.
Qed.
Lemma page_up_cases : forall page x, pow2 page -> is_word x -> 0 < x -> page_up page x < x \/ (page_up page x = up page x /\ up page x < U64).
Proof.
  intros page x P W X. pose proof (pow2_range _ P) as R. rewrite (page_up_val _ _ P W).
  destruct (up_spec page x ltac:(lia)) as (U1 & U2). unfold is_word in W.
  destruct (Z_lt_ge_dec (up page x) U64) as [H|H].
  - right. split; [|exact H]. apply wrap_id. unfold is_word. lia.
  - left. assert (U : up page x = U64).
    { apply up_unique; [lia|apply U64_multiple; exact P|]. lia. }
    rewrite U. unfold wrap. rewrite Z.mod_same by (unfold U64; lia). exact X.
Qed.

Definition shows (m : memory) (a len off : Z) : Prop := forall x, a <= x < a + len -> m x = Some (File (off + (x - a))).
Definition cov (G : list (Z * Z)) (x : Z) : Prop := exists r, In r G /\ inside x r.

(* F: the file offset of the current mapping *)
Record FI (page : Z) (mo : mode) (F : Z) (w : fworld) (G : list (Z * Z)) : Prop := FInv {
  v_page : f_page (fs w) = page;
  v_size : f_size (fs w) = flen w; v_len : 0 <= flen w < 2 ^ 63;
  v_cur : 0 <= f_moff (fs w) <= f_msize (fs w) /\ f_msize (fs w) mod page = 0 /\ f_base (fs w) mod page = 0 /\ 0 <= f_base (fs w) /\ f_base (fs w) + f_msize (fs w) <= 2 ^ 63;
  v_F : 0 <= F /\ F mod page = 0 /\ F + f_msize (fs w) <= flen w;
  v_off : F + f_moff (fs w) <= f_off (fs w) <= F + f_moff (fs w) + up page (f_moff (fs w)) - (if f_off (fs w) mod page =? 0 then 0 else page);
  v_shows : shows (fm w) (f_base (fs w)) (f_msize (fs w)) F;
  v_incl : 0 < f_msize (fs w) -> In (f_base (fs w), f_msize (fs w)) (maps w);
  v_exact : no_fail mo || whole mo = true -> f_off (fs w) = F + f_moff (fs w);
  v_whole : whole mo = true -> f_off (fs w) mod page = 0;
  v_maps : forall a len, In (a, len) (maps w) -> 0 < a /\ 0 < len /\ a mod page = 0 /\ len mod page = 0 /\ a + len <= 2 ^ 63 /\
             exists off, 0 <= off /\ off mod page = 0 /\ off + len <= flen w /\ shows (fm w) a len off;
  v_mdis : ForallOrdPairs (fun A B => fst A + snd A <= fst B \/ fst B + snd B <= fst A) (maps w);
  v_gap : gaps mo = true -> ForallOrdPairs (fun A B => fst A + snd A <> fst B /\ fst B + snd B <> fst A) (maps w);
  v_mm : f_mmaps (fs w) = maps w;
  v_reg : forall p n, In (p, n) G -> 0 < p /\ 0 < n /\ p mod page = 0 /\ (exists a len, In (a, len) (maps w) /\ a <= p /\ p + n <= a + len) /\
            (exists o, 0 <= o /\ o + n <= F + f_moff (fs w) /\ shows (fm w) p n o) /\
            (forall x, inside x (p, n) -> ~ (f_base (fs w) + f_moff (fs w) <= x < f_base (fs w) + f_msize (fs w)));
  v_inj : forall x y, cov G x -> cov G y -> fm w x = fm w y -> x = y;
  v_gdis : ForallOrdPairs disjoint G }.

Lemma fi_new : forall page mo ipc dax m, pow2 page -> page < 2 ^ 63 -> FI page mo 0 (FW (file_created page ipc dax) m FSDAX_PAGE_SIZE_2MB []) [].
Proof.
  intros page mo ipc dax m P L. pose proof (pow2_range _ P) as R.
  assert (U0 : up page 0 = 0) by (apply up_multiple; [lia|reflexivity]).
  constructor; cbn [fs fm flen maps file_created f_page f_size f_off f_base f_msize f_moff f_mmaps].
  - reflexivity.
  - reflexivity.
  - unfold FSDAX_PAGE_SIZE_2MB. lia.
  - rewrite Z.mod_0_l by lia. lia.
  - rewrite Z.mod_0_l by lia. unfold FSDAX_PAGE_SIZE_2MB. lia.
  - rewrite U0, Z.mod_0_l by lia. cbn. lia.
  - intros x H. lia.
  - lia.
  - reflexivity.
  - intros _. apply Z.mod_0_l. lia.
  - intros a len [].
  - constructor.
  - intros _. constructor.
  - reflexivity.
  - intros p n [].
  - intros x y (r & [] & _).
  - constructor.
Qed.

Lemma page_up_nonneg : forall page x, pow2 page -> is_word x -> is_word (page_up page x).
Proof. intros. rewrite page_up_val by assumption. apply wrap_word. Qed.

Lemma map_get_none : forall l k, (forall a len, In (a, len) l -> a <> k) -> map_get l k = None.
Proof.
  intros l k H. unfold map_get. destruct (find (fun x => fst x =? k) l) as [[a len]|] eqn:E; [|reflexivity].
  apply find_some in E. destruct E as (I & Q). cbn in Q. apply Z.eqb_eq in Q. destruct (H _ _ I Q).
Qed.

(* only the sizes and offsets of the file change *)
Lemma fi_file : forall page mo F s m n l G n' off', pow2 page -> FI page mo F (FW s m n l) G -> n <= n' < 2 ^ 63 ->
  off' = f_off s \/ (off' = up page (f_off s) /\ (no_fail mo = true -> off' = f_off s)) ->
  FI page mo F (FW (Filep (f_page s) n' off' (f_base s) (f_msize s) (f_moff s) (f_mmaps s) (f_map s) (f_ipc s) (f_dax s)) m n' l) G.
Proof.
  intros page mo F s m n l G n' off' P I N O. pose proof (pow2_range _ P) as R.
  assert (WO : whole mo = true -> off' = f_off s).
  { intros W. pose proof (v_whole _ _ _ _ _ I W) as X. cbn [fs] in X. destruct O as [O|(O & _)]; [exact O|]. rewrite O. apply up_multiple; [lia|exact X]. }
  assert (NF : no_fail mo || whole mo = true -> off' = f_off s).
  { intros H. apply orb_prop in H. destruct H as [H|H]; [|exact (WO H)]. destruct O as [O|(_ & O)]; [exact O|exact (O H)]. }
  destruct I as [I1 I2 I3 I4 I5 I6 I7 I8 I9 I10 I11 I12 I13 I14 I15 I16 I17].
  constructor; cbn [fs fm flen maps f_page f_size f_off f_base f_msize f_moff f_mmaps] in *; try assumption.
  - reflexivity.
  - lia.
  - lia.
  - destruct O as [->|(-> & _)]; [exact I6|].
    destruct (up_spec page (f_off s) ltac:(lia)) as (U1 & U2). rewrite U1. cbn [Z.eqb].
    destruct (f_off s mod page =? 0) eqn:E.
    + apply Z.eqb_eq in E. rewrite (up_multiple page (f_off s) ltac:(lia) E) in *. lia.
    + lia.
  - intros H. rewrite (NF H). exact (I9 H).
  - intros H. rewrite (WO H). exact (I10 H).
  - intros a len H. destruct (I11 a len H) as (A1 & A2 & A3 & A4 & A5 & off & A6 & A7 & A8 & A9). do 5 (split; [assumption|]). exists off. repeat (split; [assumption || lia|]). exact A9.
Qed.

Lemma after_mmap_new : forall page m a len off, len mod page = 0 -> 0 < page -> shows (after page m (Mmap a len (Some off))) a len off.
Proof.
  intros page m a len off L P x X. cbn. rewrite (proj2 (within_iff page a len x)); [reflexivity|]. rewrite up_multiple by assumption. lia.
Qed.
Lemma after_mmap_old : forall page m a len off x, len mod page = 0 -> 0 < page -> ~ (a <= x < a + len) -> after page m (Mmap a len off) x = m x.
Proof.
  intros page m a len off x L P X. cbn. rewrite (proj2 (within_niff page a len x)); [reflexivity|]. rewrite up_multiple by assumption. lia.
Qed.

(* a new mapping becomes the current one *)
Lemma fi_map : forall page mo F s m n l G n' ptr ext aoff, pow2 page -> FI page mo F (FW s m n l) G -> n <= n' < 2 ^ 63 ->
  aoff = up page (f_off s) -> ext mod page = 0 -> 0 < ext -> 0 < ptr -> ptr mod page = 0 -> ptr + ext <= 2 ^ 63 -> aoff + ext <= n' ->
  (forall x, ptr <= x < ptr + ext -> m x = None) -> (gaps mo = true -> m (ptr - 1) = None /\ m (ptr + ext) = None) ->
  FI page mo aoff (FW (Filep (f_page s) n' aoff ptr ext 0 ((ptr, ext) :: f_mmaps s) (f_map s) (f_ipc s) (f_dax s)) (after page m (Mmap ptr ext (Some aoff))) n' ((ptr, ext) :: l)) G.
Proof.
  intros page mo F s m n l G n' ptr ext aoff P I N AO E1 E2 Q1 Q2 Q3 L NONE GAP. pose proof (pow2_range _ P) as R.
  destruct (up_spec page (f_off s) ltac:(lia)) as (U1 & U2). rewrite <- AO in U1, U2.
  destruct I as [I1 I2 I3 I4 I5 I6 I7 I8 I9 I10 I11 I12 I13 I14 I15 I16 I17].
  cbn [fs fm flen maps f_page f_size f_off f_base f_msize f_moff f_mmaps] in *.
  assert (UN : 0 <= up page (f_moff s)) by (apply up_nonneg; lia).
  assert (OFF : 0 <= f_off s) by (clear - I4 I5 I6; lia).
  assert (DIS : forall a len, In (a, len) l -> forall x, a <= x < a + len -> ~ (ptr <= x < ptr + ext)).
  { intros a len H x X Y. destruct (I11 a len H) as (_ & _ & _ & _ & _ & off & _ & _ & _ & S). specialize (S x X). rewrite (NONE x Y) in S. discriminate. }
  assert (OLD : forall a len off, In (a, len) l -> shows m a len off -> shows (after page m (Mmap ptr ext (Some aoff))) a len off).
  { intros a len off H S x X. rewrite after_mmap_old; [exact (S x X)|exact E1|lia|exact (DIS a len H x X)]. }
  assert (OLDX : forall a len x, In (a, len) l -> a <= x < a + len -> after page m (Mmap ptr ext (Some aoff)) x = m x).
  { intros a len x H X. apply after_mmap_old; [exact E1|lia|exact (DIS a len H x X)]. }
  constructor; cbn [fs fm flen maps f_page f_size f_off f_base f_msize f_moff f_mmaps].
  - exact I1.
  - reflexivity.
  - lia.
  - lia.
  - split; [lia|]. split; [exact U1|]. lia.
  - rewrite (up_multiple page 0) by (lia || reflexivity). rewrite U1. cbn [Z.eqb]. lia.
  - apply after_mmap_new; [exact E1|lia].
  - intros _. left. reflexivity.
  - intros _. lia.
  - intros _. exact U1.
  - intros a len [H|H].
    + injection H as <- <-. do 5 (split; [lia|]). exists aoff. split; [lia|]. split; [exact U1|]. split; [lia|]. apply after_mmap_new; [exact E1|lia].
    + destruct (I11 a len H) as (A1 & A2 & A3 & A4 & A5 & off & A6 & A7 & A8 & A9). do 5 (split; [assumption|]). exists off. do 3 (split; [assumption || lia|]). exact (OLD _ _ _ H A9).
  - constructor; [|exact I12]. rewrite Forall_forall. intros (a, len) H. cbn [fst snd].
    destruct (I11 a len H) as (A1 & A2 & _). pose proof (DIS a len H) as D.
    destruct (Z_le_gt_dec (ptr + ext) a) as [Y|Y]; [left; exact Y|]. destruct (Z_le_gt_dec (a + len) ptr) as [Z|Z]; [right; exact Z|].
    exfalso. apply (D (Z.max ptr a)); lia.
  - intros GA. constructor; [|exact (I13 GA)]. rewrite Forall_forall. intros (a, len) H. cbn [fst snd].
    destruct (I11 a len H) as (A1 & A2 & _ & _ & _ & off & _ & _ & _ & S). destruct (GAP GA) as (G1 & G2). split; intros X.
    + specialize (S a ltac:(lia)). rewrite <- X, G2 in S. discriminate.
    + specialize (S (ptr - 1) ltac:(lia)). rewrite G1 in S. discriminate.
  - rewrite I14. reflexivity.
  - intros p k H. destruct (I15 p k H) as (B1 & B2 & B3 & (a & len & B4 & B5 & B6) & (o & B7 & B8 & B9) & B10).
    do 3 (split; [assumption|]). split; [exists a, len; split; [right; exact B4|]; split; assumption|]. split.
    + exists o. split; [exact B7|]. split; [lia|]. intros x X. rewrite (OLDX a len x B4) by lia. exact (B9 x X).
    + intros x X Y. unfold inside in X. cbn [fst snd] in X. apply (DIS a len B4 x); lia.
  - intros x y X Y. assert (XX : forall x, cov G x -> after page m (Mmap ptr ext (Some aoff)) x = m x).
    { intros z ((p & k) & Z1 & Z2). destruct (I15 p k Z1) as (B1 & B2 & B3 & (a & len & B4 & B5 & B6) & _). unfold inside in Z2. cbn [fst snd] in Z2. apply (OLDX a len z B4). lia. }
    rewrite (XX x X), (XX y Y). apply I16; assumption.
  - exact I17.
Qed.

(* an allocation is cut from the current mapping *)
Lemma fi_take : forall page mo F s m n l G size, pow2 page -> FI page mo F (FW s m n l) G -> 0 < size -> 0 < f_base s ->
  up page (f_moff s) + size <= f_msize s -> (whole mo = true -> size mod page = 0) ->
  let moff := up page (f_moff s) in let p := f_base s + moff in let off := f_off s + (moff - f_moff s) in
  FI page mo F (FW (Filep (f_page s) (f_size s) (off + size) (f_base s) (f_msize s) (moff + size) (f_mmaps s) (f_map s) (f_ipc s) (f_dax s)) m n l) ((p, size) :: G) /\
  off + size < U64 /\ p mod page = 0 /\ (forall r, In r G -> disjoint (p, size) r) /\ p + size <= 2 ^ 63 /\
  exists o, shows m p size o /\ 0 <= o /\ o + size <= n /\ (no_fail mo || whole mo = true -> o = off).
Proof.
  intros page mo F s m n l G size P I S B FIT WS moff p off. pose proof (pow2_range _ P) as R.
  destruct (up_spec page (f_moff s) ltac:(lia)) as (U1 & U2). fold moff in U1, U2, FIT.
  assert (UU : U64 = 2 ^ 64) by reflexivity.
  assert (UP : moff + page <= up page (moff + size)).
  { rewrite up_plus by (lia || assumption). destruct (up_spec page size ltac:(lia)) as (X1 & X2).
    assert (page <= up page size); [|lia]. destruct (Z_lt_ge_dec (up page size) page) as [L|L]; [|lia].
    rewrite Z.mod_small in X1 by lia. lia. }
  assert (UM : up page (moff + size) <= f_msize s).
  { pose proof (v_cur _ _ _ _ _ I) as (_ & MM & _). cbn [fs] in MM. clear - FIT MM R.
    destruct (up_spec page (moff + size) ltac:(lia)) as (X1 & X2).
    apply Z.mod_divide in X1; [|lia]. apply Z.mod_divide in MM; [|lia]. destruct X1 as (q1 & X1), MM as (q2 & MM). rewrite X1, MM in *.
    assert (q1 <= q2) by nia. nia. }
  destruct I as [I1 I2 I3 I4 I5 I6 I7 I8 I9 I10 I11 I12 I13 I14 I15 I16 I17].
  cbn [fs fm flen maps f_page f_size f_off f_base f_msize f_moff f_mmaps] in *. fold moff in I6.
  destruct I4 as (C1 & C2 & C3 & C4 & C5). destruct I5 as (F1 & F2 & F3).
  assert (SH : shows m p size (F + moff)).
  { intros x X. unfold p in *. rewrite (I7 x) by lia. f_equal. f_equal. lia. }
  assert (D : forall r, In r G -> disjoint (p, size) r).
  { intros (q & k) H x X Y. destruct (I15 q k H) as (_ & _ & _ & _ & _ & B10). apply (B10 x Y). unfold inside in X. cbn [fst snd] in X. unfold p in X. lia. }
  assert (OU : off + size <= F + (moff + size) + up page (moff + size) - (if (off + size) mod page =? 0 then 0 else page)).
  { unfold off. destruct ((f_off s + (moff - f_moff s) + size) mod page =? 0); destruct (f_off s mod page =? 0); lia. }
  split; [constructor; cbn [fs fm flen maps f_page f_size f_off f_base f_msize f_moff f_mmaps]|].
  - exact I1.
  - exact I2.
  - exact I3.
  - split; [lia|]. split; [exact C2|]. split; [exact C3|]. lia.
  - split; [exact F1|]. split; [exact F2|exact F3].
  - split; [unfold off; lia|exact OU].
  - exact I7.
  - exact I8.
  - intros H. unfold off. rewrite (I9 H). lia.
  - intros H. assert (M : f_moff s mod page = 0).
    { replace (f_moff s) with (f_off s - F) by (rewrite (I9 (eq_trans (f_equal (orb _) H) (orb_true_r _))); lia). apply mod0_minus; [exact (I10 H)|exact F2]. }
    assert (MM : moff = f_moff s) by (apply up_multiple; [lia|exact M]). unfold off. rewrite MM, Z.sub_diag, Z.add_0_r. apply mod0_plus; [exact (I10 H)|exact (WS H)].
  - exact I11.
  - exact I12.
  - exact I13.
  - exact I14.
  - intros q k [H|H].
    + injection H as <- <-. split; [unfold p; lia|]. split; [exact S|]. split; [unfold p; apply mod0_plus; assumption|].
      split; [exists (f_base s), (f_msize s); split; [apply I8; lia|unfold p; lia]|].
      split; [exists (F + moff); split; [lia|]; split; [lia|exact SH]|]. intros x X. unfold inside in X. cbn [fst snd] in X. unfold p in X. lia.
    + destruct (I15 q k H) as (B1 & B2 & B3 & B4 & (o & B7 & B8 & B9) & B10). do 4 (split; [assumption|]).
      split; [exists o; split; [exact B7|]; split; [lia|exact B9]|]. intros x X Y. apply (B10 x X). lia.
  - assert (NEW : forall x y, inside x (p, size) -> cov G y -> m x = m y -> False).
    { intros x y X ((q & k) & Y1 & Y2) E. unfold inside in X, Y2. cbn [fst snd] in X, Y2. destruct (I15 q k Y1) as (_ & _ & _ & _ & (o & B7 & B8 & B9) & _).
      rewrite (SH x X), (B9 y Y2) in E. injection E as E. lia. }
    intros x y (r1 & [X1|X1] & X2) (r2 & [Y1|Y1] & Y2) E.
    + subst r1 r2. unfold inside in X2, Y2. cbn [fst snd] in X2, Y2. rewrite (SH x X2), (SH y Y2) in E. injection E as E. lia.
    + subst r1. exfalso. apply (NEW x y X2); [exists r2; split; assumption|exact E].
    + subst r2. exfalso. apply (NEW y x Y2); [exists r1; split; assumption|symmetry; exact E].
    + apply I16; [exists r1; split; assumption|exists r2; split; assumption|exact E].
  - constructor; [|exact I17]. rewrite Forall_forall. exact D.
  - split; [destruct ((off + size) mod page =? 0); lia|]. split; [unfold p; apply mod0_plus; assumption|]. split; [exact D|]. split; [unfold p; lia|].
    exists (F + moff). split; [exact SH|]. split; [lia|]. split; [lia|]. intros H. unfold off. rewrite (I9 H). lia.
Qed.

Definition wnext (page : Z) (w : fworld) (ev : list fsys) (s' : filep) : fworld :=
  FW s' (after_all page (fm w) (mappings ev)) (grown_all (flen w) ev) (new_maps (mappings ev) ++ maps w).
Record okev (page : Z) (mo : mode) (m : memory) (ev : list fsys) : Prop := OkEv {
  ok_k : kernel page m (mappings ev); ok_f : files ev; ok_g : gaps mo = true -> holes page m (mappings ev); ok_n : no_fail mo = true -> ~ mmap_failed (mappings ev) }.

Lemma align_page : forall page a, pow2 page -> 0 <= a -> a + page <= U64 -> a mod page = 0 -> ALIGN_UP_SAFE a page = a.
Proof.
  intros page a P A L M. pose proof (pow2_range _ P) as R. rewrite align_up_safe_word by (exact P || (unfold is_word; lia)).
  replace (U64 <=? a + page - 1) with false by (symmetry; apply Z.leb_gt; lia).
  replace ((a + page - 1) mod page) with (page - 1); [lia|]. symmetry.
  replace (a + page - 1) with ((page - 1) + (a / page) * page) by (pose proof (Z.div_mod a page ltac:(lia)); lia).
  rewrite Z.mod_add by lia. apply Z.mod_small. lia.
Qed.
Lemma aligned_ok : forall page a, pow2 page -> a mod page = 0 -> IS_NOT_ALIGNED a page = false.
Proof.
  intros page a P M. pose proof (pow2_range _ P) as R. unfold IS_NOT_ALIGNED. rewrite (mask_mod _ _ P), M. apply andb_false_r.
Qed.

Lemma fworld_eta : forall w, w = FW (fs w) (fm w) (flen w) (maps w).
Proof. intros [s m n l]. reflexivity. Qed.

Lemma mmap_ok : forall dbg page mo F w G size a, pow2 page -> page < 2 ^ 63 -> FI page mo F w G -> 0 < size < U64 ->
  (dbg = true -> file_mmap_aligned true (fs w) size page a = file_mmap_aligned false (fs w) size page a) /\
  (forall r ev s', file_mmap_aligned dbg (fs w) size page a = Some (r, ev, s') -> okev page mo (fm w) ev ->
   exists F', FI page mo F' (wnext page w ev s') G /\ f_map s' = f_map (fs w) /\ f_ipc s' = f_ipc (fs w) /\ f_dax s' = f_dax (fs w) /\
     (r = SUCCESS -> 0 < f_base s' /\ f_moff s' = 0 /\ size + page <= f_msize s' /\ f_off s' = F')).
Proof.
  intros dbg page mo F w G size a P PL I S. pose proof (pow2_range _ P) as R.
  pose proof I as IF. destruct IF as [I1 I2 I3 I4 I5 I6 _ _ _ _ _ _ _ I14 _ _ _].
  destruct (up_spec page (f_moff (fs w)) ltac:(lia)) as (M1 & M2).
  assert (MU : up page (f_moff (fs w)) <= f_msize (fs w)).
  { destruct I4 as (C1 & C2 & _). clear - C1 C2 M1 M2 R.
    apply Z.mod_divide in M1; [|lia]. apply Z.mod_divide in C2; [|lia]. destruct M1 as (q1 & X1), C2 as (q2 & MM). rewrite X1, MM in *.
    assert (q1 <= q2) by nia. nia. }
  assert (UU : U64 = 2 ^ 64) by reflexivity.
  assert (WF : is_word (f_off (fs w))).
  { unfold is_word. destruct (f_off (fs w) mod page =? 0); lia. }
  set (s := fs w) in *. unfold file_mmap_aligned. rewrite I1.
  destruct (wrap (size + page) <? size) eqn:E1.
  { split; [reflexivity|]. intros r ev s' H _. injection H as <- <- <-. exists F. unfold wnext. cbn. fold s. split; [rewrite (fworld_eta w) in I; exact I|]. do 3 (split; [reflexivity|]). discriminate. }
  apply Z.ltb_ge in E1.
  assert (NW : size + page < U64).
  { destruct (Z_lt_ge_dec (size + page) U64) as [H|H]; [exact H|]. rewrite wrap_over in E1 by lia. lia. }
  rewrite (wrap_id (size + page)) in * by (unfold is_word; lia).
  destruct (page_up page (size + page) <? size) eqn:E2.
  { split; [reflexivity|]. intros r ev s' H _. injection H as <- <- <-. exists F. unfold wnext. cbn. fold s. split; [rewrite (fworld_eta w) in I; exact I|]. do 3 (split; [reflexivity|]). discriminate. }
  apply Z.ltb_ge in E2.
  assert (EX : page_up page (size + page) = up page (size + page) /\ up page (size + page) < U64).
  { destruct (up_spec page (size + page) ltac:(lia)) as (X1 & X2). rewrite (page_up_val _ _ P) in * by (unfold is_word; lia).
    destruct (Z_lt_ge_dec (up page (size + page)) U64) as [H|H]; [rewrite wrap_id by (unfold is_word; lia); split; [reflexivity|exact H]|].
    exfalso. assert (Y : up page (size + page) = U64) by (apply up_unique; [lia|apply U64_multiple; exact P|lia]).
    rewrite Y in E2. unfold wrap in E2. rewrite Z.mod_same in E2 by lia. lia. }
  destruct EX as (EX1 & EX2). rewrite EX1 in *. destruct (up_spec page (size + page) ltac:(lia)) as (X1 & X2).
  set (ext := up page (size + page)) in *. clearbody ext.
  destruct (page_up page (f_off s) <? f_off s) eqn:E3.
  { split; [reflexivity|]. intros r ev s' H _. injection H as <- <- <-. exists F. unfold wnext. cbn. fold s. split; [rewrite (fworld_eta w) in I; exact I|]. do 3 (split; [reflexivity|]). discriminate. }
  apply Z.ltb_ge in E3.
  assert (AO : page_up page (f_off s) = up page (f_off s) /\ up page (f_off s) < U64).
  { destruct (Z.eq_dec (f_off s) 0) as [Y|Y].
    - rewrite (page_up_val _ _ P WF), Y. assert (Q : up page 0 = 0) by (apply up_multiple; [lia|reflexivity]). rewrite Q. split; [reflexivity|unfold U64; lia].
    - destruct (page_up_cases page (f_off s) P WF ltac:(unfold is_word in WF; lia)) as [Z|Z]; [lia|exact Z]. }
  destruct AO as (AO1 & AO2). rewrite AO1 in *. destruct (up_spec page (f_off s) ltac:(lia)) as (A1 & A2).
  set (aoff := up page (f_off s)) in *.
  assert (ALN : IS_NOT_ALIGNED ext page || IS_NOT_ALIGNED aoff page = false) by (rewrite !(aligned_ok page) by assumption; reflexivity).
  rewrite ALN, !andb_false_r. split; [reflexivity|].
  assert (OFFV : (if f_off s <? aoff then aoff else f_off s) = aoff).
  { destruct (f_off s <? aoff) eqn:Y; [reflexivity|]. apply Z.ltb_ge in Y. lia. }
  rewrite OFFV. set (new := wrap (aoff + ext)) in *.
  intros r ev s'.
  destruct ((f_size s <? new) && negb (a_grow a)) eqn:E4.
  { intros H _. injection H as <- <- <-. apply andb_prop in E4. destruct E4 as (E4 & E5). apply negb_true_iff in E5. rewrite E4, E5.
    exists F. unfold wnext. cbn. fold s. split; [rewrite (fworld_eta w) in I; exact I|]. do 3 (split; [reflexivity|]). discriminate. }
  assert (GR : forall l, (forall st ln ok, ~ In (Grow st ln ok) l) -> files ((if f_size s <? new then [Grow (f_size s) (wrap (new - f_size s)) (a_grow a)] else []) ++ l) ->
     flen w <= (if f_size s <? new then new else f_size s) < 2 ^ 63 /\ grown_all (flen w) ((if f_size s <? new then [Grow (f_size s) (wrap (new - f_size s)) (a_grow a)] else []) ++ l) = (if f_size s <? new then new else f_size s)).
  { intros l NG (FL & _).
    assert (GL : forall l n, (forall st ln ok, ~ In (Grow st ln ok) l) -> grown_all n l = n).
    { intros l0. induction l0 as [|[st ln ok|c] l0 IH]; intros n0 Q; [reflexivity|destruct (Q st ln ok); left; reflexivity|].
      unfold grown_all. cbn [fold_left]. change (grown_all n0 l0 = n0). apply IH. intros st ln ok Y. apply (Q st ln ok). right. exact Y. }
    pose proof (wrap_word (aoff + ext)) as WN. fold new in WN. unfold is_word in WN.
    destruct (f_size s <? new) eqn:Y.
    - apply Z.ltb_lt in Y. cbn [andb] in E4. apply negb_false_iff in E4. rewrite E4 in *.
      assert (WD : wrap (new - f_size s) = new - f_size s) by (apply wrap_id; unfold is_word; lia). rewrite WD in *.
      specialize (FL (f_size s) (new - f_size s) (or_introl eq_refl)). split; [lia|].
      unfold grown_all. cbn [app fold_left grown]. change (grown_all (Z.max (flen w) (f_size s + (new - f_size s))) l = new). rewrite GL by exact NG. lia.
    - split; [lia|]. cbn [app]. rewrite GL by exact NG. lia. }
  assert (MP : forall c, mappings ((if f_size s <? new then [Grow (f_size s) (wrap (new - f_size s)) (a_grow a)] else []) ++ [Call c]) = [c]) by (intros c; destruct (f_size s <? new); reflexivity).
  assert (NG : forall c st ln ok, ~ In (Grow st ln ok) [Call c]) by (intros c st ln ok [Y|[]]; discriminate).
  destruct (a_mmap a) as [ptr|].
  - intros H OK. injection H as <- <- <-. destruct OK as [K1 K2 K3 K4]. rewrite MP in *.
    destruct (GR _ (NG _) K2) as (N1 & N2).
    destruct K1 as ((L1 & L2 & L3 & L4 & L5 & L6) & _). rewrite (up_multiple page ext) in L4 by (lia || assumption).
    destruct K2 as (_ & K2). specialize (K2 ptr ext aoff). rewrite in_app_iff in K2. specialize (K2 (or_intror (or_introl eq_refl))).
    assert (NEW : new = aoff + ext) by (apply wrap_id; unfold is_word in *; lia).
    assert (AL : ALIGN_UP_SAFE ptr page = ptr) by (apply align_page; [exact P|lia| |exact L3]; lia).
    assert (INS : map_insert (f_mmaps s) ptr ext = Some ((ptr, ext) :: f_mmaps s)).
    { unfold map_insert. rewrite map_get_none; [reflexivity|]. rewrite I14. intros q len H E. subst q.
      destruct (v_maps _ _ _ _ _ I ptr len H) as (_ & Z2 & _ & _ & _ & off & _ & _ & _ & SH). specialize (SH ptr ltac:(lia)). rewrite L6 in SH; [discriminate|]. apply within_iff. rewrite up_multiple by (lia || assumption). lia. }
    rewrite INS, AL, Z.sub_diag. change (wrap 0) with 0. rewrite Z.sub_0_r, (wrap_id ext) by (unfold is_word; lia).
    exists aoff. cbn [f_map f_ipc f_dax f_base f_moff f_msize f_off]. split; [|do 3 (split; [reflexivity|]); lia].
    unfold wnext. rewrite MP, N2. cbn [after_all fold_left new_maps flat_map app].
    rewrite <- I1 at 2. apply (fi_map page mo F s (fm w) (flen w) (maps w) G); try assumption; try lia; try reflexivity.
    + rewrite (fworld_eta w) in I. exact I.
    + destruct (f_size s <? new) eqn:Y; [lia|]. apply Z.ltb_ge in Y. lia.
    + intros x X. apply L6. apply within_iff. rewrite up_multiple by (lia || assumption). lia.
    + intros GA. destruct (K3 GA) as (Y & _). rewrite (up_multiple page ext) in Y by (lia || assumption). exact Y.
  - intros H OK. injection H as <- <- <-. destruct OK as [K1 K2 K3 K4]. rewrite MP in *.
    destruct (GR _ (NG _) K2) as (N1 & N2).
    exists F. cbn [f_map f_ipc f_dax]. split; [|do 3 (split; [reflexivity|]); discriminate].
    unfold wnext. rewrite MP, N2. cbn [after_all fold_left new_maps flat_map app].
    rewrite <- I1 at 2. eapply fi_file; [exact P|rewrite (fworld_eta w) in I; exact I|exact N1|].
    right. split; [reflexivity|]. intros NF. exfalso. apply (K4 NF). exists ext, (Some aoff). left. reflexivity.
Qed.

Lemma wnext_nil : forall page w, wnext page w [] (fs w) = w.
Proof. intros page [s m n l]. reflexivity. Qed.
Lemma okev_nil : forall page mo m, okev page mo m [].
Proof. intros. constructor; [exact Logic.I|split; [intros ? ? []|intros ? ? ? []]|intros _; exact Logic.I|intros _ (len & off & [])]. Qed.

(* cutting from the current mapping, in the words of the code *)
Lemma take_ok : forall page mo F w G size, pow2 page -> page < 2 ^ 63 -> FI page mo F w G -> 0 < size < U64 -> 0 < f_base (fs w) ->
  let s := fs w in let p0 := wrap (f_base s + f_moff s) in let rest := Z.land p0 (wrap (page - 1)) in
  let p := if negb (page =? 0) && negb (rest =? 0) then wrap (p0 + (page - rest)) else p0 in
  let moff := wrap (p - f_base s) in let off := wrap (wrap (f_off s + moff) - f_moff s) in
  p = f_base s + up page (f_moff s) /\ moff = up page (f_moff s) /\ moff <= f_msize s /\ p mod page = 0 /\
  wrap (f_msize s - moff) = f_msize s - moff /\
  (moff + size <= f_msize s -> off = f_off s + (moff - f_moff s) /\ wrap (off + size) = off + size /\ wrap (moff + size) = moff + size).
Proof.
  intros page mo F w G size P PL I S B. pose proof (pow2_range _ P) as R. cbv zeta.
  destruct (up_spec page (f_moff (fs w)) ltac:(lia)) as (M1 & M2).
  assert (UU : U64 = 2 ^ 64) by reflexivity.
  pose proof I as IF. destruct IF as [I1 I2 I3 (C1 & C2 & C3 & C4 & C5) I5 I6 _ _ _ _ _ _ _ _ _ _ _].
  assert (MU : up page (f_moff (fs w)) <= f_msize (fs w)).
  { clear - C1 C2 M1 M2 R.
    apply Z.mod_divide in M1; [|lia]. apply Z.mod_divide in C2; [|lia]. destruct M1 as (q1 & X1), C2 as (q2 & MM). rewrite X1, MM in *.
    assert (q1 <= q2) by nia. nia. }
  rewrite (mask_mod _ _ P). rewrite (wrap_id (f_base (fs w) + f_moff (fs w))) by (unfold is_word; lia).
  replace (page =? 0) with false by (symmetry; apply Z.eqb_neq; lia). cbn [negb andb].
  assert (PV : (if negb ((f_base (fs w) + f_moff (fs w)) mod page =? 0) then wrap (f_base (fs w) + f_moff (fs w) + (page - (f_base (fs w) + f_moff (fs w)) mod page)) else f_base (fs w) + f_moff (fs w)) = f_base (fs w) + up page (f_moff (fs w))).
  { assert (Q : (f_base (fs w) + f_moff (fs w)) mod page = f_moff (fs w) mod page).
    { rewrite Z.add_mod by lia. rewrite C3, Z.add_0_l, Z.mod_mod by lia. reflexivity. }
    rewrite Q. destruct (f_moff (fs w) mod page =? 0) eqn:E; cbn [negb].
    - apply Z.eqb_eq in E. rewrite up_multiple by (lia || assumption). reflexivity.
    - apply Z.eqb_neq in E. assert (Y : up page (f_moff (fs w)) = f_moff (fs w) + (page - f_moff (fs w) mod page)).
      { apply up_unique; [lia| |pose proof (Z.mod_pos_bound (f_moff (fs w)) page ltac:(lia)); lia].
        replace (f_moff (fs w) + (page - f_moff (fs w) mod page)) with ((f_moff (fs w) / page + 1) * page) by (pose proof (Z.div_mod (f_moff (fs w)) page ltac:(lia)); lia).
        apply Z.mod_mul. lia. }
      rewrite wrap_id by (unfold is_word; lia). lia. }
  rewrite PV. replace (f_base (fs w) + up page (f_moff (fs w)) - f_base (fs w)) with (up page (f_moff (fs w))) by lia.
  rewrite (wrap_id (up page (f_moff (fs w)))) by (unfold is_word; lia).
  split; [reflexivity|]. split; [reflexivity|]. split; [exact MU|]. split; [apply mod0_plus; assumption|]. split; [apply wrap_id; unfold is_word; lia|].
  intros FIT. rewrite (fworld_eta w) in I.
  assert (I' : FI page (Mode (gaps mo) (no_fail mo) false (enough mo) (big mo)) F (FW (fs w) (fm w) (flen w) (maps w)) G).
  { destruct I. constructor; cbn [gaps no_fail whole] in *; try assumption; [|discriminate]. intros H. apply v_exact0. rewrite orb_false_r in H. rewrite H. reflexivity. }
  assert (WF : whole (Mode (gaps mo) (no_fail mo) false (enough mo) (big mo)) = true -> size mod page = 0) by (cbn; discriminate).
  destruct (fi_take page _ F (fs w) (fm w) (flen w) (maps w) G size P I' ltac:(lia) B FIT WF) as (_ & T1 & _).
  assert (OV : wrap (wrap (f_off (fs w) + up page (f_moff (fs w))) - f_moff (fs w)) = f_off (fs w) + (up page (f_moff (fs w)) - f_moff (fs w))).
  { unfold wrap at 1 2. rewrite Zminus_mod_idemp_l. rewrite Z.mod_small; [lia|]. destruct (f_off (fs w) mod page =? 0); lia. }
  rewrite OV. split; [reflexivity|]. split; apply wrap_id; unfold is_word; [destruct (f_off (fs w) mod page =? 0)|]; lia.
Qed.

Lemma alloc_aligned_ok : forall dbg page mo F w G size a1 a2, pow2 page -> page < 2 ^ 63 -> FI page mo F w G -> 0 < size < U64 -> (whole mo = true -> size mod page = 0) ->
  forall r p off ev s', file_alloc_aligned dbg (fs w) size page a1 a2 = Some (r, p, off, ev, s') -> okev page mo (fm w) ev ->
  f_map s' = f_map (fs w) /\ f_ipc s' = f_ipc (fs w) /\ f_dax s' = f_dax (fs w) /\
  exists F',
    (r <> SUCCESS -> FI page mo F' (wnext page w ev s') G) /\
    (r = SUCCESS -> FI page mo F' (wnext page w ev s') ((p, size) :: G) /\ 0 < p /\ p mod page = 0 /\ (forall r, In r G -> disjoint (p, size) r) /\ p + size <= 2 ^ 63 /\
       exists o, shows (fm (wnext page w ev s')) p size o /\ 0 <= o /\ o + size <= flen (wnext page w ev s') /\ (no_fail mo || whole mo = true -> off = o)).
Proof.
  intros dbg page mo F w G size a1 a2 P PL I S WH r p off ev s'. pose proof (pow2_range _ P) as R. unfold file_alloc_aligned.
  assert (FIN : forall F1 w1, FI page mo F1 w1 G -> 0 < f_base (fs w1) -> up page (f_moff (fs w1)) + size <= f_msize (fs w1) ->
    let moff := up page (f_moff (fs w1)) in let p := f_base (fs w1) + moff in let off := f_off (fs w1) + (moff - f_moff (fs w1)) in
    let s2 := Filep (f_page (fs w1)) (f_size (fs w1)) (off + size) (f_base (fs w1)) (f_msize (fs w1)) (moff + size) (f_mmaps (fs w1)) (f_map (fs w1)) (f_ipc (fs w1)) (f_dax (fs w1)) in
    let w2 := FW s2 (fm w1) (flen w1) (maps w1) in
    FI page mo F1 w2 ((p, size) :: G) /\ 0 < p /\ p mod page = 0 /\ (forall r, In r G -> disjoint (p, size) r) /\ p + size <= 2 ^ 63 /\
       exists o, shows (fm w2) p size o /\ 0 <= o /\ o + size <= flen w2 /\ (no_fail mo || whole mo = true -> off = o)).
  { intros F1 w1 I1 B1 FIT. cbv zeta. rewrite (fworld_eta w1) in I1.
    destruct (fi_take page mo F1 (fs w1) (fm w1) (flen w1) (maps w1) G size P I1 ltac:(lia) B1 FIT WH) as (T0 & _ & T2 & T3 & T4 & o & T5 & T6 & T7 & T8).
    split; [exact T0|]. split; [pose proof (up_nonneg page (f_moff (fs w1)) ltac:(lia)) as Y; pose proof (v_cur _ _ _ _ _ I1) as (Z & _); cbn [fs] in Z; lia|].
    split; [exact T2|]. split; [exact T3|]. split; [exact T4|]. exists o. split; [exact T5|]. split; [exact T6|]. split; [exact T7|]. intros H. symmetry. exact (T8 H). }
  pose proof (v_cur _ _ _ _ _ I) as CUR. assert (UU : U64 = 2 ^ 64) by reflexivity.
  destruct (wrap (f_msize (fs w) - f_moff (fs w)) <? size) eqn:E1.
  - (* a new mapping first *)
    destruct (mmap_ok dbg page mo F w G size a1 P PL I S) as (_ & MK).
    destruct (file_mmap_aligned dbg (fs w) size page a1) as [[[r1 ev1] s1]|]; [|discriminate].
    destruct (result_eqb r1 SUCCESS) eqn:RS.
    + assert (r1 = SUCCESS) by (destruct r1; (reflexivity || discriminate)). subst r1.
      assert (GO : okev page mo (fm w) ev1 -> 0 < f_base s1 /\ f_moff s1 = 0 /\ size + page <= f_msize s1).
      { intros OK. destruct (MK _ _ _ eq_refl OK) as (F1 & _ & _ & _ & _ & X). destruct (X eq_refl) as (X1 & X2 & X3 & _). split; [exact X1|split; assumption]. }
      destruct (dbg && (f_base s1 =? 0)); [discriminate|].
      match goal with |- context [dbg && IS_NOT_ALIGNED ?q page] => destruct (dbg && IS_NOT_ALIGNED q page); [discriminate|] end.
      match goal with |- context [if ?b then _ else _] => destruct b eqn:E2 end.
      * (* not taken *)
        intros H OK. exfalso.
        assert (OK1 : okev page mo (fm w) ev1).
        { destruct (file_mmap_aligned dbg s1 size page a2) as [[[r2 ev2] s2]|]; [|discriminate].
          assert (EV : exists t, ev = ev1 ++ t).
          { destruct r2; try (injection H as _ _ _ <- _; exists ev2; reflexivity). destruct (dbg && ((f_base s2 =? 0) || IS_NOT_ALIGNED (f_base s2) page)); [discriminate|]. injection H as _ _ _ <- _. exists ev2. reflexivity. }
          destruct EV as (t & ->). destruct OK as [K1 (K2 & K2') K3 K4].
          assert (MA : mappings (ev1 ++ t) = mappings ev1 ++ mappings t) by apply flat_map_app. rewrite MA in *. constructor.
          - eapply kernel_app. exact K1.
          - split; intros; [eapply K2|eapply K2']; apply in_or_app; left; eassumption.
          - intros GA. specialize (K3 GA). clear - K3. revert K3. generalize (fm w). induction (mappings ev1) as [|e l IH]; intros m K3; [exact Logic.I|]. cbn in K3 |- *. destruct K3 as (Y & Z). split; [exact Y|]. apply IH. exact Z.
          - intros NF (len & o & Y). apply (K4 NF). exists len, o. apply in_or_app. left. exact Y. }
        destruct (MK _ _ _ eq_refl OK1) as (F1 & I1 & _ & _ & _ & X). destruct (X eq_refl) as (X1 & X2 & X3 & _).
        destruct (take_ok page mo F1 (wnext page w ev1 s1) G size P PL I1 S X1) as (_ & T2 & T3 & _ & T5 & _). cbn [wnext fs] in T2, T3, T5.
        rewrite T5, T2, X2, (up_multiple page 0) in E2 by (lia || reflexivity). apply Z.ltb_lt in E2. lia.
      * intros H OK. assert (OK1 : okev page mo (fm w) ev1) by (injection H as _ _ _ <- _; exact OK).
        destruct (MK _ _ _ eq_refl OK1) as (F1 & I1 & M1 & M2 & M3 & X). destruct (X eq_refl) as (X1 & X2 & X3 & _).
        destruct (take_ok page mo F1 (wnext page w ev1 s1) G size P PL I1 S X1) as (T1 & T2 & T3 & _ & T5 & T6). cbn [wnext fs] in T1, T2, T3, T5, T6.
        rewrite T2 in *.
        assert (FIT : up page (f_moff s1) + size <= f_msize s1) by (rewrite X2, (up_multiple page 0) by (lia || reflexivity); lia).
        destruct (T6 FIT) as (T7 & T8 & T9). rewrite T1, T8, T7, T9 in H. injection H as <- <- <- <- <-.
        cbn [f_map f_ipc f_dax]. split; [exact M1|]. split; [exact M2|]. split; [exact M3|]. exists F1. split; [contradiction|]. intros _.
        exact (FIN F1 (wnext page w ev1 s1) I1 X1 FIT).
    + intros H OK. assert (HH : r = r1 /\ ev = ev1 /\ s' = s1) by (destruct r1; try discriminate RS; injection H as <- _ _ <- <-; repeat split; reflexivity). destruct HH as (-> & -> & ->).
      destruct (MK _ _ _ eq_refl OK) as (F1 & I1 & M1 & M2 & M3 & _). split; [exact M1|]. split; [exact M2|]. split; [exact M3|]. exists F1. split; [intros _; exact I1|]. intros ->. discriminate.
  - (* the current mapping *)
    apply Z.ltb_ge in E1. rewrite wrap_id in E1 by (unfold is_word; lia).
    assert (B : 0 < f_base (fs w)).
    { destruct (v_maps _ _ _ _ _ I _ _ (v_incl _ _ _ _ _ I ltac:(lia))) as (Y & _). exact Y. }
    destruct (dbg && (f_base (fs w) =? 0)); [discriminate|].
    match goal with |- context [dbg && IS_NOT_ALIGNED ?q page] => destruct (dbg && IS_NOT_ALIGNED q page); [discriminate|] end.
    destruct (take_ok page mo F w G size P PL I S B) as (T1 & T2 & T3 & _ & T5 & T6). rewrite T2 in *.
    match goal with |- context [if ?b then _ else _] => destruct b eqn:E2 end.
    + destruct (mmap_ok dbg page mo F w G size a2 P PL I S) as (_ & MK).
      destruct (file_mmap_aligned dbg (fs w) size page a2) as [[[r2 ev2] s2]|]; [|discriminate].
      destruct (result_eqb r2 SUCCESS) eqn:RS.
      * assert (r2 = SUCCESS) by (destruct r2; (reflexivity || discriminate)). subst r2.
        destruct (dbg && ((f_base s2 =? 0) || IS_NOT_ALIGNED (f_base s2) page)); [discriminate|].
        intros H OK. assert (OK2 : okev page mo (fm w) ev2) by (injection H as _ _ _ <- _; exact OK).
        destruct (MK _ _ _ eq_refl OK2) as (F1 & I1 & M1 & M2 & M3 & X). destruct (X eq_refl) as (X1 & X2 & X3 & X4).
        assert (FIT : up page (f_moff s2) + size <= f_msize s2) by (rewrite X2, (up_multiple page 0) by (lia || reflexivity); lia).
        destruct (take_ok page mo F1 (wnext page w ev2 s2) G size P PL I1 S X1) as (V1 & V2 & V3 & _ & V5 & V6). cbn [wnext fs] in V1, V2, V3, V5, V6.
        rewrite V2 in V6. destruct (V6 FIT) as (V7 & V8 & V9). rewrite V7 in V8.
        pose proof (FIN F1 (wnext page w ev2 s2) I1 X1 FIT) as Q. cbv zeta in Q. cbn [wnext fs fm flen maps] in Q.
        rewrite X2, (up_multiple page 0) in * by (lia || reflexivity). rewrite !Z.sub_diag, !Z.add_0_r in *.
        rewrite V8, V9 in H. injection H as <- <- <- <- <-.
        cbn [f_map f_ipc f_dax]. split; [exact M1|]. split; [exact M2|]. split; [exact M3|]. exists F1. split; [contradiction|]. intros _. exact Q.
      * intros H OK. assert (HH : r = r2 /\ ev = ev2 /\ s' = s2) by (destruct r2; try discriminate RS; injection H as <- _ _ <- <-; repeat split; reflexivity). destruct HH as (-> & -> & ->).
        destruct (MK _ _ _ eq_refl OK) as (F1 & I1 & M1 & M2 & M3 & _). split; [exact M1|]. split; [exact M2|]. split; [exact M3|]. exists F1. split; [intros _; exact I1|]. intros ->. discriminate.
    + rewrite T5 in E2. apply Z.ltb_ge in E2.
      assert (FIT : up page (f_moff (fs w)) + size <= f_msize (fs w)) by lia.
      destruct (T6 FIT) as (T7 & T8 & T9). intros H OK. rewrite T1, T8, T7, T9 in H. injection H as <- <- <- <- <-.
      cbn [f_map f_ipc f_dax]. do 3 (split; [reflexivity|]). exists F. split; [contradiction|]. intros _. exact (FIN F w I B FIT).
Qed.
