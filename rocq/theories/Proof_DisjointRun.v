(* Every call of the disjoint pool keeps the invariant. *)
From Verif Require Import Base Model_Utils Spec_Utils Proof_Utils Model_Disjoint Spec_Disjoint Proof_DisjointClass Proof_DisjointBits Proof_Disjoint Proof_DisjointStep Proof_DisjointMem.
Local Opaque bucket_table new_chunks.

Lemma alloc_size_eq : forall P c, bucket_slab_alloc_size P c = slab_bytes P c.
Proof. intros. unfold bucket_slab_alloc_size, slab_bytes, utils_max. destruct (Z.gtb_spec c (slab_min_size P)); lia. Qed.
Lemma num_chunks_eq : forall P c, num_chunks_total P c = slab_chunks P c.
Proof. intros. unfold num_chunks_total, slab_chunks, utils_max. destruct (Z.gtb_spec (slab_min_size P / c) 1); lia. Qed.

(* ---- counters ---- *)
Lemma counts_move : forall P s v s' v', Counts P s v ->
  (forall j b', nth_error (p_buckets s') j = Some b' -> exists b, nth_error (p_buckets s) j = Some b /\ b_size b' = b_size b /\
     b_inpool b' = b_inpool b + (nempty j (p_slabs s') - nempty j (p_slabs s)) /\ (nempty j (p_slabs s') <= nempty j (p_slabs s) \/ nempty j (p_slabs s') <= bucket_max_pooled_slabs P (b_size b))) ->
  p_total s' = p_total s + (pooled (p_slabs s') - pooled (p_slabs s)) -> (pooled (p_slabs s') <= pooled (p_slabs s) \/ pooled (p_slabs s') <= max_size P) ->
  v_others v' = v_others v -> v_others v + total_size (v_regions v') < U64 -> Counts P s' v'.
Proof.
  intros P s v s' v' C B T L O S. destruct C. constructor.
  - intros j b' B'. destruct (B j b' B') as (b & B0 & E & I & N). destruct (n_inpool j b B0) as (X & Y). rewrite E. split; lia.
  - rewrite T, O. lia.
  - lia.
  - lia.
  - rewrite O. exact S.
Qed.
Lemma pooled_set : forall P s v G x sl sl', Core P s v G -> lk (p_slabs s) x = Some sl -> s_mem sl' = x ->
  pooled (set_slab sl' (p_slabs s)) = pooled (p_slabs s) - bytes1 sl + bytes1 sl' /\ (forall j, nempty j (set_slab sl' (p_slabs s)) = nempty j (p_slabs s) - empty1 j sl + empty1 j sl').
Proof. intros P s v G x sl sl' I H M. unfold pooled, nempty. split; intros; apply wsum_set; try exact (c_keys _ _ _ _ I); rewrite M; exact H. Qed.
Lemma total_spans : forall v, (forall g, In g (v_regions v ++ v_lost v) -> 0 < g_size g) -> total_size (v_regions v) <= fold_right (fun x s => snd x + s) 0 (spans v).
Proof.
  intros v H. unfold spans. rewrite map_app, fold_right_app.
  assert (L : 0 <= fold_right (fun (x : Z * Z) s => snd x + s) 0 (map (fun g => (g_base g, g_size g)) (v_lost v))).
  { assert (HL : forall g, In g (v_lost v) -> 0 < g_size g) by (intros; apply H; apply in_or_app; auto). revert HL. clear. induction (v_lost v) as [|g l IH]; intros HL; cbn; [lia|]. pose proof (HL g (or_introl eq_refl)). specialize (IH (fun g G => HL g (or_intror G))). lia. }
  revert L. generalize (fold_right (fun (x : Z * Z) s => snd x + s) 0 (map (fun g => (g_base g, g_size g)) (v_lost v))). clear. unfold total_size. induction (v_regions v) as [|g l IH]; intros z L; cbn [map fold_right snd] in *; [lia|]. specialize (IH z L). lia.
Qed.
Lemma total_back : forall p n L, (forall g, In g L -> 0 <= g_size g) -> total_size (give_back p n L) <= total_size L.
Proof.
  induction L as [|g L IH]; intros H; [cbn; lia|]. pose proof (H g (or_introl eq_refl)). specialize (IH (fun g G => H g (or_intror G))). unfold give_back in *. cbn [filter]. destruct (negb _); cbn [total_size fold_right] in *; unfold total_size in *; cbn [fold_right]; lia.
Qed.
Lemma max_pos : forall P s v G x sl, valid P -> Core P s v G -> lk (p_slabs s) x = Some sl -> 0 < s_size sl.
Proof. intros P s v G x sl V I H. destruct (slab_facts P s v G V I x sl H) as (c & _ & _ & _ & _ & _ & X & _). pose proof (valid_min P V). lia. Qed.

(* ---- a chunk is taken ---- *)
Section Alloc.
Variables (dbg : bool) (P : params) (s : pool) (v : view) (G : list (live * place)).
Hypothesis (V : valid P) (I : Core P s v G) (N : Counts P s v).

Definition got (v1 : view) (s1 : pool) (c ptr : Z) : Prop :=
  exists x idx, ptr = x + idx * c /\ 0 <= idx < slab_chunks P c /\ 0 < x /\ In (Region x (slab_bytes P c) (Some c)) (v_regions v1) /\
    (page_size P <> 0 -> multiple_of x (page_size P)) /\ x + slab_bytes P c < U64 /\ v_live v1 = v_live v /\ v_others v1 = v_others v /\ v_lost v1 = v_lost v /\ Counts P s1 v1 /\
    forall l, 0 < l_size l -> ptr <= l_ptr l -> l_ptr l + l_size l <= ptr + c -> l_ptr l < x + slab_min_size P ->
      Core P s1 (View (v_regions v1) (v_lost v1) (l :: v_live v1) (v_others v1)) ((l, (x, idx)) :: G).

Lemma from_avail : forall i b b1 x rest sl t1, nth_error (p_buckets s) i = Some b -> b_avail b = x :: rest -> slab_at s x = Some sl ->
  b1 = Bucket (b_size b) (b_avail b) (b_unavail b) (if s_alloc sl =? 0 then b_inpool b - 1 else b_inpool b) ->
  t1 = (if s_alloc sl =? 0 then p_total s - s_size sl else p_total s) ->
  exists ptr sl', slab_get_chunk (b_size b) sl = Some (ptr, sl') /\
    got v (Pool (set_slab sl' (p_slabs s)) (set_nth i (set_nth i (p_buckets s) b1) (take_bucket x b1 sl')) t1 (p_regions s)) (b_size b) ptr.
Proof.
  intros i b b1 x rest sl t1 NB AV SL E1 ET. change (slab_at s x) with (lk (p_slabs s) x) in SL.
  assert (LEN : (i < length (p_buckets s))%nat) by (apply nth_error_Some; congruence).
  assert (NB1 : nth_error (set_nth i (p_buckets s) b1) i = Some b1) by (rewrite set_nth_get by exact LEN; rewrite Nat.eqb_refl; reflexivity).
  destruct (set_bucket_same (p_buckets s) i b b1 NB) as (SB1 & SB2); try (rewrite E1; reflexivity).
  pose proof (core_buckets P s v G (set_nth i (p_buckets s) b1) t1 I SB1 SB2) as I1.
  destruct (take_core P (Pool (p_slabs s) (set_nth i (p_buckets s) b1) t1 (p_regions s)) v G i b1 x rest sl V I1 NB1) as (idx & sl' & GC & M & A1 & B1 & B0 & S1 & ID & A0 & R & K); [rewrite E1; exact AV|exact SL|].
  cbn [p_slabs p_buckets p_total p_regions] in *. assert (EC : b_size b1 = b_size b) by (rewrite E1; reflexivity). rewrite EC in *.
  exists (x + idx * b_size b), sl'. split; [exact GC|]. destruct (slab_facts P s v G V I x sl SL) as (c & O & C8 & E & X0 & X1 & X2 & _).
  pose proof (max_pos P s v G x sl V I SL) as SP. assert (EQC : s_size sl = slab_bytes P (b_size b)). { pose proof (so_region _ _ _ _ _ O) as RR. rewrite E in RR. assert (Q : Region x (s_size sl) (Some c) = Region x (slab_bytes P (b_size b)) (Some (b_size b))) by (apply (reg_inj P s v G I); auto). injection Q as Q1 Q2. exact Q1. }
  exists x, idx. split; [reflexivity|]. split; [exact ID|]. split; [exact X0|]. split; [exact R|]. split; [exact (c_page _ _ _ _ I _ R)|]. split; [rewrite <- EQC; exact X1|]. split; [reflexivity|]. split; [reflexivity|]. split; [reflexivity|]. split.
  - destruct (pooled_set P s v G x sl sl' I SL M) as (PS & NS). apply (counts_move P s v); [exact N| | | |reflexivity|exact (n_space _ _ _ N)]; cbn [p_buckets p_slabs p_total].
    + intros j b' B'. rewrite set_nth_get in B' by (rewrite set_nth_length; exact LEN). rewrite NS. assert (Z1 : empty1 j sl' = 0) by (unfold empty1; rewrite (proj2 (Z.eqb_neq _ _)) by lia; rewrite andb_false_r; reflexivity).
      assert (Z0 : 0 <= empty1 j sl) by (unfold empty1; destruct (_ && _); lia). rewrite Z1. destruct (Nat.eqb_spec j i) as [->|NJ].
      * injection B' as <-. exists b. split; [exact NB|]. split; [unfold take_bucket; destruct (_ <? _); exact EC|]. split; [|left; lia].
        assert (IP : b_inpool (take_bucket x b1 sl') = b_inpool b1) by (unfold take_bucket; destruct (_ <? _); reflexivity). rewrite IP, E1. cbn [b_inpool]. unfold empty1. rewrite B0, Nat.eqb_refl. cbn [andb]. destruct (s_alloc sl =? 0); lia.
      * rewrite set_nth_get in B' by exact LEN. rewrite (proj2 (Nat.eqb_neq _ _) NJ) in B'. exists b'. split; [exact B'|]. split; [reflexivity|]. assert (empty1 j sl = 0) by (unfold empty1; rewrite (proj2 (Nat.eqb_neq _ _)) by congruence; reflexivity). split; [lia|left; lia].
    + rewrite PS, ET. unfold bytes1. rewrite (proj2 (Z.eqb_neq (s_alloc sl') 0)) by lia. destruct (s_alloc sl =? 0); lia.
    + left. rewrite PS. unfold bytes1. rewrite (proj2 (Z.eqb_neq (s_alloc sl') 0)) by lia. destruct (s_alloc sl =? 0); lia.
  - intros l L0 L1 L2 L3. apply K; auto; lia.
Qed.
End Alloc.

Lemma alloc_chunk : forall dbg P s v G i b o, valid P -> Core P s v G -> Counts P s v -> nth_error (p_buckets s) i = Some b ->
  exists ptr ev s1, bucket_get_free_chunk dbg P s i b o = Some (ptr, ev, s1) /\
    (ev <> [] -> b_avail b = []) /\
    (provider_ok P (v_others v) (spans v) ev -> let v1 := fold_left (observe_event (Some (b_size b)) false) ev v in
      (ptr = 0 /\ Core P s1 v1 G /\ Counts P s1 v1) \/ got P v G v1 s1 (b_size b) ptr).
Proof.
  intros dbg P s v G i b o V I N NB. unfold bucket_get_free_chunk, bucket_get_avail_slab. set (c := b_size b).
  assert (LEN : (i < length (p_buckets s))%nat) by (apply nth_error_Some; congruence).
  pose proof (bucket_size_of P s v G I i b NB) as TB. fold c in TB. destruct (table_class P V i c TB) as (_ & C8). destruct (slab_bytes_pos P V c C8) as (SB & SM & SC).
  destruct (b_avail b) as [|x rest] eqn:AV.
  - unfold bucket_create_slab. fold c. rewrite alloc_size_eq, num_chunks_eq. destruct (ao_slab o); cbn [negb].
    2:{ rewrite NB, AV. exists 0, [], s. split; [reflexivity|]. split; [congruence|]. intros _. left. auto. }
    unfold provider_alloc. destruct (ao_up o) as (r, p).
    assert (FAIL : exists ptr ev s1, match nth_error (p_buckets s) i with
        | None => None
        | Some b1 => match b_avail b1 with
            | [] => Some (0, [PAllocFail (slab_bytes P c) 0], s)
            | x :: _ => match slab_at s x with None => None | Some sl => match slab_get_chunk (b_size b1) sl with None => None | Some (ptr, sl') =>
                Some (ptr, [PAllocFail (slab_bytes P c) 0], Pool (set_slab sl' (p_slabs s)) (set_nth i (p_buckets s) (if s_alloc sl' <? s_total sl' then b1
                                else Bucket (b_size b1) (dl_delete x (b_avail b1)) (x :: b_unavail b1) (b_inpool b1))) (p_total s) (p_regions s)) end end end end = Some (ptr, ev, s1) /\
      (ev <> [] -> @nil Z = []) /\ (provider_ok P (v_others v) (spans v) ev -> let v1 := fold_left (observe_event (Some c) false) ev v in (ptr = 0 /\ Core P s1 v1 G /\ Counts P s1 v1) \/ got P v G v1 s1 c ptr)).
    { rewrite NB, AV. exists 0, [PAllocFail (slab_bytes P c) 0], s. split; [reflexivity|]. split; [reflexivity|]. intros _. left. auto. }
    destruct r; try exact FAIL. clear FAIL. cbv iota beta.
    set (s1 := Pool (p_slabs s) (p_buckets s) (p_total s) ((p, slab_bytes P c) :: p_regions s)).
    destruct (match slab_at s1 p with Some _ => true | None => false end || negb (ao_leaf o)) eqn:KN.
    + unfold provider_free. cbn [app]. assert (EB : forall s2, p_buckets s2 = p_buckets s -> nth_error (p_buckets s2) i = Some b) by (intros s2 ->; exact NB).
      rewrite (EB (match ao_undo o with SUCCESS => Pool (p_slabs s1) (p_buckets s1) (p_total s1) (untrack p (p_regions s1)) | _ => s1 end)) by (destruct (ao_undo o); reflexivity).
      rewrite AV. eexists 0, [PAlloc p (slab_bytes P c) 0; PFree p (slab_bytes P c) (ao_undo o)], _. split; [reflexivity|]. split; [reflexivity|]. intros (P0 & PN & AP & PG & _ & SPC & _). left. split; [reflexivity|].
      cbn [fold_left observe_event v_regions v_lost v_live v_others]. destruct (gb_new P s v G I p (slab_bytes P c) P0 ltac:(lia) PN AP (Some c)) as (GB & NM). rewrite GB, NM.
      assert (CN : forall s2 v2, p_slabs s2 = p_slabs s -> p_buckets s2 = p_buckets s -> p_total s2 = p_total s -> v_others v2 = v_others v -> v_regions v2 = v_regions v -> Counts P s2 v2).
      { intros s2 v2 E1 E2 E3 E4 E5. destruct N. constructor; rewrite ?E1, ?E2, ?E3, ?E4, ?E5; assumption. }
      assert (LO : Core P s1 (View (v_regions v) ([Region p (slab_bytes P c) (Some c)] ++ v_lost v) (v_live v) (v_others v)) G) by (apply (lose_core P s v G I p (slab_bytes P c)); auto; lia).
      destruct (ao_undo o); (split; [first [exact LO|idtac]|apply CN; reflexivity]).
      replace (View (v_regions v) (v_lost v) (v_live v) (v_others v)) with v by (destruct v; reflexivity). apply (undo_core P s v G I p (slab_bytes P c)); auto; lia.
    + set (sl := Slab p (slab_bytes P c) (slab_chunks P c) 0 i (new_chunks (slab_chunks P c))). cbn [p_slabs p_buckets p_total p_regions s1].
      set (b1 := Bucket c (p :: b_avail b) (b_unavail b) (b_inpool b)). set (s2 := Pool (sl :: p_slabs s) (set_nth i (p_buckets s) b1) (p_total s) ((p, slab_bytes P c) :: p_regions s)).
      assert (NB2 : nth_error (set_nth i (p_buckets s) b1) i = Some b1) by (rewrite set_nth_get by exact LEN; rewrite Nat.eqb_refl; reflexivity). cbn [p_buckets s2]. rewrite NB2. cbn [b_avail b1].
      assert (SA : slab_at s2 p = Some sl) by (unfold slab_at; cbn; rewrite Z.eqb_refl; reflexivity). rewrite SA. change (b_size b1) with c.
      assert (TOT : exists ptr sl', slab_get_chunk c sl = Some (ptr, sl')).
      { unfold slab_get_chunk. cbn [s_chunks sl]. destruct (new_chunks_spec (slab_chunks P c) SC) as (W1 & W2 & W3). pose proof (find_first_spec (new_chunks (slab_chunks P c)) 0 W1 ltac:(lia)) as F.
        destruct (slab_find_first_available_chunk_idx (new_chunks (slab_chunks P c)) 0); [eauto|]. specialize (F 0 ltac:(lia)). rewrite W3 in F by lia. rewrite (proj2 (Z.ltb_lt _ _)) in F by lia. discriminate. }
      destruct TOT as (ptr & sl' & GC). rewrite GC. eexists _, _, _. split; [reflexivity|]. split; [reflexivity|].
      intros (P0 & PN & AP & PG & _ & SPC & _). right. cbn [fold_left observe_event]. set (v1 := View (Region p (slab_bytes P c) (Some c) :: v_regions v) (v_lost v) (v_live v) (v_others v)).
      assert (I2 : Core P s2 v1 G).
      { pose proof (create_core P s v G V I p (slab_bytes P c) P0 ltac:(lia) PN AP PG i b c (b_inpool b) NB eq_refl eq_refl) as CC. exact CC. }
      destruct (take_core P s2 v1 G i b1 p (b_avail b) sl V I2 NB2 eq_refl SA) as (idx & sl2 & GC2 & M & A1 & B1 & B0 & S1 & ID & A0 & R & K). change (b_size b1) with c in *.
      assert (Q : ptr = p + idx * c /\ sl' = sl2) by (rewrite GC in GC2; injection GC2; auto). destruct Q as (-> & ->). cbn [s_alloc sl] in A1.
      exists p, idx. split; [reflexivity|]. split; [exact ID|]. split; [exact P0|]. split; [exact R|]. split; [exact PG|]. split; [exact PN|]. split; [reflexivity|]. split; [reflexivity|]. split; [reflexivity|]. split.
      * assert (NONE : lk (p_slabs s) p = None) by (apply (new_slab P s v G I p (slab_bytes P c)); auto; lia).
        assert (SET : set_slab sl2 (sl :: p_slabs s) = sl2 :: p_slabs s).
        { unfold set_slab. cbn [map]. rewrite M. cbn [s_mem sl]. rewrite Z.eqb_refl. f_equal. apply lk_none in NONE. revert NONE. clear. induction (p_slabs s) as [|y l IH]; intros H; [reflexivity|]. cbn in *. rewrite IH by tauto. rewrite (proj2 (Z.eqb_neq _ _)) by tauto. reflexivity. }
        apply (counts_move P s v); [exact N| | | |reflexivity|]; cbn [p_buckets p_slabs p_total s2]; rewrite ?SET.
        -- intros j b' B'. rewrite set_nth_get in B' by (rewrite set_nth_length; exact LEN). assert (EN : nempty j (sl2 :: p_slabs s) = nempty j (p_slabs s)).
           { unfold nempty. cbn [wsum fold_right]. unfold empty1 at 1. rewrite A1. cbn [Z.add Z.eqb]. rewrite andb_false_r. reflexivity. }
           rewrite EN. destruct (Nat.eqb_spec j i) as [->|NJ].
           ++ injection B' as <-. exists b. split; [exact NB|]. split; [destruct (_ <? _); reflexivity|]. split; [|left; lia]. destruct (_ <? _); cbn [b_inpool b1]; lia.
           ++ rewrite set_nth_get in B' by exact LEN. rewrite (proj2 (Nat.eqb_neq _ _) NJ) in B'. exists b'. split; [exact B'|]. split; [reflexivity|]. split; [lia|left; lia].
        -- unfold pooled. cbn [wsum fold_right]. unfold bytes1 at 1. rewrite A1. cbn [Z.add Z.eqb]. fold (wsum bytes1 (p_slabs s)). lia.
        -- left. unfold pooled. cbn [wsum fold_right]. unfold bytes1 at 1. rewrite A1. cbn [Z.add Z.eqb]. fold (wsum bytes1 (p_slabs s)). lia.
        -- cbn [v_regions v1 total_size fold_right g_size]. pose proof (total_spans v (fun g H => proj1 (proj2 (c_regs _ _ _ _ I g H)))) as TS. unfold total_size in TS. lia.
      * intros l L0 L1 L2 L3. apply K; auto; lia.
  - destruct (c_lists _ _ _ _ I i b NB) as (_ & _ & A & _). destruct (proj1 (A x)) as (sl & LX & BX & TX); [rewrite AV; left; reflexivity|].
    assert (SA : slab_at s x = Some sl) by exact LX. rewrite SA. fold c. rewrite alloc_size_eq.
    destruct (slab_facts P s v G V I x sl LX) as (c' & O & _ & E & X0 & X1 & X2 & _). assert (c' = c) as -> by (pose proof (so_class _ _ _ _ _ O) as Q; rewrite BX in Q; congruence).
    pose proof (so_size _ _ _ _ _ O) as SZ. destruct (lk_mem _ _ _ LX) as (_ & INX).
    destruct (Z.eqb_spec (s_alloc sl) 0) as [A0|A0].
    + destruct (n_inpool _ _ _ N i b NB) as (IP & IPM). destruct (nempty_small P s v G V I i) as (NS0 & NS1). pose proof (pooled_fits P s v G V I) as PF. pose proof (n_total _ _ _ N) as NT. pose proof (n_others _ _ _ N) as NO. pose proof (n_space _ _ _ N) as NSP.
      assert (G1 : empty1 i sl <= nempty i (p_slabs s)) by (apply wsum_ge; [intros z _; unfold empty1; destruct (_ && _); lia|exact INX]). unfold empty1 in G1. rewrite BX, Nat.eqb_refl, A0 in G1. cbn [andb Z.eqb] in G1.
      assert (G2 : bytes1 sl <= pooled (p_slabs s)). { apply wsum_ge; [|exact INX]. intros z ZI. unfold bytes1. pose proof (max_pos P s v G _ z V I (lk_in _ z (c_keys _ _ _ _ I) ZI)). destruct (s_alloc z =? 0); lia. } unfold bytes1 in G2. rewrite A0 in G2. cbn [Z.eqb] in G2.
      rewrite (proj2 (Z.leb_gt _ _)) by lia. rewrite (proj2 (Z.ltb_ge _ _)) by lia. rewrite andb_false_r.
      rewrite (wrap_id (b_inpool b - 1)) by (unfold is_word; lia). rewrite (wrap_id (p_total s - slab_bytes P c)) by (unfold is_word; lia).
      destruct (from_avail P s v G V I N i b (Bucket c (x :: rest) (b_unavail b) (b_inpool b - 1)) x rest sl (p_total s - slab_bytes P c) NB AV SA) as (ptr & sl' & GC & GOT); [rewrite A0, AV; reflexivity|rewrite A0; cbn [Z.eqb]; lia|].
      cbn [p_buckets]. rewrite set_nth_get by exact LEN. rewrite Nat.eqb_refl. cbn [b_avail b_size]. unfold slab_at in *. cbn [p_slabs]. rewrite SA. fold c in GC. rewrite GC.
      eexists _, _, _. split; [reflexivity|]. split; [congruence|]. intros _. right. exact GOT.
    + destruct (from_avail P s v G V I N i b b x rest sl (p_total s) NB AV SA) as (ptr & sl' & GC & GOT); [rewrite (proj2 (Z.eqb_neq _ _) A0); destruct b; reflexivity|rewrite (proj2 (Z.eqb_neq _ _) A0); reflexivity|].
      rewrite NB, AV, SA. fold c in GC. fold c. rewrite GC. rewrite (set_nth_same i (p_buckets s) b NB) in GOT. eexists _, _, _. split; [reflexivity|]. split; [congruence|]. intros _. right.
      unfold take_bucket in GOT. rewrite AV in GOT. exact GOT.
Qed.
