(* The theorems about the disjoint pool, from the invariant. *)
From Verif Require Import Base Model_Utils Spec_Utils Proof_Utils Model_Disjoint Spec_Disjoint Proof_DisjointClass Proof_DisjointBits Proof_Disjoint Proof_DisjointStep Proof_DisjointMem Proof_DisjointRun Proof_DisjointCalls Proof_DisjointView Proof_DisjointLimit.
Local Opaque bucket_table new_chunks.
Notation usable := disjoint_pool_malloc_usable_size.

Lemma main_class : forall dbg P s v n, valid P -> reached dbg P s v -> 0 < n <= max_poolable_size P ->
  exists i b, disjoint_pool_find_bucket dbg P s n = Some (i, b) /\ class_for P n (b_size b).
Proof. intros dbg P s v n V R SZ. destruct (reached_inv dbg P s v V R) as (G & I & N). destruct (find_bucket_ok dbg P s v G V I n SZ) as (i & b & A & _ & B). eauto. Qed.
Lemma main_total : forall dbg P s v c, valid P -> reached dbg P s v -> call_env P v c -> exists r, step dbg P s c = Some r.
Proof. intros dbg P s v c V R E. destruct (step_inv dbg P s v c V (reached_inv dbg P s v V R) E) as (r & H & _). eauto. Qed.
Lemma main_live : forall dbg P s v, valid P -> reached dbg P s v ->
  (forall l, In l (v_live v) -> 0 < l_size l <= usable P s (l_ptr l) /\ exists g, In g (v_regions v) /\ within (l_ptr l) (usable P s (l_ptr l)) g) /\
  (forall l1 a l2 b l3, v_live v = l1 ++ a :: l2 ++ b :: l3 -> apart (l_ptr a) (usable P s (l_ptr a)) (l_ptr b) (usable P s (l_ptr b))).
Proof.
  intros dbg P s v V R. destruct (reached_inv dbg P s v V R) as (G & I & N). split.
  - intros l L. destruct (usable_view P s v G V I l L) as (g & GI & _ & L0 & -> & U & W). split; [lia|eauto].
  - intros. eapply (live_apart P s v G V I); eassumption.
Qed.

(* the result of malloc *)
Lemma main_malloc : forall dbg P s v n o r cl, valid P -> reached dbg P s v -> is_word n -> 0 < n -> step dbg P s (CMalloc n o) = Some r -> serves P (CMalloc n o) cl -> provider_ok P (v_others v) (spans v) (r_ev r) ->
  (r_ptr r = 0 /\ r_res r <> SUCCESS) \/ (r_ptr r <> 0 /\ r_res r = SUCCESS /\ usable P (r_st r) (r_ptr r) = match cl with Some c => c | None => n end).
Proof.
  intros dbg P s v n o r cl V R NW N0 ST SV PO. destruct (reached_inv dbg P s v V R) as (G & I & N). cbn [step serves] in *. unfold disjoint_pool_malloc in ST. rewrite (proj2 (Z.eqb_neq _ _)) in ST by lia.
  destruct (Z.ltb_spec (max_poolable_size P) n) as [L|L].
  - destruct SV as [(_ & ->)|(X & _)]; [|lia]. injection ST as <-. pose proof (direct_ok P s v G I N n 0 o ltac:(unfold is_word in NW; lia) PO) as D. revert PO D.
    unfold direct_alloc, provider_alloc. destruct (ao_up o) as (u, p). destruct u; cbn [r_ptr r_res r_ev r_st]; intros PO D; try (left; split; [reflexivity|discriminate]).
    right. destruct PO as (P0 & PN & _). split; [lia|]. split; [reflexivity|]. destruct D as ((G' & I' & _) & _). unfold alloc_view in I'. cbn [r_ev r_ptr fold_left observe_event v_regions v_lost v_live v_others] in I'. rewrite (proj2 (Z.eqb_neq _ _)) in I' by lia.
    destruct (usable_view P _ _ G' V I' (Live p n) (or_introl eq_refl)) as (g & GI & IN & _ & U & _). cbn [l_ptr] in U. rewrite U.
    assert (g = Region p n None) as ->. { apply (region_unique P _ _ G' I' (Live p n)); [exact GI|left; reflexivity|exact IN|]. unfold insideb. cbn. unfold is_word in NW. lia. } reflexivity.
  - destruct SV as [(X & _)|(_ & k & CK & ->)]; [lia|]. destruct (find_bucket_ok dbg P s v G V I n ltac:(lia)) as (i & b & FB & NB & CF). rewrite FB in ST. destruct (alloc_chunk dbg P s v G i b o V I N NB) as (ptr & ev & s1 & AC & _ & H). rewrite AC in ST. injection ST as <-.
    cbn [r_ptr r_res r_ev r_st] in *. rewrite (class_unique P n k _ CK CF). specialize (H PO). cbv zeta in H. set (v1 := fold_left (observe_event (Some (b_size b)) false) ev v) in *.
    destruct H as [(-> & _)|(x & idx & E & ID & X0 & RG & PG & XE & VL & VO & VT & N1 & K)]; [left; split; [reflexivity|discriminate]|]. right.
    destruct (class_bounds P _ (proj1 CF)) as (C8 & _). pose proof (chunks_fit P V (b_size b) idx C8 ID) as (_ & F2 & F3). pose proof (proj1 (proj2 CF)) as LE.
    assert (PP : ptr <> 0) by (clear - E X0 ID C8; nia). split; [exact PP|]. rewrite (proj2 (Z.eqb_neq _ _) PP). split; [reflexivity|].
    pose proof (K (Live ptr n) ltac:(cbn [l_size]; lia) ltac:(cbn [l_ptr]; lia) ltac:(cbn [l_ptr l_size]; lia) ltac:(cbn [l_ptr]; lia)) as I'.
    destruct (region_of_live P _ _ _ V I' (Live ptr n) x idx (or_introl eq_refl)) as (g & GI & GB & _ & _ & _ & _ & D). cbn [v_regions] in GI.
    assert (g = Region x (slab_bytes P (b_size b)) (Some (b_size b))) as -> by (apply (reg_inj P _ _ _ I'); auto). cbn [g_class l_ptr] in D. destruct D as (_ & _ & _ & _ & _ & ->). lia.
Qed.

Lemma main_free : forall dbg P s v ptr up l, valid P -> reached dbg P s v -> In l (v_live v) -> l_ptr l = ptr ->
  exists r, step dbg P s (CFree ptr up) = Some r /\
    ((exists g, In g (v_regions v) /\ g_class g = None /\ g_base g = ptr /\ r_ev r = [PFree ptr (g_size g) up] /\ r_res r = up) \/
     (r_res r = SUCCESS /\ (r_ev r = [] \/ exists g c, In g (v_regions v) /\ g_class g = Some c /\ r_ev r = [PFree (g_base g) (g_size g) up] /\ insideb (Live ptr 1) g = true /\
        forall l', In l' (drop ptr (v_live v)) -> l_ptr l' + l_size l' <= g_base g \/ g_base g + g_size g <= l_ptr l'))) /\
    (forall l', In l' (drop ptr (v_live v)) -> usable P (r_st r) (l_ptr l') = usable P s (l_ptr l')).
Proof.
  intros dbg P s v ptr up l V R L LP. destruct (reached_inv dbg P s v V R) as (G & I & N). destruct (free_ok dbg P s v G V I N ptr up (or_intror (ex_intro _ l (conj L LP)))) as (r & H & INV & FE & _).
  exists r. split; [exact H|]. assert (NZ : ptr <> 0). { apply (live_in_G P s v G I) in L. destruct L as (q & Q). pose proof (live_ptr P s v G V I l q Q). lia. }
  destruct (FE NZ) as (FV & _). split; [exact FV|]. intros l' IN'.
  assert (SUB : forall x, In x (drop ptr (v_live v)) -> In x (v_live v)). { clear. induction (v_live v) as [|y L IH]; intros x X; [destruct X|]. cbn in X. destruct (l_ptr y =? ptr); [right; exact X|]. destruct X as [<-|X]; [left; reflexivity|right; auto]. }
  destruct (usable_view P s v G V I l' (SUB _ IN')) as (g & GI & IG & _ & U & _). rewrite U. destruct (INV None) as (G' & I' & _).
  set (v' := observe None v (CFree ptr up) r) in *.
  assert (VV : (forall g', In g' (v_regions v') -> In g' (v_regions v)) /\ (r_res r = SUCCESS -> v_live v' = drop ptr (v_live v)) /\ (r_res r <> SUCCESS -> v_live v' = v_live v)).
  { unfold v', observe. assert (EV : r_ev r = [] \/ exists p n, r_ev r = [PFree p n up]) by (destruct FV as [(g0 & _ & _ & _ & X & _)|(_ & [X|(g0 & c & _ & _ & X & _)])]; eauto).
    assert (GBK : forall p n g', In g' (give_back p n (v_regions v)) -> In g' (v_regions v)) by (intros p n g' X; unfold give_back in X; apply filter_In in X; tauto).
    destruct EV as [->|(p & n & ->)]; cbn [fold_left observe_event].
    - destruct (r_res r); cbn [v_regions v_live]; (split; [auto|split; congruence]).
    - destruct (r_res r); destruct up; cbn [andb negb v_regions v_live]; (split; [eauto|split; congruence]). }
  destruct VV as (V1 & V2 & V3).
  assert (L2 : In l' (v_live v')) by (destruct (r_res r) eqn:RR; [rewrite V2 by reflexivity; exact IN'|..]; rewrite V3 by discriminate; apply SUB; exact IN').
  destruct (usable_view P (r_st r) v' G' V I' l' L2) as (g' & GI' & IG' & _ & U' & _). rewrite U'. assert (g' = g) as -> by (apply (region_unique P s v G I l'); auto). reflexivity.
Qed.

Lemma main_kept : forall dbg P s v, valid P -> reached dbg P s v ->
  total_size (kept v) <= max_size P /\ forall c, is_class P c -> Z.of_nat (length (filter (of_class c) (kept v))) <= (if c <=? slab_min_size P / 2 then 1 else capacity P).
Proof.
  intros dbg P s v V R. destruct (reached_inv dbg P s v V R) as (G & I & N). destruct (kept_sums P s v G V I) as (A & B). split; [rewrite A; exact (n_limit _ _ _ N)|].
  intros c CL. apply (class_in_table P c (valid_bucket P V)) in CL. apply In_nth_error in CL. destruct CL as (i & T). rewrite (B i c T). destruct (bucket_exists P s v G I i c T) as (b & NB & <-). apply (n_inpool _ _ _ N i b NB).
Qed.
Lemma main_keep_rule : forall dbg P s v ptr up r l g c, valid P -> reached dbg P s v -> In l (v_live v) -> l_ptr l = ptr -> In g (v_regions v) -> g_class g = Some c -> insideb l g = true ->
  step dbg P s (CFree ptr up) = Some r ->
  (r_ev r = [] <-> (live_in v g <> [l] \/
     (Z.of_nat (length (filter (of_class c) (kept v))) + 1 <= (if c <=? slab_min_size P / 2 then 1 else capacity P) /\ v_others v + total_size (kept v) + g_size g <= max_size P))).
Proof.
  intros dbg P s v ptr up r l g c V R L LP GI GC IG ST. destruct (reached_inv dbg P s v V R) as (G & I & N). destruct (free_ok dbg P s v G V I N ptr up (or_intror (ex_intro _ l (conj L LP)))) as (r' & H & _ & FE & _).
  assert (r' = r) as -> by (cbn [step] in ST; congruence). assert (NZ : ptr <> 0). { apply (live_in_G P s v G I) in L. destruct L as (q & Q). pose proof (live_ptr P s v G V I l q Q). lia. }
  destruct (FE NZ) as (_ & FR). destruct (region_slab P s v G V I g c GI GC) as (sl & LK & SZ & T & _). destruct (bucket_exists P s v G I _ c T) as (b & NB & EC).
  assert (SO : slab_of P s ptr = Some sl).
  { apply (live_in_G P s v G I) in L. destruct L as ((m, i) & Q). destruct (region_of_live P s v G V I l m i Q) as (h & HI & HB & A1 & A2 & A3 & _ & A4).
    assert (h = g) as -> by (apply (region_unique P s v G I l); auto; unfold insideb; rewrite HB; lia). rewrite GC in A4. destruct A4 as (I0 & _). destruct (live_chunk P s v G V I l m i Q I0) as (sl2 & c2 & H2 & _ & _ & _ & _ & _ & _ & _ & SO & _). rewrite HB in LK. rewrite H2 in LK. injection LK as ->. rewrite LP in SO. exact SO. }
  rewrite (FR sl b SO NB). rewrite <- (live_in_count P s v G V I _ sl g LK GI eq_refl). destruct (kept_sums P s v G V I) as (KA & KB). rewrite (KB _ c T), KA. destruct (n_inpool _ _ _ N _ b NB) as (-> & _). rewrite EC, SZ, (n_total _ _ _ N). unfold bucket_max_pooled_slabs.
  assert (ONE : Z.of_nat (length (live_in v g)) <> 1 <-> live_in v g <> [l]).
  { assert (X : In l (live_in v g)) by (unfold live_in; apply filter_In; auto). destruct (live_in v g) as [|a [|a' t]]; [destruct X| |].
    - destruct X as [->|[]]. cbn. tauto.
    - cbn [length]. split; [discriminate|intros _; lia]. }
  rewrite ONE. reflexivity.
Qed.

Lemma main_aligned : forall dbg P s v n a o r cl, valid P -> reached dbg P s v -> call_env P v (CAligned n a o) -> step dbg P s (CAligned n a o) = Some r -> serves P (CAligned n a o) cl ->
  provider_ok P (v_others v) (spans v) (r_ev r) -> r_ptr r <> 0 -> 0 < a -> multiple_of (r_ptr r) a /\ n <= usable P (r_st r) (r_ptr r).
Proof.
  intros dbg P s v n a o r cl V R E ST SV PO NZ A0. destruct (reached_inv dbg P s v V R) as (G & I & N). destruct E as (E1 & E2 & E3). destruct (aligned_ok dbg P s v G V I N n a o E1 E2 E3) as (r' & H & K).
  assert (r' = r) as -> by (cbn [step] in ST; congruence). destruct (K cl SV PO) as ((G' & I' & _) & M). split; [apply M; assumption|].
  assert (L : In (Live (r_ptr r) n) (v_live (alloc_view cl v r n))) by (unfold alloc_view; rewrite (proj2 (Z.eqb_neq _ _) NZ); left; reflexivity).
  destruct (usable_view P _ _ G' V I' _ L) as (g & _ & _ & _ & U & W & _). cbn [l_ptr l_size] in *. rewrite U. exact W.
Qed.

Lemma main_reuse : forall dbg P s v c r k g, valid P -> reached dbg P s v -> call_env P v c -> step dbg P s c = Some r -> serves P c (Some k) -> (match c with CMalloc n _ | CAligned n _ _ => 0 < n | _ => False end) ->
  r_ev r <> [] -> In g (v_regions v) -> g_class g = Some k -> Z.of_nat (length (live_in v g)) = slab_chunks P k.
Proof.
  intros dbg P s v c r k g V R E ST SV CA EV GI GC. destruct (reached_inv dbg P s v V R) as (G & I & N).
  assert (MAIN : forall n o, 0 < n <= max_poolable_size P -> class_for P n k -> (exists i b ptr ev s1, disjoint_pool_find_bucket dbg P s n = Some (i, b) /\ bucket_get_free_chunk dbg P s i b o = Some (ptr, ev, s1) /\ ev <> []) -> Z.of_nat (length (live_in v g)) = slab_chunks P k).
  { intros n o SZ CK (i & b & ptr & ev & s1 & FB & GFC & NE). destruct (find_bucket_ok dbg P s v G V I n SZ) as (i' & b' & FB' & NB & CF). rewrite FB in FB'. injection FB' as <- <-. destruct (alloc_chunk dbg P s v G i b o V I N NB) as (p2 & e2 & s2 & AC & AV & _). rewrite GFC in AC. injection AC as <- <- <-. specialize (AV NE).
    destruct (region_slab P s v G V I g k GI GC) as (sl & LK & SZ2 & T & TT & MX & _). rewrite (live_in_count P s v G V I _ sl g LK GI eq_refl). rewrite <- TT.
    pose proof (bucket_size_of P s v G I i b NB) as TB. rewrite (class_unique P n _ k CF CK) in TB. pose proof (table_inj P _ _ k (valid_bucket P V) T TB) as EI. destruct (c_lists _ _ _ _ I i b NB) as (_ & _ & A & _).
    destruct (Z_lt_le_dec (s_alloc sl) (s_total sl)) as [LT|GE]; [|lia]. assert (X : In (g_base g) (b_avail b)) by (apply A; exists sl; auto). rewrite AV in X. destruct X. }
  assert (MAL : forall n o r', disjoint_pool_malloc dbg P s n o = Some r' -> 0 < n -> by_size P n (Some k) -> r_ev r' <> [] -> Z.of_nat (length (live_in v g)) = slab_chunks P k).
  { intros n o r' M N0 [(_ & X)|(LE & k' & CK & X)] NE; [discriminate|]. injection X as <-. unfold disjoint_pool_malloc in M. rewrite (proj2 (Z.eqb_neq _ _)) in M by lia. rewrite (proj2 (Z.ltb_ge _ _)) in M by lia.
    destruct (disjoint_pool_find_bucket dbg P s n) as [(i, b)|] eqn:FB; [|discriminate]. destruct (bucket_get_free_chunk dbg P s i b o) as [((ptr, ev), s1)|] eqn:GFC; [|discriminate]. injection M as <-. cbn [r_ev] in NE. apply (MAIN n o ltac:(lia) CK). exists i, b, ptr, ev, s1. auto. }
  destruct c as [n o|n a o|ptr up|d]; try contradiction; cbn [step serves] in *.
  - apply (MAL n o r ST CA SV EV).
  - unfold disjoint_pool_aligned_malloc in ST. rewrite (proj2 (Z.eqb_neq _ _)) in ST by lia. destruct (Z.leb_spec a 1) as [A1|A1].
    + apply (MAL n o r ST CA); [|exact EV]. unfold demand in SV. rewrite (proj2 (Z.leb_le _ _) A1) in SV. exact SV.
    + destruct E as (E1 & E2 & [E3|(PW & FIT & _)]); [lia|]. destruct (request_demand P n a CA E1 A1 PW FIT) as (RD & D1 & D2 & _). rewrite RD in ST. destruct SV as [(_ & X)|(LE & k' & CK & X)]; [discriminate|]. injection X as <-.
      rewrite (proj2 (Z.ltb_ge _ _)) in ST by lia. destruct (disjoint_pool_find_bucket dbg P s (demand P n a)) as [(i, b)|] eqn:FB; [|discriminate]. destruct (bucket_get_free_chunk dbg P s i b o) as [((ptr, ev), s1)|] eqn:GFC; [|discriminate].
      assert (r_ev r = ev) as RE by (destruct (ptr =? 0); injection ST as <-; reflexivity). apply (MAIN (demand P n a) o ltac:(lia) CK). exists i, b, ptr, ev, s1. rewrite RE in EV. auto.
Qed.

Definition freed (e : event) : Z * Z := match e with PFree p n _ => (p, n) | PAlloc p n _ => (p, n) | PAllocFail n _ => (0, n) end.
Lemma main_destroy : forall dbg P s v up, valid P -> reached dbg P s v ->
  NoDup (map fst (map freed (destroyed s up))) /\ (forall e, In e (destroyed s up) -> exists x n, e = PFree x n (up x)) /\
  forall x n, In (x, n) (map freed (destroyed s up)) <-> exists c, In (Region x n (Some c)) (v_regions v).
Proof.
  intros dbg P s v up V R. destruct (reached_inv dbg P s v V R) as (G & I & N). destruct (finalize_slabs P s v G I V) as (ND & IN). unfold destroyed.
  assert (AT : forall x, In x (disjoint_pool_finalize s) -> exists sl, slab_at s x = Some sl) by (intros x X; apply IN; exact X).
  assert (INE : forall e, In e (concat (map (fun x => match slab_at s x with Some sl => [PFree x (s_size sl) (up x)] | None => [] end) (disjoint_pool_finalize s))) <-> exists x sl, lk (p_slabs s) x = Some sl /\ e = PFree x (s_size sl) (up x)).
  { intros e. rewrite in_concat. split.
    - intros (l & L1 & L2). apply in_map_iff in L1. destruct L1 as (x & <- & X). destruct (slab_at s x) as [sl|] eqn:SA; [|destruct L2]. destruct L2 as [<-|[]]. exists x, sl. auto.
    - intros (x & sl & H & ->). exists [PFree x (s_size sl) (up x)]. split; [|left; reflexivity]. apply in_map_iff. exists x. split; [unfold slab_at; unfold lk in H; rewrite H; reflexivity|]. apply IN. eauto. }
  split; [|split].
  - replace (map fst (map freed (concat (map (fun x => match slab_at s x with Some sl => [PFree x (s_size sl) (up x)] | None => [] end) (disjoint_pool_finalize s))))) with (disjoint_pool_finalize s); [exact ND|].
    revert AT. clear. generalize (disjoint_pool_finalize s). induction l as [|x l IH]; intros AT; [reflexivity|]. cbn [map concat]. destruct (AT x (or_introl eq_refl)) as (sl & ->). cbn. f_equal. apply IH. intros y Y. apply AT. right. exact Y.
  - intros e E. apply INE in E. destruct E as (x & sl & _ & ->). eauto.
  - intros x n. rewrite in_map_iff. split.
    + intros (e & E & X). apply INE in X. destruct X as (y & sl & H & ->). cbn in E. injection E as -> <-. destruct (slab_facts P s v G V I x sl H) as (c & O & _ & EM & _). exists c. rewrite <- EM at 1. exact (so_region _ _ _ _ _ O).
    + intros (c & RG). destruct (region_slab P s v G V I _ c RG eq_refl) as (sl & H & SZ & _). cbn [g_base g_size] in *. exists (PFree x (s_size sl) (up x)). split; [cbn; congruence|]. apply INE. eauto.
Qed.
