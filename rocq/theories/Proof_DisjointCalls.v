(* The calls of the disjoint pool. *)
From Verif Require Import Base Model_Utils Spec_Utils Proof_Utils Model_Disjoint Spec_Disjoint Proof_DisjointClass Proof_DisjointBits Proof_Disjoint Proof_DisjointStep Proof_DisjointMem Proof_DisjointRun.
Local Opaque bucket_table new_chunks.

Definition by_size (P : params) (n : Z) (cl : option Z) : Prop :=
  (max_poolable_size P < n /\ cl = None) \/ (n <= max_poolable_size P /\ exists k, class_for P n k /\ cl = Some k).
Definition alloc_view (cl : option Z) (v : view) (r : reply) (n : Z) : view :=
  let v2 := fold_left (observe_event cl false) (r_ev r) v in
  if r_ptr r =? 0 then v2 else View (v_regions v2) (v_lost v2) (Live (r_ptr r) n :: v_live v2) (v_others v2).
Definition inv (P : params) (s : pool) (v : view) : Prop := exists G, Core P s v G /\ Counts P s v.

Lemma observe_malloc : forall cl v n o r, observe cl v (CMalloc n o) r = alloc_view cl v r n. Proof. reflexivity. Qed.
Lemma observe_aligned : forall cl v n a o r, observe cl v (CAligned n a o) r = alloc_view cl v r n. Proof. reflexivity. Qed.

Section Calls.
Variables (dbg : bool) (P : params) (s : pool) (v : view) (G : list (live * place)).
Hypothesis (V : valid P) (I : Core P s v G) (N : Counts P s v).

Lemma find_bucket_ok : forall n, 0 < n <= max_poolable_size P -> exists i b, disjoint_pool_find_bucket dbg P s n = Some (i, b) /\ nth_error (p_buckets s) i = Some b /\ class_for P n (b_size b).
Proof.
  intros n SZ. pose proof (valid_pool P V) as VP. destruct (idx_class dbg P n (valid_bucket P V) ltac:(lia)) as (i & c & SI & T & CF).
  destruct (bucket_exists P s v G I i c T) as (b & NB & E). exists i, b. unfold disjoint_pool_find_bucket. rewrite SI, NB. rewrite E. auto.
Qed.
Lemma direct_ok : forall n a o, 0 < n < U64 -> provider_ok P (v_others v) (spans v) (r_ev (direct_alloc s n a o)) ->
  inv P (r_st (direct_alloc s n a o)) (alloc_view None v (direct_alloc s n a o) n) /\
  (r_ptr (direct_alloc s n a o) <> 0 -> a <> 0 -> multiple_of (r_ptr (direct_alloc s n a o)) a).
Proof.
  intros n a o NW. unfold direct_alloc, provider_alloc. destruct (ao_up o) as (r, p).
  destruct r; cbn [r_ev r_st r_ptr]; try (intros _; split; [exists G; unfold alloc_view; cbn [r_ev r_ptr Z.eqb fold_left observe_event]; auto|congruence]).
  intros (P0 & PN & AP & PG & AL & SPC & _). split; [|intros _; exact AL]. unfold alloc_view. cbn [r_ev r_ptr fold_left observe_event v_regions v_lost v_live v_others]. rewrite (proj2 (Z.eqb_neq _ _)) by lia.
  exists ((Live p n, (p, -1)) :: G). split; [apply direct_core; auto; lia|]. destruct N. constructor; cbn [p_slabs p_buckets p_total v_regions v_others]; try assumption.
  cbn [total_size fold_right g_size]. pose proof (total_spans v (fun g H => proj1 (proj2 (c_regs _ _ _ _ I g H)))) as TS. unfold total_size in TS. lia.
Qed.

Lemma malloc_ok : forall n o, is_word n -> exists r, disjoint_pool_malloc dbg P s n o = Some r /\
  forall cl, by_size P n cl -> provider_ok P (v_others v) (spans v) (r_ev r) -> inv P (r_st r) (alloc_view cl v r n).
Proof.
  intros n o NW. unfold is_word in NW. unfold disjoint_pool_malloc. destruct (Z.eqb_spec n 0) as [Z0|NZ].
  { eexists. split; [reflexivity|]. intros cl _ _. exists G. unfold alloc_view. cbn. auto. }
  destruct (Z.ltb_spec (max_poolable_size P) n) as [L|L].
  { eexists. split; [reflexivity|]. intros cl [(_ & ->)|(X & _)]; [|lia]. intros PO. apply direct_ok; [lia|exact PO]. }
  destruct (find_bucket_ok n ltac:(lia)) as (i & b & -> & NB & CF). destruct (alloc_chunk dbg P s v G i b o V I N NB) as (ptr & ev & s1 & -> & _ & H). eexists. split; [reflexivity|].
  intros cl [(X & _)|(_ & k & CK & ->)]; [lia|]. rewrite (class_unique P n k _ CK CF). cbn [r_ev r_st]. intros PO. specialize (H PO). cbv zeta in H. unfold alloc_view. cbn [r_ev r_ptr].
  set (v1 := fold_left (observe_event (Some (b_size b)) false) ev v) in *. destruct H as [(-> & C1 & N1)|(x & idx & E & ID & X0 & R & PG & XE & VL & VO & VT & N1 & K)]; [exists G; auto|].
  destruct (class_bounds P _ (proj1 CF)) as (C8 & _). pose proof (chunks_fit P V (b_size b) idx C8 ID) as (_ & F2 & F3). destruct CF as (_ & LE & _).
  rewrite (proj2 (Z.eqb_neq _ _)) by nia. exists ((Live ptr n, (x, idx)) :: G). split; [apply K; cbn [l_size l_ptr]; lia|]. destruct N1. constructor; assumption.
Qed.

Lemma pow2_divides : forall a b x, power_of_two a -> power_of_two b -> a <= b -> multiple_of x b -> x mod a = 0.
Proof.
  clear. intros a b x (m & M & ->) (k & K & ->) LE (q & ->). assert (m <= k). { destruct (Z_le_gt_dec m k); [assumption|]. pose proof (Z.pow_lt_mono_r 2 k m ltac:(lia) ltac:(lia) ltac:(lia)). lia. }
  apply Z.mod_divide; [apply Z.pow_nonzero; lia|]. exists (q * 2 ^ (k - m)). rewrite <- Z.mul_assoc, <- Z.pow_add_r by lia. replace (k - m + m) with k by lia. reflexivity.
Qed.
Lemma align_up_spec : forall x a, power_of_two a -> 0 < a -> 0 <= x -> x + a - 1 < U64 -> x <= ALIGN_UP_SAFE x a <= x + a - 1 /\ ALIGN_UP_SAFE x a mod a = 0 /\ (x mod a = 0 -> ALIGN_UP_SAFE x a = x) /\ ALIGN_UP_SAFE x a = (x + a - 1) / a * a.
Proof.
  clear. intros x a PW A0 X0 XE. rewrite align_up_safe_word; [|exact PW|unfold is_word; lia]. rewrite (proj2 (Z.leb_gt _ _)) by lia.
  pose proof (Z.mod_pos_bound (x + a - 1) a A0) as B. pose proof (Z.div_mod (x + a - 1) a ltac:(lia)) as D. set (q := (x + a - 1) / a) in *. set (r := (x + a - 1) mod a) in *.
  split; [lia|]. replace (x + a - 1 - r) with (q * a) by lia. split; [apply Z.mod_mul; lia|]. split; [|reflexivity].
  intros M. apply Z.mod_divide in M; [|lia]. destruct M as (t & ->). assert (q = t); [|nia]. nia.
Qed.
Lemma pow2_pos : forall a, power_of_two a -> 0 < a.
Proof. clear. intros a (m & M & ->). apply Z.pow_pos_nonneg; lia. Qed.

Lemma request_demand : forall n a, 0 < n -> is_word n -> 1 < a -> power_of_two a -> n + a <= U64 ->
  aligned_request P n a = demand P n a /\ n <= demand P n a /\ a <= demand P n a /\ (a <= page_size P -> demand P n a mod a = 0) /\ (page_size P < a -> demand P n a = n + a - 1).
Proof.
  intros n a N0 NW A1 PW FIT. unfold aligned_request, demand. rewrite (proj2 (Z.leb_gt a 1)) by lia. destruct (Z.leb_spec a (page_size P)) as [L|L].
  - destruct (align_up_spec n a PW ltac:(lia) ltac:(lia) ltac:(lia)) as (A & B & C & D). rewrite <- D. split; [|split; [lia|split; [|auto with zarith]]].
    + destruct (Z.ltb_spec 1 n) as [X|X]; [reflexivity|]. assert (n = 1) as -> by lia. rewrite D. replace (1 + a - 1) with a by lia. rewrite Z.div_same by lia. lia.
    + apply Z.mod_divide in B; [|lia]. destruct B as (t & E). rewrite E in *. assert (0 < t) by nia. nia.
  - split; [|split; [lia|split; [lia|split; [lia|auto]]]]. unfold is_word in NW. destruct (Z.eq_dec (n + a) U64) as [E|NE].
    + rewrite E. unfold wrap. rewrite Z.mod_same by (unfold U64; lia). change ((0 - 1) mod U64) with (U64 - 1). lia.
    + rewrite (wrap_id (n + a)) by (unfold is_word; lia). apply wrap_id. unfold is_word. lia.
Qed.

Lemma aligned_ok : forall n a o, is_word n -> is_word a -> good_align P n a -> exists r, disjoint_pool_aligned_malloc dbg P s n a o = Some r /\
  forall cl, by_size P (demand P n a) cl -> provider_ok P (v_others v) (spans v) (r_ev r) ->
    inv P (r_st r) (alloc_view cl v r n) /\ (r_ptr r <> 0 -> 0 < a -> multiple_of (r_ptr r) a).
Proof.
  intros n a o NW AW GA. unfold disjoint_pool_aligned_malloc. destruct (Z.eqb_spec n 0) as [Z0|NZ].
  { eexists. split; [reflexivity|]. intros cl _ _. cbn [r_ptr]. split; [|congruence]. exists G. unfold alloc_view. cbn. auto. }
  destruct (Z.leb_spec a 1) as [A1|A1].
  { destruct (malloc_ok n o NW) as (r & -> & H). exists r. split; [reflexivity|]. intros cl BS PO. unfold demand in BS. rewrite (proj2 (Z.leb_le a 1)) in BS by lia. split; [apply H; assumption|].
    intros _ AP. assert (a = 1) as -> by lia. exists (r_ptr r). lia. }
  destruct GA as [GA|(PW & FIT & GA)]; [lia|]. assert (N0 : 0 < n) by (unfold is_word in NW; lia).
  destruct (request_demand n a N0 NW A1 PW FIT) as (-> & D1 & D2 & D3 & D4). set (m := demand P n a) in *.
  destruct (Z.ltb_spec (max_poolable_size P) m) as [L|L].
  { eexists. split; [reflexivity|]. intros cl [(_ & ->)|(X & _)]; [|lia]. intros PO. destruct (direct_ok n a o ltac:(unfold is_word in NW; lia) PO) as (X & Y). split; [exact X|]. intros NE AP. apply Y; [exact NE|lia]. }
  destruct (find_bucket_ok m ltac:(lia)) as (i & b & -> & NB & CF). destruct (alloc_chunk dbg P s v G i b o V I N NB) as (ptr & ev & s1 & -> & _ & H).
  assert (RES : exists r, (if ptr =? 0 then Some (Reply ERR_OUT_OF_HOST_MEMORY 0 ev s1) else Some (Reply SUCCESS (ALIGN_UP_SAFE ptr a) ev s1)) = Some r /\ r_ev r = ev /\ r_st r = s1 /\ r_ptr r = if ptr =? 0 then 0 else ALIGN_UP_SAFE ptr a) by (destruct (ptr =? 0); eexists; (split; [reflexivity|auto])).
  destruct RES as (r & RR & RE & RS & RP). exists r. split; [exact RR|]. intros cl [(X & _)|(_ & k & CK & ->)]; [lia|]. rewrite (class_unique P m k _ CK CF). rewrite RE, RS. intros PO. specialize (H PO). cbv zeta in H. unfold alloc_view. rewrite RE.
  set (v1 := fold_left (observe_event (Some (b_size b)) false) ev v) in *. destruct H as [(PZ & C1 & N1)|(x & idx & E & ID & X0 & R & PG & XE & VL & VO & VT & N1 & K)].
  { rewrite RP, PZ. cbn [Z.eqb]. split; [exists G; auto|congruence]. }
  destruct (class_bounds P _ (proj1 CF)) as (C8 & _). pose proof (chunks_fit P V (b_size b) idx C8 ID) as (F1 & F2 & F3). pose proof (proj1 (proj2 CF)) as LE.
  assert (PP : 0 < ptr) by nia. rewrite (proj2 (Z.eqb_neq _ _)) in RP by lia.
  destruct (align_up_spec ptr a PW ltac:(lia) ltac:(lia) ltac:(lia)) as (AU1 & AU2 & AU3 & _). rewrite RP. set (q := ALIGN_UP_SAFE ptr a) in *.
  assert (Q : q + n <= ptr + b_size b /\ q < x + slab_min_size P).
  { destruct (Z_le_gt_dec a (page_size P)) as [LP|GP].
    - assert (PE : ptr mod a = 0).
      { rewrite E. assert (XM : x mod a = 0). { destruct (valid_page P V) as [X|X]; [lia|]. apply (pow2_divides a (page_size P)); auto. apply PG. lia. }
        pose proof (class_multiple P m (b_size b) a (valid_bucket P V) PW ltac:(lia) (D3 LP) CF) as CM. apply Z.mod_divide in XM; [|lia]. apply Z.mod_divide in CM; [|lia]. apply Z.mod_divide; [lia|]. apply Z.divide_add_r; [exact XM|]. apply Z.divide_mul_r. exact CM. }
      rewrite (AU3 PE). lia.
    - specialize (D4 ltac:(lia)). split; [lia|]. destruct F2 as [F2|F2]; [|lia]. destruct GA as [GA|[GA|GA]]; [lia| |lia]. rewrite F2 in E. lia. }
  rewrite (proj2 (Z.eqb_neq _ _)) by lia. split.
  - exists ((Live q n, (x, idx)) :: G). split; [apply K; cbn [l_size l_ptr]; lia|]. destruct N1. constructor; assumption.
  - intros _ _. apply Z.mod_divide in AU2; [|lia]. exact AU2.
Qed.

(* ---- free ---- *)
Lemma live_ptr : forall l q, In (l, q) G -> 0 < l_ptr l.
Proof.
  intros l (m, i) IN. destruct (c_place _ _ _ _ I l m i IN) as (_ & [(-> & E & R)|(I0 & _)]).
  - rewrite E. apply (c_regs _ _ _ _ I (Region m (l_size l) None)). apply in_or_app. auto.
  - destruct (live_chunk P s v G V I l m i IN I0) as (sl & c & _ & _ & C8 & _ & _ & A & _ & _ & _ & _ & _ & _ & M0). nia.
Qed.
Lemma drop_none : forall p L, (forall l, In l L -> l_ptr l <> p) -> drop p L = L.
Proof. clear. induction L as [|x L IH]; intros H; [reflexivity|]. cbn. rewrite (proj2 (Z.eqb_neq _ _)) by (apply H; left; reflexivity). f_equal. apply IH. intros. apply H. right. assumption. Qed.
Lemma drop_first : forall p (L : list (live * place)), (exists l, In l (map fst L) /\ l_ptr l = p) ->
  exists L1 l q L2, L = L1 ++ (l, q) :: L2 /\ l_ptr l = p /\ drop p (map fst L) = map fst (L1 ++ L2).
Proof.
  clear. induction L as [|(y, q) L IH]; intros (l & IN & E); [destruct IN|]. cbn [map fst drop]. destruct (Z.eqb_spec (l_ptr y) p) as [EY|NE].
  - exists [], y, q, L. auto.
  - destruct IH as (L1 & l' & q' & L2 & -> & EP & D). { exists l. split; [|exact E]. destruct IN as [X|X]; [cbn in X; congruence|exact X]. }
    exists ((y, q) :: L1), l', q', L2. split; [reflexivity|]. split; [exact EP|]. rewrite D. reflexivity.
Qed.

(* what the events of a free may be *)
Definition free_events (ptr : Z) (up : result) (r : reply) : Prop :=
  (exists g, In g (v_regions v) /\ g_class g = None /\ g_base g = ptr /\ r_ev r = [PFree ptr (g_size g) up] /\ r_res r = up) \/
  (r_res r = SUCCESS /\ (r_ev r = [] \/ exists g c, In g (v_regions v) /\ g_class g = Some c /\ r_ev r = [PFree (g_base g) (g_size g) up] /\ insideb (Live ptr 1) g = true /\
     forall l, In l (drop ptr (v_live v)) -> l_ptr l + l_size l <= g_base g \/ g_base g + g_size g <= l_ptr l)).

(* when a slab is given back *)
Definition free_rule (ptr : Z) (r : reply) : Prop :=
  forall sl b, slab_of P s ptr = Some sl -> nth_error (p_buckets s) (s_bucket sl) = Some b ->
    (r_ev r = [] <-> (s_alloc sl <> 1 \/ (b_inpool b + 1 <= bucket_max_pooled_slabs P (b_size b) /\ p_total s + s_size sl <= max_size P))).

Lemma free_ok : forall ptr up, (ptr = 0 \/ exists l, In l (v_live v) /\ l_ptr l = ptr) -> exists r, disjoint_pool_free dbg P s ptr up = Some r /\
  (forall cl, inv P (r_st r) (observe cl v (CFree ptr up) r)) /\ (ptr <> 0 -> free_events ptr up r /\ free_rule ptr r) /\ (ptr = 0 -> r_ev r = [] /\ r_res r = SUCCESS /\ r_st r = s).
Proof.
  intros ptr up ENV. unfold disjoint_pool_free. destruct (Z.eqb_spec ptr 0) as [->|NZ].
  { eexists. split; [reflexivity|]. split; [|split; [congruence|auto]]. intros cl. exists G. cbn [r_st r_ev r_ptr r_res observe fold_left]. rewrite drop_none.
    - replace (View (v_regions v) (v_lost v) (v_live v) (v_others v)) with v by (destruct v; reflexivity). auto.
    - intros l IN. rewrite <- (c_live _ _ _ _ I) in IN. apply in_map_iff in IN. destruct IN as ((l', q) & E & IN). cbn in E. subst l'. pose proof (live_ptr l q IN). lia. }
  destruct ENV as [ENV|ENV]; [contradiction|]. rewrite <- (c_live _ _ _ _ I) in ENV. destruct (drop_first ptr G ENV) as (G1 & l & (x, idx) & G2 & EG & EP & DR).
  assert (IN0 : In (l, (x, idx)) G) by (rewrite EG; apply in_or_app; right; left; reflexivity). assert (I' : Core P s v (G1 ++ (l, (x, idx)) :: G2)) by (rewrite <- EG; exact I).
  assert (DV : drop ptr (v_live v) = map fst (G1 ++ G2)) by (rewrite <- (c_live _ _ _ _ I); exact DR).
  destruct (c_place _ _ _ _ I l x idx IN0) as (_ & [(EI & _ & _)|(I0 & _)]).
  - rewrite EI in *. destruct (live_direct P s v G V I l x IN0) as (EX & X0 & L0 & R & SO & TS). rewrite EX in EP. subst x. rewrite SO, TS. cbn [provider_free].
    eexists. split; [reflexivity|]. split; [|split; [|congruence]].
    + intros cl. cbn [r_st]. unfold observe. cbn [r_res r_ev r_ptr].
      pose proof (direct_free_core P s v G1 G2 l ptr (p_total s) V I') as DF. destruct up; cbn [andb negb fold_left observe_event v_regions v_lost v_live v_others]; try (exists G; split; [exact I|exact N]).
      exists (G1 ++ G2). rewrite DV. split; [exact DF|]. destruct N. constructor; cbn [p_slabs p_buckets p_total v_regions v_others]; try assumption.
      pose proof (total_back ptr (l_size l) (v_regions v) (fun g H => Z.lt_le_incl _ _ (proj1 (proj2 (c_regs _ _ _ _ I g (in_or_app _ _ _ (or_introl H))))))). lia.
    + intros _. split; [left; exists (Region ptr (l_size l) None); auto|]. intros sl b SO2. rewrite SO in SO2. discriminate.
  - destruct (free_core dbg P s v G1 G2 l x idx V I' I0) as (sl & b & sl' & LX & NB & SO & GI & FC & E & E' & A1 & A2 & TW & B1 & S1 & T1 & SZ & FU & C1). rewrite EP in *. rewrite SO, NB, GI. unfold bucket_free_chunk. rewrite FC.
    assert (WF : (wrap (s_total sl' - s_alloc sl') =? 1) = (s_alloc sl =? s_total sl)). { rewrite wrap_id by (unfold is_word; lia). destruct (Z.eqb_spec (s_alloc sl) (s_total sl)); [apply Z.eqb_eq|apply Z.eqb_neq]; lia. }
    rewrite WF, E. set (full := s_alloc sl =? s_total sl) in *. assert (EXB : full && negb (existsb (Z.eqb x) (b_unavail b)) = false).
    { destruct full eqn:F; [|reflexivity]. cbn [andb]. apply negb_false_iff. apply existsb_exists. exists x. split; [apply FU; reflexivity|apply Z.eqb_refl]. }
    rewrite EXB. set (i := s_bucket sl) in *. assert (LEN : (i < length (p_buckets s))%nat) by (apply nth_error_Some; congruence). fold (free_bucket x b full). set (b1 := free_bucket x b full) in *.
    assert (BS : b_size b1 = b_size b /\ b_inpool b1 = b_inpool b) by (unfold b1, free_bucket; destruct full; auto). destruct BS as (BS & BI).
    destruct (slab_facts P s v G V I x sl LX) as (c & O & C8 & _ & X0 & X1 & X2 & T0). destruct (pooled_set P s v G x sl sl' I LX E') as (PS & NS).
    set (s' := Pool (set_slab sl' (p_slabs s)) (set_nth i (p_buckets s) b1) (p_total s) (p_regions s)) in *. set (v' := View (v_regions v) (v_lost v) (map fst (G1 ++ G2)) (v_others v)) in *.
    pose proof (max_pos P s v G x sl V I LX) as SP. pose proof (n_total _ _ _ N) as NT. pose proof (n_others _ _ _ N) as NO. pose proof (n_space _ _ _ N) as NSP. pose proof (n_limit _ _ _ N) as NL.
    pose proof (pooled_fits P s v G V I) as PF. pose proof (pooled_fits P s' v' _ V C1) as PF'. cbn [p_slabs s' v_regions v'] in PF'.
    assert (E0 : forall j, empty1 j sl = 0) by (intros; unfold empty1; rewrite (proj2 (Z.eqb_neq _ _)) by lia; apply andb_false_r || rewrite andb_false_r; reflexivity).
    assert (Y0 : bytes1 sl = 0) by (unfold bytes1; rewrite (proj2 (Z.eqb_neq _ _)) by lia; reflexivity).
    assert (NB1 : nth_error (p_buckets s') i = Some b1) by (cbn [p_buckets s']; rewrite set_nth_get by exact LEN; rewrite Nat.eqb_refl; reflexivity).
    assert (OB : forall cl r, r_res r = SUCCESS -> observe cl v (CFree ptr up) r = fold_left (observe_event cl false) (r_ev r) v').
    { intros cl r RS. unfold observe. rewrite RS, DV. reflexivity. }
    destruct (Z.eqb_spec (s_alloc sl') 0) as [AZ|AZ].
    + assert (Y1 : bytes1 sl' = s_size sl) by (unfold bytes1; rewrite AZ; cbn [Z.eqb]; exact S1). assert (E1 : forall j, empty1 j sl' = if Nat.eqb i j then 1 else 0).
      { intros j. unfold empty1. rewrite AZ, B1. fold i. rewrite andb_true_r. reflexivity. }
      destruct (n_inpool _ _ _ N i b NB) as (IP & IPM). destruct (nempty_small P s v G V I i) as (NS0 & NS1).
      unfold bucket_can_pool. rewrite alloc_size_eq, <- SZ. rewrite (wrap_id (b_inpool b + 1)) by (unfold is_word, U64 in *; lia). rewrite (wrap_id (p_total s + s_size sl)) by (unfold is_word; lia).
      assert (CUT : forall inp tot, inp = b_inpool b -> tot = p_total s -> (b_inpool b + 1 > bucket_max_pooled_slabs P (b_size b) \/ p_total s + s_size sl > max_size P) -> exists r,
        match Some (provider_free (Pool (filter (fun y => negb (s_mem y =? x)) (set_slab sl' (p_slabs s))) (set_nth i (p_buckets s) (Bucket (b_size b1) (dl_delete x (b_avail b1)) (b_unavail b1) inp)) tot (p_regions s)) x (s_size sl') up) with
        | Some (ev, s1) => Some (Reply SUCCESS 0 ev s1) | None => None end = Some r /\
        (forall cl, inv P (r_st r) (observe cl v (CFree ptr up) r)) /\ (ptr <> 0 -> free_events ptr up r /\ free_rule ptr r) /\ (ptr = 0 -> r_ev r = [] /\ r_res r = SUCCESS /\ r_st r = s)).
      { intros inp tot -> -> NOROOM. unfold provider_free. eexists. split; [reflexivity|]. split; [|split; [|congruence]].
        - intros cl. rewrite OB by reflexivity. cbn [r_st r_ev fold_left].
          assert (LX' : lk (p_slabs s') x = Some sl') by (cbn [p_slabs s']; rewrite (look (p_slabs s) x sl sl' LX E'), Z.eqb_refl; reflexivity).
          pose proof (remove_core P s' v' (G1 ++ G2) x sl' b1 (b_inpool b) (p_total s) up V C1 LX' AZ ltac:(rewrite B1; exact NB1)) as RC. rewrite B1 in RC. cbn [p_slabs p_buckets p_regions s'] in RC.
          assert (SN : set_nth i (set_nth i (p_buckets s) b1) (Bucket (b_size b1) (dl_delete x (b_avail b1)) (b_unavail b1) (b_inpool b)) = set_nth i (p_buckets s) (Bucket (b_size b1) (dl_delete x (b_avail b1)) (b_unavail b1) (b_inpool b))).
          { clear. generalize (Bucket (b_size b1) (dl_delete x (b_avail b1)) (b_unavail b1) (b_inpool b)). generalize (p_buckets s). induction i as [|k IH]; intros [|z L] y; cbn; try reflexivity. rewrite IH. reflexivity. }
          fold i in RC. rewrite SN in RC.
          assert (VV : back v' x (s_size sl') up = observe_event cl false v' (PFree x (s_size sl') up)) by (unfold back, observe_event; destruct up; reflexivity). rewrite <- VV.
          assert (PE : match up with SUCCESS => Pool (filter (fun y => negb (s_mem y =? x)) (set_slab sl' (p_slabs s))) (set_nth i (p_buckets s) (Bucket (b_size b1) (dl_delete x (b_avail b1)) (b_unavail b1) (b_inpool b))) (p_total s) (untrack x (p_regions s))
            | _ => Pool (filter (fun y => negb (s_mem y =? x)) (set_slab sl' (p_slabs s))) (set_nth i (p_buckets s) (Bucket (b_size b1) (dl_delete x (b_avail b1)) (b_unavail b1) (b_inpool b))) (p_total s) (p_regions s) end =
            Pool (filter (fun y => negb (s_mem y =? x)) (set_slab sl' (p_slabs s))) (set_nth i (p_buckets s) (Bucket (b_size b1) (dl_delete x (b_avail b1)) (b_unavail b1) (b_inpool b))) (p_total s) (match up with SUCCESS => untrack x (p_regions s) | _ => p_regions s end)) by (destruct up; reflexivity).
          cbn [p_slabs p_buckets p_total p_regions]. rewrite PE. exists (G1 ++ G2). split; [exact RC|].
          assert (KEYS : NoDup (map s_mem (set_slab sl' (p_slabs s)))) by (rewrite set_keys; exact (c_keys _ _ _ _ I)).
          assert (NF : forall j, nempty j (filter (fun y => negb (s_mem y =? x)) (set_slab sl' (p_slabs s))) = nempty j (p_slabs s)).
          { intros j. unfold nempty at 1. rewrite (wsum_filter _ _ x sl' KEYS LX'). fold (nempty j (set_slab sl' (p_slabs s))). rewrite NS, E0. lia. }
          assert (PFI : pooled (filter (fun y => negb (s_mem y =? x)) (set_slab sl' (p_slabs s))) = pooled (p_slabs s)).
          { unfold pooled at 1. rewrite (wsum_filter _ _ x sl' KEYS LX'). fold (pooled (set_slab sl' (p_slabs s))). rewrite PS, Y0. lia. }
          apply (counts_move P s v); cbn [p_slabs p_buckets p_total]; rewrite ?PFI; try lia; [exact N| | |].
          + intros j b' B'. rewrite NF. rewrite set_nth_get in B' by exact LEN. destruct (Nat.eqb_spec j i) as [->|NJ]; [injection B' as <-; exists b; cbn [b_size b_inpool]; split; [exact NB|split; [exact BS|split; [lia|left; lia]]]|exists b'; split; [exact B'|split; [reflexivity|split; [lia|left; lia]]]].
          + unfold back. destruct up; reflexivity.
          + assert (RR : v_regions (back v' x (s_size sl') up) = give_back x (s_size sl') (v_regions v)) by (unfold back; destruct up; reflexivity). rewrite RR.
            pose proof (total_back x (s_size sl') (v_regions v) (fun g H => Z.lt_le_incl _ _ (proj1 (proj2 (c_regs _ _ _ _ I g (in_or_app _ _ _ (or_introl H))))))). lia.
        - intros _. split; [|intros sl2 b2 SO2 NB2; rewrite SO in SO2; injection SO2 as <-; fold i in NB2; rewrite NB in NB2; injection NB2 as <-; split; [discriminate|intros; exfalso; lia]]. right. split; [reflexivity|]. right. pose proof (so_region _ _ _ _ _ O) as R. rewrite E in R. exists (Region x (s_size sl) (Some c)), c. cbn [g_base g_size g_class r_ev]. rewrite S1. split; [exact R|]. split; [reflexivity|]. split; [reflexivity|].
          assert (INS : forall l' m j, In (l', (m, j)) G -> 0 <= j -> m = x -> x <= l_ptr l' < x + s_size sl).
          { intros l' m j IN J ->. destruct (live_chunk P s v G V I l' x j IN J) as (sl2 & c2 & H2 & _ & C2 & _ & _ & Q1 & Q2 & Q3 & _ & _ & Q4 & _). rewrite LX in H2. injection H2 as <-. clear - Q1 Q2 Q3 Q4 C2 J. nia. }
          split; [unfold insideb; cbn [l_ptr g_base g_size]; pose proof (INS l x idx IN0 I0 eq_refl); apply andb_true_intro; split; lia|].
          intros l' IN'. rewrite DV in IN'. apply in_map_iff in IN'. destruct IN' as ((l2, (m, j)) & E2 & IN2). cbn in E2. subst l2.
          assert (ING : In (l', (m, j)) G) by (rewrite EG; apply in_app_iff in IN2; apply in_or_app; cbn [In]; tauto).
          (* nothing is left in the slab, so l' is in another region *)
          assert (RX : In (Region x (s_size sl) (Some c)) (v_regions v ++ v_lost v)) by (apply in_or_app; auto).
          assert (O2 : exists g, In g (v_regions v) /\ g_base g = m /\ m <> x /\ m <= l_ptr l' /\ l_ptr l' + l_size l' <= m + g_size g).
          { destruct (c_place _ _ _ _ I l' m j ING) as (L0 & [(EJ & PM & RM)|(J0 & _)]).
            - exists (Region m (l_size l') None). cbn [g_base g_size]. split; [exact RM|]. split; [reflexivity|]. split; [|lia]. intros ->. assert (Q : Region x (l_size l') None = Region x (s_size sl) (Some c)) by (apply (reg_inj P s v G I); auto). discriminate.
            - destruct (live_chunk P s v G V I l' m j ING J0) as (sl2 & c2 & H2 & O2 & C2 & E2 & _ & Q1 & Q2 & Q3 & _ & _ & Q4 & _). exists (Region (s_mem sl2) (s_size sl2) (Some c2)). cbn [g_base g_size].
              split; [exact (so_region _ _ _ _ _ O2)|]. split; [exact E2|]. split; [|clear - Q1 Q2 Q3 Q4 C2 J0 E2; nia]. intros ->. destruct (c_slab _ _ _ _ C1 x sl') as (c3 & O3); [cbn [p_slabs s']; rewrite (look (p_slabs s) x sl sl' LX E'), Z.eqb_refl; reflexivity|].
              apply (count_zero x (map snd (G1 ++ G2)) j); [rewrite <- E', <- (so_alloc _ _ _ _ _ O3); exact AZ|exact J0|]. change (x, j) with (snd (l', (x, j))). apply in_map. exact IN2. }
          destruct O2 as (g & GI' & GB & GX & GP & GQ). assert (AP : apart (g_base g) (g_size g) x (s_size sl)) by (apply (c_apart _ _ _ _ I g (Region x (s_size sl) (Some c))); [apply in_or_app; auto|exact RX|cbn [g_base]; congruence]). unfold apart in AP. lia. }
      destruct (Z.leb_spec (b_inpool b + 1) (bucket_max_pooled_slabs P (b_size b))) as [LM|LM].
      * destruct (Z.leb_spec (p_total s + s_size sl) (max_size P)) as [LT|LT].
        -- eexists. split; [reflexivity|]. split; [|split; [intros _; split; [right; auto|intros sl2 b2 SO2 NB2; rewrite SO in SO2; injection SO2 as <-; fold i in NB2; rewrite NB in NB2; injection NB2 as <-; split; [intros _; right; lia|reflexivity]]|congruence]]. intros cl. rewrite OB by reflexivity. cbn [r_st r_ev fold_left]. exists (G1 ++ G2). split.
           ++ destruct (set_bucket_same (p_buckets s') i b1 (Bucket (b_size b1) (b_avail b1) (b_unavail b1) (b_inpool b + 1)) NB1 eq_refl eq_refl eq_refl) as (SB1 & SB2).
              pose proof (core_buckets P s' v' (G1 ++ G2) _ (p_total s + s_size sl) C1 SB1 SB2) as CB. cbn [p_slabs p_buckets p_regions s'] in CB.
              assert (SN : forall y, set_nth i (set_nth i (p_buckets s) b1) y = set_nth i (p_buckets s) y).
              { clear. generalize (p_buckets s). induction i as [|k IH]; intros [|z L] y; cbn; try reflexivity. rewrite IH. reflexivity. }
              rewrite SN in CB. exact CB.
           ++ apply (counts_move P s v); cbn [p_slabs p_buckets p_total v_others v_regions v']; rewrite ?PS, ?Y0, ?Y1; try lia; [exact N|].
              intros j b' B'. rewrite NS, E0, E1. rewrite set_nth_get in B' by exact LEN. destruct (Nat.eqb_spec j i) as [->|NJ].
              ** injection B' as <-. exists b. cbn [b_size b_inpool]. rewrite Nat.eqb_refl. split; [exact NB|]. split; [exact BS|]. split; [lia|right; lia].
              ** exists b'. rewrite (proj2 (Nat.eqb_neq i j)) by congruence. split; [exact B'|]. split; [reflexivity|]. split; [lia|left; lia].
        -- apply CUT; [reflexivity| |right; lia]. replace (p_total s + s_size sl - s_size sl) with (p_total s) by lia. apply wrap_id. unfold is_word. assert (P0 : 0 <= pooled (p_slabs s)); [|lia].
           apply wsum_nonneg. intros y YI. unfold bytes1. pose proof (max_pos P s v G _ y V I (lk_in _ y (c_keys _ _ _ _ I) YI)). destruct (s_alloc y =? 0); lia.
      * apply CUT; [reflexivity|reflexivity|left; lia].
    + eexists. split; [reflexivity|]. split; [|split; [intros _; split; [right; auto|intros sl2 b2 SO2 NB2; rewrite SO in SO2; injection SO2 as <-; split; [intros _; left; lia|reflexivity]]|congruence]]. intros cl. rewrite OB by reflexivity. cbn [r_st r_ev fold_left]. exists (G1 ++ G2). split; [exact C1|].
      assert (Y1 : bytes1 sl' = 0) by (unfold bytes1; rewrite (proj2 (Z.eqb_neq _ _)) by lia; reflexivity).
      assert (E1 : forall j, empty1 j sl' = 0) by (intros; unfold empty1; rewrite (proj2 (Z.eqb_neq _ _) AZ); rewrite andb_false_r; reflexivity).
      apply (counts_move P s v); cbn [p_slabs p_buckets p_total v_others v_regions v' s']; rewrite ?PS, ?Y0, ?Y1; try lia; [exact N|].
      intros j b' B'. rewrite NS, E0, E1. rewrite set_nth_get in B' by exact LEN. destruct (Nat.eqb_spec j i) as [->|NJ]; [injection B' as <-; exists b; split; [exact NB|split; [exact BS|split; [lia|left; lia]]]|exists b'; split; [exact B'|split; [reflexivity|split; [lia|left; lia]]]].
Qed.

Lemma others_ok : forall d, 0 <= v_others v + d -> v_others v + d + total_size (v_regions v) < U64 ->
  inv P (Pool (p_slabs s) (p_buckets s) (wrap (p_total s + d)) (p_regions s)) (View (v_regions v) (v_lost v) (v_live v) (v_others v + d)).
Proof.
  intros d D0 D1. exists G. pose proof (pooled_fits P s v G V I) as PF. assert (P0 : 0 <= pooled (p_slabs s)).
  { apply wsum_nonneg. intros y YI. unfold bytes1. pose proof (max_pos P s v G _ y V I (lk_in _ y (c_keys _ _ _ _ I) YI)). destruct (s_alloc y =? 0); lia. }
  split; [destruct I; constructor; assumption|]. pose proof (n_total _ _ _ N). destruct N. constructor; cbn [p_slabs p_buckets p_total v_others v_regions]; try assumption. rewrite wrap_id by (unfold is_word; lia). lia.
Qed.
End Calls.

Lemma init_inv : forall P s, valid P -> disjoint_pool_initialize P true = (SUCCESS, Some s) -> inv P s view_new.
Proof.
  intros P s V H. unfold disjoint_pool_initialize in H. destruct (_ || _); [discriminate|]. cbn [negb] in H. injection H as <-. exists []. split.
  - constructor; cbn [p_slabs p_buckets p_regions v_regions v_lost v_live view_new map app].
    + constructor.
    + intros x sl Z. discriminate.
    + rewrite map_map. cbn. apply map_id.
    + intros j b B. rewrite nth_error_map in B. destruct (nth_error (bucket_table P) j); [|discriminate]. injection B as <-. split; [constructor|]. split; [constructor|]. split; intros x; (split; [intros []|intros (sl & Z & _); discriminate]).
    + intros g [].
    + constructor.
    + intros g h [].
    + intros g [].
    + intros g [].
    + intros x. reflexivity.
    + reflexivity.
    + constructor.
    + intros l m i [].
  - constructor; cbn [p_slabs p_buckets p_total v_others view_new v_regions total_size fold_right].
    + intros j b B. rewrite nth_error_map in B. destruct (nth_error (bucket_table P) j); [|discriminate]. injection B as <-. cbn. split; [reflexivity|]. unfold bucket_max_pooled_slabs. pose proof (valid_words P V) as (_ & W & _). unfold is_word in W. destruct (_ <=? _); lia.
    + reflexivity.
    + unfold pooled. cbn. pose proof (valid_words P V) as (_ & _ & W & _). unfold is_word in W. lia.
    + lia.
    + unfold U64. lia.
Qed.

Lemma step_inv : forall dbg P s v c, valid P -> inv P s v -> call_env P v c -> exists r, step dbg P s c = Some r /\
  forall cl, serves P c cl -> provider_ok P (v_others v) (spans v) (r_ev r) -> inv P (r_st r) (observe cl v c r).
Proof.
  intros dbg P s v c V (G & I & N) E. destruct c as [n o|n a o|ptr up|d]; cbn [step].
  - destruct (malloc_ok dbg P s v G V I N n o E) as (r & -> & H). exists r. split; [reflexivity|]. intros cl S PO. rewrite observe_malloc. apply H; assumption.
  - destruct E as (E1 & E2 & E3). destruct (aligned_ok dbg P s v G V I N n a o E1 E2 E3) as (r & -> & H). exists r. split; [reflexivity|]. intros cl S PO. rewrite observe_aligned. apply H; assumption.
  - destruct (free_ok dbg P s v G V I N ptr up E) as (r & -> & H & _). exists r. split; [reflexivity|]. intros cl _ _. apply H.
  - eexists. split; [reflexivity|]. intros cl _ _. cbn [r_st]. destruct E as (E1 & E2). apply (others_ok P s v G V I N d E1 E2).
Qed.
Theorem reached_inv : forall dbg P s v, valid P -> reached dbg P s v -> inv P s v.
Proof.
  intros dbg P s v V R. induction R as [s H|s v c r cl R IH E H S PO]; [apply init_inv; assumption|].
  destruct (step_inv dbg P s v c V IH E) as (r' & H' & K). rewrite H in H'. injection H' as <-. apply K; assumption.
Qed.
