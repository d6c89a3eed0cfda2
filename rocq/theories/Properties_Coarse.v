(* C01-C07, C47: the coarse allocator (src/coarse/coarse.c), i.e. the fixed,
   devdax and file providers.  [reached e c v]: c is a state and v the client's
   view after some history of calls in environment e (Spec_Coarse.v). *)
From Verif Require Import Base Model_Utils Proof_Utils Model_Coarse Spec_Coarse Proof_Coarse Proof_CoarseInv
  Proof_CoarseAlloc Proof_CoarseOps Proof_CoarseProps.
From Coq Require Import Permutation.

(* No call ever fails an assertion or dereferences NULL. *)
Theorem coarse_calls_complete : forall e c v k,
  reached e c v -> call_env e (page_size c) v k -> exists r, step (debug e) c k = Some r.
Proof.
  intros e c v k R CE. destruct (step_ok (debug e) e (reached_env _ _ _ R) c v k (reached_inv _ _ _ R) CE) as (r & S & _).
  exists r; exact S.
Qed.
Print Assumptions coarse_calls_complete.

(* C01. *)
Theorem coarse_live_disjoint : forall e c v, reached e c v ->
  (forall p n, live v p = Some n -> 0 < n /\ forall x, inside x (p, n) -> within_given v x) /\
  (forall p n q m, live v p = Some n -> live v q = Some m -> p <> q -> disjoint (p, n) (q, m)).
Proof. intros e c v R. exact (inv_disjoint e c v (reached_inv _ _ _ R)). Qed.
Print Assumptions coarse_live_disjoint.

(* C02.  Alignment of the answer to the request and to the page; the bytes were
   in no live allocation before and lie in the provider's memory; nothing else
   changes; alignments that are not a power of two are refused. *)
Theorem coarse_alloc_correct : forall e c v size alignment o,
  reached e c v -> alloc_env e (page_size c) v size alignment o ->
  exists r, step (debug e) c (CAlloc size alignment o) = Some r /\
  (r_res r = SUCCESS -> exists p,
     r_ptr r = Some p /\ 0 < p /\ p mod page_size c = 0 /\ (alignment <> 0 -> p mod alignment = 0) /\
     (forall q m, live v q = Some m -> disjoint (p, size) (q, m)) /\
     (forall x, inside x (p, size) -> within_given v x \/ obtained (r_ev r) = [(p, size)])) /\
  (alignment <> 0 -> ~ pow2 alignment -> r = Reply ERR_INVALID_ALIGNMENT None [] c).
Proof.
  intros e c v size al o R AE. pose proof (reached_inv _ _ _ R) as I.
  destruct (alloc_ok (debug e) e (reached_env _ _ _ R) c v size al o I AE) as (r & S & I' & _ & F1 & _ & F3).
  exists r. split; [exact S|]. pose proof (i_page _ _ _ I) as P. destruct AE as (_ & W & _). split.
  - intros RS. destruct (F1 RS) as (p & a & RP & EA & M & LN & D). exists p. split; [exact RP|].
    destruct (effective_ok _ _ _ P W EA) as (PA & MP & MA). pose proof (pow2_range _ PA). pose proof (pow2_range _ P).
    unfold observe in I'. rewrite RS, RP in I'.
    assert (LP : live (View (upd_live (live v) p (Some size)) (given v ++ obtained (r_ev r))) p = Some size).
    { cbn. unfold upd_live. rewrite Z.eqb_refl. reflexivity. }
    split; [exact (proj1 (live_pos _ _ _ _ _ I' LP))|].
    split; [eapply mod_trans; [| |exact M|exact MP]; lia|].
    split. { intros N. destruct (MA N) as (X & PL). pose proof (pow2_range _ PL). eapply mod_trans; [| |exact M|exact X]; lia. }
    split.
    + intros q m LQ. assert (NE : p <> q) by congruence.
      apply (proj2 (inv_disjoint _ _ _ I')); [exact LP| |exact NE]. cbn. unfold upd_live. destruct (Z.eqb_spec q p); [congruence|exact LQ].
    + intros x X. destruct D as [(_ & D)|D]; [left; exact (D x X)|right; exact D].
  - intros N NP. apply F3. apply effective_none; assumption.
Qed.
Print Assumptions coarse_alloc_correct.

(* C03.  L lists the live allocations.  The blocks tile the given memory: each
   byte of it is in exactly one block and no other byte is in any.  The free
   count is exact when size-class creation never runs out of memory. *)
Theorem coarse_accounting : forall e c v, reached e c v ->
  exists L, lists_live v L /\
    s_used (get_stats c) = total L /\ s_alloc (get_stats c) = total (given v) /\
    s_used (get_stats c) <= s_alloc (get_stats c) < U64 /\
    (forall x, within_given v x <-> exists b, In b (all_blocks c) /\ inside x (b_data b, b_size b)) /\
    (forall a b x, In a (all_blocks c) -> In b (all_blocks c) ->
       inside x (b_data a, b_size a) -> inside x (b_data b, b_size b) -> a = b) /\
    total (map key (all_blocks c)) = total (given v) /\
    s_free (get_stats c) <= s_all (get_stats c) - Z.of_nat (length L) /\
    (class_ok e = true -> s_free (get_stats c) = s_all (get_stats c) - Z.of_nat (length L)).
Proof.
  intros e c v R. pose proof (reached_inv _ _ _ R) as I. exists (used_keys (all_blocks c)).
  split; [exact (used_lists _ _ _ I)|]. rewrite !total_ksum. cbn [get_stats s_used s_alloc s_free s_all].
  split; [exact (i_used _ _ _ I)|]. split; [exact (i_given _ _ _ I)|].
  split; [pose proof (inv_used_bound _ _ _ I); lia|].
  split; [intros x; rewrite <- (i_cover _ _ _ I); reflexivity|].
  split. { intros a b x IA IB XA XB. exact (chain_disjoint _ _ _ _ x (core_chain _ _ (i_core _ _ _ I)) IA IB XA XB). }
  split. { transitivity (alloc_size c); [|exact (i_given _ _ _ I)].
           rewrite (i_alloc _ _ _ I). exact (keys_sum (all_blocks c)). }
  destruct (inv_counts _ _ _ I) as (A & B & C). split; [lia|]. intros CO. rewrite (C CO). lia.
Qed.
Print Assumptions coarse_accounting.

(* C04.  With an agreeing merge callback no two adjacent blocks are both free;
   once everything is freed, a single region is one free block again. *)
Theorem coarse_coalesces : forall e c v, reached e c v -> merges e = true ->
  (forall a b, In a (all_blocks c) -> In b (all_blocks c) -> b_used a = false -> b_used b = false ->
     b_data a + b_size a <> b_data b) /\
  (forall p n, class_ok e = true -> 0 < n -> given v = [(p, n)] -> (forall q, live v q = None) ->
     get_stats c = Stats n 0 1 1 /\ all_blocks c = [Block p n false true] /\ free_blocks c = [(n, [p])]).
Proof.
  intros e c v R M. pose proof (reached_inv _ _ _ R) as I. split.
  - intros a b IA IB. apply (noadj_any (all_blocks c)); try assumption; [exact (core_chain _ _ (i_core _ _ _ I))|exact (i_adj _ _ _ I M)].
  - intros p n CO P G LV.
    destruct (single_region _ _ _ p n I M CO P LV G) as (A & B & C & D). split; [|split; assumption].
    unfold get_stats. rewrite A, B, C, D. reflexivity.
Qed.
Print Assumptions coarse_coalesces.

(* C05. *)
Theorem coarse_bad_free_rejected : forall e c v p bytes o,
  reached e c v -> call_env e (page_size c) v (CFree p bytes o) ->
  (p = 0 -> step (debug e) c (CFree p bytes o) = Some (Reply SUCCESS None [] c)) /\
  (p <> 0 -> (live v p = None \/ exists n, live v p = Some n /\ bytes <> 0 /\ bytes <> n) ->
     step (debug e) c (CFree p bytes o) = Some (Reply ERR_INVALID_ARGUMENT None [] c)) /\
  (forall n, live v p = Some n -> bytes = 0 \/ bytes = n ->
     exists r, step (debug e) c (CFree p bytes o) = Some r /\ r_res r = SUCCESS).
Proof.
  intros e c v p bytes o R (W1 & W2 & O & AG). pose proof (reached_inv _ _ _ R) as I.
  destruct (free_ok (debug e) e (reached_env _ _ _ R) c v p bytes o I W2 O AG) as (r & S & _ & _ & F1 & F2 & F3 & F4 & _).
  cbn [step]. rewrite S. unfold is_word in W2. split; [|split].
  - intros P0. rewrite (F1 P0). reflexivity.
  - intros P0 [L|(n & L & B1 & B2)]; f_equal; [exact (F2 P0 L)|]. apply (F3 n P0 L); lia.
  - intros n L B. exists r. split; [reflexivity|]. apply (F4 n); try assumption. pose proof (live_pos _ _ _ _ _ I L). lia.
Qed.
Print Assumptions coarse_bad_free_rejected.

(* C06.  When a split / merge request is valid, in terms of the live set. *)
Theorem coarse_split_merge : forall e c v p total first s ok,
  reached e c v -> is_word p -> is_word total -> is_word first ->
  exists r, step (debug e) c (CSplit p total first s ok) = Some r /\
  (* invalid requests change nothing *)
  (~ (live v p = Some total /\ 0 < first < total) -> r = Reply ERR_INVALID_ARGUMENT None [] c) /\
  (live v p = Some total /\ 0 < first < total -> s = SUCCESS -> ok = true -> r_res r = SUCCESS) /\
  (r_res r <> SUCCESS -> r_st r = c) /\
  (* valid ones replace one allocation by two on the same bytes, and nothing else *)
  (r_res r = SUCCESS ->
     let v' := observe v (CSplit p total first s ok) r in
     live v p = Some total /\ 0 < first < total /\
     live v' p = Some first /\ live v' (p + first) = Some (total - first) /\
     (forall q, q <> p -> q <> p + first -> live v' q = live v q) /\ live v (p + first) = None /\
     s_used (get_stats (r_st r)) = s_used (get_stats c) /\ s_alloc (get_stats (r_st r)) = s_alloc (get_stats c) /\
     (* and merging the halves is possible and restores the live set *)
     exists r2, step (debug e) (r_st r) (CMerge p (p + first) total SUCCESS) = Some r2 /\ r_res r2 = SUCCESS /\
       (forall q, live (observe v' (CMerge p (p + first) total SUCCESS) r2) q = live v q) /\
       s_used (get_stats (r_st r2)) = s_used (get_stats c) /\ s_alloc (get_stats (r_st r2)) = s_alloc (get_stats c)).
Proof.
  intros e c v p tot first s ok R W1 W2 W3. pose proof (reached_inv _ _ _ R) as I. pose proof (reached_env _ _ _ R) as DS.
  destruct (split_ok (debug e) e DS c v p tot first s ok I W1 W2 W3) as (r & S & I' & _ & _ & F1 & F2 & F3 & F4).
  assert (VE : split_valid v p tot first <-> live v p = Some tot /\ 0 < first < tot).
  { unfold split_valid. split; [tauto|]. intros (L & X). pose proof (live_pos _ _ _ _ _ I L). repeat split; try tauto; lia. }
  exists r. split; [exact S|]. rewrite VE in *.
  split; [exact F1|]. split; [exact F2|]. split; [exact F4|]. intros RS v'. destruct (F3 RS) as (L & X).
  pose proof (live_pos _ _ _ _ _ I L) as LP.
  assert (EV : v' = View (upd_live (upd_live (live v) p (Some first)) (p + first) (Some (tot - first))) (given v)) by (unfold v', observe; rewrite RS; reflexivity).
  assert (N2 : live v (p + first) = None).
  { destruct (live v (p + first)) as [m|] eqn:L2; [exfalso|reflexivity]. pose proof (live_pos _ _ _ _ _ I L2).
    apply (proj2 (inv_disjoint _ _ _ I) p tot (p + first) m L L2 ltac:(lia) (p + first)); unfold inside; cbn; lia. }
  assert (V1 : live v' p = Some first).
  { rewrite EV. cbn. unfold upd_live. rewrite Z.eqb_refl. destruct (Z.eqb_spec p (p + first)); [lia|reflexivity]. }
  assert (V2 : live v' (p + first) = Some (tot - first)).
  { rewrite EV. cbn. unfold upd_live. rewrite Z.eqb_refl. reflexivity. }
  split; [exact L|]. split; [exact X|]. split; [exact V1|]. split; [exact V2|].
  split. { intros q Q1 Q2. rewrite EV. cbn. unfold upd_live. destruct (Z.eqb_spec q (p + first)); [contradiction|]. destruct (Z.eqb_spec q p); [contradiction|reflexivity]. }
  split; [exact N2|].
  fold v' in I'. pose proof (split_sizes (debug e) c p tot first s ok r S) as (Z1 & Z2).
  split; [exact Z1|]. split; [exact Z2|].
  destruct (merge2_ok (debug e) e DS (r_st r) v' p (p + first) tot SUCCESS I') as (r2 & S2 & I2 & _ & _ & G1 & G2 & G3 & G4); [exact W1|unfold is_word in *; lia|exact W2|].
  exists r2. split; [exact S2|].
  assert (R2 : r_res r2 = SUCCESS).
  { apply G2. split; [lia|]. exists first, (tot - first). repeat split; try assumption. lia. }
  split; [exact R2|].
  assert (LE : forall q, live (observe v' (CMerge p (p + first) tot SUCCESS) r2) q = live v q).
  { intros q. unfold observe. rewrite R2, EV. cbn. unfold upd_live. destruct (Z.eqb_spec q p) as [->|]; [symmetry; exact L|].
    destruct (Z.eqb_spec q (p + first)) as [->|]; [symmetry; exact N2|reflexivity]. }
  split; [exact LE|]. pose proof (merge_sizes (debug e) (r_st r) p (p + first) tot SUCCESS r2 S2) as (Y1 & Y2).
  split; congruence.
Qed.
Print Assumptions coarse_split_merge.

Theorem coarse_merge_exact : forall e c v lo hi total m,
  reached e c v -> is_word lo -> is_word hi -> is_word total ->
  exists r, step (debug e) c (CMerge lo hi total m) = Some r /\
  let valid := exists n1 n2, live v lo = Some n1 /\ live v hi = Some n2 /\ hi = lo + n1 /\ total = n1 + n2 in
  (~ valid -> r = Reply ERR_INVALID_ARGUMENT None [] c) /\
  (valid -> r_res r = m) /\
  (r_res r <> SUCCESS -> r_st r = c) /\
  (r_res r = SUCCESS ->
     let v' := observe v (CMerge lo hi total m) r in
     valid /\ live v' lo = Some total /\ live v' hi = None /\
     (forall q, q <> lo -> q <> hi -> live v' q = live v q) /\
     s_used (get_stats (r_st r)) = s_used (get_stats c) /\ s_alloc (get_stats (r_st r)) = s_alloc (get_stats c)).
Proof.
  intros e c v lo hi tot m R W1 W2 W3. pose proof (reached_inv _ _ _ R) as I. pose proof (reached_env _ _ _ R) as DS.
  destruct (merge2_ok (debug e) e DS c v lo hi tot m I W1 W2 W3) as (r & S & I' & _ & _ & F1 & F2 & F3 & F4).
  exists r. split; [exact S|]. intros valid.
  assert (VE : merge_valid v lo hi tot <-> valid).
  { unfold merge_valid, valid. split; [tauto|]. intros H. split; [|exact H]. destruct H as (n1 & n2 & L & _). pose proof (live_pos _ _ _ _ _ I L). lia. }
  rewrite VE in *. split; [exact F1|]. split; [exact F2|]. split; [exact F4|]. intros RS v'. pose proof (F3 RS) as V. split; [exact V|].
  destruct V as (n1 & n2 & L1 & L2 & -> & T). pose proof (live_pos _ _ _ _ _ I L1).
  unfold v', observe. rewrite RS. cbn [live]. unfold upd_live. rewrite !Z.eqb_refl. destruct (Z.eqb_spec (lo + n1) lo); [lia|].
  split; [reflexivity|]. split; [reflexivity|]. split.
  { intros q Q1 Q2. destruct (Z.eqb_spec q lo); [contradiction|]. destruct (Z.eqb_spec q (lo + n1)); [contradiction|reflexivity]. }
  exact (merge_sizes _ _ _ _ _ _ _ S).
Qed.
Print Assumptions coarse_merge_exact.

(* C07.  A free block of the requested size plus the alignment slack (the
   larger of page and alignment) is always found: the alloc callback is not
   called and, if the split callback agrees and memory for the bookkeeping is
   available, the call succeeds. *)
Theorem coarse_alloc_finds : forall e c v size alignment o b,
  reached e c v -> class_ok e = true -> alloc_env e (page_size c) v size alignment o ->
  alignment = 0 \/ pow2 alignment ->
  In b (all_blocks c) -> b_used b = false ->
  (size + Z.max (page_size c) alignment <= b_size b \/
   (* exact fit: not with the fastest strategy, and only if the free blocks are suitably aligned *)
   (strat c <> FASTEST /\ size <= b_size b /\
    forall f, In f (all_blocks c) -> b_used f = false -> b_data f mod Z.max (page_size c) alignment = 0)) ->
  exists r, step (debug e) c (CAlloc size alignment o) = Some r /\
    (forall s a x p, ~ In (EvAlloc s a x p) (r_ev r)) /\
    (o_split1 o = SUCCESS -> o_new1 o = true -> o_split2 o = SUCCESS -> o_new2 o = true -> r_res r = SUCCESS).
Proof.
  intros e c v size al o b R CO AE PA IB U H. pose proof (reached_inv _ _ _ R) as I.
  destruct (alloc_ok (debug e) e (reached_env _ _ _ R) c v size al o I AE) as (r & S & _ & _ & _ & F2 & _).
  exists r. split; [exact S|]. destruct AE as (_ & W & _ & _ & _ & _ & OB & _). destruct (OB CO) as (OB1 & _).
  pose proof (effective_value _ _ (i_page _ _ _ I) W PA) as EA.
  destruct (core_class_in _ _ _ (i_core _ _ _ I) IB (i_lost _ _ _ I CO _ IB U)) as (l & IC).
  destruct (F2 _ EA) as (A & B).
  { destruct H as [H|(NF & H & AL)].
    - left. exists (b_size b, l). split; [exact IC|exact H].
    - right. split; [exact NF|]. split; [|exists (b_size b, l); split; [exact IC|exact H]].
      intros f If Lf. apply AL; [exact If|]. exact (core_unused _ _ (i_core _ _ _ I) _ If Lf). }
  split; [|intros; apply B; assumption]. intros s a x p X.
  assert (Y : In (EvAlloc s a x p) (asks (r_ev r))) by (apply filter_In; split; [exact X|reflexivity]).
  rewrite A in Y. destruct Y.
Qed.
Print Assumptions coarse_alloc_finds.

(* C47.  Destroying the allocator: no assertion fails and, if there is a free
   callback, it is called on ranges that cover the given memory exactly, each
   byte once. *)
Theorem coarse_delete_returns_all : forall e c v, reached e c v ->
  exists rs, coarse_delete (debug e) c = Some (map (fun r => EvFree (fst r) (snd r)) rs) /\
    (has_free c = false -> rs = []) /\
    (has_free c = true ->
       (forall x, within_given v x <-> exists r, In r rs /\ inside x r) /\
       (forall a b, In a rs -> In b rs -> a <> b -> disjoint a b) /\ NoDup rs /\ total rs = total (given v)).
Proof.
  intros e c v R. pose proof (reached_inv _ _ _ R) as I. pose proof (core_chain _ _ (i_core _ _ _ I)) as CH.
  exists (if has_free c then map key (all_blocks c) else []).
  rewrite (delete_ok (debug e) e c v I). destruct (has_free c).
  - rewrite map_map. split; [reflexivity|]. split; [discriminate|]. intros _. split; [|split; [|split]].
    + intros x. rewrite <- (i_cover _ _ _ I). split.
      * intros (b & IB & X). exists (key b). split; [apply in_map; exact IB|exact X].
      * intros (r & IR & X). apply in_map_iff in IR. destruct IR as (b & <- & IB). exists b. split; [exact IB|exact X].
    + intros a b IA IB N x XA XB. apply in_map_iff in IA. apply in_map_iff in IB.
      destruct IA as (f & <- & IA), IB as (g & <- & IB). apply N. f_equal. exact (chain_disjoint _ _ _ _ x CH IA IB XA XB).
    + apply (NoDup_map_inv fst). rewrite map_map. exact (chain_nodup _ _ CH).
    + transitivity (alloc_size c); [|exact (i_given _ _ _ I)]. rewrite (i_alloc _ _ _ I). exact (keys_sum (all_blocks c)).
  - split; [reflexivity|]. split; [reflexivity|discriminate].
Qed.
Print Assumptions coarse_delete_returns_all.

(* ---- concrete histories ---- *)
(* [run] executes calls and keeps the client's books; None = assert failure or
   NULL dereference. *)
Fixpoint run (dbg : bool) (c : coarse) (v : view) (ks : list call) : option (coarse * view) :=
  match ks with
  | [] => Some (c, v)
  | k :: ks => match step dbg c k with
               | Some r => run dbg (r_st r) (observe v k r) ks
               | None => None
               end
  end.
Fixpoint legal (e : env) (c : coarse) (v : view) (ks : list call) : Prop :=
  match ks with
  | [] => True
  | k :: ks => call_env e (page_size c) v k /\
               exists r, step (debug e) c k = Some r /\ legal e (r_st r) (observe v k r) ks
  end.
Lemma legal_reached : forall e ks c v c' v', reached e c v -> legal e c v ks ->
  run (debug e) c v ks = Some (c', v') -> reached e c' v'.
Proof.
  intros e. induction ks as [|k ks IH]; intros c v c' v' R L E; cbn [run] in E; [injection E as <- <-; exact R|].
  destruct L as (LE & r & S & L). rewrite S in E.
  exact (IH _ _ _ _ (reached_step e c v k r R LE S) L E).
Qed.

Definition aok := AddOracle true true.
Definition bok := BackOracle SUCCESS SUCCESS aok.
Definition from_cb cb := AllocOracle SUCCESS true false aok SUCCESS true aok bok cb true.
Definition ook := from_cb (ERR_OUT_OF_HOST_MEMORY, 0).
Definition pg := 4096.
Definition P0 := 1048576.
Definition fresh_coarse ha s := coarse_new (2 ^ 12) s ha ha.

(* A history inside the hypotheses of every theorem above, in a debug build:
   alignment padding on both sides, a split, a merge, bad and coalescing frees,
   memory from the callback. *)
Definition history :=
  [CAddProvider (16 * pg) (from_cb (SUCCESS, P0)) bok; CAlloc pg 0 ook; CAlloc (2 * pg) (4 * pg) ook;
   CSplit (P0 + 4 * pg) (2 * pg) pg SUCCESS true; CMerge (P0 + 4 * pg) (P0 + 5 * pg) (2 * pg) SUCCESS;
   CFree (P0 + pg) 0 bok; CFree (P0 + 4 * pg) pg bok; CFree (P0 + 4 * pg) (2 * pg) bok;
   CAlloc (100 * pg) 0 (from_cb (SUCCESS, 8 * P0)); CFree P0 0 bok; CAlloc pg (2 * pg) ook].
Definition all_env := Env true true true.

Ltac env_step :=
  split; [unfold call_env, alloc_env, fresh_region, agrees, both, is_word, bok, ook, from_cb, aok, pg, P0;
          cbn [o_junk o_add1 o_add2 o_re o_back o_cb o_elem o_head o_prev o_next fst snd]
         |eexists; split; [vm_compute; reflexivity|]].
Ltac word := unfold U64; lia.
Example history_legal : legal all_env (fresh_coarse true FASTEST_BUT_ONE) no_view history.
Proof.
  assert (EA : forall a al, effective_alignment (page_size (fresh_coarse true FASTEST_BUT_ONE)) al = Some a -> al = 0 \/ al = 4096 -> a = 4096)
    by (intros a al H [->| ->]; vm_compute in H; congruence).
  unfold history. cbn [legal].
  assert (NOCB : forall v size al s p, 0 < size < U64 -> is_word al -> s <> SUCCESS ->
     alloc_env all_env 4096 v size al (from_cb (s, p))).
  { intros v size al s p H1 H2 H3. unfold alloc_env, both, agrees, is_word in *. cbn. split; [exact H1|]. split; [exact H2|].
    repeat (split; [tauto|]). intros q Q. injection Q as -> _. contradiction. }
  assert (CB : forall v size al p, 0 < size < U64 -> al = 0 \/ al = 4096 -> p mod 4096 = 0 -> fresh_region v p size ->
     alloc_env all_env 4096 v size al (from_cb (SUCCESS, p))).
  { intros v size al p H1 H2 H3 H4. unfold alloc_env, both, agrees, is_word in *. cbn. split; [exact H1|]. split; [destruct H2; subst; word|].
    repeat (split; [tauto|]). intros q Q. injection Q as <-. split; [exact H4|]. intros a A. rewrite (EA _ _ A H2). exact H3. }
  split. { split; [unfold is_word, pg; word|]. split; [|split; [split; reflexivity|intros; split; reflexivity]]. intros _.
    apply CB; [unfold pg; word|right; reflexivity|reflexivity|]. unfold fresh_region, P0, pg. split; [lia|]. split; [lia|]. split; [word|intros ? []]. }
  eexists; split; [vm_compute; reflexivity|].
  split; [apply NOCB; [unfold pg; word|unfold is_word; word|discriminate]|]. eexists; split; [vm_compute; reflexivity|].
  split; [apply NOCB; [unfold pg; word|unfold is_word, pg; word|discriminate]|]. eexists; split; [vm_compute; reflexivity|].
  split; [unfold call_env, is_word, P0, pg; word|]. eexists; split; [vm_compute; reflexivity|].
  split; [unfold call_env, is_word, P0, pg; word|]. eexists; split; [vm_compute; reflexivity|].
  do 3 (split; [unfold call_env, is_word, P0, pg, both, agrees; cbn; repeat split; word|]; eexists; split; [vm_compute; reflexivity|]).
  split. { apply CB; [unfold pg; word|left; reflexivity|reflexivity|]. unfold fresh_region, P0, pg. split; [lia|]. split; [lia|]. split; [word|].
    intros r [<-|[]] x A B. unfold inside in *. cbn in *. lia. }
  eexists; split; [vm_compute; reflexivity|].
  split; [unfold call_env, is_word, P0, pg, both, agrees; cbn; repeat split; word|]. eexists; split; [vm_compute; reflexivity|].
  split; [apply NOCB; [unfold pg; word|unfold is_word, pg; word|discriminate]|]. eexists; split; [vm_compute; reflexivity|exact Logic.I].
Qed.
Example history_reached : exists c v, reached all_env c v /\
  get_stats c = Stats (116 * pg) (101 * pg) 3 1 /\ live v P0 = Some pg /\ live v (8 * P0) = Some (100 * pg) /\
  live v (P0 + 4 * pg) = None /\ given v = [(P0, 16 * pg); (8 * P0, 100 * pg)] /\
  free_blocks c = [(15 * pg, [P0 + pg])].
Proof.
  destruct (run true (fresh_coarse true FASTEST_BUT_ONE) no_view history) as [(c, v)|] eqn:E; [|vm_compute in E; discriminate].
  exists c, v. split.
  { apply (legal_reached all_env history (fresh_coarse true FASTEST_BUT_ONE) no_view); [|exact history_legal|exact E].
    apply reached_new; [lia|reflexivity]. }
  vm_compute in E. injection E as <- <-. vm_compute. repeat split; reflexivity.
Qed.

(* ---- what fails outside those hypotheses ---- *)
(* C01, memory exhaustion.  If the bookkeeping allocation for a new size class
   fails while an allocation splits a free block, alloc reports out-of-memory
   but leaves the split-off part in the block list; later, well-formed calls
   receive overlapping memory (release build).  The callbacks agree throughout
   and only one internal allocation fails. *)
Definition oom_split := AllocOracle SUCCESS true false aok SUCCESS true (AddOracle false true) bok (ERR_OUT_OF_HOST_MEMORY, 0) true.
Definition oom_history :=
  [CAddFixed P0 (8 * pg) true bok; CAlloc (8 * pg) 0 ook; CSplit P0 (8 * pg) (4 * pg) SUCCESS true;
   CFree P0 (4 * pg) bok; CAlloc pg 0 oom_split; CAlloc (4 * pg) 0 ook; CFree (P0 + 4 * pg) 0 bok;
   CAlloc (7 * pg) 0 ook].
Theorem coarse_live_disjoint_oom_refuted :
  exists c v, run false (fresh_coarse false FASTEST_BUT_ONE) no_view oom_history = Some (c, v) /\
    live v P0 = Some (4 * pg) /\ live v (P0 + pg) = Some (7 * pg) /\ ~ disjoint (P0, 4 * pg) (P0 + pg, 7 * pg).
Proof.
  eexists. eexists. split; [vm_compute; reflexivity|]. split; [reflexivity|]. split; [reflexivity|].
  intros D. apply (D (P0 + pg)); unfold inside, P0, pg; cbn; lia.
Qed.
Print Assumptions coarse_live_disjoint_oom_refuted.

(* C05, uninitialised memory.  create_aligned_block leaves block_t.used
   indeterminate; if the following split is refused the block goes back to the
   free list, and freeing that pointer, which was never allocated, is accepted
   when the field happened to be non-zero. *)
Definition junk_fail := AllocOracle SUCCESS true true aok ERR_OUT_OF_RESOURCES true aok bok (ERR_OUT_OF_HOST_MEMORY, 0) true.
Definition junk_history := [CAddFixed (P0 + pg) (15 * pg) true bok; CAlloc pg (4 * pg) junk_fail].
Theorem coarse_bad_free_uninitialised_refuted :
  exists c v r, run false (fresh_coarse false FASTEST_BUT_ONE) no_view junk_history = Some (c, v) /\
    live v (P0 + 4 * pg) = None /\ (forall q, live v q = None) /\
    step false c (CFree (P0 + 4 * pg) 0 bok) = Some r /\ r_res r = SUCCESS /\
    s_used (get_stats (r_st r)) = U64 - 12 * pg.
Proof.
  eexists. eexists. eexists. split; [vm_compute; reflexivity|]. split; [reflexivity|]. split; [reflexivity|].
  split; [vm_compute; reflexivity|]. vm_compute. split; reflexivity.
Qed.
Print Assumptions coarse_bad_free_uninitialised_refuted.

(* C05, memory exhaustion.  A free that reports out-of-memory has nonetheless
   released the allocation, and its memory is not handed out again. *)
Theorem coarse_free_error_released_refuted :
  exists c v r r2 r3, run false (fresh_coarse false FASTEST_BUT_ONE) no_view
      [CAddFixed P0 (8 * pg) true bok; CAlloc (8 * pg) 0 ook] = Some (c, v) /\ live v P0 = Some (8 * pg) /\
    step false c (CFree P0 0 (BackOracle SUCCESS SUCCESS (AddOracle false true))) = Some r /\
    r_res r = ERR_OUT_OF_HOST_MEMORY /\ s_used (get_stats (r_st r)) = 0 /\
    step false (r_st r) (CFree P0 0 bok) = Some r2 /\ r_res r2 = ERR_INVALID_ARGUMENT /\
    step false (r_st r) (CAlloc pg 0 ook) = Some r3 /\ r_res r3 = ERR_OUT_OF_HOST_MEMORY.
Proof.
  do 5 eexists. split; [vm_compute; reflexivity|]. split; [reflexivity|]. split; [vm_compute; reflexivity|].
  split; [reflexivity|]. split; [reflexivity|]. split; [vm_compute; reflexivity|]. split; [reflexivity|].
  split; [vm_compute; reflexivity|reflexivity].
Qed.
Print Assumptions coarse_free_error_released_refuted.

(* C07, memory exhaustion.  When the list element for a new size class cannot
   be allocated, an empty class stays behind and the next allocation that meets
   it dereferences NULL, in a release build. *)
Theorem coarse_alloc_crash_refuted :
  run false (fresh_coarse false FASTEST_BUT_ONE) no_view
    [CAddFixed P0 (8 * pg) true bok; CAlloc (8 * pg) 0 ook;
     CFree P0 0 (BackOracle SUCCESS SUCCESS (AddOracle true false)); CAlloc pg 0 ook] = None.
Proof. vm_compute. reflexivity. Qed.
Print Assumptions coarse_alloc_crash_refuted.

(* C07, the fastest strategy.  A free block of exactly the requested size and
   alignment is not used: the call fails. *)
Theorem coarse_alloc_fastest_refuted :
  exists c v r, run true (fresh_coarse false FASTEST) no_view [CAddFixed P0 (8 * pg) true bok] = Some (c, v) /\
    all_blocks c = [Block P0 (8 * pg) false true] /\ P0 mod pg = 0 /\
    step true c (CAlloc (8 * pg) 0 ook) = Some r /\ r_res r = ERR_OUT_OF_HOST_MEMORY.
Proof. do 3 eexists. split; [vm_compute; reflexivity|]. split; [reflexivity|]. split; [reflexivity|]. split; [vm_compute; reflexivity|reflexivity]. Qed.
Print Assumptions coarse_alloc_fastest_refuted.

(* Size 0 is not rejected up front: a debug build asserts. *)
Theorem coarse_alloc_zero_asserts :
  run true (fresh_coarse false FASTEST_BUT_ONE) no_view [CAddFixed P0 (8 * pg) true bok; CAlloc 0 0 ook] = None.
Proof. vm_compute. reflexivity. Qed.
Print Assumptions coarse_alloc_zero_asserts.

(* C01, region contract.  Overlapping memory handed in twice is accepted
   by a release build (a debug build asserts). *)
Theorem coarse_overlapping_regions_refuted :
  exists c v, run false (fresh_coarse false FASTEST_BUT_ONE) no_view
    [CAddFixed P0 (4 * pg) true bok; CAddFixed (P0 + pg) (2 * pg) true bok; CAlloc (4 * pg) 0 ook; CAlloc (2 * pg) 0 ook] = Some (c, v) /\
    live v P0 = Some (4 * pg) /\ live v (P0 + pg) = Some (2 * pg).
Proof. do 2 eexists. split; [vm_compute; reflexivity|]. split; reflexivity. Qed.
Print Assumptions coarse_overlapping_regions_refuted.

(* coarse_add_memory_from_provider can report success without adding memory. *)
Theorem coarse_add_provider_no_memory :
  exists c v r, run true (fresh_coarse true FASTEST_BUT_ONE) no_view [CAddProvider (8 * pg) (from_cb (SUCCESS, P0)) bok] = Some (c, v) /\
    step true c (CAddProvider (8 * pg) (from_cb (SUCCESS, 8 * P0)) bok) = Some r /\ r_res r = SUCCESS /\
    r_ev r = [] /\ s_alloc (get_stats (r_st r)) = s_alloc (get_stats c).
Proof. do 3 eexists. split; [vm_compute; reflexivity|]. split; [vm_compute; reflexivity|]. repeat split; reflexivity. Qed.
Print Assumptions coarse_add_provider_no_memory.
