(* Coarse allocator: from the invariant to what a client sees. *)
From Verif Require Import Base Model_Utils Proof_Utils Model_Coarse Spec_Coarse Proof_Coarse Proof_CoarseInv Proof_CoarseAlloc Proof_CoarseOps.
From Coq Require Import Permutation.

Lemma chain_disjoint : forall l lo a b x, chain lo l -> In a l -> In b l -> b_data a <= x < bend a -> b_data b <= x < bend b -> a = b.
Proof.
  induction l as [|c l IH]; intros lo a b x C IA IB XA XB; [destruct IA|].
  cbn [chain] in C. destruct C as (C1 & C2 & C3 & C4).
  destruct IA as [->|IA], IB as [->|IB]; [reflexivity| | |eapply IH; eassumption];
  [pose proof (chain_right _ _ _ C4 IB)|pose proof (chain_right _ _ _ C4 IA)]; lia.
Qed.

Lemma live_block : forall e c v p n, Inv e c v -> live v p = Some n -> exists b, In b (all_blocks c) /\ b_used b = true /\ b_data b = p /\ b_size b = n.
Proof. intros e c v p n I L. apply (i_live _ _ _ I), in_used in L. exact L. Qed.

Lemma inv_disjoint : forall e c v, Inv e c v ->
  (forall p n, live v p = Some n -> 0 < n /\ forall x, inside x (p, n) -> within_given v x) /\
  (forall p n q m, live v p = Some n -> live v q = Some m -> p <> q -> disjoint (p, n) (q, m)).
Proof.
  intros e c v I. pose proof (core_chain _ _ (i_core _ _ _ I)) as CH. split.
  - intros p n L. split; [apply (live_pos _ _ _ _ _ I L)|]. intros x X. apply (i_cover _ _ _ I).
    destruct (live_block _ _ _ _ _ I L) as (b & IB & _ & <- & <-). exists b. split; [exact IB|exact X].
  - intros p n q m L1 L2 N x X Y.
    destruct (live_block _ _ _ _ _ I L1) as (b & IB & _ & <- & <-). destruct (live_block _ _ _ _ _ I L2) as (b' & IB' & _ & <- & <-).
    apply N. f_equal. exact (chain_disjoint _ _ _ _ x CH IB IB' X Y).
Qed.

Lemma effective_value : forall page al, pow2 page -> is_word al -> al = 0 \/ pow2 al -> effective_alignment page al = Some (Z.max page al).
Proof.
  intros page al P W H. pose proof (pow2_range _ P) as RP. destruct (effective_alignment page al) as [a|] eqn:E; [|destruct (effective_some page al P W H E)].
  destruct (effective_ok _ _ _ P W E) as (PA & MP & X). f_equal. unfold effective_alignment in E.
  destruct (Z.eqb_spec al 0) as [->|N]; [injection E as <-; lia|].
  destruct H as [H|PL]; [contradiction|]. pose proof (pow2_range _ PL) as RL.
  destruct (negb _ || _); [discriminate|]. rewrite is_not_aligned_spec, (align_test al page P) in E.
  destruct (pow2_compare al page PL P) as [M|(LT & M)].
  - rewrite M in E. cbn [Z.eqb negb] in E. injection E as <-. assert (page <= al); [|lia]. apply Z.mod_divide in M; [|lia]. apply Z.divide_pos_le; [lia|exact M].
  - rewrite Z.mod_small in E by lia. destruct (Z.eqb_spec al 0); [contradiction|]. cbn [negb] in E. injection E as E.
    rewrite align_up_safe_word in E by assumption.
    assert (HP : page <= U64 / 2).
    { destruct P as (n' & Hn & ->). change (U64 / 2) with (2 ^ 63). apply Z.pow_le_mono_r; lia. }
    change (U64 / 2) with 9223372036854775808 in HP. assert (HU : U64 = 18446744073709551616) by reflexivity.
    destruct (Z.leb_spec U64 (al + page - 1)) as [Q|Q]; [lia|].
    replace ((al + page - 1) mod page) with (al - 1) in E.
    2:{ replace (al + page - 1) with ((al - 1) + 1 * page) by lia. rewrite Z.mod_add by lia. rewrite Z.mod_small; lia. }
    lia.
Qed.

Lemma effective_none : forall page al, pow2 page -> is_word al -> al <> 0 -> ~ pow2 al -> effective_alignment page al = None.
Proof.
  intros page al P W N NP. destruct (effective_alignment page al) as [a|] eqn:E; [|reflexivity].
  destruct (effective_ok _ _ _ P W E) as (_ & _ & X). destruct (X N). contradiction.
Qed.

(* ---- accounting ---- *)
Lemma total_ksum : forall L, total L = ksum L.
Proof. induction L as [|x L IH]; [reflexivity|]. cbn. unfold total in *. rewrite IH. reflexivity. Qed.

Lemma chain_nodup : forall l lo, chain lo l -> NoDup (map b_data l).
Proof.
  induction l as [|b l IH]; intros lo C; [constructor|]. cbn [chain] in C. destruct C as (C1 & C2 & C3 & C4). cbn. constructor.
  - intros X. apply in_map_iff in X. destruct X as (y & E & Y). pose proof (chain_right _ _ _ C4 Y). unfold bend in *. lia.
  - exact (IH _ C4).
Qed.

Lemma filter_nodup : forall (f : block -> bool) l, NoDup (map b_data l) -> NoDup (map b_data (filter f l)).
Proof.
  intros f l. induction l as [|b l IH]; intros N; [constructor|]. cbn in N. inversion N as [|? ? N1 N2]; subst. cbn [filter].
  destruct (f b); [|apply IH; exact N2]. cbn. constructor; [|apply IH; exact N2].
  intros X. apply N1. apply in_map_iff in X. destruct X as (y & E & Y). apply filter_In in Y. apply in_map_iff. exists y. tauto.
Qed.

Lemma used_lists : forall e c v, Inv e c v -> lists_live v (used_keys (all_blocks c)).
Proof.
  intros e c v I. split.
  - unfold used_keys. rewrite map_map. change (map (fun x => fst (key x)) (filter b_used (all_blocks c))) with (map b_data (filter b_used (all_blocks c))).
    apply filter_nodup, (chain_nodup _ 1), (core_chain _ _ (i_core _ _ _ I)).
  - intros p n. symmetry. apply (i_live _ _ _ I).
Qed.

Lemma lists_total : forall v v' L L', (forall p, live v p = live v' p) -> lists_live v L -> lists_live v' L' -> Permutation L L'.
Proof.
  intros v v' L L' E (N & M) (N' & M'). apply NoDup_Permutation; [exact (NoDup_map_inv _ _ N)|exact (NoDup_map_inv _ _ N')|].
  intros [p n]. rewrite M, M', E. reflexivity.
Qed.

Lemma total_perm : forall L L', Permutation L L' -> total L = total L'.
Proof. intros L L' P. induction P; unfold total in *; cbn; lia. Qed.

Lemma filter_split : forall (f : block -> bool) l, Z.of_nat (length l) = Z.of_nat (length (filter f l)) + Z.of_nat (length (filter (fun b => negb (f b)) l)).
Proof. intros f l. induction l as [|b l IH]; [reflexivity|]. cbn [filter]. destruct (f b); cbn [negb length]; lia. Qed.

Lemma filter_le : forall (f g : block -> bool) l, (forall b, In b l -> f b = true -> g b = true) -> (length (filter f l) <= length (filter g l))%nat.
Proof.
  intros f g l. induction l as [|b l IH]; intros H; [reflexivity|]. cbn [filter].
  specialize (IH (fun x I => H x (or_intror I))). specialize (H b (or_introl eq_refl)).
  destruct (f b); [rewrite H by reflexivity; cbn; lia|]. destruct (g b); cbn; lia.
Qed.

Lemma inv_counts : forall e c v, Inv e c v ->
  Z.of_nat (length (all_blocks c)) = Z.of_nat (length (used_keys (all_blocks c))) + Z.of_nat (length (filter (fun b => negb (b_used b)) (all_blocks c))) /\
  count_free (free_blocks c) <= Z.of_nat (length (filter (fun b => negb (b_used b)) (all_blocks c))) /\
  (class_ok e = true -> count_free (free_blocks c) = Z.of_nat (length (filter (fun b => negb (b_used b)) (all_blocks c)))).
Proof.
  intros e c v I. pose proof (i_core _ _ _ I) as C. unfold used_keys. rewrite map_length.
  split; [apply filter_split|]. rewrite count_members, (Permutation_length (core_perm _ _ C)). unfold listed_keys. rewrite map_length.
  assert (H : forall b, In b (all_blocks c) -> b_listed b = true -> negb (b_used b) = true).
  { intros b Ib L. rewrite (core_unused _ _ C _ Ib L). reflexivity. }
  split; [pose proof (filter_le _ _ _ H); lia|]. intros CO. f_equal. f_equal.
  apply filter_ext_in. intros b Ib. destruct (b_listed b) eqn:L; [symmetry; apply H; assumption|].
  destruct (b_used b) eqn:U; [reflexivity|]. rewrite (i_lost _ _ _ I CO _ Ib U) in L. discriminate.
Qed.

(* ---- one region, everything freed ---- *)
Lemma one_block : forall l lo p n, chain lo l -> noadj l -> (forall b, In b l -> b_used b = false) -> 0 < n ->
  (forall x, covered l x <-> p <= x < p + n) -> exists b, l = [b] /\ b_data b = p /\ b_size b = n.
Proof.
  intros l lo p n C N U P CV. destruct l as [|a l]; [destruct (proj2 (CV p) ltac:(lia)) as (b & [] & _)|].
  cbn [chain] in C. destruct C as (C1 & C2 & C3 & C4).
  assert (DA : b_data a = p).
  { destruct (proj1 (CV (b_data a)) ltac:(exists a; split; [left; reflexivity|unfold bend; lia])) as (X1 & X2).
    destruct (Z.eq_dec (b_data a) p) as [|NE]; [assumption|exfalso]. destruct (proj2 (CV p) ltac:(lia)) as (b & [<-|IB] & Y); [lia|].
    pose proof (chain_right _ _ _ C4 IB). unfold bend in *. lia. }
  destruct l as [|b l].
  - exists a. split; [reflexivity|]. split; [exact DA|].
    assert (L1 : bend a <= p + n). { destruct (proj1 (CV (bend a - 1)) ltac:(exists a; split; [left; reflexivity|unfold bend; lia])). unfold bend in *; lia. }
    assert (L2 : p + n - 1 < bend a). { destruct (proj2 (CV (p + n - 1)) ltac:(lia)) as (b & [<-|[]] & Y). lia. }
    unfold bend in *. lia.
  - exfalso. cbn [chain] in C4. destruct C4 as (D1 & D2 & D3 & D4). destruct N as (NA & _). apply NA.
    repeat split; [apply U; left; reflexivity|apply U; right; left; reflexivity|].
    destruct (Z.eq_dec (bend a) (b_data b)) as [|NE]; [assumption|exfalso].
    assert (IB : In b (a :: b :: l)) by (right; left; reflexivity).
    pose proof (proj1 (CV (b_data b)) ltac:(exists b; split; [exact IB|unfold bend; lia])) as (X1 & X2).
    destruct (proj2 (CV (bend a)) ltac:(unfold bend in *; lia)) as (d & [<-|[<-|ID]] & Y); [lia|lia|].
    pose proof (chain_right _ _ _ D4 ID). unfold bend in *. lia.
Qed.

Lemma single_region : forall e c v p n, Inv e c v -> merges e = true -> class_ok e = true -> 0 < n ->
  (forall q, live v q = None) -> given v = [(p, n)] ->
  all_blocks c = [Block p n false true] /\ free_blocks c = [(n, [p])] /\ used_size c = 0 /\ alloc_size c = n.
Proof.
  intros e c v p n I M CO P LV G.
  assert (NU : forall b, In b (all_blocks c) -> b_used b = false).
  { intros b IB. destruct (b_used b) eqn:U; [|reflexivity].
    assert (X : live v (b_data b) = Some (b_size b)) by (apply (i_live _ _ _ I), in_used; exists b; repeat split; assumption).
    rewrite LV in X. discriminate. }
  destruct (one_block (all_blocks c) 1 p n) as (b & E & D & S).
  { exact (core_chain _ _ (i_core _ _ _ I)). } { exact (i_adj _ _ _ I M). } { exact NU. } { exact P. }
  { intros x. rewrite (i_cover _ _ _ I). unfold within_given, inside. rewrite G. split.
    - intros (r & [<-|[]] & X). exact X.
    - intros X. exists (p, n). split; [left; reflexivity|exact X]. }
  assert (U : b_used b = false) by (apply NU; rewrite E; left; reflexivity).
  assert (L : b_listed b = true) by (apply (i_lost _ _ _ I CO); [rewrite E; left; reflexivity|exact U]).
  assert (EB : b = Block p n false true) by (destruct b; cbn in *; subst; reflexivity). subst b.
  split; [exact E|]. pose proof (i_core _ _ _ I) as C. rewrite E in C.
  split.
  - pose proof (core_perm _ _ C) as PM. unfold listed_keys in PM. cbn in PM. pose proof (core_asc _ _ C) as A.
    apply Permutation_sym, Permutation_length_1_inv in PM. unfold key in PM. cbn in PM.
    destruct (free_blocks c) as [|[k l] fr]; [discriminate PM|]. cbn [asc snd fst] in A. destruct A as (A1 & A2 & A3).
    cbn in PM. destruct l as [|a l]; [contradiction|]. cbn in PM. injection PM as <- <- PM.
    apply app_eq_nil in PM. destruct PM as (PM1 & PM2). destruct l; [|discriminate]. f_equal.
    destruct fr as [|[k' l'] fr]; [reflexivity|]. cbn [asc snd fst] in A3. destruct A3 as (_ & A4 & _). destruct l'; [contradiction|discriminate].
  - split; [rewrite (i_used _ _ _ I), E; reflexivity|]. rewrite (i_alloc _ _ _ I), E. cbn. lia.
Qed.

(* ---- destruction ---- *)
Lemma delete_loop_ok : forall dbg l l0 c, all_blocks c = l0 ++ l -> Core (all_blocks c) (free_blocks c) ->
  used_size c = ksum (used_keys l) -> alloc_size c = sum_sizes l ->
  exists c', delete_loop dbg l c = Some (c', if has_free c then map (fun b => EvFree (b_data b) (b_size b)) l else []) /\
    used_size c' = 0 /\ alloc_size c' = 0.
Proof.
  intros dbg l. induction l as [|b l IH]; intros l0 c E C US AS.
  - exists c. cbn in *. split; [destruct (has_free c); reflexivity|]. split; assumption.
  - cbn [delete_loop]. pose proof (core_chain _ _ C) as CH.
    assert (IB : In b (all_blocks c)) by (rewrite E; apply in_or_app; right; left; reflexivity).
    pose proof (chain_mem_pos _ _ _ CH IB) as SB.
    assert (CL : chain 1 (b :: l)).
    { rewrite E in CH. apply chain_app in CH. destruct CH as (F1 & CH). eapply chain_weaken; [|exact CH]. apply fin_ge. exact F1. }
    pose proof (chain_total _ CL) as T. rewrite sum_cons in T, AS.
    assert (CL2 : chain 1 l). { cbn [chain] in CL. destruct CL as (X1 & X2 & X3 & X4). eapply chain_weaken; [|exact X4]. unfold bend; lia. }
    pose proof (chain_total _ CL2) as T2.
    assert (UL : 0 <= ksum (used_keys l) <= sum_sizes l).
    { rewrite <- used_ksum. apply filter_sum. intros x; apply (chain_mem_pos _ 1 x CL2). }
    set (c1 := if b_used b then set_used c (wrap (used_size c - b_size b)) else c).
    assert (U1 : used_size c1 = ksum (used_keys l) /\ b_used b && assert_fails dbg (b_size b <=? used_size c) = false).
    { unfold c1, assert_fails. destruct (b_used b) eqn:U.
      - rewrite used_cons_true in US by exact U. cbn [ksum key snd] in US. cbn [used_size set_used]. rewrite wrap_id by (unfold is_word; lia).
        split; [lia|]. destruct (Z.leb_spec (b_size b) (used_size c)); [|lia]. cbn [negb]. apply andb_false_r.
      - rewrite used_cons_false in US by exact U. split; [exact US|reflexivity]. }
    destruct U1 as (U1 & ->).
    assert (E1 : all_blocks c1 = l0 ++ b :: l) by (unfold c1; destruct (b_used b); exact E).
    assert (C1 : Core (all_blocks c1) (free_blocks c1)) by (unfold c1; destruct (b_used b); exact C).
    destruct (unlist_ok c1 l0 b l C1 E1) as (fr & -> & C2).
    assert (A1 : alloc_size c1 = b_size b + sum_sizes l) by (unfold c1; destruct (b_used b); exact AS).
    assert (H1 : has_free c1 = has_free c) by (unfold c1; destruct (b_used b); reflexivity).
    unfold assert_fails. cbn [alloc_size put]. rewrite A1. destruct (Z.leb_spec (b_size b) (b_size b + sum_sizes l)) as [_|X]; [|lia].
    cbn [negb]. rewrite andb_false_r. rewrite wrap_id by (unfold is_word; lia).
    destruct (IH (l0 ++ [with_listed false b]) (set_alloc (put c1 (l0 ++ with_listed false b :: l) fr) (b_size b + sum_sizes l - b_size b))) as (c' & -> & D1 & D2).
    { cbn. rewrite <- app_assoc. reflexivity. } { exact C2. } { exact U1. } { cbn. lia. }
    exists c'. cbn [has_free set_alloc put]. rewrite H1. split; [|split; assumption]. destruct (has_free c); reflexivity.
Qed.

Lemma delete_ok : forall dbg e c v, Inv e c v ->
  coarse_delete dbg c = Some (if has_free c then map (fun b => EvFree (b_data b) (b_size b)) (all_blocks c) else []).
Proof.
  intros dbg e c v I. unfold coarse_delete.
  destruct (delete_loop_ok dbg (all_blocks c) [] c eq_refl (i_core _ _ _ I) (i_used _ _ _ I) (i_alloc _ _ _ I)) as (c' & -> & -> & ->).
  unfold assert_fails. cbn. rewrite !andb_false_r. reflexivity.
Qed.

Lemma noadj_any : forall l a b, chain 1 l -> noadj l -> In a l -> In b l -> b_used a = false -> b_used b = false -> b_data a + b_size a <> b_data b.
Proof.
  intros l a b C N IA IB UA UB E. apply in_split in IA. destruct IA as (l1 & l2 & ->).
  pose proof (chain_mid _ _ _ _ C) as (M1 & M2).
  assert (SA : 0 < b_size a) by (eapply chain_mem_pos; [exact C|]; apply in_or_app; right; left; reflexivity).
  assert (I2 : In b l2).
  { apply in_app_or in IB. destruct IB as [X|[X|X]]; [apply M1 in X; lia|subst; lia|exact X]. }
  destruct (next_hit _ _ _ _ C I2 ltac:(unfold bend; lia)) as (l3 & ->).
  apply noadj_app in N. destruct N as (_ & (N & _) & _). apply N. repeat split; assumption.
Qed.

Lemma keys_sum : forall l, ksum (map key l) = sum_sizes l.
Proof. induction l as [|b l IH]; [reflexivity|]. rewrite sum_cons. cbn. rewrite IH. reflexivity. Qed.

Lemma core_class_in : forall al fr b, Core al fr -> In b al -> b_listed b = true -> exists l, In (b_size b, l) fr.
Proof.
  intros al fr b C IB L. apply in_split in IB. destruct IB as (l1 & l2 & ->).
  destruct (core_class _ _ _ _ C L) as (f1 & l & f2 & -> & _). exists l. apply in_or_app; right; left; reflexivity.
Qed.

(* split and merge never touch the totals *)
Lemma finish_some : forall dbg r r', finish dbg r = Some r' -> r' = r.
Proof. intros dbg r r' H. unfold finish in H. destruct (check dbg (r_st r)); [discriminate|]. injection H as <-. reflexivity. Qed.

Lemma split_sizes : forall dbg c p total first s ok r, step dbg c (CSplit p total first s ok) = Some r ->
  s_used (get_stats (r_st r)) = s_used (get_stats c) /\ s_alloc (get_stats (r_st r)) = s_alloc (get_stats c).
Proof.
  intros dbg c p total first s ok r H. cbn [step] in H. unfold coarse_split in H. cbn [get_stats s_used s_alloc].
  destruct ((p =? 0) || (first >=? total) || (first =? 0) || (total =? 0)); [injection H as <-; split; reflexivity|].
  destruct (check dbg c); [discriminate|].
  destruct (find_block (all_blocks c) p) as [b|]; [|apply finish_some in H; subst; split; reflexivity].
  destruct (negb (b_size b =? total)); [apply finish_some in H; subst; split; reflexivity|].
  destruct (negb (b_used b)); [apply finish_some in H; subst; split; reflexivity|].
  destruct s; try (apply finish_some in H; subst; split; reflexivity).
  destruct (coarse_ravl_add_new dbg (all_blocks c) (wrap (p + first)) (wrap (b_size b - first)) ok true) as [[l|]|]; [| |discriminate];
  apply finish_some in H; subst; split; reflexivity.
Qed.

Lemma unlist_sizes : forall c p c', unlist c p = Some c' -> used_size c' = used_size c /\ alloc_size c' = alloc_size c.
Proof.
  intros c p c' H. unfold unlist in H. destruct (find_block (all_blocks c) p) as [b|]; [|discriminate].
  destruct (b_listed b); [|injection H as <-; split; reflexivity]. unfold free_blocks_rm_node in H.
  destruct (find_block (all_blocks c) p) as [b'|]; [|discriminate]. destruct (class_find (free_blocks c) (b_size b')) as [[|a l]|]; try discriminate.
  injection H as <-. split; reflexivity.
Qed.

Lemma merge_sizes : forall dbg c lo hi total m r, step dbg c (CMerge lo hi total m) = Some r ->
  s_used (get_stats (r_st r)) = s_used (get_stats c) /\ s_alloc (get_stats (r_st r)) = s_alloc (get_stats c).
Proof.
  intros dbg c lo hi total m r H. cbn [step] in H. unfold coarse_merge in H. cbn [get_stats s_used s_alloc].
  destruct ((lo =? 0) || (hi =? 0) || (total =? 0) || (hi <=? lo) || (wrap (hi - lo) >=? total)); [injection H as <-; split; reflexivity|].
  destruct (check dbg c); [discriminate|].
  destruct (find_block (all_blocks c) lo) as [b|] eqn:F1; [|apply finish_some in H; subst; split; reflexivity].
  destruct (negb (b_used b)); [apply finish_some in H; subst; split; reflexivity|].
  destruct (find_block (all_blocks c) hi) as [h|] eqn:F2; [|apply finish_some in H; subst; split; reflexivity].
  destruct (negb (b_used h)); [apply finish_some in H; subst; split; reflexivity|].
  destruct (negb _ || negb _); [apply finish_some in H; subst; split; reflexivity|].
  destruct (negb (wrap (b_size b + b_size h) =? total)); [apply finish_some in H; subst; split; reflexivity|].
  unfold user_block_merge in H. rewrite F1, F2 in H. destruct (assert_fails dbg (lo <? hi)); [discriminate|].
  destruct (negb _); [apply finish_some in H; subst; split; reflexivity|].
  destruct m; try (apply finish_some in H; subst; split; reflexivity).
  destruct (unlist c lo) as [c1|] eqn:U1; [|discriminate]. destruct (unlist c1 hi) as [c2|] eqn:U2; [|discriminate].
  apply finish_some in H. subst r. cbn [r_st used_size alloc_size set_all].
  apply unlist_sizes in U1. apply unlist_sizes in U2. destruct U1, U2. split; congruence.
Qed.
