(* How much memory the linear allocator holds: regions emptied while active. *)
From Verif Require Import Base Model_Utils Spec_Utils Model_BaseAlloc Spec_BaseAlloc Proof_BaseAlloc Proof_BaseAllocStep Proof_BaseAllocLinear.

Lemma lcounted_lreached : forall dbg c size l v n, lcounted dbg c size l v n -> lreached dbg c size l v.
Proof. intros dbg c size l v n H. induction H as [os ev l E OK|l v n k ptr ev l' H IH EN ST OK]; [exact (lreached_new dbg c size os ev l E OK)|exact (lreached_step dbg c size l v k ptr ev l' IH EN ST OK)]. Qed.
Lemma lreached_lcounted : forall dbg c size l v, lreached dbg c size l v -> exists n, lcounted dbg c size l v n.
Proof. intros dbg c size l v R. induction R as [os ev l E OK|l v k ptr ev l' R (n & IH) EN ST OK]; [exists 0%nat; exact (lcounted_new dbg c size os ev l E OK)|eexists; exact (lcounted_step dbg c size l v n k ptr ev l' IH EN ST OK)]. Qed.

(* pools behind the active one without allocations *)
Definition is_idle (n : next_pool) : bool := n_allocs n =? 0.
Definition idle (l : linear) : nat := length (filter is_idle (tl (l_next l))).

(* ---- regions with live allocations are no more than live allocations ---- *)
Definition tally (f : Z -> area -> bool) (live : list (Z * Z)) (a : area) : nat := length (filter (fun x => f (fst x) a) live).
Lemma busy_le : forall (f : Z -> area -> bool) A live, NoDup A -> (forall x a b, In x live -> In a A -> In b A -> f (fst x) a = true -> f (fst x) b = true -> a = b) ->
  (length (filter (fun a => negb (tally f live a =? 0)%nat) A) <= length live)%nat.
Proof.
  intros f A live ND U. assert (H : (fold_right (fun a s => tally f live a + s) 0 A <= length live)%nat).
  { induction live as [|x live IH]; [cbn; clear; induction A as [|a A IH]; cbn; auto|].
    assert (E : (fold_right (fun a s => tally f (x :: live) a + s) 0 A = length (filter (f (fst x)) A) + fold_right (fun a s => tally f live a + s) 0 A)%nat).
    { clear. induction A as [|a A IH]; [reflexivity|]. cbn [fold_right filter]. rewrite IH. unfold tally at 1. cbn [filter]. destruct (f (fst x) a); cbn [length]; fold (tally f live a); lia. }
    rewrite E. specialize (IH (fun y a b Y => U y a b (or_intror Y))). cbn [length].
    assert (L : (length (filter (f (fst x)) A) <= 1)%nat); [|lia].
    assert (NF : NoDup (filter (f (fst x)) A)) by (apply NoDup_filter; exact ND). destruct (filter (f (fst x)) A) as [|a [|b r]] eqn:F; cbn [length]; try lia. exfalso.
    assert (IA : In a (filter (f (fst x)) A)) by (rewrite F; left; reflexivity). assert (IB : In b (filter (f (fst x)) A)) by (rewrite F; right; left; reflexivity). apply filter_In in IA, IB.
    assert (a = b) as -> by (apply (U x); [left; reflexivity|tauto|tauto|tauto|tauto]). inversion NF as [|? ? N1 N2]; subst. apply N1. left. reflexivity. }
  refine (Nat.le_trans _ _ _ _ H). clear. induction A as [|a A IH]; [cbn; lia|]. cbn [filter fold_right]. destruct (Nat.eqb_spec (tally f live a) 0); cbn [negb length]; lia.
Qed.

Lemma idle_busy : forall ns, length ns = (length (filter is_idle ns) + length (filter (fun n => negb (is_idle n)) ns))%nat.
Proof. induction ns as [|n ns IH]; [reflexivity|]. cbn [filter]. destruct (is_idle n); cbn [negb length]; lia. Qed.

Lemma busy_pools : forall page A1 A2 ns data left mem live, linv page (A1 ++ map next_area ns ++ A2) data left mem live -> 4096 <= page ->
  (length (filter (fun n => negb (is_idle n)) ns) <= length live)%nat.
Proof.
  intros page A1 A2 ns data left mem live I PG. set (A := A1 ++ map next_area ns ++ A2) in *. assert (SUB : forall n, In n ns -> In (next_area n) A) by (intros n N; unfold A; rewrite !in_app_iff; right; left; apply in_map; exact N).
  assert (ND : NoDup (map next_area ns)).
  { apply (NoDup_map_inv a_base). pose proof (i_nodup _ _ _ _ _ _ I) as N. unfold A in N. rewrite !map_app in N. clear - N. induction (map a_base A1) as [|x r IH]; cbn [app] in N; [|inversion N; auto]. revert N. generalize (map a_base (map next_area ns)). induction l as [|x l IH]; intros N; [constructor|]. cbn [app] in N. inversion N as [|? ? N1 N2]; subst. constructor; [intros X; apply N1; apply in_or_app; left; exact X|auto]. }
  refine (Nat.le_trans _ _ _ _ (busy_le here (map next_area ns) live ND _)).
  - clear ND. revert SUB. generalize ns at 1 2 3. intros ms SUB. induction ms as [|n ms IH]; [cbn; lia|]. cbn [map filter]. specialize (IH (fun m M => SUB m (or_intror M))).
    destruct (i_area _ _ _ _ _ _ I _ (SUB n (or_introl eq_refl))) as (_ & _ & _ & _ & _ & _ & _ & C). cbn [next_area a_count] in C. fold (next_area n) in C. unfold is_idle. rewrite C. fold (tally here live (next_area n)).
    destruct (Nat.eqb_spec (tally here live (next_area n)) 0) as [Z0|Z0]; destruct (Z.eqb_spec (Z.of_nat (tally here live (next_area n))) 0) as [Z1|Z1]; cbn [negb length]; try lia; [exact IH|apply le_n_S; exact IH].
  - intros x a b X IA IB HA HB. apply in_map_iff in IA. destruct IA as (m & <- & IM). apply in_map_iff in IB. destruct IB as (k & <- & IK). apply (here_unique _ _ _ _ _ _ I PG (fst x)); auto.
Qed.

(* ---- how the number of idle pools changes ---- *)
Lemma idle_take : forall dbg l a ev ptr ev' l', linear_take dbg l a ev = Some (ptr, ev', l') -> tl (l_next l') = tl (l_next l).
Proof. intros dbg l a ev ptr ev' l' H. unfold linear_take in H. destruct (dbg && _); [discriminate|]. destruct (dbg && _); [discriminate|]. injection H as _ _ <-. destruct (l_next l); reflexivity. Qed.
Lemma idle_alloc : forall dbg c l size os ptr ev l', umf_ba_linear_alloc dbg c l size os = Some (ptr, ev, l') ->
  tl (l_next l') = tl (l_next l) \/ (tl (l_next l') = l_next l /\ exists p n, ev = [OsAlloc p n]).
Proof.
  intros dbg c l size os ptr ev l' H. unfold umf_ba_linear_alloc in H. cbv zeta in H.
  destruct (size =? 0); [injection H as _ _ <-; left; reflexivity|]. destruct (ALIGN_UP_SAFE size MEMORY_ALIGNMENT =? 0); [injection H as _ _ <-; left; reflexivity|].
  destruct (l_left l <? ALIGN_UP_SAFE size MEMORY_ALIGNMENT); [|left; exact (idle_take _ _ _ _ _ _ _ H)].
  match type of H with (if ?n =? 0 then _ else _) = _ => set (m := n) in H end. destruct (m =? 0); [injection H as _ _ <-; left; reflexivity|].
  destruct (dbg && _); [discriminate|]. destruct os as [p|]; [|injection H as _ _ <-; left; reflexivity].
  destruct (utils_align_ptr_up_size_down _ _ _) as (d, lf). right. split; [exact (idle_take _ _ _ _ _ _ _ H)|].
  unfold linear_take in H. destruct (dbg && _); [discriminate|]. destruct (dbg && _); [discriminate|]. injection H as _ <- _. eauto.
Qed.
Lemma idle_free : forall dbg c l p ptr ev l', umf_ba_linear_free dbg c l p = Some (ptr, ev, l') -> (idle l' <= idle l)%nat.
Proof.
  intros dbg c l p ptr ev l' H. unfold umf_ba_linear_free in H. destruct (dbg && _); [discriminate|]. cbv zeta in H.
  destruct (pool_contains_ptr (l_base l) _ _ _).
  { destruct (_ && _ && _); injection H as _ _ <-; unfold idle; cbn [l_next]; lia. }
  unfold idle. destruct (l_next l) as [|n r] eqn:EN; [injection H as _ _ <-; rewrite EN; cbn; lia|].
  destruct (pool_contains_ptr (n_base n) _ _ _); [injection H as _ _ <-; cbn [l_next tl]; lia|].
  destruct (free_in_next r p) as [(ev2, r')|] eqn:F; [|injection H as _ _ <-; rewrite EN; cbn [tl]; lia].
  destruct (dbg && _); [discriminate|]. injection H as _ _ <-. cbn [l_next tl].
  destruct (free_next_some r p ev2 r' F) as (a & k & b & -> & _ & [(_ & _ & ->)|(W & _ & ->)]); rewrite !filter_app, !app_length; cbn [filter]; [destruct (is_idle k); cbn [length]; lia|].
  unfold is_idle at 2. cbn [n_allocs]. rewrite (proj2 (Z.eqb_neq _ _) W). destruct (is_idle k); cbn [length]; lia.
Qed.

(* the newest region, when its pool is idle, holds nothing *)
Lemma idle_empty : forall c l v n r p m, machine c -> lok c l v -> l_next l = n :: r -> is_idle n = true -> gives_up v [OsAlloc p m] = true.
Proof.
  intros c l v n r p m M (I & _) EN ID. pose proof (page_8 c M) as PG. unfold gives_up. rewrite (i_mem _ _ _ _ _ _ I). unfold areas. rewrite EN. cbn [map app].
  assert (TAIL : exists y ys, map span (map next_area r ++ [main_area c l]) = y :: ys) by (destruct r; cbn; eauto). destruct TAIL as (y & ys & ->).
  apply forallb_forall. intros (x, s) X. cbn [fst]. apply negb_true_iff. apply not_true_is_false. intros HIN.
  assert (IA : In (next_area n) (areas c l)) by (unfold areas; rewrite EN; left; reflexivity).
  destruct (live_here _ _ _ _ _ _ I x s X) as (a & IB & HA & _).
  assert (E : a = next_area n).
  { apply (area_eq _ _ _ _ _ _ I a (next_area n) IB IA). destruct (Z.eq_dec (a_base a) (a_base (next_area n))) as [E|D]; [exact E|]. exfalso.
    pose proof (i_apart _ _ _ _ _ _ I a _ IB IA D) as AP. pose proof (i_area _ _ _ _ _ _ I a IB) as (_ & _ & _ & _ & O & _). unfold in_mem, span in HIN. cbn [fst snd] in HIN. unfold apart, here in *. lia. }
  rewrite E in HA. pose proof (count_pos _ _ _ _ _ _ I _ x s IA X HA) as C. unfold is_idle in ID. cbn [next_area a_count] in C. lia.
Qed.

Lemma idle_counted : forall dbg c size l v n, machine c -> lfits c size -> lcounted dbg c size l v n -> (idle l <= n)%nat.
Proof.
  intros dbg c size l v n M F H. induction H as [os ev l E OK|l v n k ptr ev l' H IH EN ST OK].
  - unfold umf_ba_linear_create in E. cbv zeta in E. destruct (_ =? 0); [discriminate|]. destruct os as [p|]; [|discriminate]. destruct (utils_align_ptr_up_size_down _ _ _). cbn [negb] in E. injection E as _ <-. cbn. lia.
  - pose proof (lreached_inv dbg c size l v M F (lcounted_lreached _ _ _ _ _ _ H)) as K.
    destruct k as [sz os|p]; cbn [lstep] in ST.
    + destruct (idle_alloc _ _ _ _ _ _ _ _ ST) as [T|(T & p & m & ->)]; [unfold idle in *; rewrite T; destruct (gives_up v ev); lia|].
      unfold idle in *. rewrite T. destruct (l_next l) as [|a r] eqn:EL; [cbn; lia|]. cbn [tl filter] in *. destruct (is_idle a) eqn:ID; [|destruct (gives_up v _); lia].
      rewrite (idle_empty c l v a r p m M K EL ID). cbn [length]. lia.
    + pose proof (idle_free _ _ _ _ _ _ _ ST). destruct (gives_up v ev); lia.
Qed.

Lemma waste_bound : forall dbg c size l v n, machine c -> lfits c size -> lcounted dbg c size l v n -> (length (lv_mem v) <= 2 + length (lv_live v) + n)%nat.
Proof.
  intros dbg c size l v n M F H. pose proof (idle_counted dbg c size l v n M F H) as IC. destruct (lreached_inv dbg c size l v M F (lcounted_lreached _ _ _ _ _ _ H)) as (I & _). pose proof (page_8 c M) as PG.
  pose proof I as I2. rewrite (i_mem _ _ _ _ _ _ I), map_length. unfold areas in *. unfold idle in IC. destruct (l_next l) as [|a r]; [cbn; lia|]. cbn [map] in I2. cbn [tl] in IC.
  pose proof (busy_pools _ [next_area a] [main_area c l] r _ _ _ _ I2 (proj1 PG)) as B. pose proof (idle_busy r) as IB.
  rewrite app_length. cbn [map length]. rewrite map_length. lia.
Qed.
