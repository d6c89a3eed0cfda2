(* Proofs about the malloc replacement. *)
From Verif Require Import Base Model_Utils Spec_Utils Proof_Utils Model_BaseAlloc Spec_BaseAlloc Proof_BaseAllocLinear Model_Proxy Spec_Proxy.

(* ---- lists of blocks ---- *)
Definition lpw := ForallOrdPairs.
Definition rel (b b' : owner * (Z * Z)) : Prop := fst b = fst b' -> apart (fst (snd b)) (extent (snd (snd b))) (fst (snd b')) (extent (snd (snd b'))).
Lemma extent_pos : forall n, 1 <= extent n. Proof. intros. unfold extent. lia. Qed.
Lemma apart_sym : forall p n q m, apart p n q m -> apart q m p n. Proof. unfold apart. intros. lia. Qed.
Lemma pairs_filter : forall {A} (R : A -> A -> Prop) f l, ForallOrdPairs R l -> ForallOrdPairs R (filter f l).
Proof.
  intros A R f l. induction 1 as [|x l F P IH]; [constructor|]. cbn [filter]. destruct (f x); [|exact IH]. constructor; [|exact IH]. rewrite Forall_forall in *. intros y I. apply filter_In in I. apply F. apply I.
Qed.
Lemma without_in : forall o p l o' q n, In (o', (q, n)) (without o p l) <-> In (o', (q, n)) l /\ ~ (o' = o /\ q = p).
Proof.
  intros o p l o' q n. unfold without. rewrite filter_In. cbn [fst snd]. rewrite negb_true_iff, andb_false_iff. split.
  - intros (I & [E|E]); split; [exact I| |exact I|]; intros (-> & ->); [destruct o; discriminate|rewrite Z.eqb_refl in E; discriminate].
  - intros (I & N). split; [exact I|]. destruct (owner_eqb o' o) eqn:E; [right|left; reflexivity]. apply Z.eqb_neq. intros ->. apply N. split; [destruct o', o; (reflexivity || discriminate)|reflexivity].
Qed.

(* ---- the OS ---- *)
Lemma os_ok_cons : forall page held e r, os_ok page held (e :: r) <-> os_ok page held [e] /\ os_ok page (os_step held e) r.
Proof. intros page held e r. destruct e; cbn [os_ok os_step]; tauto. Qed.
Lemma release_sub : forall p n held q m, 0 <= n -> In (q, m) (release p n held) -> exists m', In (q, m') held /\ m <= m'.
Proof.
  intros p n held q m N I. unfold release in I. apply in_flat_map in I. destruct I as ((a, b) & IA & I). cbn [fst snd] in I. destruct ((a =? p) && (b =? n)) eqn:E1; [destruct I|]. destruct ((a <? p) && (a + b =? p + n)) eqn:E2.
  - destruct I as [I|[]]. injection I as <- <-. exists b. split; [exact IA|]. apply andb_true_iff in E2. destruct E2 as (_ & E2). apply Z.eqb_eq in E2. lia.
  - destruct I as [I|[]]. injection I as <- <-. exists b. split; [exact IA|lia].
Qed.
Definition calm (e : event) : Prop := match e with OsFree _ n => 0 <= n | _ => True end.
Lemma free_next_calm : forall ns p ev r, (forall n, In n ns -> 0 <= n_size n) -> free_in_next ns p = Some (ev, r) -> Forall calm ev.
Proof.
  intros ns p. induction ns as [|n ns IH]; intros ev r S E; cbn [free_in_next] in E; [discriminate|]. destruct (pool_contains_ptr _ _ _ _).
  - destruct (wrap (n_allocs n - 1) =? 0); injection E as <- <-; [constructor; [|constructor]; cbn [calm]; apply S; left; reflexivity|constructor].
  - destruct (free_in_next ns p) as [(ev', r')|]; [|discriminate]. injection E as <- <-. apply (IH ev' r'); [intros x I; apply S; right; exact I|reflexivity].
Qed.
Lemma free_calm : forall dbg c l v p r ev l', machine c -> lok c l v -> umf_ba_linear_free dbg c l p = Some (r, ev, l') -> Forall calm ev.
Proof.
  intros dbg c l v p r ev l' M (I & _) E. pose proof (page_8 c M) as PG. assert (SZ : forall n, In n (l_next l) -> 0 <= n_size n).
  { intros n IN. destruct (i_area _ _ _ _ _ _ I (next_area n)) as (_ & _ & _ & _ & _ & _ & P & _); [unfold areas; apply in_app_iff; left; apply in_map; exact IN|]. cbn [a_size next_area] in P. lia. }
  unfold umf_ba_linear_free in E. destruct (dbg && _); [discriminate|]. destruct (pool_contains_ptr _ _ _ _).
  - destruct ((wrap (l_allocs l - 1) =? 0) && _ && (k_page c <? l_size l)) eqn:C; injection E as <- <- <-; [|constructor]. apply andb_true_iff in C. destruct C as (_ & C). apply Z.ltb_lt in C. constructor; [cbn [calm]; lia|constructor].
  - destruct (l_next l) as [|n ns]; [injection E as <- <- <-; constructor|]. destruct (pool_contains_ptr _ _ _ _); [injection E as <- <- <-; constructor|]. destruct (free_in_next ns p) as [(ev', ns')|] eqn:FN; [|injection E as <- <- <-; constructor]. cbv zeta in E. destruct (dbg && _); [discriminate|]. injection E as <- <- <-. apply (free_next_calm ns p ev' ns'); [intros x IX; apply SZ; right; exact IX|exact FN].
Qed.
Lemma alloc_calm : forall dbg c l size os r ev l', umf_ba_linear_alloc dbg c l size os = Some (r, ev, l') -> Forall calm ev.
Proof.
  intros dbg c l size os r ev l' E. unfold umf_ba_linear_alloc in E. destruct (size =? 0); [injection E as <- <- <-; constructor|]. cbv zeta in E. destruct (_ =? 0); [injection E as <- <- <-; constructor|].
  assert (T : forall l0 a0 e0, linear_take dbg l0 a0 e0 = Some (r, ev, l') -> ev = e0). { intros l0 a0 e0 T. unfold linear_take in T. destruct (dbg && (l_left l0 <? a0)); [discriminate|]. cbv zeta in T. match type of T with (if ?b then _ else _) = _ => destruct b end; congruence. }
  destruct (_ <? _); [|rewrite (T _ _ _ E); constructor]. destruct (_ =? 0); [injection E as <- <- <-; constructor|]. destruct (dbg && _); [discriminate|]. destruct os as [p|]; [|injection E as <- <- <-; repeat constructor]. destruct (utils_align_ptr_up_size_down _ _ _). rewrite (T _ _ _ E). repeat constructor.
Qed.
Lemma create_calm : forall c size os ev l, umf_ba_linear_create c size os true = (ev, Some l) -> Forall calm ev.
Proof.
  intros c size os ev l E. unfold umf_ba_linear_create in E. cbv zeta in E. destruct (_ =? 0); [discriminate|]. destruct os as [p|]; [|discriminate]. destruct (utils_align_ptr_up_size_down _ _ _). cbn [negb] in E. injection E as <- _. repeat constructor.
Qed.
(* the disjointness of the owners' memory *)
Record outer (v : view) : Prop := Outer {
  o_pos : forall o p n, In (o, (p, n)) (v_live v) -> 0 < p;
  o_sys : forall p n, In (Sys, (p, n)) (v_live v) -> clear_of p (extent n) (v_mem v) /\ clear_of p (extent n) (v_regions v);
  o_map : forall q m, In (q, m) (v_regions v) -> clear_of q m (v_mem v);
  o_pairs : ForallOrdPairs rel (v_live v) }.
Lemma applies_app : forall l1 l2 v, applies v (l1 ++ l2) = applies (applies v l1) l2. Proof. intros. apply fold_left_app. Qed.
Lemma acts_ok_app : forall page l1 l2 v, acts_ok page v (l1 ++ l2) <-> acts_ok page v l1 /\ acts_ok page (applies v l1) l2.
Proof. intros page l1. induction l1 as [|a l1 IH]; intros l2 v; [cbn; tauto|]. cbn [app acts_ok]. rewrite IH. unfold applies. cbn [fold_left]. tauto. Qed.
Definition with_mem (v : view) (m : list (Z * Z)) : view := View (v_live v) (v_leak v) m (v_regions v).
Lemma os_acts : forall page ev v, Forall calm ev -> outer v -> acts_ok page v (map AOs ev) -> os_ok page (v_mem v) ev /\ applies v (map AOs ev) = with_mem v (held_after (v_mem v) ev) /\ outer (applies v (map AOs ev)).
Proof.
  intros page ev. induction ev as [|e ev IH]; intros v CA O OK.
  - split; [exact I|]. split; [destruct v; reflexivity|exact O].
  - inversion CA as [|? ? C1 C2]; subst. cbn [map acts_ok] in OK. destruct OK as (A1 & A2). cbn [act_ok] in A1. destruct A1 as (A1 & A3).
    assert (O' : outer (apply v (AOs e))).
    { destruct O as [OP OS OM OO]. destruct v as [lv lk mem reg]. cbn [v_live v_leak v_mem v_regions apply] in *. destruct e as [p n|n|p n]; cbn [os_step].
      - destruct A3 as (A3 & A4). split; cbn [v_live v_leak v_mem v_regions]; [exact OP| | |exact OO].
        + intros q m IQ. destruct (OS q m IQ) as (X & Y). split; [|exact Y]. intros a b [E|IB]; [injection E as <- <-; apply apart_sym; apply A4; exact IQ|apply X; exact IB].
        + intros q m IQ a b [E|IB]; [injection E as <- <-; apply apart_sym; apply A3; exact IQ|exact (OM q m IQ a b IB)].
      - split; assumption.
      - cbn [calm] in C1. split; cbn [v_live v_leak v_mem v_regions]; [exact OP| | |exact OO].
        + intros q m IQ. destruct (OS q m IQ) as (X & Y). split; [|exact Y]. intros a b IB. destruct (release_sub _ _ _ _ _ C1 IB) as (b' & IB' & L). specialize (X a b' IB'). unfold apart in *. lia.
        + intros q m IQ a b IB. destruct (release_sub _ _ _ _ _ C1 IB) as (b' & IB' & L). specialize (OM q m IQ a b' IB'). unfold apart in *. lia. }
    destruct (IH (apply v (AOs e)) C2 O' A2) as (B1 & B2 & B3). split; [apply os_ok_cons; split; [exact A1|exact B1]|]. cbn [map]. change (applies v (AOs e :: map AOs ev)) with (applies (apply v (AOs e)) (map AOs ev)). split; [rewrite B2; destruct v; reflexivity|exact B3].
Qed.

(* ---- the linear allocator, with pointers inside blocks ---- *)
Lemma here_inside : forall c l v x s p, machine c -> lok c l v -> In (x, s) (lv_live v) -> x <= p < x + s -> forall a, In a (areas c l) -> here p a = here x a.
Proof.
  intros c l v x s p M (I & _) L P a IA. pose proof (page_8 c M) as PG. destruct (live_here _ _ _ _ _ _ I x s L) as (b & IB & HB & PS).
  assert (HP : here p b = true) by (unfold here in *; apply andb_true_iff in HB; destruct HB as (HB & _); apply andb_true_iff; split; [apply Z.leb_le|apply Z.ltb_lt]; [apply Z.leb_le in HB|]; lia).
  destruct (here p a) eqn:E1, (here x a) eqn:E2; try reflexivity.
  - rewrite (here_unique _ _ _ _ _ _ I (proj1 PG) p a b IA IB E1 HP) in E2. congruence.
  - rewrite (here_unique _ _ _ _ _ _ I (proj1 PG) x a b IA IB E2 HB) in E1. congruence.
Qed.
Lemma free_next_same : forall ns p x, (forall n, In n ns -> here p (next_area n) = here x (next_area n)) -> free_in_next ns p = free_in_next ns x.
Proof. induction ns as [|n ns IH]; intros p x H; [reflexivity|]. cbn [free_in_next]. rewrite !in_next_here, (H n (or_introl eq_refl)), (IH p x); [reflexivity|]. intros m IM. apply H. right. exact IM. Qed.
Lemma free_inside : forall dbg c l v x s p, machine c -> lok c l v -> In (x, s) (lv_live v) -> x <= p < x + s -> umf_ba_linear_free dbg c l p = umf_ba_linear_free dbg c l x.
Proof.
  intros dbg c l v x s p M K L P. pose proof (here_inside c l v x s p M K L P) as H. unfold umf_ba_linear_free. rewrite !in_main_here. rewrite (H (main_area c l)) by (unfold areas; apply in_app_iff; right; left; reflexivity).
  assert (HN : forall n, In n (l_next l) -> here p (next_area n) = here x (next_area n)) by (intros n IN; apply H; unfold areas; apply in_app_iff; left; apply in_map; exact IN).
  destruct (l_next l) as [|n ns]; [reflexivity|]. rewrite !in_next_here, (HN n (or_introl eq_refl)). rewrite (free_next_same ns p x) by (intros m IM; apply HN; right; exact IM). reflexivity.
Qed.
Lemma contains_inside : forall c l v x s p, machine c -> lok c l v -> In (x, s) (lv_live v) -> x <= p < x + s -> exists q m, In (q, m) (lv_mem v) /\ q <= x /\ x + s <= q + m /\ umf_ba_linear_pool_contains_pointer c l p = q + m - p.
Proof.
  intros c l v x s p M K L P. pose proof K as (I & _). pose proof (page_8 c M) as PG. destruct (live_here _ _ _ _ _ _ I x s L) as (b & IB & HB & PS). pose proof (here_inside c l v x s p M K L P b IB) as HP. rewrite HB in HP.
  exists (a_base b), (a_size b). split; [rewrite (i_mem _ _ _ _ _ _ I); change (a_base b, a_size b) with (span b); apply in_map; exact IB|]. split; [destruct (i_area _ _ _ _ _ _ I b IB) as (_ & _ & _ & _ & Q & _); unfold here in HB; lia|]. split; [exact PS|].
  unfold umf_ba_linear_pool_contains_pointer. rewrite in_main_here. destruct (here p (main_area c l)) eqn:HM.
  - rewrite (here_unique _ _ _ _ _ _ I (proj1 PG) p b (main_area c l) IB ltac:(unfold areas; apply in_elt) HP HM). reflexivity.
  - unfold areas in IB. apply in_app_iff in IB. destruct IB as [IB|[<-|[]]]; [|congruence]. apply in_map_iff in IB. destruct IB as (n & <- & IN). destruct (contains_next (l_next l) p (contains_hit _ _ _ IN HP)) as (n' & IN' & HN' & E). rewrite E.
    assert (EQ : next_area n' = next_area n) by (apply (here_unique _ _ _ _ _ _ I (proj1 PG) p); [unfold areas; apply in_app_iff; left; apply in_map; exact IN'|unfold areas; apply in_app_iff; left; apply in_map; exact IN|exact HN'|exact HP]). cbn [a_base a_size next_area]. assert (n_base n' = n_base n /\ n_size n' = n_size n) as (-> & ->) by (unfold next_area in EQ; split; congruence). reflexivity.
Qed.
