(* The malloc replacement: the invariant of all histories. *)
From Verif Require Import Base Model_Utils Spec_Utils Proof_Utils Model_BaseAlloc Spec_BaseAlloc Proof_BaseAllocLinear Model_Proxy Spec_Proxy Proof_Proxy.

Definition leak_ok (dbg : bool) (c : consts) (o : option linear) (v : view) : Prop :=
  match o with None => v_leak v = [] /\ v_mem v = [] | Some l => lreached dbg c LEAK_SIZE l (LView (v_mem v) (map snd (v_leak v))) end.
Record base (dbg : bool) (c : consts) (w : proxy) (v : view) : Prop := BaseI {
  n_outer : outer v;
  n_leak : leak_ok dbg c (x_leak w) v;
  n_in : forall p n x s, In ((p, n), (x, s)) (v_leak v) -> x <= p < x + s /\ p + n <= x + s;
  n_regions : x_regions w = v_regions v;
  n_nopool : x_pool w = false -> v_regions v = [] /\ forall p n, ~ In (Pool, (p, n)) (v_live v);
  n_thr : 0 <= x_thr w;
  n_nosys : x_thr w = 0 -> forall p n, ~ In (Sys, (p, n)) (v_live v) }.
Definition cover (v : view) : Prop := forall p n, In (Pool, (p, n)) (v_live v) -> exists q m, In (q, m) (v_regions v) /\ q <= p /\ p + extent n <= q + m.
Definition pinv dbg c w v : Prop := base dbg c w v /\ cover v.

Section Step.
Variables (dbg : bool) (c : consts).
Hypothesis M : machine c.
Hypothesis FIT : lfits c LEAK_SIZE.
Let page := k_page c.

Lemma set_leak_same : forall w l, x_leak w = Some l -> set_leak w l = w.
Proof. intros w l E. destruct w. cbn in E. subst. reflexivity. Qed.
Lemma init_inv : forall w v a l e0, base dbg c w v -> ba_leak_init_once c w a = Some (l, e0) -> acts_ok page v e0 ->
  base dbg c (set_leak w l) (applies v e0) /\ applies v e0 = with_mem v (v_mem (applies v e0)) /\ deeds e0 = [].
Proof.
  intros w v a l e0 B E OK. unfold ba_leak_init_once in E. destruct (x_leak w) as [l0|] eqn:XL.
  - injection E as <- <-. rewrite (set_leak_same w l0 XL). split; [exact B|]. split; [destruct v; reflexivity|reflexivity].
  - destruct (umf_ba_linear_create c LEAK_SIZE (a_os0 a) true) as (ev & [l0|]) eqn:CR; [|discriminate]. injection E as <- <-. destruct B as [O LK IN RG NP T NS]. unfold leak_ok in LK. rewrite XL in LK. destruct LK as (LK1 & LK2).
    pose proof (create_calm c LEAK_SIZE (a_os0 a) ev l0 CR) as CA.
    destruct (os_acts page ev v CA O OK) as (OSK & AE & O'). rewrite AE in *. split.
    + split; cbn [with_mem v_live v_leak v_mem v_regions set_leak x_leak x_thr x_pool x_regions]; try assumption. unfold leak_ok. cbn [with_mem v_leak v_mem]. rewrite LK1, LK2 in *. cbn [map]. apply (lreached_new dbg c LEAK_SIZE (a_os0 a) ev l0 CR OSK).
    + split; [reflexivity|]. unfold deeds. clear. induction ev as [|e ev IH]; [reflexivity|exact IH].
Qed.
Lemma deeds_os : forall ev, deeds (map AOs ev) = []. Proof. induction ev as [|e ev IH]; [reflexivity|exact IH]. Qed.
Lemma deeds_app : forall a b, deeds (a ++ b) = deeds a ++ deeds b. Proof. intros. apply filter_app. Qed.
Lemma leak_alloc : forall w v l s os x ev l', base dbg c w v -> x_leak w = Some l -> 0 <= s -> s + 2 * page <= U64 -> umf_ba_linear_alloc dbg c l s os = Some (x, ev, l') -> acts_ok page v (map AOs ev) ->
  let v1 := applies v (map AOs ev) in
  v1 = with_mem v (v_mem v1) /\
  (x = 0 -> base dbg c (set_leak w l') v1) /\
  (x <> 0 -> 0 < s /\ 0 < x /\ x + s < U64 /\ (forall p n, x <= p < x + s -> p + n <= x + s -> base dbg c (set_leak w l') (apply v1 (ALeak n p x s)))).
Proof.
  intros w v l s os x ev l' B XL S0 S1 E OK v1. destruct B as [O LK IN RG NP T NS]. unfold leak_ok in LK. rewrite XL in LK. destruct (os_acts page ev v (alloc_calm dbg c l s os x ev l' E) O OK) as (OSK & AE & O'). fold v1 in AE, O'.
  pose proof (lreached_step dbg c LEAK_SIZE l _ (LAlloc s os) x ev l' LK (conj S0 S1) E OSK) as R. cbn [lobserve lv_mem lv_live] in R.
  split; [rewrite AE; reflexivity|]. split.
  - intros ->. cbn [Z.eqb] in R. rewrite AE in O' |- *. split; cbn [with_mem v_live v_leak v_mem v_regions set_leak x_leak x_thr x_pool x_regions]; try assumption.
  - intros X. rewrite (proj2 (Z.eqb_neq x 0) X) in R. destruct (lmain_live dbg c LEAK_SIZE l' _ M FIT R) as (_ & LL & _). cbn [lv_live lv_mem] in LL. destruct (LL x s (or_introl eq_refl)) as (SP & _ & q & m & IQ & Q1 & Q2).
    pose proof (lreached_inv dbg c LEAK_SIZE l' _ M FIT R) as (I & _). pose proof (i_mem _ _ _ _ _ _ I) as EM. cbn [lv_mem] in EM. rewrite EM in IQ. apply in_map_iff in IQ. destruct IQ as (ar & EA & IA). destruct (i_area _ _ _ _ _ _ I ar IA) as (A1 & A2 & _). unfold span in EA. injection EA as EA1 EA2. split; [exact SP|]. split; [lia|]. split; [lia|].
    intros p n P1 P2. rewrite AE in O' |- *. split; cbn [apply with_mem v_live v_leak v_mem v_regions set_leak x_leak x_thr x_pool x_regions]; try assumption.
    + destruct O' as [OP OS OM OO]. split; cbn [v_live v_leak v_mem v_regions with_mem] in *; assumption.
    + intros p' n' x' s' [EQ|I']; [injection EQ as <- <- <- <-; lia|exact (IN p' n' x' s' I')].
Qed.
Lemma leak_same : forall leak p n x s, NoDup (map fst (map snd leak)) -> (forall a b a' b', In (a, b) (map snd leak) -> In (a', b') (map snd leak) -> a <> a' -> apart a b a' b') -> (forall p n x s, In ((p, n), (x, s)) leak -> x <= p < x + s /\ p + n <= x + s) -> In ((p, n), (x, s)) leak ->
  forall b, In b leak -> (fst (fst b) =? p) = (fst (snd b) =? x).
Proof.
  intros leak p n x s ND AP IN I ((p', n'), (x', s')) I'. cbn [fst snd]. destruct (Z.eqb_spec p' p) as [->|NE], (Z.eqb_spec x' x) as [->|NX]; try reflexivity.
  - exfalso. pose proof (AP x' s' x s (in_map snd _ _ I') (in_map snd _ _ I) NX) as A. pose proof (IN _ _ _ _ I). pose proof (IN _ _ _ _ I'). unfold apart in A. lia.
  - exfalso. apply NE. clear - ND I I'. induction leak as [|b leak IH]; [destruct I|]. cbn [map] in ND. inversion ND as [|? ? N1 N2]; subst. destruct I as [->|I], I' as [E|I'].
    + congruence.
    + exfalso. apply N1. cbn [fst snd]. change x with (fst (snd ((p', n'), (x, s')))). apply in_map, in_map. exact I'.
    + exfalso. apply N1. rewrite E. cbn [fst snd]. change x with (fst (snd ((p, n), (x, s)))). apply in_map, in_map. exact I.
    + exact (IH N2 I I').
Qed.
Lemma leak_free : forall w v l p n x s, base dbg c w v -> x_leak w = Some l -> In ((p, n), (x, s)) (v_leak v) ->
  exists ev l', umf_ba_linear_free dbg c l p = Some (0, ev, l') /\ (acts_ok page v (map AOs ev) -> base dbg c (set_leak w l') (apply (applies v (map AOs ev)) (ALeakGone p)) /\ applies v (map AOs ev) = with_mem v (v_mem (applies v (map AOs ev)))).
Proof.
  intros w v l p n x s B XL I. destruct B as [O LK IN RG NP T NS]. unfold leak_ok in LK. rewrite XL in LK. pose proof (lreached_inv dbg c LEAK_SIZE l _ M FIT LK) as K. destruct (IN p n x s I) as (PX & _). assert (IL : In (x, s) (map snd (v_leak v))) by (change (x, s) with (snd ((p, n), (x, s))); apply in_map; exact I).
  destruct (free_lok dbg c l _ x M K) as (ev & l' & E & _); [cbn [lv_live]; change x with (fst (x, s)); apply in_map; exact IL|]. exists ev, l'. rewrite (free_inside dbg c l _ x s p M K IL PX). split; [exact E|]. intros OK. destruct (os_acts page ev v (free_calm dbg c l _ x 0 ev l' M K E) O OK) as (OSK & AE & O').
  pose proof (lreached_step dbg c LEAK_SIZE l _ (LFree x) 0 ev l' LK ltac:(cbn [lenv lv_live]; change x with (fst (x, s)); apply in_map; exact IL) E OSK) as R. cbn [lobserve lv_mem lv_live] in R.
  destruct (lmain_live dbg c LEAK_SIZE l _ M FIT LK) as (ND & _ & AP). cbn [lv_live] in ND, AP. pose proof (leak_same _ p n x s ND AP IN I) as SM.
  assert (EQ : map snd (filter (fun b => negb (fst (fst b) =? p)) (v_leak v)) = drop x (map snd (v_leak v))).
  { clear - SM. unfold drop. induction (v_leak v) as [|b leak IH]; [reflexivity|]. cbn [filter map]. rewrite (SM b (or_introl eq_refl)). destruct (fst (snd b) =? x); cbn [negb map]; rewrite IH; try reflexivity; intros b' I'; apply SM; right; exact I'. }
  split; [|rewrite AE; reflexivity]. rewrite AE in O' |- *. split; cbn [apply with_mem v_live v_leak v_mem v_regions set_leak x_leak x_thr x_pool x_regions]; try assumption.
  - destruct O' as [OP OS OM OO]. split; cbn [v_live v_leak v_mem v_regions with_mem] in *; assumption.
  - unfold leak_ok. cbn [v_leak v_mem]. rewrite EQ. exact R.
  - intros p' n' x' s' I'. apply filter_In in I'. exact (IN p' n' x' s' (proj1 I')).
Qed.
Lemma foreign : forall w v l p, base dbg c w v -> x_leak w = Some l -> (forall q m, In (q, m) (v_mem v) -> ~ q <= p < q + m) -> umf_ba_linear_free dbg c l p = Some (-1, [], l) /\ umf_ba_linear_pool_contains_pointer c l p = 0.
Proof. intros w v l p B XL F. pose proof (n_leak _ _ _ _ B) as LK. unfold leak_ok in LK. rewrite XL in LK. exact (lmain_foreign dbg c LEAK_SIZE l _ p M FIT LK F). Qed.
(* who made a live pointer *)
Lemma sys_foreign : forall w v p n, base dbg c w v -> In (Sys, (p, n)) (v_live v) -> (forall q m, In (q, m) (v_mem v) -> ~ q <= p < q + m) /\ of_pool w p = false.
Proof.
  intros w v p n B I. destruct (o_sys v (n_outer _ _ _ _ B) p n I) as (A1 & A2). pose proof (extent_pos n). split.
  - intros q m IQ W. specialize (A1 q m IQ). unfold apart in A1. lia.
  - unfold of_pool. destruct (x_pool w); [|reflexivity]. cbn [andb]. rewrite (n_regions _ _ _ _ B). destruct (existsb _ _) eqn:X; [|reflexivity]. apply existsb_exists in X. destruct X as ((q, m) & IQ & X). specialize (A2 q m IQ). cbn [fst snd] in X. unfold apart in A2. lia.
Qed.
Lemma pool_foreign : forall w v p n, base dbg c w v -> cover v -> In (Pool, (p, n)) (v_live v) -> (forall q m, In (q, m) (v_mem v) -> ~ q <= p < q + m) /\ of_pool w p = true.
Proof.
  intros w v p n B C I. destruct (C p n I) as (q & m & IQ & Q1 & Q2). pose proof (extent_pos n). split.
  - intros q' m' IQ' W. pose proof (o_map v (n_outer _ _ _ _ B) q m IQ q' m' IQ') as A. unfold apart in A. lia.
  - unfold of_pool. destruct (x_pool w) eqn:XP; [|destruct (n_nopool _ _ _ _ B XP) as (_ & NP); destruct (NP p n I)]. cbn [andb]. apply existsb_exists. exists (q, m). rewrite (n_regions _ _ _ _ B). split; [exact IQ|]. cbn [fst snd]. lia.
Qed.

(* ---- acts of the owners ---- *)
Lemma add_outer : forall v live o p n, outer v -> (forall b, In b live -> In b (v_live v)) -> ForallOrdPairs rel live -> new_block v live o p n -> outer (View ((o, (p, n)) :: live) (v_leak v) (v_mem v) (v_regions v)).
Proof.
  intros v live o p n [OP OS OM OO] SUB FO (P & AP & EX). split; cbn [v_live v_leak v_mem v_regions].
  - intros o' q m [E|I]; [injection E as <- <- <-; exact P|exact (OP o' q m (SUB _ I))].
  - intros q m [E|I]; [injection E as -> -> ->; exact EX|exact (OS q m (SUB _ I))].
  - exact OM.
  - constructor; [|exact FO]. apply Forall_forall. intros (o', (q, m)) I E. cbn [fst snd] in *. subst o'. exact (AP q m I).
Qed.
Lemma without_sub : forall o p l b, In b (without o p l) -> In b l. Proof. intros o p l b I. apply filter_In in I. apply I. Qed.
Lemma got_base : forall w v o r p, base dbg c w v -> act_ok page v (AGot o r p) -> match o with Sys => x_thr w <> 0 | Pool => x_pool w = true end -> base dbg c w (apply v (AGot o r p)).
Proof.
  intros w v o r p B OK W. cbn [apply act_ok] in *. destruct (Z.eqb_spec p 0) as [E|NE]; [exact B|]. destruct OK as [OK|(OK & _)]; [contradiction|]. destruct B as [O LK IN RG NP T NS].
  split; cbn [v_live v_leak v_mem v_regions]; try assumption.
  - apply add_outer; [exact O|auto|exact (o_pairs v O)|exact OK].
  - intros XP. destruct o; [|congruence]. destruct (NP XP) as (N1 & N2). split; [exact N1|]. intros q m [E|I]; [discriminate|exact (N2 q m I)].
  - intros XT. destruct o; [contradiction|]. intros q m [E|I]; [discriminate|exact (NS XT q m I)].
Qed.
Lemma gone_base : forall w v o p, base dbg c w v -> base dbg c w (apply v (AGone o p)).
Proof.
  intros w v o p [O LK IN RG NP T NS]. split; cbn [apply v_live v_leak v_mem v_regions]; try assumption.
  - destruct O as [OP OS OM OO]. split; cbn [v_live v_leak v_mem v_regions]; [|intros; apply (OS p0 n); eapply without_sub; exact H|exact OM|apply pairs_filter; exact OO]. intros o' q m I. exact (OP o' q m (without_sub _ _ _ _ I)).
  - intros XP. destruct (NP XP) as (N1 & N2). split; [exact N1|]. intros q m I. exact (N2 q m (without_sub _ _ _ _ I)).
  - intros XT q m I. exact (NS XT q m (without_sub _ _ _ _ I)).
Qed.
Lemma moved_base : forall w v o p n q, base dbg c w v -> act_ok page v (AMoved o p n q) -> match o with Sys => x_thr w <> 0 | Pool => x_pool w = true end -> base dbg c w (apply v (AMoved o p n q)).
Proof.
  intros w v o p n q B OK W. cbn [apply act_ok] in *. destruct (Z.eqb_spec q 0) as [E|NE]; [exact B|]. destruct OK as [OK|OK]; [contradiction|]. pose proof (gone_base w v o p B) as G. cbn [apply] in G. destruct B as [O LK IN RG NP T NS]. destruct G as [O' _ _ _ NP' _ NS'].
  split; cbn [v_live v_leak v_mem v_regions] in *; try assumption.
  - apply add_outer; [exact O|intros b I; exact (without_sub _ _ _ _ I)|exact (o_pairs _ O')|exact OK].
  - intros XP. destruct o; [|congruence]. destruct (NP' XP) as (N1 & N2). split; [exact N1|]. intros q' m [E|I]; [discriminate|exact (N2 q' m I)].
  - intros XT. destruct o; [contradiction|]. intros q' m [E|I]; [discriminate|exact (NS' XT q' m I)].
Qed.
Lemma map_inv : forall w v rs w', base dbg c w v -> act_ok page v (AMap rs) -> x_leak w' = x_leak w -> x_thr w' = x_thr w -> x_pool w' = true -> x_regions w' = rs -> pinv dbg c w' (apply v (AMap rs)).
Proof.
  intros w v rs w' [O LK IN RG NP T NS] (A1 & A2) E1 E2 E3 E4. split.
  - split; cbn [apply v_live v_leak v_mem v_regions]; try assumption.
    + destruct O as [OP OS OM OO]. split; cbn [v_live v_leak v_mem v_regions]; [exact OP| |intros q m IQ; exact (proj1 (A1 q m IQ))|exact OO]. intros p n I. split; [exact (proj1 (OS p n I))|]. intros q m IQ. apply apart_sym. exact (proj2 (A1 q m IQ) p n I).
    + unfold leak_ok in *. cbn [v_leak v_mem]. rewrite E1. exact LK.
    + intros XP. congruence.
    + rewrite E2. exact T.
    + rewrite E2. exact NS.
  - exact A2.
Qed.
Lemma with_mem_cover : forall v m, cover v -> cover (with_mem v m). Proof. intros v m C. exact C. Qed.
Lemma cover_same : forall v v', v_live v' = v_live v -> v_regions v' = v_regions v -> cover v -> cover v'.
Proof. intros v v' E1 E2 C. unfold cover. rewrite E1, E2. exact C. Qed.
Lemma sys_cover : forall v o r p, o = Sys -> cover v -> cover (apply v (AGot o r p)).
Proof. intros v o r p -> C. cbn [apply]. destruct (p =? 0); [exact C|]. intros q m [E|I]; [discriminate|exact (C q m I)]. Qed.
End Step.
