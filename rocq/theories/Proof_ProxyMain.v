(* The malloc replacement: realloc, usable size, and all histories. *)
From Verif Require Import Base Model_Utils Spec_Utils Proof_Utils Model_BaseAlloc Spec_BaseAlloc Proof_BaseAllocStep Proof_BaseAllocLinear Model_Proxy Spec_Proxy Proof_Proxy Proof_ProxyStep Proof_ProxyApi.

Section Main.
Variables (dbg : bool) (c : consts).
Hypothesis M : machine c.
Hypothesis FIT : lfits c LEAK_SIZE.
Let page := k_page c.
Notation base := (base dbg c).
Notation pinv := (pinv dbg c).

Lemma leak_live : forall w v, base w v -> NoDup (map fst (map snd (v_leak v))) /\ (forall a b a' b', In (a, b) (map snd (v_leak v)) -> In (a', b') (map snd (v_leak v)) -> a <> a' -> apart a b a' b').
Proof.
  intros w v B. pose proof (n_leak _ _ _ _ B) as LK. unfold leak_ok in LK. destruct (x_leak w) as [l|].
  - destruct (lmain_live dbg c LEAK_SIZE l _ M FIT LK) as (ND & _ & AP). split; [exact ND|exact AP].
  - destruct LK as (-> & _). split; [constructor|intros a b a' b' []].
Qed.
Lemma leak_apart : forall w v p n x s p' n' x' s', base w v -> In ((p, n), (x, s)) (v_leak v) -> In ((p', n'), (x', s')) (v_leak v) -> p <> p' -> apart p (extent n) p' (extent n').
Proof.
  intros w v p n x s p' n' x' s' B I I' N. destruct (leak_live w v B) as (ND & AP). pose proof (n_in _ _ _ _ B _ _ _ _ I) as (A1 & A2). pose proof (n_in _ _ _ _ B _ _ _ _ I') as (B1 & B2).
  pose proof (leak_same c _ p' n' x' s' ND AP (n_in _ _ _ _ B) I' _ I) as SM. cbn [fst snd] in SM. rewrite (proj2 (Z.eqb_neq p p') N) in SM. symmetry in SM. apply Z.eqb_neq in SM.
  pose proof (AP x s x' s' (in_map snd _ _ I) (in_map snd _ _ I') SM) as A. clear - A A1 A2 B1 B2. unfold apart, extent in *. lia.
Qed.
Lemma nodup_pairs : forall {A B C D} (l : list ((A * B) * (C * D))) a b d a' b' d' x, NoDup (map fst (map snd l)) -> In ((a, b), (x, d)) l -> In ((a', b'), (x, d')) l -> a = a' /\ b = b' /\ d = d'.
Proof.
  intros A B C D l a b d a' b' d' x ND I I'. induction l as [|e l IH]; [destruct I|]. cbn [map] in ND. inversion ND as [|? ? N1 N2]; subst. destruct I as [->|I], I' as [E|I'].
  - injection E as -> -> ->. auto.
  - exfalso. apply N1. cbn [fst snd]. change x with (fst (snd ((a', b'), (x, d')))). apply in_map, in_map. exact I'.
  - exfalso. apply N1. rewrite E. cbn [fst snd]. change x with (fst (snd ((a, b), (x, d)))). apply in_map, in_map. exact I.
  - exact (IH N2 I I').
Qed.
Lemma leak_one : forall w v p n x s n' x' s', base w v -> In ((p, n), (x, s)) (v_leak v) -> In ((p, n'), (x', s')) (v_leak v) -> n = n'.
Proof.
  intros w v p n x s n' x' s' B I I'. destruct (leak_live w v B) as (ND & AP). pose proof (leak_same c _ p n' x' s' ND AP (n_in _ _ _ _ B) I' _ I) as SM. cbn [fst snd] in SM. rewrite Z.eqb_refl in SM. symmetry in SM. apply Z.eqb_eq in SM. subst x'. exact (proj1 (proj2 (nodup_pairs _ _ _ _ _ _ _ _ ND I I'))).
Qed.
Lemma leak_new : forall w v n p x s p' n' x' s', base w (apply v (ALeak n p x s)) -> In ((p', n'), (x', s')) (v_leak v) -> p' <> p.
Proof.
  intros w v n p x s p' n' x' s' B I ->. destruct (leak_live _ _ B) as (ND & AP). pose proof (leak_same c _ p n' x' s' ND AP (n_in _ _ _ _ B) (or_intror I) _ (or_introl eq_refl)) as SM. cbn [fst snd] in SM. rewrite Z.eqb_refl in SM. symmetry in SM. apply Z.eqb_eq in SM. subst x'. cbn [apply v_leak map] in ND. inversion ND as [|? ? N1 N2]; subst. apply N1. cbn [fst snd]. change x with (fst (snd ((p, n'), (x, s')))). apply in_map, in_map. exact I.
Qed.
(* realloc of a block *)
Definition realloc_deeds (v : view) (k : maker) (p old n r : Z) (l : list act) : Prop :=
  match k with
  | By o => deeds l = [AMoved o p n r]
  | Boot => (r = 0 /\ deeds l = []) \/
      (r <> 0 /\ exists cnt, deeds l = [ALeak n r r n; ACopy r p cnt; ALeakGone p] /\ Z.min old n <= cnt <= n /\ exists q m, In (q, m) (v_mem v) /\ q <= p /\ p + cnt <= q + m)
  end.
Lemma moved_keeps : forall v o p n q, keeps v (apply v (AMoved o p n q)) p.
Proof. intros v o p n q k x m MD N. cbn [apply]. destruct (q =? 0); [exact MD|]. destruct k as [o'|]; [|exact MD]. right. apply without_in. split; [exact MD|]. intros (_ & W). contradiction. Qed.
Lemma realloc_spec : forall w v i k p old n a r l w', pinv w v -> made v k p old -> n <> 0 -> room c n -> p_realloc dbg c w i p n a = Some (r, l, w') -> acts_ok page v l ->
  pinv w' (applies v l) /\ realloc_deeds v k p old n r l /\ keeps v (applies v l) p /\ (r <> 0 -> made (applies v l) k r n) /\ (r = 0 -> made (applies v l) k p old).
Proof.
  intros w v i k p old n a r l w' (B & C) MD N0 R E OK. pose proof (alive_pos dbg c M FIT w v k p old B MD) as PP. unfold p_realloc in E. rewrite (proj2 (Z.eqb_neq p 0)), (proj2 (Z.eqb_neq n 0) N0) in E by lia. destruct (ba_leak_init_once c w a) as [(l0, e0)|] eqn:IO; [|discriminate]. cbv zeta in E.
  destruct k as [o|].
  - assert (OK0 : acts_ok page v e0).
    { destruct (negb (umf_ba_linear_pool_contains_pointer c l0 p =? 0)).
      - unfold ba_leak_realloc in E. destruct (umf_ba_linear_alloc dbg c l0 n (a_os1 a)) as [[[q ev] l']|]; [|discriminate]. destruct (q =? 0); [injection E as _ <- _; apply acts_ok_app in OK; exact (proj1 OK)|]. cbv zeta in E. destruct (umf_ba_linear_free dbg c l' p) as [[[rr ev2] l2]|]; [|discriminate]. injection E as _ <- _. apply acts_ok_app in OK. exact (proj1 OK).
      - destruct (of_pool (set_leak w l0) p); [|destruct (negb (x_thr (set_leak w l0) =? 0))]; injection E as _ <- _; apply acts_ok_app in OK; exact (proj1 OK). }
    destruct (init_inv dbg c w v a l0 e0 B IO OK0) as (B0 & E0 & D0). assert (C0 : cover (applies v e0)) by (rewrite E0; exact C). pose proof (made_after_init v e0 _ p old E0 MD) as MD0. assert (K0 : keeps v (applies v e0) p) by (rewrite E0; apply keeps_mem).
    assert (FR : (forall q m, In (q, m) (v_mem (applies v e0)) -> ~ q <= p < q + m) /\ of_pool (set_leak w l0) p = match o with Sys => false | Pool => true end) by (destruct o; [exact (sys_foreign dbg c _ _ p old B0 MD0)|exact (pool_foreign dbg c _ _ p old B0 C0 MD0)]). destruct FR as (FR & OP).
    destruct (foreign dbg c M FIT _ _ l0 p B0 eq_refl FR) as (_ & F1). rewrite F1 in E. cbn [Z.eqb negb] in E. rewrite OP in E. destruct o.
    + replace (x_thr (set_leak w l0) =? 0) with false in E by (symmetry; apply Z.eqb_neq; intros T; exact (n_nosys _ _ _ _ B0 T p old MD0)). cbn [negb] in E. assert (r = a_ptr a /\ l = e0 ++ [AMoved Sys p n (a_ptr a)] /\ w' = set_leak w l0) as (-> & -> & ->) by (injection E; auto). apply acts_ok_app in OK. destruct OK as (_ & OK1 & _). rewrite applies_app. unfold realloc_deeds. rewrite deeds_app, D0. change (applies (applies v e0) [AMoved Sys p n (a_ptr a)]) with (apply (applies v e0) (AMoved Sys p n (a_ptr a))). split; [split|].
      * apply moved_base; [exact B0|exact OK1|]. intros T. exact (n_nosys _ _ _ _ B0 T p old MD0).
      * intros x m I. cbn [apply] in I |- *. destruct (a_ptr a =? 0); [exact (C0 x m I)|]. cbn [v_live v_regions] in *. destruct I as [I|I]; [discriminate|]. exact (C0 x m (without_sub _ _ _ _ I)).
      * split; [reflexivity|]. split; [intros k x m X NE; apply moved_keeps; [exact (K0 k x m X NE)|exact NE]|]. cbn [apply]. split; intros Z0; [rewrite (proj2 (Z.eqb_neq _ 0) Z0); left; reflexivity|rewrite Z0; exact MD0].
    + assert (r = a_ptr a /\ l = e0 ++ [AMoved Pool p n (a_ptr a); AMap (a_regions a)] /\ w' = remap (set_leak w l0) a) as (-> & -> & ->) by (injection E; auto). apply acts_ok_app in OK. destruct OK as (_ & OK1 & OK2 & _). rewrite applies_app. unfold realloc_deeds. rewrite deeds_app, D0. change (applies (applies v e0) [AMoved Pool p n (a_ptr a); AMap (a_regions a)]) with (apply (apply (applies v e0) (AMoved Pool p n (a_ptr a))) (AMap (a_regions a))).
      assert (XP : x_pool w = true) by (destruct (x_pool w) eqn:XP; [reflexivity|]; destruct (n_nopool _ _ _ _ B XP) as (_ & NP); destruct (NP p old MD)).
      split; [apply (map_inv dbg c (set_leak w l0) _ _ _ (moved_base dbg c _ _ Pool p n (a_ptr a) B0 OK1 XP) OK2); try reflexivity; exact XP|]. split; [reflexivity|]. split; [intros k x m X NE; exact (moved_keeps (applies v e0) Pool p n (a_ptr a) k x m (K0 k x m X NE) NE)|].
      cbn [made apply v_live]. split; intros Z0; [rewrite (proj2 (Z.eqb_neq _ 0) Z0); left; reflexivity|rewrite Z0; exact MD0].
  - destruct MD as (x & s & I). destruct (leak_some dbg c w v p old x s B I) as (l1 & XL). unfold ba_leak_init_once in IO. rewrite XL in IO. assert (l1 = l0 /\ e0 = []) as (-> & ->) by (injection IO; auto). clear IO. pose proof (n_leak _ _ _ _ B) as LK. unfold leak_ok in LK. rewrite XL in LK. pose proof (lreached_inv dbg c LEAK_SIZE l0 _ M FIT LK) as K. pose proof (n_in _ _ _ _ B p old x s I) as (PX & PN).
    assert (IL : In (x, s) (map snd (v_leak v))) by (change (x, s) with (snd ((p, old), (x, s))); apply in_map; exact I).
    destruct (contains_inside c l0 _ x s p M K IL PX) as (q & m & IQ & Q1 & Q2 & CI). cbn [lv_mem] in IQ. rewrite CI in E. replace (q + m - p =? 0) with false in E by (symmetry; apply Z.eqb_neq; lia). cbn [negb] in E. unfold ba_leak_realloc in E. destruct (umf_ba_linear_alloc dbg c l0 n (a_os1 a)) as [[[y ev] l']|] eqn:LA; [|discriminate]. cbn [app] in E.
    assert (OK1 : acts_ok page v (map AOs ev)).
    { destruct (y =? 0); [injection E as _ <- _; exact OK|]. cbv zeta in E. destruct (umf_ba_linear_free dbg c l' p) as [[[rr ev2] l2]|]; [|discriminate]. injection E as _ <- _. apply acts_ok_app in OK. exact (proj1 OK). }
    destruct R as (R0 & R1). destruct (leak_alloc dbg c M FIT w v l0 n (a_os1 a) y ev l' B XL R0 R1 LA OK1) as (E1 & CA0 & CA1). set (v1 := applies v (map AOs ev)) in *. assert (CV1 : cover v1) by (rewrite E1; exact C).
    assert (K1 : forall k z t, made v k z t -> made v1 k z t) by (intros k z t X; rewrite E1; apply made_mem; exact X).
    assert (LE : v_leak v1 = v_leak v) by (rewrite E1; reflexivity).
    destruct (Z.eqb_spec y 0) as [EY|NY].
    + assert (r = 0 /\ l = map AOs ev /\ w' = set_leak w l') as (-> & -> & ->) by (injection E; auto). change (applies v (map AOs ev)) with v1. split; [split; [exact (CA0 EY)|exact CV1]|]. unfold realloc_deeds. rewrite deeds_os. split; [left; split; reflexivity|]. split; [intros k z t X _; exact (K1 k z t X)|]. split; [intros W; contradiction|]. intros _. apply K1. exists x, s. exact I.
    + cbv zeta in E. destruct (CA1 NY) as (S0 & Y0 & YS & AD). assert (B2 : base (set_leak w l') (apply v1 (ALeak n y y n))) by (apply AD; lia). set (v2 := apply v1 (ALeak n y y n)) in *. assert (I2 : In ((p, old), (x, s)) (v_leak v2)) by (right; rewrite LE; exact I). assert (PY : p <> y) by (apply (leak_new _ v1 n y y n p old x s B2); rewrite LE; exact I).
      destruct (leak_free dbg c M FIT _ v2 l' p old x s B2 eq_refl I2) as (ev2 & l2 & F1 & F2). rewrite F1 in E. set (cnt := if q + m - p <? n then q + m - p else n) in E.
      assert (r = y /\ l = map AOs ev ++ [ALeak n y y n; ACopy y p cnt] ++ map AOs ev2 ++ [ALeakGone p] /\ w' = set_leak w l2) as (-> & -> & ->) by (injection E; auto). apply acts_ok_app in OK. destruct OK as (_ & OK). apply acts_ok_app in OK. destruct OK as (_ & OK). change (applies (applies v (map AOs ev)) [ALeak n y y n; ACopy y p cnt]) with v2 in OK. apply acts_ok_app in OK. destruct OK as (OK2 & _). destruct (F2 OK2) as (B3 & E3).
      assert (EV : applies v (map AOs ev ++ [ALeak n y y n; ACopy y p cnt] ++ map AOs ev2 ++ [ALeakGone p]) = apply (applies v2 (map AOs ev2)) (ALeakGone p)) by (rewrite !applies_app; reflexivity). rewrite EV. set (v3 := applies v2 (map AOs ev2)) in *.
      assert (K2 : forall k z t, made v1 k z t -> made v2 k z t). { intros k z t X. destruct k as [o|]; [exact X|]. destruct X as (x' & s' & X). exists x', s'. right. exact X. }
      assert (K3 : forall k z t, made v2 k z t -> z <> p -> made (apply v3 (ALeakGone p)) k z t). { intros k z t X NE. apply leak_gone_keeps; [|exact NE]. rewrite E3. apply made_mem. exact X. }
      split; [split; [exact B3|]|].
      * apply (cover_same v1); [rewrite E3; reflexivity|rewrite E3; reflexivity|exact CV1].
      * unfold realloc_deeds. rewrite !deeds_app, !deeds_os. cbn [app]. split; [right; split; [exact NY|]; exists cnt; split; [reflexivity|]|].
        -- split; [unfold cnt; destruct (Z.ltb_spec (q + m - p) n); lia|]. exists q, m. split; [exact IQ|]. unfold cnt. destruct (Z.ltb_spec (q + m - p) n); lia.
        -- split; [intros k z t X NE; apply K3; [apply K2, K1; exact X|exact NE]|]. split; [|intros W; contradiction]. intros _. apply K3; [|congruence]. exists y, n. left. reflexivity.
Qed.
Lemma usable_spec : forall w v k p n a r l w', pinv w v -> made v k p n -> p <> 1 -> p_usable_size c w p a = Some (r, l, w') -> acts_ok page v l ->
  pinv w' (applies v l) /\ (forall k' q m, made v k' q m -> made (applies v l) k' q m) /\ match k with By o => deeds l = [AAsked o p r] /\ n <= r | Boot => r = 0 /\ deeds l = [] end.
Proof.
  intros w v k p n a r l w' (B & C) MD N1 E OK. unfold p_usable_size in E. rewrite (proj2 (Z.eqb_neq p 1) N1) in E. destruct (ba_leak_init_once c w a) as [(l0, e0)|] eqn:IO; [|discriminate]. cbv zeta in E.
  assert (OK0 : acts_ok page v e0).
  { destruct (negb (umf_ba_linear_pool_contains_pointer c l0 p =? 0)); [injection E as _ <- _; exact OK|]. destruct (of_pool (set_leak w l0) p); [|destruct (negb (x_thr (set_leak w l0) =? 0))]; injection E as _ <- _; apply acts_ok_app in OK; exact (proj1 OK). }
  destruct (init_inv dbg c w v a l0 e0 B IO OK0) as (B0 & E0 & D0). assert (C0 : cover (applies v e0)) by (rewrite E0; exact C). pose proof (made_after_init v e0 _ p n E0 MD) as MD0.
  assert (K0 : forall k' q m, made v k' q m -> made (applies v e0) k' q m) by (intros k' q m X; rewrite E0; apply made_mem; exact X). destruct k as [o|].
  - assert (FR : (forall q m, In (q, m) (v_mem (applies v e0)) -> ~ q <= p < q + m) /\ of_pool (set_leak w l0) p = match o with Sys => false | Pool => true end) by (destruct o; [exact (sys_foreign dbg c _ _ p n B0 MD0)|exact (pool_foreign dbg c _ _ p n B0 C0 MD0)]). destruct FR as (FR & OP).
    destruct (foreign dbg c M FIT _ _ l0 p B0 eq_refl FR) as (_ & F1). rewrite F1 in E. cbn [Z.eqb negb] in E. rewrite OP in E.
    assert (T : o = Sys -> (x_thr (set_leak w l0) =? 0) = false) by (intros ->; apply Z.eqb_neq; intros T; exact (n_nosys _ _ _ _ B0 T p n MD0)).
    assert (r = a_num a /\ l = e0 ++ [AAsked o p (a_num a)] /\ w' = set_leak w l0) as (-> & -> & ->) by (destruct o; [rewrite (T eq_refl) in E; cbn [negb] in E|]; injection E; auto).
    rewrite applies_app, deeds_app, D0. change (applies (applies v e0) [AAsked o p (a_num a)]) with (applies v e0). split; [split; [exact B0|exact C0]|]. split; [exact K0|]. split; [reflexivity|]. apply acts_ok_app in OK. destruct OK as (_ & OK & _). exact (OK n MD0).
  - destruct MD0 as (x & s & I). pose proof (n_leak _ _ _ _ B0) as LK. unfold leak_ok in LK. cbn [set_leak x_leak] in LK. pose proof (lreached_inv dbg c LEAK_SIZE l0 _ M FIT LK) as K. pose proof (n_in _ _ _ _ B0 p n x s I) as (PX & PN).
    assert (IL : In (x, s) (map snd (v_leak (applies v e0)))) by (change (x, s) with (snd ((p, n), (x, s))); apply in_map; exact I).
    destruct (contains_inside c l0 _ x s p M K IL PX) as (q & m & IQ & Q1 & Q2 & CI). rewrite CI in E. replace (q + m - p =? 0) with false in E by (symmetry; apply Z.eqb_neq; lia). cbn [negb] in E. assert (r = 0 /\ l = e0 /\ w' = set_leak w l0) as (-> & -> & ->) by (injection E; auto).
    split; [split; [exact B0|exact C0]|]. split; [exact K0|]. split; [reflexivity|exact D0].
Qed.

(* ---- all histories ---- *)
Lemma start_pinv : pinv x_start v_start.
Proof.
  split.
  - split; cbn [x_start x_leak x_thr x_pool x_regions v_start v_live v_leak v_mem v_regions].
    + split; cbn [v_start v_live v_leak v_mem v_regions]; [intros o p n []|intros p n []|intros q m []|constructor].
    + split; reflexivity.
    + intros p n x s [].
    + reflexivity.
    + intros _. split; [reflexivity|intros p n []].
    + lia.
    + intros _ p n [].
  - intros p n [].
Qed.
Lemma free_null : forall w a r l w', p_free dbg c w 0 a = Some (r, l, w') -> l = [] /\ w' = w.
Proof. intros w a r l w' E. cbn in E. injection E as <- <- <-. auto. Qed.
Lemma step_pinv : forall w v k a r l w', pinv w v -> call_ok c w v k -> pstep dbg c w k a = Some (r, l, w') -> acts_ok page v l -> pinv w' (applies v l).
Proof.
  intros w v k a r l w' P K E OK. assert (FR : forall p, p = 0 \/ alive v p -> p_free dbg c w p a = Some (r, l, w') -> pinv w' (applies v l)).
  { intros p [->|(k' & n & MD)] E'; [destruct (free_null w a r l w' E') as (-> & ->); exact P|]. exact (proj1 (free_spec dbg c M FIT w v k' p n a r l w' P MD E' OK)). }
  destruct k as [i n|i n s|i al n|p|i p n|p|n| |]; cbn [pstep call_ok] in *.
  - exact (proj1 (malloc_spec dbg c M FIT w v i n a r l w' P K E OK)).
  - destruct K as (N0 & S0 & R). exact (proj1 (calloc_spec dbg c M FIT w v i n s a r l w' P N0 S0 R E OK)).
  - destruct K as (AL & N0 & R). exact (proj1 (aligned_spec dbg c M FIT w v i al n a r l w' P AL N0 R E OK)).
  - exact (FR p K E).
  - destruct K as (R & K). destruct (Z.eqb_spec p 0) as [->|NP]; [exact (proj1 (malloc_spec dbg c M FIT w v i n a r l w' P R E OK))|]. destruct (Z.eqb_spec n 0) as [->|NN].
    + apply (FR p K). unfold p_realloc in E. rewrite (proj2 (Z.eqb_neq p 0) NP) in E. exact E.
    + destruct K as [K|(k' & m & MD)]; [contradiction|]. exact (proj1 (realloc_spec w v i k' p m n a r l w' P MD NN R E OK)).
  - destruct K as (k' & m & MD). destruct (Z.eqb_spec p 1) as [->|N1]; [unfold p_usable_size in E; cbn [Z.eqb Pos.eqb] in E; injection E as <- <- <-; exact P|]. exact (proj1 (usable_spec w v k' p m a r l w' P MD N1 E OK)).
  - destruct K as (T & N). injection E as <- <- <-. change (applies v []) with v. destruct P as ([O LK IN RG NP T0 NS] & C). split; [|exact C]. split; cbn [x_leak x_thr x_pool x_regions]; try assumption. intros _. exact (NS T).
  - injection E as <- <- <-. destruct OK as (OK & _). destruct P as (B & C). exact (map_inv dbg c w v _ (Proxy (x_leak w) (x_thr w) true (a_regions a)) B OK eq_refl eq_refl eq_refl eq_refl).
  - destruct K.
Qed.
Lemma preached_pinv : forall w v, preached dbg c w v -> pinv w v.
Proof. intros w v R. induction R as [|w v k a r l w' R IH K E OK]; [exact start_pinv|]. exact (step_pinv w v k a r l w' IH K E OK). Qed.

(* ---- live blocks ---- *)
Lemma pairs_cases : forall {A} (R : A -> A -> Prop) l x y, ForallOrdPairs R l -> In x l -> In y l -> x = y \/ R x y \/ R y x.
Proof. intros A R l x y F I J. destruct (ForallOrdPairs_In F x y I J) as [E|[E|E]]; auto. Qed.
Lemma live_apart : forall w v k p n k' p' n', pinv w v -> made v k p n -> made v k' p' n' -> (k = k' /\ p = p' /\ n = n') \/ apart p (extent n) p' (extent n').
Proof.
  intros w v k p n k' p' n' (B & C) MD MD'. pose proof (extent_pos n) as EN. pose proof (extent_pos n') as EN'.
  assert (MX : forall o a m b t, In (o, (a, m)) (v_live v) -> made v Boot b t -> apart a (extent m) b (extent t)).
  { intros o a m b t I (x & s & J). destruct (leak_some dbg c w v b t x s B J) as (l & XL). pose proof (n_leak _ _ _ _ B) as LK. unfold leak_ok in LK. rewrite XL in LK. destruct (lmain_live dbg c LEAK_SIZE l _ M FIT LK) as (_ & LL & _). cbn [lv_live lv_mem] in LL. destruct (LL x s ltac:(change (x, s) with (snd ((b, t), (x, s))); apply in_map; exact J)) as (_ & _ & q & z & IQ & Q1 & Q2). pose proof (n_in _ _ _ _ B b t x s J) as (X1 & X2).
    assert (AP : exists a' m', a' <= a /\ a + extent m <= a' + m' /\ apart a' m' q z).
    { destruct o.
      - exists a, (extent m). split; [lia|]. split; [lia|]. exact (proj1 (o_sys v (n_outer _ _ _ _ B) a m I) q z IQ).
      - destruct (C a m I) as (a' & m' & IA & A1 & A2). exists a', m'. split; [exact A1|]. split; [exact A2|]. exact (o_map v (n_outer _ _ _ _ B) a' m' IA q z IQ). }
    destruct AP as (a' & m' & A1 & A2 & AP). pose proof (extent_pos m) as EM. clear - A1 A2 AP Q1 Q2 X1 X2 EM. unfold apart, extent in *. lia. }
  assert (SP : forall a m b t, In (Sys, (a, m)) (v_live v) -> In (Pool, (b, t)) (v_live v) -> apart a (extent m) b (extent t)).
  { intros a m b t I J. destruct (C b t J) as (q & z & IQ & Q1 & Q2). pose proof (proj2 (o_sys v (n_outer _ _ _ _ B) a m I) q z IQ) as AP. pose proof (extent_pos t) as ET. clear - Q1 Q2 AP ET. unfold apart in *. lia. }
  destruct k as [o|], k' as [o'|].
  - cbn [made] in MD, MD'. destruct (pairs_cases rel _ _ _ (o_pairs v (n_outer _ _ _ _ B)) MD MD') as [E|[E|E]].
    + left. injection E as -> -> ->. auto.
    + destruct o, o'; try (right; apply E; reflexivity); right; [exact (SP _ _ _ _ MD MD')|apply apart_sym; exact (SP _ _ _ _ MD' MD)].
    + destruct o, o'; try (right; apply apart_sym; apply E; reflexivity); right; [exact (SP _ _ _ _ MD MD')|apply apart_sym; exact (SP _ _ _ _ MD' MD)].
  - right. exact (MX o p n p' n' MD MD').
  - right. apply apart_sym. exact (MX o' p' n' p n MD' MD).
  - destruct MD as (x & s & I), MD' as (x' & s' & I'). destruct (Z.eq_dec p p') as [->|NP]; [left|right; exact (leak_apart w v p n x s p' n' x' s' B I I' NP)]. split; [reflexivity|]. split; [reflexivity|]. exact (leak_one w v p' n x s n' x' s' B I I').
Qed.

(* ---- no undefined behaviour once the bootstrap allocator has its memory ---- *)
Lemma init_some : forall w a, (x_leak w = None -> exists p, a_os0 a = Some p) -> exists l e0, ba_leak_init_once c w a = Some (l, e0).
Proof.
  intros w a H. unfold ba_leak_init_once. destruct (x_leak w) as [l|]; [eauto|]. destruct (H eq_refl) as (p & ->). destruct FIT as (F0 & F1).
  destruct (umf_ba_linear_create c LEAK_SIZE (Some p) true) as (ev & [l|]) eqn:CR; [eauto|]. exfalso. revert CR F0 F1. generalize LEAK_SIZE. intros sz CR F0 F1. unfold umf_ba_linear_create in CR. cbv zeta in CR.
  destruct (Z.eqb_spec (ALIGN_UP_SAFE (if wrap (sz + k_lheader c) <? k_page c then k_page c else wrap (sz + k_lheader c)) (k_page c)) 0) as [Z0|Z0].
  - assert (UU : U64 = 18446744073709551616) by reflexivity. pose proof (page_8 c M) as PG. destruct (page_is c M) as (PP & P8). destruct (head_8 c M) as (H8 & HB). rewrite (wrap_id (sz + k_lheader c)) in Z0 by lia.
    set (t := if sz + k_lheader c <? k_page c then k_page c else sz + k_lheader c) in *. assert (T : k_page c <= t /\ t + k_page c <= U64) by (unfold t; destruct (Z.ltb_spec (sz + k_lheader c) (k_page c)); lia).
    rewrite (align_up_safe_word t (k_page c) PP ltac:(unfold is_word; lia)) in Z0. destruct (Z.leb_spec U64 (t + k_page c - 1)); [lia|]. pose proof (Z.mod_pos_bound (t + k_page c - 1) (k_page c) ltac:(lia)). lia.
  - destruct (utils_align_ptr_up_size_down _ _ _). cbn [negb] in CR. discriminate.
Qed.
Lemma step_total : forall w v k a, pinv w v -> call_ok c w v k -> os_fair dbg c w v k a -> exists r l w', pstep dbg c w k a = Some (r, l, w').
Proof.
  intros w v k a P K (FA & FB). destruct (init_some w a FA) as (l0 & e0 & IO). destruct (FB l0 e0 IO) as (OK0 & AL & OK1). destruct P as (B & C). destruct (init_inv dbg c w v a l0 e0 B IO OK0) as (B0 & E0 & _). assert (C0 : cover (applies v e0)) by (rewrite E0; exact C). pose proof (n_leak _ _ _ _ B0) as LK. unfold leak_ok in LK. cbn [set_leak x_leak] in LK.
  pose proof (page_8 c M) as PG.
  assert (LA : forall sz, room c sz -> exists x ev l', umf_ba_linear_alloc dbg c l0 sz (a_os1 a) = Some (x, ev, l')).
  { intros sz (R0 & R1). destruct (lmain_alloc dbg c LEAK_SIZE l0 _ sz (a_os1 a) M FIT LK R0 R1 AL) as (x & ev & l' & E & _). eauto. }
  assert (LG : forall al n, 0 <= al -> 0 <= n -> room c (n + al) -> exists r l w', ba_leak_aligned_alloc dbg c w al n a = Some (r, l, w')).
  { intros al n A0 N0 R. unfold ba_leak_aligned_alloc. rewrite IO. destruct (LA (n + al) R) as (x & ev & l' & E). destruct R as (R0 & R1). rewrite Proof_Utils.wrap_id by (unfold is_word; lia). rewrite E. eauto. }
  assert (FR : forall p, p = 0 \/ alive v p -> exists r l w', p_free dbg c w p a = Some (r, l, w')).
  { intros p [->|(k' & n & MD)]; [cbn; eauto|]. pose proof (alive_pos dbg c M FIT w v k' p n B MD) as PP. unfold p_free. rewrite (proj2 (Z.eqb_neq p 0)) by lia. rewrite IO. pose proof (made_after_init v e0 _ p n E0 MD) as MD0. destruct k' as [o|].
    - assert (FR : forall q m, In (q, m) (v_mem (applies v e0)) -> ~ q <= p < q + m) by (destruct o; [exact (proj1 (sys_foreign dbg c _ _ p n B0 MD0))|exact (proj1 (pool_foreign dbg c _ _ p n B0 C0 MD0))]). destruct (foreign dbg c M FIT _ _ l0 p B0 eq_refl FR) as (F1 & _). rewrite F1. cbv zeta. cbn [Z.eqb]. destruct (of_pool _ p); [eauto|]. destruct (negb _); eauto.
    - destruct MD0 as (x & s & I). destruct (leak_free dbg c M FIT _ _ l0 p n x s B0 eq_refl I) as (ev & l' & F1 & _). rewrite F1. cbv zeta. cbn [Z.eqb]. eauto. }
  assert (MA : forall i n, room c n -> exists r l w', p_malloc dbg c w i n a = Some (r, l, w')).
  { intros i n R. unfold p_malloc. destruct (n <? x_thr w); [eauto|]. destruct (negb i && x_pool w); [unfold pool_get; eauto|]. apply LG; [lia|exact (proj1 R)|]. rewrite Z.add_0_r. exact R. }
  destruct k as [i n|i n s|i al n|p|i p n|p|n| |]; cbn [pstep call_ok] in *.
  - exact (MA i n K).
  - destruct K as (N0 & S0 & R). unfold p_calloc. assert (WR : wrap (n * s) = n * s) by (apply Proof_Utils.wrap_id; unfold is_word; unfold room in R; lia). rewrite WR. destruct (n * s <? x_thr w); [eauto|]. destruct (negb i && x_pool w); [unfold pool_get; eauto|]. apply LG; [lia|exact (proj1 R)|]. rewrite Z.add_0_r. exact R.
  - destruct K as (AP & N0 & R). unfold p_aligned_alloc. destruct (n <? x_thr w); [eauto|]. destruct (negb i && x_pool w); [unfold pool_get; eauto|]. pose proof (pow2_range al AP). apply LG; [lia|exact N0|exact R].
  - exact (FR p K).
  - destruct K as (R & K). unfold p_realloc. destruct (Z.eqb_spec p 0) as [->|NP]; [exact (MA i n R)|]. destruct (Z.eqb_spec n 0) as [->|NN]; [exact (FR p K)|]. rewrite IO. cbv zeta. destruct K as [K|(k' & m & MD)]; [contradiction|]. pose proof (made_after_init v e0 _ p m E0 MD) as MD0. destruct k' as [o|].
    + assert (F : forall q m, In (q, m) (v_mem (applies v e0)) -> ~ q <= p < q + m) by (destruct o; [exact (proj1 (sys_foreign dbg c _ _ p m B0 MD0))|exact (proj1 (pool_foreign dbg c _ _ p m B0 C0 MD0))]). destruct (foreign dbg c M FIT _ _ l0 p B0 eq_refl F) as (_ & F1). rewrite F1. cbn [Z.eqb negb]. destruct (of_pool _ p); [eauto|]. destruct (negb _); eauto.
    + destruct MD0 as (x & s & I). pose proof (lreached_inv dbg c LEAK_SIZE l0 _ M FIT LK) as KK. pose proof (n_in _ _ _ _ B0 p m x s I) as (PX & PN).
      assert (IL : In (x, s) (map snd (v_leak (applies v e0)))) by (change (x, s) with (snd ((p, m), (x, s))); apply in_map; exact I).
      destruct (contains_inside c l0 _ x s p M KK IL PX) as (q & t & IQ & Q1 & Q2 & CI). rewrite CI. replace (q + t - p =? 0) with false by (symmetry; apply Z.eqb_neq; lia). cbn [negb]. unfold ba_leak_realloc. destruct (LA n R) as (y & ev & l' & LE). rewrite LE. destruct (Z.eqb_spec y 0) as [EY|NY]; [eauto|]. cbv zeta.
      destruct R as (R0 & R1). destruct (leak_alloc dbg c M FIT (set_leak w l0) (applies v e0) l0 n (a_os1 a) y ev l' B0 eq_refl R0 R1 LE (OK1 y ev l' LE)) as (E1 & _ & CA1). destruct (CA1 NY) as (S0 & Y0 & YS & AD). assert (B2 : base (set_leak w l') (apply (applies (applies v e0) (map AOs ev)) (ALeak n y y n))) by (apply (AD y n); lia).
      destruct (leak_free dbg c M FIT _ _ l' p m x s B2 eq_refl) as (ev2 & l2 & F1 & _); [right; rewrite E1; exact I|]. rewrite F1. eauto.
  - unfold p_usable_size. destruct (p =? 1); [eauto|]. rewrite IO. cbv zeta. destruct (negb _); [eauto|]. destruct (of_pool _ p); [eauto|]. destruct (negb _); eauto.
  - eauto.
  - eauto.
  - destruct K.
Qed.
End Main.
