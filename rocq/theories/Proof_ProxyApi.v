(* The malloc replacement: what each call does. *)
From Verif Require Import Base Model_Utils Spec_Utils Proof_Utils Model_BaseAlloc Spec_BaseAlloc Proof_BaseAllocLinear Model_Proxy Spec_Proxy Proof_Proxy Proof_ProxyStep.

Definition gone_by (k : maker) (p : Z) : act := match k with By o => AGone o p | Boot => ALeakGone p end.
(* blocks other than p stay *)
Definition keeps (v v' : view) (p : Z) : Prop := forall k q n, made v k q n -> q <> p -> made v' k q n.

Section Api.
Variables (dbg : bool) (c : consts).
Hypothesis M : machine c.
Hypothesis FIT : lfits c LEAK_SIZE.
Let page := k_page c.
Notation base := (base dbg c).
Notation pinv := (pinv dbg c).

Lemma align_inside : forall x al n, 0 < x -> (al = 0 \/ power_of_two al) -> 0 <= n -> 0 < n + al -> x + (n + al) < U64 ->
  x <= ALIGN_UP_SAFE x al < x + (n + al) /\ ALIGN_UP_SAFE x al + n <= x + (n + al) /\ (al <> 0 -> multiple_of (ALIGN_UP_SAFE x al) al).
Proof.
  intros x al n X AL N S L. destruct AL as [->|AL].
  - unfold ALIGN_UP_SAFE. cbn [Z.eqb]. split; [lia|]. split; [lia|]. intros W. contradiction.
  - pose proof (pow2_range al AL) as R. assert (W : is_word x) by (unfold is_word; lia). rewrite (align_up_safe_word x al AL W). destruct (Z.leb_spec U64 (x + al - 1)) as [B|B]; [lia|]. pose proof (Z.mod_pos_bound (x + al - 1) al ltac:(lia)) as MB. split; [lia|]. split; [lia|]. intros _. exists ((x + al - 1) / al). pose proof (Z.div_mod (x + al - 1) al ltac:(lia)) as D. lia.
Qed.
Lemma align_null : forall al, (al = 0 \/ power_of_two al) -> ALIGN_UP_SAFE 0 al = 0.
Proof. intros al [->|AL]; [reflexivity|]. pose proof (pow2_range al AL) as R. rewrite (align_up_safe_word 0 al AL ltac:(unfold is_word; lia)). destruct (Z.leb_spec U64 (0 + al - 1)) as [B|B]; [lia|]. rewrite (Z.mod_small (0 + al - 1) al) by lia. lia. Qed.
Lemma leak_pos : forall w v l p n x s, base w v -> x_leak w = Some l -> In ((p, n), (x, s)) (v_leak v) -> 0 < x.
Proof.
  intros w v l p n x s B XL I. pose proof (n_leak _ _ _ _ B) as LK. unfold leak_ok in LK. rewrite XL in LK. destruct (lmain_live dbg c LEAK_SIZE l _ M FIT LK) as (_ & LL & _). cbn [lv_live lv_mem] in LL. destruct (LL x s ltac:(change (x, s) with (snd ((p, n), (x, s))); apply in_map; exact I)) as (_ & _ & q & m & IQ & Q1 & _).
  pose proof (lreached_inv dbg c LEAK_SIZE l _ M FIT LK) as (I' & _). pose proof (i_mem _ _ _ _ _ _ I') as EM. cbn [lv_mem] in EM. rewrite EM in IQ. apply in_map_iff in IQ. destruct IQ as (ar & EA & IA). destruct (i_area _ _ _ _ _ _ I' ar IA) as (A1 & _). unfold span in EA. injection EA as EA1 EA2. lia.
Qed.
Lemma leak_some : forall w v p n x s, base w v -> In ((p, n), (x, s)) (v_leak v) -> exists l, x_leak w = Some l.
Proof. intros w v p n x s B I. pose proof (n_leak _ _ _ _ B) as LK. unfold leak_ok in LK. destruct (x_leak w) as [l|]; [eauto|]. destruct LK as (LK & _). rewrite LK in I. destruct I. Qed.
Lemma alive_pos : forall w v k p n, base w v -> made v k p n -> 0 < p.
Proof.
  intros w v k p n B MD. destruct k as [o|]; cbn [made] in MD; [exact (o_pos v (n_outer _ _ _ _ B) o p n MD)|]. destruct MD as (x & s & I). destruct (leak_some _ _ _ _ _ _ B I) as (l & XL). pose proof (leak_pos _ _ _ _ _ _ _ B XL I). pose proof (n_in _ _ _ _ B p n x s I). lia.
Qed.
Lemma made_mem : forall v m k p n, made (with_mem v m) k p n <-> made v k p n. Proof. intros v m [o|] p n; reflexivity. Qed.
Lemma keeps_mem : forall v m p, keeps v (with_mem v m) p. Proof. intros v m p k q n MD _. apply made_mem. exact MD. Qed.

(* the bootstrap allocator *)
Lemma leak_aligned_spec : forall w v al n a r l w', pinv w v -> (al = 0 \/ power_of_two al) -> 0 <= n -> room c (n + al) -> ba_leak_aligned_alloc dbg c w al n a = Some (r, l, w') -> acts_ok page v l ->
  pinv w' (applies v l) /\ (r <> 0 -> made (applies v l) Boot r n /\ (al <> 0 -> multiple_of r al)) /\ (forall k q m, made v k q m -> made (applies v l) k q m) /\ (forall a, In a (deeds l) -> exists p x s, a = ALeak n p x s).
Proof.
  intros w v al n a r l w' (B & C) AL N (RM0 & RM) E OK. unfold ba_leak_aligned_alloc in E. destruct (ba_leak_init_once c w a) as [(l0, e0)|] eqn:IO; [|discriminate]. assert (AL0 : 0 <= al) by (destruct AL as [->|AL]; [lia|pose proof (pow2_range al AL); lia]). pose proof (page_8 c M) as PG. assert (WR : wrap (n + al) = n + al) by (apply Proof_Utils.wrap_id; unfold is_word; lia). rewrite WR in E.
  destruct (umf_ba_linear_alloc dbg c l0 (n + al) (a_os1 a)) as [[[x ev] l']|] eqn:LA; [|discriminate]. cbv zeta in E. assert (r = ALIGN_UP_SAFE x al /\ l = e0 ++ map AOs ev ++ (if x =? 0 then [] else [ALeak n (ALIGN_UP_SAFE x al) x (n + al)]) /\ w' = set_leak w l') as (-> & -> & ->) by (injection E; auto). clear E.
  apply acts_ok_app in OK. destruct OK as (OK0 & OK). apply acts_ok_app in OK. destruct OK as (OK1 & OK2). destruct (init_inv dbg c w v a l0 e0 B IO OK0) as (B0 & E0 & D0). rewrite !applies_app. set (v0 := applies v e0) in *.
  destruct (leak_alloc dbg c M FIT (set_leak w l0) v0 l0 (n + al) (a_os1 a) x ev l' B0 eq_refl RM0 RM LA OK1) as (E1 & C0 & C1). set (v1 := applies v0 (map AOs ev)) in *. change (set_leak (set_leak w l0) l') with (set_leak w l') in *.
  assert (CV1 : cover v1) by (rewrite E1, E0; exact C).
  assert (KP : forall k q m, made v k q m -> made v1 k q m) by (intros k q m MD; rewrite E1, E0; apply made_mem, made_mem; exact MD).
  rewrite !deeds_app, D0, deeds_os. destruct (Z.eqb_spec x 0) as [->|NX].
  - change (applies v1 []) with v1. rewrite (align_null al AL). split; [split; [exact (C0 eq_refl)|exact CV1]|]. split; [intros W; contradiction|]. split; [exact KP|]. intros a0 [].
  - destruct (C1 NX) as (S0 & X0 & XS & AD). destruct (align_inside x al n X0 AL N S0 XS) as (P1 & P2 & P3). change (applies v1 [ALeak n (ALIGN_UP_SAFE x al) x (n + al)]) with (apply v1 (ALeak n (ALIGN_UP_SAFE x al) x (n + al))).
    split; [split; [apply AD; assumption|apply (cover_same v1); [reflexivity|reflexivity|exact CV1]]|]. split; [intros _; split; [exists x, (n + al); left; reflexivity|exact P3]|]. split; [|intros a0 [<-|[]]; eauto].
    intros k q m MD. apply KP in MD. destruct k as [o|]; [exact MD|]. destruct MD as (x' & s' & I). exists x', s'. right. exact I.
Qed.
Lemma got_keeps : forall v o r p k q m, made v k q m -> made (apply v (AGot o r p)) k q m.
Proof. intros v o r p k q m MD. cbn [apply]. destruct (p =? 0); [exact MD|]. destruct k; [right; exact MD|exact MD]. Qed.
Lemma got_made : forall v o r p, p <> 0 -> made (apply v (AGot o r p)) (By o) p (bytes o r).
Proof. intros v o r p N. cbn [apply]. rewrite (proj2 (Z.eqb_neq p 0) N). left. reflexivity. Qed.
Lemma sys_get : forall w v r p, pinv w v -> x_thr w <> 0 -> acts_ok page v [AGot Sys r p] ->
  pinv w (applies v [AGot Sys r p]) /\ (p <> 0 -> made (applies v [AGot Sys r p]) (By Sys) p (bytes Sys r) /\ fitting r p) /\ (forall k q m, made v k q m -> made (applies v [AGot Sys r p]) k q m).
Proof.
  intros w v r p (B & C) T (OK & _). change (applies v [AGot Sys r p]) with (apply v (AGot Sys r p)). split; [split; [apply (got_base dbg c w v Sys r p B OK T)|apply sys_cover; [reflexivity|exact C]]|]. split; [|intros k q m; apply got_keeps]. intros N. split; [apply got_made; exact N|]. destruct OK as [OK|(_ & OK)]; [contradiction|exact OK].
Qed.
Lemma pool_get_spec : forall w v r a x l w', pinv w v -> x_pool w = true -> pool_get w r a = (x, l, w') -> acts_ok page v l ->
  pinv w' (applies v l) /\ (x <> 0 -> made (applies v l) (By Pool) x (bytes Pool r) /\ fitting r x) /\ (forall k q m, made v k q m -> made (applies v l) k q m) /\ deeds l = [AGot Pool r x].
Proof.
  intros w v r a x l w' (B & C) P E OK. unfold pool_get in E. injection E as <- <- <-. destruct OK as (OK1 & OK2 & _). change (applies v [AGot Pool r (a_ptr a); AMap (a_regions a)]) with (apply (apply v (AGot Pool r (a_ptr a))) (AMap (a_regions a))). split; [apply (map_inv dbg c w _ _ _ (got_base dbg c w v Pool r (a_ptr a) B OK1 P) OK2); try reflexivity; exact P|].
  split; [intros N; split; [exact (got_made v Pool r (a_ptr a) N)|destruct OK1 as [OK1|(_ & OK1)]; [contradiction|exact OK1]]|]. split; [intros k q m MD; exact (got_keeps v Pool r (a_ptr a) k q m MD)|reflexivity].
Qed.
(* a new block of n bytes at r *)
Definition news (v' : view) (r n : Z) : Prop := r <> 0 -> exists k, made v' k r n.
Lemma malloc_spec : forall w v i n a r l w', pinv w v -> room c n -> p_malloc dbg c w i n a = Some (r, l, w') -> acts_ok page v l -> pinv w' (applies v l) /\ news (applies v l) r n /\ (forall k q m, made v k q m -> made (applies v l) k q m).
Proof.
  intros w v i n a r l w' P R E OK. unfold p_malloc in E. destruct (Z.ltb_spec n (x_thr w)) as [T|T].
  - injection E as <- <- <-. destruct (sys_get w v (Malloc n) (a_ptr a) P ltac:(destruct R; lia) OK) as (A & B & C). split; [exact A|]. split; [|exact C]. intros N. exists (By Sys). exact (proj1 (B N)).
  - destruct (negb i && x_pool w) eqn:G.
    + apply andb_true_iff in G. destruct G as (_ & G). destruct (pool_get_spec w v (Malloc n) a r l w' P G ltac:(congruence) OK) as (A & B & C & _). split; [exact A|]. split; [|exact C]. intros N. exists (By Pool). exact (proj1 (B N)).
    + destruct (leak_aligned_spec w v 0 n a r l w' P (or_introl eq_refl) (proj1 R) ltac:(rewrite Z.add_0_r; exact R) E OK) as (A & B & C & _). split; [exact A|]. split; [|exact C]. intros N. exists Boot. exact (proj1 (B N)).
Qed.
Lemma calloc_spec : forall w v i n s a r l w', pinv w v -> 0 <= n -> 0 <= s -> room c (n * s) -> p_calloc dbg c w i n s a = Some (r, l, w') -> acts_ok page v l -> pinv w' (applies v l) /\ news (applies v l) r (n * s) /\ (forall k q m, made v k q m -> made (applies v l) k q m).
Proof.
  intros w v i n s a r l w' P N0 S0 R E OK. pose proof (page_8 c M) as PG. assert (WR : wrap (n * s) = n * s) by (apply Proof_Utils.wrap_id; unfold is_word; unfold room in R; lia). unfold p_calloc in E. rewrite WR in E. destruct (Z.ltb_spec (n * s) (x_thr w)) as [T|T].
  - injection E as <- <- <-. destruct (sys_get w v (Calloc n s) (a_ptr a) P ltac:(destruct R; lia) OK) as (A & B & C). split; [exact A|]. split; [|exact C]. intros N. exists (By Sys). exact (proj1 (B N)).
  - destruct (negb i && x_pool w) eqn:G.
    + apply andb_true_iff in G. destruct G as (_ & G). destruct (pool_get_spec w v (Calloc n s) a r l w' P G ltac:(congruence) OK) as (A & B & C & _). split; [exact A|]. split; [|exact C]. intros N. exists (By Pool). cbn [bytes] in B. rewrite WR in B. exact (proj1 (B N)).
    + destruct (leak_aligned_spec w v 0 (n * s) a r l w' P (or_introl eq_refl) (proj1 R) ltac:(rewrite Z.add_0_r; exact R) E OK) as (A & B & C & _). split; [exact A|]. split; [|exact C]. intros N. exists Boot. exact (proj1 (B N)).
Qed.
Lemma aligned_spec : forall w v i al n a r l w', pinv w v -> power_of_two al -> 0 <= n -> room c (n + al) -> p_aligned_alloc dbg c w i al n a = Some (r, l, w') -> acts_ok page v l -> pinv w' (applies v l) /\ news (applies v l) r n /\ (r <> 0 -> multiple_of r al) /\ (forall k q m, made v k q m -> made (applies v l) k q m).
Proof.
  intros w v i al n a r l w' P AL N0 R E OK. unfold p_aligned_alloc in E. destruct (Z.ltb_spec n (x_thr w)) as [T|T].
  - injection E as <- <- <-. destruct (sys_get w v (Aligned al n) (a_ptr a) P ltac:(lia) OK) as (A & B & C). split; [exact A|]. split; [intros N; exists (By Sys); exact (proj1 (B N))|]. split; [intros N; exact (proj2 (B N))|exact C].
  - destruct (negb i && x_pool w) eqn:G.
    + apply andb_true_iff in G. destruct G as (_ & G). destruct (pool_get_spec w v (Aligned al n) a r l w' P G ltac:(congruence) OK) as (A & B & C & _). split; [exact A|]. split; [intros N; exists (By Pool); exact (proj1 (B N))|]. split; [intros N; exact (proj2 (B N))|exact C].
    + pose proof (pow2_range al AL) as AR. destruct (leak_aligned_spec w v al n a r l w' P (or_intror AL) N0 R E OK) as (A & B & C & _). split; [exact A|]. split; [intros N; exists Boot; exact (proj1 (B N))|]. split; [intros N; apply (proj2 (B N)); lia|exact C].
Qed.
Lemma gone_keeps : forall v o p, keeps v (apply v (AGone o p)) p.
Proof. intros v o p k q n MD N. destruct k as [o'|]; [|exact MD]. cbn [made apply v_live] in *. apply without_in. split; [exact MD|]. intros (_ & E). contradiction. Qed.
Lemma leak_gone_keeps : forall v p, keeps v (apply v (ALeakGone p)) p.
Proof. intros v p k q n MD N. destruct k as [o'|]; [exact MD|]. destruct MD as (x & s & I). exists x, s. cbn [apply v_leak]. apply filter_In. split; [exact I|]. cbn [fst]. apply negb_true_iff, Z.eqb_neq. exact N. Qed.
Lemma made_after_init : forall v e0 k p n, applies v e0 = with_mem v (v_mem (applies v e0)) -> made v k p n -> made (applies v e0) k p n.
Proof. intros v e0 k p n E MD. rewrite E. apply made_mem. exact MD. Qed.
Lemma free_spec : forall w v k p n a r l w', pinv w v -> made v k p n -> p_free dbg c w p a = Some (r, l, w') -> acts_ok page v l -> pinv w' (applies v l) /\ deeds l = [gone_by k p] /\ keeps v (applies v l) p /\ ~ made (applies v l) k p n.
Proof.
  intros w v k p n a r l w' (B & C) MD E OK. pose proof (alive_pos w v k p n B MD) as PP. unfold p_free in E. rewrite (proj2 (Z.eqb_neq p 0)) in E by lia. destruct (ba_leak_init_once c w a) as [(l0, e0)|] eqn:IO; [|discriminate].
  assert (OK0 : acts_ok page v e0).
  { destruct (umf_ba_linear_free dbg c l0 p) as [[[rr ev] l']|]; [|discriminate]. cbv zeta in E. destruct (rr =? 0); [|destruct (of_pool (set_leak w l') p); [|destruct (negb (x_thr (set_leak w l') =? 0))]]; injection E as _ <- _; apply acts_ok_app in OK; exact (proj1 OK). }
  destruct (init_inv dbg c w v a l0 e0 B IO OK0) as (B0 & E0 & D0). assert (C0 : cover (applies v e0)) by (rewrite E0; exact C). pose proof (made_after_init v e0 k p n E0 MD) as MD0.
  assert (K0 : keeps v (applies v e0) p) by (rewrite E0; apply keeps_mem). destruct k as [o|].
  - assert (FR : (forall q m, In (q, m) (v_mem (applies v e0)) -> ~ q <= p < q + m) /\ of_pool (set_leak w l0) p = match o with Sys => false | Pool => true end) by (destruct o; [exact (sys_foreign dbg c _ _ p n B0 MD0)|exact (pool_foreign dbg c _ _ p n B0 C0 MD0)]). destruct FR as (FR & OP).
    destruct (foreign dbg c M FIT _ _ l0 p B0 eq_refl FR) as (F1 & _). rewrite F1 in E. cbv zeta in E. cbn [Z.eqb] in E. rewrite OP in E.
    assert (NM : ~ made (apply (applies v e0) (AGone o p)) (By o) p n) by (cbn [made apply v_live]; intros W; apply without_in in W; destruct W as (_ & W); apply W; split; reflexivity).
    destruct o.
    + replace (x_thr (set_leak w l0) =? 0) with false in E by (symmetry; apply Z.eqb_neq; intros T; exact (n_nosys _ _ _ _ B0 T p n MD0)). cbn [negb map app] in E. injection E as <- <- <-. rewrite applies_app, deeds_app, D0. change (applies (applies v e0) [AGone Sys p]) with (apply (applies v e0) (AGone Sys p)). split; [split; [apply gone_base; exact B0|]|].
      * intros q m I. apply (C0 q m). exact (without_sub _ _ _ _ I).
      * split; [reflexivity|]. split; [|exact NM]. intros k q m X NE. apply gone_keeps; [exact (K0 k q m X NE)|exact NE].
    + cbn [map app] in E. injection E as <- <- <-. rewrite applies_app, deeds_app, D0. change (applies (applies v e0) [AGone Pool p; AMap (a_regions a)]) with (apply (apply (applies v e0) (AGone Pool p)) (AMap (a_regions a))). apply acts_ok_app in OK. destruct OK as (_ & _ & OK2 & _).
      split; [apply (map_inv dbg c (set_leak w l0) _ _ _ (gone_base dbg c _ _ Pool p B0) OK2); try reflexivity; cbn [remap set_leak x_pool]; destruct (x_pool w) eqn:XP; [reflexivity|]; destruct (n_nopool _ _ _ _ B XP) as (_ & NP); destruct (NP p n MD)|].
      split; [reflexivity|]. split; [|exact NM]. intros k q m X NE. apply (gone_keeps (applies v e0) Pool p); [exact (K0 k q m X NE)|exact NE].
  - destruct MD0 as (x & s & I). destruct (leak_free dbg c M FIT _ _ l0 p n x s B0 eq_refl I) as (ev & l' & F1 & F2). rewrite F1 in E. cbv zeta in E. cbn [Z.eqb] in E. injection E as <- <- <-. apply acts_ok_app in OK. destruct OK as (_ & OK). apply acts_ok_app in OK. destruct OK as (OK1 & _). destruct (F2 OK1) as (B1 & E1). rewrite !applies_app, !deeds_app, D0, deeds_os. change (set_leak (set_leak w l0) l') with (set_leak w l') in B1. set (v1 := applies (applies v e0) (map AOs ev)) in *.
    change (applies v1 [ALeakGone p]) with (apply v1 (ALeakGone p)). split; [split; [exact B1|apply (cover_same v1); [reflexivity|reflexivity|rewrite E1; exact C0]]|]. split; [reflexivity|]. split.
    + intros k q m X NE. apply leak_gone_keeps; [|exact NE]. rewrite E1. apply made_mem. exact (K0 k q m X NE).
    + intros (x' & s' & W). cbn [apply v_leak] in W. apply filter_In in W. destruct W as (_ & W). cbn [fst] in W. rewrite Z.eqb_refl in W. discriminate.
Qed.
End Api.
