(* Invariant of the tracker used by several threads, without nesting and with
   records given back only when unread. *)
From Verif Require Import Base Model_TrackerConc Spec_TrackerConc.
From Coq Require Import Permutation.

(* allocations that are in the map *)
Definition tracked (t : tpc) : list reg :=
  match t with
  | Live r _ | RFind r _ _ _ | RSize r _ _ _ _ | RNch r _ _ _ _ | RNch2 r _ _ _ _ | RChk r _ _ _ _ | RRem r _ _ => [r]
  | _ => []
  end.
Definition lives (t : tpc) : list reg := match t with Live r _ => [r] | _ => [] end.
(* records in the hands of a thread *)
Definition oslot (t : tpc) : list Z := match t with AIns _ _ _ c | AUndo _ c | RFree _ c => [c] | _ => [] end.

Definition rec_of (s : tstate) (r : reg) (k c : Z) : Prop :=
  k = r_ptr r /\ In (r_ptr r, c) (t_map s 0) /\ t_info s c = TInfo (r_pool r) (r_size r) 0.

Definition tloc (s : tstate) (t : tpc) : Prop :=
  match t with
  | AFind _ l par | ANew _ l par => l = 0 /\ par = None
  | ASize r l par k c => l = 0 /\ par = None /\ k + ti_size (t_info s c) <= r_ptr r
  | AIns r l par c => l = 0 /\ par = None /\ t_info s c = TInfo (r_pool r) (r_size r) 0
  | AUndo _ _ => True
  | Live r c => rec_of s r (r_ptr r) c
  | RFind _ l par last => l = 0 /\ par = None /\ last = None
  | RSize r l par k c | RNch r l par k c | RNch2 r l par k c | RChk r l par k c => l = 0 /\ par = None /\ rec_of s r k c
  | RRem r l par => l = 0 /\ par = None
  | RFree _ _ => True
  | LFind r a l top => l = 0 /\ top = None /\ r_ptr r <= a < r_ptr r + r_size r
  | LSize r a l top k c => l = 0 /\ top = None /\ r_ptr r <= a < r_ptr r + r_size r /\ rec_of s r k c
  | LNch r a l k c => l = 0 /\ rec_of s r k c
  | LOut r _ k c => rec_of s r k c
  | LOut2 r _ k n c => rec_of s r k c /\ n = r_size r
  | LDone r _ ans => right_answer r ans
  | ANch _ _ _ | AIncR _ _ _ | AIncW _ _ _ _ | RDecR _ _ _ | RDecW _ _ _ _ | LSize2 _ _ _ _ _ | LNch2 _ _ _ _ _ | Lost _ => False
  end.

Record tinv (s : tstate) (ts : list tpc) : Prop := TInv {
  v_keys : NoDup (map fst (t_map s 0));
  v_slots : NoDup (map snd (t_map s 0) ++ flat_map oslot ts ++ t_free s);
  v_next : forall c, In c (map snd (t_map s 0) ++ flat_map oslot ts ++ t_free s) -> c < t_next s;
  v_ref : forall c, In c (flat_map refers ts) -> ~ In c (t_free s) /\ c < t_next s;
  v_fw : forall k c, In (k, c) (t_map s 0) -> exists r, In r (flat_map tracked ts) /\ rec_of s r k c;
  v_bw : forall r, In r (flat_map tracked ts) -> exists c, rec_of s r (r_ptr r) c;
  v_size : forall r, In r (flat_map region ts) -> 0 < r_size r;
  v_nd : NoDup (flat_map region ts);
  v_dis : forall p q, In p (flat_map region ts) -> In q (flat_map region ts) -> p <> q -> disjoint p q;
  v_look : forall r, In r (flat_map looks ts) -> In r (flat_map lives ts);
  v_loc : forall t, In t ts -> tloc s t }.

Lemma fm_perm {A} (f : tpc -> list A) a b : Permutation a b -> Permutation (flat_map f a) (flat_map f b).
Proof. apply Permutation_flat_map. Qed.
Lemma fm_in {A} (f : tpc -> list A) a b x : Permutation a b -> In x (flat_map f b) -> In x (flat_map f a).
Proof. intros P. apply Permutation_in, fm_perm. symmetry. exact P. Qed.

Lemma tinv_perm s a b : Permutation a b -> tinv s a -> tinv s b.
Proof.
  intros P I. assert (IN : forall A (f : tpc -> list A) x, In x (flat_map f b) -> In x (flat_map f a)) by (intros A f x; apply fm_in, P).
  assert (IN' : forall A (f : tpc -> list A) x, In x (flat_map f a) -> In x (flat_map f b)) by (intros A f x; apply fm_in; symmetry; exact P).
  destruct I. constructor; auto.
  - eapply Permutation_NoDup; [|exact v_slots0]. apply Permutation_app_head, Permutation_app_tail, fm_perm, P.
  - intros c H. apply v_next0. eapply Permutation_in; [|exact H]. apply Permutation_app_head, Permutation_app_tail, fm_perm. symmetry. exact P.
  - intros k c H. destruct (v_fw0 k c H) as (r & R & E). eauto.
  - eapply Permutation_NoDup; [|exact v_nd0]. apply fm_perm, P.
  - intros t J. apply v_loc0. eapply Permutation_in; [symmetry; exact P|exact J].
Qed.

(* ---- the map ---- *)
Lemma tfind_some m a k c : tfind m a = Some (k, c) -> In (k, c) m /\ k <= a /\ forall k' c', In (k', c') m -> k' <= a -> k' <= k.
Proof.
  unfold tfind. revert k c. induction m as [|[x d] m IH]; cbn; intros k c H; [discriminate|].
  set (best := fold_right _ None m) in *. destruct (Z.leb_spec x a) as [L|L].
  - destruct best as [[y e]|] eqn:B.
    + destruct (IH y e eq_refl) as (I1 & I2 & I3). cbn in H. destruct (Z.leb_spec y x) as [M|M]; injection H as <- <-.
      * split; [auto|split; [exact L|]]. intros k' c' [E|I] K; [assert (x = k') by congruence; lia|]. specialize (I3 k' c' I K). lia.
      * split; [auto|split; [exact I2|]]. intros k' c' [E|I] K; [assert (x = k') by congruence; lia|]. apply (I3 k' c' I K).
    + injection H as <- <-. split; [auto|split; [exact L|]]. intros k' c' [E|I] K; [assert (x = k') by congruence; lia|]. exfalso.
      clear - B I K. subst best. revert B. induction m as [|[z f] m IH]; [destruct I|]. cbn. set (b := fold_right _ None m) in *.
      destruct I as [E|I].
      * injection E; intros; subst. destruct (Z.leb_spec k' a); [|lia]. destruct b as [y|]; [destruct (fst y <=? k')|]; discriminate.
      * destruct (z <=? a); [destruct b as [y|]; [destruct (fst y <=? z)|]; discriminate|]. intros B. apply (IH I B).
  - destruct (IH k c H) as (I1 & I2 & I3). split; [auto|split; [exact I2|]]. intros k' c' [E|I] K; [assert (x = k') by congruence; lia|]. apply (I3 k' c' I K).
Qed.
Lemma tfind_none m a k c : tfind m a = None -> In (k, c) m -> a < k.
Proof.
  intros B I. revert B. unfold tfind. induction m as [|[z f] m IH]; [destruct I|]. cbn. set (b := fold_right _ None m) in *.
  destruct I as [E|I].
  - injection E; intros; subst. revert B. destruct (Z.leb_spec k a); [|lia]. destruct b as [y|]; [destruct (fst y <=? k)|]; discriminate.
  - destruct (z <=? a); [destruct b as [y|]; [destruct (fst y <=? z)|]; discriminate|]. intros B. apply (IH I B).
Qed.
Lemma tget_some m a c : tget m a = Some c -> In (a, c) m.
Proof.
  unfold tget. destruct (find _ m) as [[q w]|] eqn:F; [|discriminate]. intros E. injection E as <-.
  apply find_some in F. destruct F as (I & E). cbn in E. apply Z.eqb_eq in E. subst. exact I.
Qed.
Lemma tget_none m a c : tget m a = None -> ~ In (a, c) m.
Proof.
  unfold tget. destruct (find _ m) as [[q w]|] eqn:F; [discriminate|]. intros _ I. generalize (find_none _ _ F _ I). cbn. rewrite Z.eqb_refl. discriminate.
Qed.
Lemma key_uniq (m : list (Z * Z)) k c c' : NoDup (map fst m) -> In (k, c) m -> In (k, c') m -> c = c'.
Proof.
  induction m as [|[x d] m IH]; cbn; intros ND I J; [destruct I|]. inversion ND; subst. destruct I as [E|I], J as [E'|J].
  - congruence.
  - exfalso. apply H1. injection E; intros; subst. apply in_map_iff. exists (k, c'). auto.
  - exfalso. apply H1. injection E'; intros; subst. apply in_map_iff. exists (k, c). auto.
  - auto.
Qed.
Lemma tdel_perm m a c : NoDup (map fst m) -> In (a, c) m -> Permutation m ((a, c) :: tdel m a).
Proof.
  induction m as [|[x d] m IH]; cbn; intros ND I; [destruct I|]. inversion ND; subst. unfold tdel. cbn. destruct (Z.eqb_spec x a) as [->|N]; cbn.
  - assert (E : (a, d) = (a, c)). { destruct I as [E|I]; [exact E|]. exfalso. apply H1. apply in_map_iff. exists (a, c). auto. }
    rewrite E. apply perm_skip. replace (filter (fun x => negb (fst x =? a)) m) with m; [reflexivity|].
    clear - H1. induction m as [|[q w'] m IH]; [reflexivity|]. cbn in *. destruct (Z.eqb_spec q a) as [->|N]; [tauto|]. cbn. f_equal. apply IH. tauto.
  - destruct I as [E|I]; [congruence|]. fold (tdel m a). rewrite (IH H2 I) at 1. apply perm_swap.
Qed.
Lemma tdel_in m a k c : In (k, c) (tdel m a) <-> In (k, c) m /\ k <> a.
Proof. unfold tdel. rewrite filter_In. cbn. rewrite negb_true_iff, Z.eqb_neq. tauto. Qed.
Lemma upd_eq {A} (f : Z -> A) k v : upd f k v k = v.
Proof. unfold upd. rewrite Z.eqb_refl. reflexivity. Qed.
Lemma upd_ne {A} (f : Z -> A) k v x : x <> k -> upd f k v x = f x.
Proof. unfold upd. intros H. destruct (Z.eqb_spec x k); [contradiction|reflexivity]. Qed.

(* two tracked allocations: the one at or below an address outside it ends before the address *)
Lemma rec_uniq s ts r r' k k' c c' : tinv s ts -> rec_of s r k c -> rec_of s r' k' c' -> k = k' -> c = c'.
Proof. intros I (-> & A & _) (-> & B & _) E. rewrite E in A. eapply key_uniq; [apply (v_keys _ _ I)|exact A|exact B]. Qed.

Lemma tloc_ext s s' o : (forall r k c, In r (region o ++ looks o) -> rec_of s r k c -> rec_of s' r k c) ->
  (forall c, In c (refers o) -> ti_size (t_info s' c) = ti_size (t_info s c)) ->
  (forall c, In c (oslot o) -> t_info s' c = t_info s c) -> tloc s o -> tloc s' o.
Proof.
  intros R S O. destruct o; cbn [region looks refers oslot tloc app In] in *; intros H; auto;
    repeat match goal with H : _ /\ _ |- _ => destruct H end; rewrite ?S, ?O by auto; repeat split; auto;
    match goal with H : rec_of s ?r ?k ?c |- _ => apply (R r k c); auto end.
Qed.

(* a step that changes nothing shared *)
Lemma tinv_local s t q r : tinv s (t :: r) -> region q = region t -> tracked q = tracked t -> lives q = lives t -> oslot q = oslot t ->
  incl (looks q) (looks t) -> (forall c, In c (refers q) -> ~ In c (t_free s) /\ c < t_next s) -> tloc s q -> tinv s (q :: r).
Proof.
  intros I E1 E2 E3 E4 LK RF LC. destruct I. cbn [flat_map] in *.
  constructor; cbn [flat_map]; rewrite ?E1, ?E2, ?E3, ?E4; auto.
  - intros c H. apply in_app_or in H. destruct H as [H|H]; [auto|]. apply v_ref0. apply in_or_app. auto.
  - intros x H. apply v_look0. apply in_app_or in H. apply in_or_app. destruct H; auto.
  - intros o [<-|J]; [exact LC|]. apply v_loc0. right. exact J.
Qed.

Lemma map_slot s ts k c : tinv s ts -> In (k, c) (t_map s 0) -> ~ In c (t_free s) /\ c < t_next s.
Proof.
  intros I H. assert (M : In c (map snd (t_map s 0))) by (apply in_map_iff; exists (k, c); auto). split.
  - intros F. generalize (v_slots _ _ I). intros ND. revert M ND. generalize (map snd (t_map s 0)). induction l as [|x l IH]; intros M ND; [destruct M|].
    cbn in ND. inversion ND; subst. destruct M as [->|M]; [|auto]. apply H2. apply in_or_app. right. apply in_or_app. right. exact F.
  - apply (v_next _ _ I). apply in_or_app. auto.
Qed.
Lemma tracked_region t r : In r (tracked t) -> In r (region t).
Proof. destruct t; cbn; auto; contradiction. Qed.
Lemma lives_tracked t r : In r (lives t) -> In r (tracked t).
Proof. destruct t; cbn; auto; contradiction. Qed.
Lemma fm_mono (f g : tpc -> list reg) ts r : (forall t x, In x (f t) -> In x (g t)) -> In r (flat_map f ts) -> In r (flat_map g ts).
Proof. intros H. rewrite !in_flat_map. intros (t & J & K). eauto. Qed.
Lemma region_ptr s ts p q : tinv s ts -> In p (flat_map region ts) -> In q (flat_map region ts) -> r_ptr p = r_ptr q -> p = q.
Proof.
  intros I P Q E. assert (D : {p = q} + {p <> q}) by (decide equality; apply Z.eq_dec). destruct D as [|N]; [assumption|]. exfalso.
  generalize (v_dis _ _ I p q P Q N) (v_size _ _ I p P) (v_size _ _ I q Q). unfold disjoint. lia.
Qed.

(* what a lookup of an address inside a tracked allocation returns *)
Lemma find_own s ts r a : tinv s ts -> In r (flat_map tracked ts) -> r_ptr r <= a < r_ptr r + r_size r ->
  exists c, tfind (t_map s 0) a = Some (r_ptr r, c) /\ rec_of s r (r_ptr r) c.
Proof.
  intros I T A. destruct (v_bw _ _ I r T) as (c & RC). pose proof RC as (_ & M & _).
  assert (TR : In r (flat_map region ts)) by (eapply fm_mono; [apply tracked_region|exact T]).
  destruct (tfind (t_map s 0) a) as [[k c']|] eqn:F; [|generalize (tfind_none _ _ _ _ F M); lia].
  destruct (tfind_some _ _ _ _ F) as (M' & KA & MX). specialize (MX _ _ M (proj1 A)).
  destruct (v_fw _ _ I _ _ M') as (r' & T' & RC'). pose proof RC' as (E' & _ & _).
  assert (TR' : In r' (flat_map region ts)) by (eapply fm_mono; [apply tracked_region|exact T']).
  assert (D : {r = r'} + {r <> r'}) by (decide equality; apply Z.eq_dec). destruct D as [<-|N].
  - rewrite E' in *. exists c'. split; [reflexivity|]. exact RC'.
  - exfalso. generalize (v_dis _ _ I r r' TR TR' N) (v_size _ _ I r' TR'). unfold disjoint. lia.
Qed.

(* the neighbour below an allocation that is not in the map yet ends before it *)
Lemma find_other s ts r k c : tinv s ts -> In r (flat_map region ts) -> (forall q, In q (flat_map tracked ts) -> q <> r) ->
  tfind (t_map s 0) (r_ptr r) = Some (k, c) -> k + ti_size (t_info s c) <= r_ptr r.
Proof.
  intros I R N F. destruct (tfind_some _ _ _ _ F) as (M & KA & _). destruct (v_fw _ _ I _ _ M) as (q & T & (E & _ & IN)).
  rewrite IN. cbn. assert (TQ : In q (flat_map region ts)) by (eapply fm_mono; [apply tracked_region|exact T]).
  generalize (v_dis _ _ I r q R TQ (fun X => N q T (eq_sym X))) (v_size _ _ I r R). unfold disjoint. lia.
Qed.

(* an allocation appears once among the threads *)
Lemma untracked_head s t r x : tinv s (t :: r) -> region t = [x] -> tracked t = [] -> forall q, In q (flat_map tracked (t :: r)) -> q <> x.
Proof.
  intros I E T q Q ->. cbn [flat_map] in Q. rewrite T in Q. cbn in Q. generalize (v_nd _ _ I). cbn [flat_map]. rewrite E. cbn. intros ND. inversion ND; subst.
  apply H1. eapply fm_mono; [apply tracked_region|exact Q].
Qed.

Ltac sp := repeat match goal with H : _ /\ _ |- _ => destruct H end; subst.

Lemma nodup_mid {A} (a b c : list A) x : NoDup (a ++ x :: b ++ c) -> NoDup (x :: a ++ b ++ c).
Proof. intros H. eapply Permutation_NoDup; [|exact H]. symmetry. apply Permutation_middle. Qed.

Ltac loc := cbn; try apply incl_refl; try (intros ? []; fail); try reflexivity; auto.
Lemma tstep_inv s ok t r s' q : tinv s (t :: r) -> tstep s ok t = (s', q) ->
  (forall x c, t = RFree x c \/ t = AUndo x c -> unread r c) -> tinv s' (q ++ r).
Proof.
  intros I S SAFE. pose proof (v_loc _ _ I t (or_introl eq_refl)) as LC.
  assert (HEAD : forall x, In x (tracked t) -> In x (flat_map tracked (t :: r))) by (intros x X; cbn; apply in_or_app; auto).
  assert (HEADR : forall x, In x (region t) -> In x (flat_map region (t :: r))) by (intros x X; cbn; apply in_or_app; auto).
  assert (HEADL : forall x, In x (looks t) -> In x (flat_map tracked (t :: r))).
  { intros x X. eapply fm_mono; [apply lives_tracked|]. apply (v_look _ _ I). cbn. apply in_or_app. auto. }
  assert (RFH : forall c, In c (refers t) -> ~ In c (t_free s) /\ c < t_next s) by (intros c C; apply (v_ref _ _ I); cbn; apply in_or_app; auto).
  destruct t; cbn [tstep] in S; cbn [tloc] in LC; try contradiction.
  - (* AFind *) destruct LC as (-> & ->). destruct (tfind (t_map s 0) (r_ptr r0)) as [[k c]|] eqn:F; injection S as <- <-; cbn [app].
    + apply (tinv_local s (AFind r0 0 None)); loc.
      * intros c' [<-|[]]. destruct (tfind_some _ _ _ _ F) as (M & _). eapply map_slot; [exact I|exact M].
      * split; [reflexivity|split; [reflexivity|]]. apply (find_other s (AFind r0 0 None :: r)); auto; [apply HEADR; left; reflexivity|].
        apply (untracked_head s); auto.
    + apply (tinv_local s (AFind r0 0 None)); loc.
  - (* ASize *) destruct LC as (-> & -> & LE). destruct (Z.ltb_spec (r_ptr r0) (k + ti_size (t_info s c))) as [L|L]; [lia|].
    injection S as <- <-. apply (tinv_local s (ASize r0 0 None k c)); loc.
  - (* ANew *) destruct LC as (-> & ->).
    assert (X : exists c, q = [AIns r0 0 None c] /\ t_map s' = t_map s /\ t_info s' = upd (t_info s) c (TInfo (r_pool r0) (r_size r0) 0) /\
      Permutation (c :: t_free s') (if existsb (Z.eqb c) (t_free s) then t_free s else c :: t_free s) /\
      ~ In c (map snd (t_map s 0) ++ flat_map oslot r) /\ (In c (t_free s) \/ t_next s <= c) /\ c < t_next s' /\ t_next s <= t_next s' /\
      NoDup (map snd (t_map s 0) ++ flat_map oslot r ++ c :: t_free s') /\ incl (t_free s') (t_free s)).
    { generalize (v_slots _ _ I) (v_next _ _ I). cbn [flat_map oslot app]. intros ND NX. destruct (t_free s) as [|c f] eqn:FR; injection S as <- <-.
      - exists (t_next s). cbn. assert (NI : ~ In (t_next s) (map snd (t_map s 0) ++ flat_map oslot r)).
        { intros H. assert (t_next s < t_next s); [|lia]. apply NX. rewrite app_nil_r. exact H. }
        repeat split; auto; try lia.
        + rewrite app_assoc. eapply Permutation_NoDup; [apply Permutation_middle|]. rewrite app_nil_r in ND |- *. constructor; [exact NI|exact ND].
        + intros x [].
      - exists c. cbn. rewrite Z.eqb_refl. cbn. rewrite app_assoc in ND. repeat split; auto; try lia.
        + apply NoDup_remove_2 in ND. intros H. apply ND. apply in_or_app. auto.
        + apply NX. rewrite app_assoc. apply in_or_app. right. left. reflexivity.
        + rewrite app_assoc. exact ND.
        + intros x X. right. exact X. }
    destruct X as (c & -> & EM & EI & _ & NI & CF & CN & NN & ND & FI). cbn [app].
    assert (MC : forall k x, In (k, x) (t_map s 0) -> x <> c).
    { intros k x X ->. apply NI. apply in_or_app. left. apply in_map_iff. exists (k, c). auto. }
    assert (RE : forall x k y, rec_of s x k y -> rec_of s' x k y).
    { intros x k y (A & B & C). unfold rec_of. rewrite EM, EI. rewrite upd_ne by (eapply MC, B). auto. }
    assert (RR : forall x k y, rec_of s' x k y -> rec_of s x k y).
    { intros x k y (A & B & C). rewrite EM in B. unfold rec_of. rewrite EI in C. rewrite upd_ne in C by (eapply MC, B). auto. }
    destruct I. cbn [flat_map] in *. constructor; cbn [flat_map]; rewrite ?EM; auto.
    + cbn [oslot app]. eapply Permutation_NoDup; [|exact ND]. apply Permutation_app_head. symmetry. apply Permutation_middle.
    + cbn [oslot app]. intros x X. destruct (Z.eq_dec x c) as [->|NC]; [exact CN|]. assert (x < t_next s); [|lia]. apply v_next0. cbn [oslot app].
      apply in_app_or in X. apply in_or_app. destruct X as [X|[X|X]]; [auto|congruence|]. right. apply in_app_or in X. apply in_or_app. destruct X; auto.
    + cbn [refers app]. intros x X. destruct (v_ref0 x X) as (A & B). split; [intros F; apply A, FI, F|lia].
    + intros k x X. destruct (v_fw0 k x X) as (y & Y & Z0). exists y. split; [exact Y|apply RE, Z0].
    + intros x X. destruct (v_bw0 x X) as (y & Y). exists y. apply RE, Y.
    + intros o [<-|J].
      * cbn. rewrite EI, upd_eq. auto.
      * apply (tloc_ext s); [intros x k y _; apply RE| | |apply v_loc0; right; exact J].
        -- intros y Y. rewrite EI, upd_ne; [reflexivity|]. intros ->. destruct (v_ref0 c) as (A & B); [apply in_or_app; right; apply in_flat_map; exists o; auto|].
           destruct CF; [contradiction|lia].
        -- intros y Y. rewrite EI, upd_ne; [reflexivity|]. intros ->. apply NI. apply in_or_app. right. apply in_flat_map. exists o. auto.
  - (* AIns *) destruct LC as (-> & -> & EI). destruct (ok && _) eqn:C; injection S as <- <-; cbn [app].
    + apply andb_true_iff in C. destruct C as (_ & C). destruct (tget (t_map s 0) (r_ptr r0)) eqn:G; [discriminate|]. clear C.
      assert (EM : t_map (w_map s 0 ((r_ptr r0, c) :: t_map s 0)) 0 = (r_ptr r0, c) :: t_map s 0) by reflexivity.
      set (s' := w_map s 0 ((r_ptr r0, c) :: t_map s 0)) in *.
      assert (E1 : t_info s' = t_info s) by reflexivity. assert (E2 : t_free s' = t_free s) by reflexivity. assert (E3 : t_next s' = t_next s) by reflexivity.
      assert (RE : forall x k y, rec_of s x k y -> rec_of s' x k y).
      { intros x k y (A & B & C). unfold rec_of. rewrite EM, E1. cbn. auto. }
      assert (ME : rec_of s' r0 (r_ptr r0) c) by (unfold rec_of; rewrite EM, E1; cbn; auto).
      destruct I. cbn [flat_map region tracked looks lives oslot refers app] in *. constructor; rewrite ?EM, ?E2, ?E3; cbn [map fst snd flat_map region tracked looks lives oslot refers app]; auto.
      * constructor; [|exact v_keys0]. intros X. apply in_map_iff in X. destruct X as ([k x] & E & X). cbn in E. subst k. exact (tget_none _ _ _ G X).
      * apply nodup_mid, v_slots0.
      * intros x X. apply v_next0. destruct X as [<-|X]; [apply in_or_app; right; left; reflexivity|]. apply in_app_or in X. apply in_or_app. destruct X; [auto|right; right; auto].
      * intros k x [X|X]; [injection X as <- <-; exists r0; split; [left; reflexivity|exact ME]|]. destruct (v_fw0 k x X) as (y & Y & Z0). exists y. split; [right; exact Y|apply RE, Z0].
      * intros x [<-|X]; [exists c; exact ME|]. destruct (v_bw0 x X) as (y & Y). exists y. apply RE, Y.
      * intros x X. right. apply v_look0, X.
      * intros o [<-|J]; [exact ME|]. apply (tloc_ext s); [intros x k y _; apply RE|reflexivity|reflexivity|apply v_loc0; right; exact J].
    + apply (tinv_local s (AIns r0 0 None c)); loc.
  - (* AUndo *) injection S as <- <-. cbn [app]. specialize (SAFE r0 c (or_intror eq_refl)). unfold unread in SAFE.
    generalize (v_slots _ _ I). cbn [flat_map oslot app]. intros ND. apply nodup_mid in ND. inversion ND as [|? ? NI ND']; subst.
    assert (RE : forall x k y, rec_of s x k y -> rec_of (TState (t_map s) (upd (t_info s) c (TInfo (-1) (ti_size (t_info s c)) (ti_nch (t_info s c)))) (c :: t_free s) (t_next s)) x k y).
    { intros x k y (A & B & C). unfold rec_of. cbn. rewrite upd_ne; [auto|]. intros ->. apply NI. apply in_or_app. left. apply in_map_iff. exists (r_ptr x, c). auto. }
    destruct I. cbn [flat_map region tracked looks lives oslot refers app] in *. constructor; cbn [t_map t_free t_next]; auto.
    + eapply Permutation_NoDup; [|apply ND]. rewrite app_assoc. rewrite (app_assoc _ (flat_map oslot r)). apply Permutation_middle.
    + intros x X. apply v_next0. apply in_app_or in X. apply in_or_app. destruct X as [X|X]; [auto|]. right. apply in_app_or in X. destruct X as [X|[X|X]]; [right; apply in_or_app; auto|left; exact X|right; apply in_or_app; auto].
    + intros x X. destruct (v_ref0 x X) as (A & B). split; [|exact B]. intros [->|F]; [exact (SAFE X)|exact (A F)].
    + intros k x X. destruct (v_fw0 k x X) as (y & Y & Z0). exists y. split; [exact Y|apply RE, Z0].
    + intros x X. destruct (v_bw0 x X) as (y & Y). exists y. apply RE, Y.
    + intros x X. apply v_size0. right. exact X.
    + inversion v_nd0; assumption.
    + intros x y X Y. apply v_dis0; right; assumption.
    + intros o J. apply (tloc_ext s); [intros x k y _; apply RE| | |apply v_loc0; right; exact J].
      * intros y Y. cbn. rewrite upd_ne; [reflexivity|]. intros ->. apply SAFE. apply in_flat_map. exists o. auto.
      * intros y Y. cbn. rewrite upd_ne; [reflexivity|]. intros ->. apply NI. apply in_or_app. right. apply in_or_app. left. apply in_flat_map. exists o. auto.
  - (* Live *) injection S as <- <-. exact I.
  - (* RFind *) destruct LC as (-> & -> & ->).
    destruct (find_own s _ r0 (r_ptr r0) I) as (c & F & RC); [apply HEAD; left; reflexivity|generalize (v_size _ _ I r0 (HEADR r0 (or_introl eq_refl))); lia|].
    rewrite F in S. injection S as <- <-. apply (tinv_local s (RFind r0 0 None None)); loc.
    intros c' [<-|[]]. eapply map_slot; [exact I|exact (proj1 (proj2 RC))].
  - (* RSize *) destruct LC as (-> & -> & RC). pose proof RC as (-> & _ & EI). rewrite EI in S. cbn in S.
    generalize (v_size _ _ I r0 (HEADR r0 (or_introl eq_refl))). intros SZ. destruct (Z.ltb_spec (r_ptr r0) (r_ptr r0 + r_size r0)); [|lia].
    injection S as <- <-. apply (tinv_local s (RSize r0 0 None (r_ptr r0) c)); loc.
  - (* RNch *) destruct LC as (-> & -> & RC). pose proof RC as (-> & _ & EI). rewrite EI in S. cbn in S.
    injection S as <- <-. apply (tinv_local s (RNch r0 0 None (r_ptr r0) c)); loc.
  - (* RNch2 *) destruct LC as (-> & -> & RC). pose proof RC as (-> & _ & EI). rewrite EI in S. cbn in S. rewrite Z.eqb_refl in S.
    injection S as <- <-. apply (tinv_local s (RNch2 r0 0 None (r_ptr r0) c)); loc.
  - (* RChk *) destruct LC as (-> & -> & RC). pose proof RC as (-> & _ & EI). rewrite EI in S. cbn in S.
    injection S as <- <-. apply (tinv_local s (RChk r0 0 None (r_ptr r0) c)); loc.
  - (* RRem *) destruct LC as (-> & ->). destruct (v_bw _ _ I r0 (HEAD r0 (or_introl eq_refl))) as (c0 & RC0). pose proof RC0 as (_ & M0 & _).
    destruct (tget (t_map s 0) (r_ptr r0)) as [c|] eqn:G; [|exfalso; exact (tget_none _ _ _ G M0)].
    apply tget_some in G. assert (c0 = c) by (eapply key_uniq; [apply (v_keys _ _ I)|exact M0|exact G]). subst c0.
    injection S as <- <-. cbn [app].
    assert (EM : t_map (w_map s 0 (tdel (t_map s 0) (r_ptr r0))) 0 = tdel (t_map s 0) (r_ptr r0)) by reflexivity.
    set (s' := w_map s 0 (tdel (t_map s 0) (r_ptr r0))) in *.
    assert (E1 : t_info s' = t_info s) by reflexivity. assert (E2 : t_free s' = t_free s) by reflexivity. assert (E3 : t_next s' = t_next s) by reflexivity.
    pose proof (tdel_perm _ _ _ (v_keys _ _ I) M0) as P.
    assert (PF : Permutation (map fst (t_map s 0)) (r_ptr r0 :: map fst (tdel (t_map s 0) (r_ptr r0)))) by exact (Permutation_map fst P).
    assert (PS : Permutation (map snd (t_map s 0)) (c :: map snd (tdel (t_map s 0) (r_ptr r0)))) by exact (Permutation_map snd P).
    assert (RP : forall x, In x (flat_map region r) -> r_ptr x <> r_ptr r0).
    { intros x X E. assert (x = r0). { apply (region_ptr s _ x r0 I); [cbn; right; exact X|apply HEADR; left; reflexivity|exact E]. }
      subst x. generalize (v_nd _ _ I). cbn. intros ND. inversion ND; contradiction. }
    assert (RE : forall x k y, In x (flat_map region r) -> rec_of s x k y -> rec_of s' x k y).
    { intros x k y X (A & B & C). unfold rec_of. rewrite EM, E1, tdel_in. auto. }
    assert (RL : forall x, In x (flat_map looks r) -> In x (flat_map region r)).
    { intros x X. generalize (v_look _ _ I x). cbn [flat_map looks lives app]. intros H. specialize (H X). eapply fm_mono; [|exact H]. intros t' y Y. apply tracked_region, lives_tracked, Y. }
    assert (TR : forall x, In x (flat_map tracked r) -> In x (flat_map region r)) by (intros x; apply fm_mono, tracked_region).
    destruct I. cbn [flat_map region tracked looks lives oslot refers app] in *. constructor; rewrite ?EM, ?E2, ?E3; cbn [map fst snd flat_map region tracked looks lives oslot refers app]; auto.
    + eapply Permutation_NoDup in v_keys0; [|exact PF]. inversion v_keys0; assumption.
    + eapply Permutation_NoDup in v_slots0; [|apply Permutation_app_tail, PS]. cbn in v_slots0. eapply Permutation_NoDup; [|exact v_slots0]. apply Permutation_middle.
    + intros x X. apply v_next0. eapply Permutation_in; [symmetry; apply Permutation_app_tail, PS|]. cbn. apply in_app_or in X. destruct X as [X|[X|X]]; [right; apply in_or_app; auto|left; exact X|right; apply in_or_app; auto].
    + intros k x X. apply tdel_in in X. destruct X as (X & NK). destruct (v_fw0 k x X) as (y & [<-|Y] & Z0); [destruct Z0; congruence|]. exists y. split; [exact Y|apply RE; auto].
    + intros x X. destruct (v_bw0 x (or_intror X)) as (y & Y). exists y. apply RE; auto.
    + intros o [<-|J]; [exact Logic.I|]. apply (tloc_ext s); [|reflexivity|reflexivity|apply v_loc0; right; exact J].
      intros x k y X. apply RE. apply in_app_or in X. destruct X as [X|X]; [apply in_flat_map; exists o; auto|apply RL, in_flat_map; exists o; auto].
  - (* RFree *) injection S as <- <-. cbn [app]. specialize (SAFE r0 c (or_introl eq_refl)). unfold unread in SAFE.
    generalize (v_slots _ _ I). cbn [flat_map oslot app]. intros ND. apply nodup_mid in ND. inversion ND as [|? ? NI ND']; subst.
    assert (RE : forall x k y, rec_of s x k y -> rec_of (TState (t_map s) (upd (t_info s) c (TInfo (-1) (ti_size (t_info s c)) (ti_nch (t_info s c)))) (c :: t_free s) (t_next s)) x k y).
    { intros x k y (A & B & C). unfold rec_of. cbn. rewrite upd_ne; [auto|]. intros ->. apply NI. apply in_or_app. left. apply in_map_iff. exists (r_ptr x, c). auto. }
    destruct I. cbn [flat_map region tracked looks lives oslot refers app] in *. constructor; cbn [t_map t_free t_next]; auto.
    + eapply Permutation_NoDup; [|apply ND]. rewrite app_assoc. rewrite (app_assoc _ (flat_map oslot r)). apply Permutation_middle.
    + intros x X. apply v_next0. apply in_app_or in X. apply in_or_app. destruct X as [X|X]; [auto|]. right. apply in_app_or in X. destruct X as [X|[X|X]]; [right; apply in_or_app; auto|left; exact X|right; apply in_or_app; auto].
    + intros x X. destruct (v_ref0 x X) as (A & B). split; [|exact B]. intros [->|F]; [exact (SAFE X)|exact (A F)].
    + intros k x X. destruct (v_fw0 k x X) as (y & Y & Z0). exists y. split; [exact Y|apply RE, Z0].
    + intros x X. destruct (v_bw0 x X) as (y & Y). exists y. apply RE, Y.
    + intros x X. apply v_size0. right. exact X.
    + inversion v_nd0; assumption.
    + intros x y X Y. apply v_dis0; right; assumption.
    + intros o J. apply (tloc_ext s); [intros x k y _; apply RE| | |apply v_loc0; right; exact J].
      * intros y Y. cbn. rewrite upd_ne; [reflexivity|]. intros ->. apply SAFE. apply in_flat_map. exists o. auto.
      * intros y Y. cbn. rewrite upd_ne; [reflexivity|]. intros ->. apply NI. apply in_or_app. right. apply in_or_app. left. apply in_flat_map. exists o. auto.
  - (* LFind *) destruct LC as (-> & -> & A). destruct (find_own s _ r0 a I (HEADL r0 (or_introl eq_refl)) A) as (c & F & RC).
    rewrite F in S. injection S as <- <-. apply (tinv_local s (LFind r0 a 0 None)); loc.
    intros c' [<-|[]]. eapply map_slot; [exact I|exact (proj1 (proj2 RC))].
  - (* LSize *) destruct LC as (-> & -> & A & RC). pose proof RC as (-> & _ & EI). rewrite EI in S. cbn in S.
    destruct (Z.ltb_spec a (r_ptr r0 + r_size r0)); [|lia]. injection S as <- <-. apply (tinv_local s (LSize r0 a 0 None (r_ptr r0) c)); loc.
  - (* LNch *) destruct LC as (-> & RC). pose proof RC as (-> & _ & EI). rewrite EI in S. cbn in S. injection S as <- <-.
    apply (tinv_local s (LNch r0 a 0 (r_ptr r0) c)); loc.
  - (* LOut *) injection S as <- <-. apply (tinv_local s (LOut r0 a k c)); loc. split; [exact LC|]. destruct LC as (_ & _ & EI). rewrite EI. reflexivity.
  - (* LOut2 *) destruct LC as (RC & ->). pose proof RC as (-> & _ & EI). rewrite EI in S. cbn in S. injection S as <- <-.
    apply (tinv_local s (LOut2 r0 a (r_ptr r0) (r_size r0) c)); loc.
  - (* LDone *) injection S as <- <-. exact I.
Qed.

Lemma tinv_init : tinv tinit [].
Proof. constructor; cbn; try constructor; try contradiction. Qed.

Lemma in_mid {A} (f : tpc -> list A) l r t x : In x (flat_map f (l ++ t :: r)) <-> In x (flat_map f (t :: l ++ r)).
Proof. split; apply Permutation_in, Permutation_flat_map; [symmetry|]; apply Permutation_middle. Qed.

Lemma tmove_inv x y : tinv (fst x) (snd x) -> tmove flat unread x y -> tinv (fst y) (snd y).
Proof.
  intros I M. destruct M as [s ts r (SZ & D)|s l r' r c NL|s ts r c a LV A|s s' l r' t q ok S F]; cbn [fst snd] in *.
  - assert (NI : ~ In r (flat_map region ts)) by (intros H; generalize (D r H); unfold disjoint; lia).
    destruct I. constructor; cbn [flat_map region tracked looks lives oslot refers app]; auto.
    + intros x [<-|X]; [exact SZ|auto].
    + constructor; assumption.
    + intros p q [<-|P] [<-|Q] N; try congruence; [exact (D q Q)| |auto]. generalize (D p P). unfold disjoint. tauto.
    + intros o [<-|J]; [cbn; auto|auto].
  - eapply tinv_perm in I; [|symmetry; apply Permutation_middle]. eapply tinv_perm; [apply Permutation_middle|].
    destruct I. cbn [flat_map region tracked looks lives oslot refers app] in *. constructor; cbn [flat_map region tracked looks lives oslot refers app]; auto.
    + intros x X. destruct (v_look0 x X) as [<-|Y]; [contradiction|exact Y].
    + intros o [<-|J]; [cbn; auto|apply v_loc0; right; exact J].
  - destruct I. constructor; cbn [flat_map region tracked looks lives oslot refers app]; auto.
    + intros x [<-|X]; [apply in_flat_map; exists (Live r c); cbn; auto|auto].
    + intros o [<-|J]; [cbn; auto|auto].
  - eapply tinv_perm in I; [|symmetry; apply Permutation_middle]. eapply tinv_perm; [apply Permutation_app_swap_app|].
    eapply tstep_inv; [exact I|exact S|exact F].
Qed.

Lemma treach_inv x : treach flat unread x -> tinv (fst x) (snd x).
Proof. induction 1; [exact tinv_init|eapply tmove_inv; eassumption]. Qed.

(* nothing is ever put below the first level *)
Lemma tstep_up s ok t s' q : tloc s t -> tstep s ok t = (s', q) -> (forall l, l <> 0 -> t_map s l = []) -> forall l, l <> 0 -> t_map s' l = [].
Proof.
  intros LC S U l N. destruct t; cbn [tstep] in S; cbn [tloc] in LC; try contradiction;
    repeat match goal with H : _ /\ _ |- _ => destruct H end; subst;
    repeat match goal with S : context[match ?x with _ => _ end] |- _ => destruct x end; injection S as <- <-; cbn; auto; rewrite upd_ne; auto.
Qed.
Lemma treach_up x : treach flat unread x -> forall l, l <> 0 -> t_map (fst x) l = [].
Proof.
  induction 1 as [|x y R IH M]; [reflexivity|]. pose proof (treach_inv _ R) as I. destruct M as [| | |s s' l r' t q ok S F]; cbn [fst snd] in *; auto.
  eapply tstep_up; [|exact S|exact IH]. apply (v_loc _ _ I). apply in_elt.
Qed.

(* the theorems *)
Lemma lookup_right s ts r a ans : treach flat unread (s, ts) -> In (LDone r a ans) ts -> right_answer r ans.
Proof. intros R J. exact (v_loc _ _ (treach_inv _ R) _ J). Qed.
Lemma never_lost s ts r : treach flat unread (s, ts) -> ~ In (Lost r) ts.
Proof. intros R J. exact (v_loc _ _ (treach_inv _ R) _ J). Qed.
Lemma rest_map s ts : treach flat unread (s, ts) -> at_rest ts ->
  (forall k c, In (k, c) (t_map s 0) <-> exists r, In (Live r c) ts /\ k = r_ptr r) /\
  (forall r c, In (Live r c) ts -> t_info s c = TInfo (r_pool r) (r_size r) 0) /\ forall l, l <> 0 -> t_map s l = [].
Proof.
  intros R AR. pose proof (treach_inv _ R) as I. cbn in I. split; [|split; [|exact (treach_up _ R)]].
  - intros k c. split.
    + intros M. destruct (v_fw _ _ I _ _ M) as (r & T & (-> & M' & _)). apply in_flat_map in T. destruct T as (t & J & T). destruct (AR t J) as (r1 & c1 & ->).
      destruct T as [<-|[]]. destruct (v_loc _ _ I _ J) as (_ & M1 & _). assert (c1 = c) by (eapply key_uniq; [apply (v_keys _ _ I)|exact M1|exact M]). subst. eauto.
    + intros (r & J & ->). exact (proj1 (proj2 (v_loc _ _ I _ J))).
  - intros r c J. exact (proj2 (proj2 (v_loc _ _ I _ J))).
Qed.

(* some thread in the middle of a call can go on *)
Definition ended (t : tpc) : Prop := (exists r c, t = Live r c) \/ (exists r a ans, t = LDone r a ans) \/ exists r, t = Lost r.
Lemma ref_not_free t : refers t <> [] -> forall r c, ~ (t = RFree r c \/ t = AUndo r c).
Proof. intros R r c [->| ->]; cbn in R; congruence. Qed.
Lemma ref_not_ended t : refers t <> [] -> ~ ended t.
Proof. intros R [(r & c & ->)|[(r & a & x & ->)|(r & ->)]]; cbn in R; congruence. Qed.
Lemma go_on s ts t : In t ts -> ~ ended t -> exists l o r s' q, ts = l ++ o :: r /\ ~ ended o /\ tstep s true o = (s', q) /\ tmove flat unread (s, ts) (s', l ++ q ++ r).
Proof.
  intros J N.
  assert (PLAIN : forall o, In o ts -> ~ ended o -> (forall r c, ~ (o = RFree r c \/ o = AUndo r c)) ->
    exists l o r s' q, ts = l ++ o :: r /\ ~ ended o /\ tstep s true o = (s', q) /\ tmove flat unread (s, ts) (s', l ++ q ++ r)).
  { intros o O NE NF. apply in_split in O. destruct O as (l & r & ->). destruct (tstep s true o) as [s' q] eqn:S.
    exists l, o, r, s', q. repeat split; auto. apply t_step with (ok := true); [exact S|]. intros x c X. destruct (NF x c X). }
  assert (FR : forall r c, t = RFree r c \/ t = AUndo r c -> exists l o r s' q, ts = l ++ o :: r /\ ~ ended o /\ tstep s true o = (s', q) /\ tmove flat unread (s, ts) (s', l ++ q ++ r)).
  { intros x c X. pose proof J as J'. apply in_split in J. destruct J as (l & r & ->). destruct (in_dec Z.eq_dec c (flat_map refers (l ++ r))) as [H|H].
    - apply in_flat_map in H. destruct H as (o & O & C). assert (RN : refers o <> []) by (intros E; rewrite E in C; exact C).
      apply (PLAIN o); [apply in_app_or in O; apply in_or_app; cbn; tauto|apply ref_not_ended, RN|intros y d; apply ref_not_free, RN].
    - destruct (tstep s true t) as [s' q] eqn:S. exists l, t, r, s', q. repeat split; auto. apply t_step with (ok := true); [exact S|].
      intros y d Y. assert (d = c) by (destruct X, Y; congruence). subst d. exact H. }
  destruct t; try (apply (PLAIN _ J N); intros r' c' [E|E]; discriminate); [apply (FR r c)|apply (FR r c)]; auto.
Qed.

(* running a schedule *)
Inductive titem := IA (r : reg) | IF (i : nat) | IL (i : nat) (a : Z) | IS (i : nat).
Definition freeing (t : tpc) : list Z := match t with RFree _ c | AUndo _ c => [c] | _ => [] end.
Definition reg_eqb (p q : reg) : bool := (r_ptr p =? r_ptr q) && (r_size p =? r_size q) && (r_pool p =? r_pool q).
Definition trun1 (wb : list tpc -> reg -> bool) (fb : list tpc -> Z -> bool) (x : tstate * list tpc) (i : titem) : option (tstate * list tpc) :=
  let (s, ts) := x in
  match i with
  | IA r => if wb ts r then Some (s, AFind r 0 None :: ts) else None
  | IF i => match skipn i ts with
            | Live r c :: b => if existsb (reg_eqb r) (flat_map looks (firstn i ts ++ b)) then None else Some (s, firstn i ts ++ RFind r 0 None None :: b)
            | _ => None end
  | IL i a => match skipn i ts with
              | Live r c :: _ => if (r_ptr r <=? a) && (a <? r_ptr r + r_size r) then Some (s, LFind r a 0 None :: ts) else None
              | _ => None end
  | IS i => match skipn i ts with
            | t :: b => if forallb (fb (firstn i ts ++ b)) (freeing t) then let (s', q) := tstep s true t in Some (s', firstn i ts ++ q ++ b) else None
            | [] => None end
  end.
Fixpoint trun wb fb (x : tstate * list tpc) (p : list titem) : option (tstate * list tpc) :=
  match p with [] => Some x | i :: q => match trun1 wb fb x i with Some y => trun wb fb y q | None => None end end.

Lemma trun1_move (w : list tpc -> reg -> Prop) (f : list tpc -> Z -> Prop) wb fb x i y : (forall ts r, wb ts r = true -> w ts r) -> (forall ts c, fb ts c = true -> f ts c) ->
  trun1 wb fb x i = Some y -> tmove w f x y.
Proof.
  intros W F. destruct x as [s ts]. unfold trun1. destruct i as [r|i|i a|i].
  - destruct (wb ts r) eqn:E; [|discriminate]. intros H. injection H as <-. constructor. auto.
  - destruct (skipn i ts) as [|t b] eqn:E; [discriminate|]. destruct t; try discriminate.
    destruct (existsb (reg_eqb r) (flat_map looks (firstn i ts ++ b))) eqn:X; [discriminate|]. intros H. injection H as <-.
    pose proof (firstn_skipn i ts) as Q. rewrite E in Q. set (p := firstn i ts) in *. clearbody p. subst ts. constructor.
    intros J. assert (T : existsb (reg_eqb r) (flat_map looks (p ++ b)) = true); [|congruence].
    apply existsb_exists. exists r. split; [exact J|]. unfold reg_eqb. rewrite !Z.eqb_refl. reflexivity.
  - destruct (skipn i ts) as [|t b] eqn:E; [discriminate|]. destruct t; try discriminate.
    destruct ((r_ptr r <=? a) && (a <? r_ptr r + r_size r)) eqn:X; [|discriminate]. intros H. injection H as <-.
    apply t_look with (c := c); [|apply andb_true_iff in X; lia]. rewrite <- (firstn_skipn i ts), E. apply in_elt.
  - destruct (skipn i ts) as [|t b] eqn:E; [discriminate|]. destruct (forallb _ _) eqn:X; [|discriminate].
    destruct (tstep s true t) as [s' q] eqn:S. intros H. injection H as <-.
    pose proof (firstn_skipn i ts) as Q. rewrite E in Q. set (p := firstn i ts) in *. clearbody p. subst ts. apply t_step with (ok := true); [exact S|].
    intros r c T. apply F. rewrite forallb_forall in X. apply X. destruct T as [->| ->]; cbn; auto.
Qed.
Lemma trun_reach (w : list tpc -> reg -> Prop) (f : list tpc -> Z -> Prop) wb fb p : (forall ts r, wb ts r = true -> w ts r) -> (forall ts c, fb ts c = true -> f ts c) ->
  forall x y, treach w f x -> trun wb fb x p = Some y -> treach w f y.
Proof.
  intros W F. induction p as [|i p IH]; intros x y R; cbn; [intros H; injection H as <-; exact R|].
  destruct (trun1 wb fb x i) eqn:E; [|discriminate]. apply IH. eapply tr_move; [exact R|eapply trun1_move; eauto].
Qed.

Definition disjointb (p q : reg) : bool := (r_ptr p + r_size p <=? r_ptr q) || (r_ptr q + r_size q <=? r_ptr p).
Definition flatb (ts : list tpc) (r : reg) : bool := (0 <? r_size r) && forallb (disjointb r) (flat_map region ts).
Lemma flatb_ok ts r : flatb ts r = true -> flat ts r.
Proof.
  unfold flatb, flat. intros H. apply andb_true_iff in H. destruct H as (A & B). split; [lia|]. rewrite forallb_forall in B.
  intros q J. specialize (B q J). unfold disjointb in B. unfold disjoint. lia.
Qed.
Definition insideb (r q : reg) : bool := (r_ptr q <=? r_ptr r) && (r_ptr r + r_size r <=? r_ptr q + r_size q).
Definition nestedb (ts : list tpc) (r : reg) : bool :=
  let ps := filter (insideb r) (flat_map lives ts) in
  (0 <? r_size r) && Nat.leb (length ps) 1 && forallb (fun q => existsb (reg_eqb q) ps || disjointb r q) (flat_map region ts).
Lemma nestedb_ok ts r : nestedb ts r = true -> nested ts r.
Proof.
  unfold nestedb, nested. set (ps := filter (insideb r) (flat_map lives ts)). intros H. apply andb_true_iff in H. destruct H as (H & C). apply andb_true_iff in H. destruct H as (A & B).
  split; [lia|]. exists ps. apply Nat.leb_le in B. split; [exact B|]. split.
  - intros q Q. apply filter_In in Q. destruct Q as (Q & I). split; [|unfold insideb in I; lia]. apply in_flat_map in Q. destruct Q as (t & J & T). destruct t; try contradiction.
    destruct T as [<-|[]]. eauto.
  - intros q Q. rewrite forallb_forall in C. specialize (C q Q). apply orb_true_iff in C. destruct C as [C|C]; [left|right; unfold disjointb in C; unfold disjoint; lia].
    apply existsb_exists in C. destruct C as (q' & J & E). replace q with q'; [exact J|]. unfold reg_eqb in E. destruct q, q'. cbn in E. f_equal; lia.
Qed.
Definition unreadb (ts : list tpc) (c : Z) : bool := negb (existsb (Z.eqb c) (flat_map refers ts)).
Lemma unreadb_ok ts c : unreadb ts c = true -> unread ts c.
Proof.
  unfold unreadb, unread. intros H J. apply negb_true_iff in H. assert (T : existsb (Z.eqb c) (flat_map refers ts) = true); [|congruence].
  apply existsb_exists. exists c. split; [exact J|apply Z.eqb_refl].
Qed.
Definition onceb (ts : list tpc) (c : Z) : bool := true.
Lemma onceb_ok ts c : onceb ts c = true -> at_once ts c.
Proof. intros _. exact I. Qed.
