(* Every step keeps the invariant of the tracker under concurrent splits and
   merges. *)
From Verif Require Import Base Model_TrackerConc Spec_TrackerConc Proof_TrackerConc Model_TrackerSplit Spec_TrackerSplit Proof_TrackerSplit Proof_TrackerSplitInv.
From Coq Require Import Permutation.

Lemma reg_dec (p q : reg) : {p = q} + {p <> q}.
Proof. decide equality; apply Z.eq_dec. Qed.
Lemma reg_eqb_eq p q : reg_eqb p q = true <-> p = q.
Proof.
  destruct p, q. unfold reg_eqb. cbn. rewrite !andb_true_iff, !Z.eqb_eq. split; [intros ((-> & ->) & ->); reflexivity|intros E; injection E; auto].
Qed.
Lemma hdel_in r h q : In q (hdel r h) <-> In q h /\ q <> r.
Proof.
  unfold hdel. rewrite filter_In, negb_true_iff. split; intros (A & B); split; auto.
  - intros E. apply reg_eqb_eq in E. congruence.
  - destruct (reg_eqb q r) eqn:E; [apply reg_eqb_eq in E; contradiction|reflexivity].
Qed.
Lemma within_eq a r : within a r = true <-> r_ptr r <= a < r_ptr r + r_size r.
Proof. unfold within. rewrite andb_true_iff, Z.leb_le, Z.ltb_lt. tauto. Qed.

Lemma ar_sep A B p q : AR (A ++ B) -> In p A -> In q B -> disjoint p q /\ 0 < r_size p /\ 0 < r_size q.
Proof.
  intros [N D S] P Q. assert (p <> q) by (intros ->; exact (nodup_app _ _ _ N P Q)).
  assert (In p (A ++ B)) by (apply in_or_app; auto). assert (In q (A ++ B)) by (apply in_or_app; auto). auto.
Qed.
Lemma ar_same L p q x : AR L -> In p L -> In q L -> r_ptr p <= x < r_ptr p + r_size p -> r_ptr q <= x < r_ptr q + r_size q -> p = q.
Proof. intros [N D S] P Q X Y. destruct (reg_dec p q) as [|E]; [assumption|]. generalize (D p q P Q E). unfold disjoint. lia. Qed.

Lemma fm_nil {A} (f : spc -> list A) r : (forall o, In o r -> f o = []) -> flat_map f r = [].
Proof. induction r as [|o r IH]; cbn; intros H; [reflexivity|]. rewrite (H o), IH; auto. Qed.
Lemma fm_head {A} (f : spc -> list A) t r x : In x (flat_map f r) -> In x (flat_map f (t :: r)).
Proof. intros H. cbn. apply in_or_app. auto. Qed.
Lemma locked_one o : locked o = [] \/ locked o = [tt].
Proof. destruct o; cbn; auto. Qed.
Lemma unlocked_nil o : locked o = [] -> minus o = [] /\ plus o = [].
Proof. destruct o; cbn; auto; discriminate. Qed.
Lemma minus_locked o q : In q (minus o) -> locked o = [tt].
Proof. destruct o; cbn; auto; contradiction. Qed.
Lemma plus_locked o q : In q (plus o) -> locked o = [tt].
Proof. destruct o; cbn; auto; contradiction. Qed.
Lemma cnt_le s m H ts : sinv s m H ts -> (length (flat_map locked ts) <= 1)%nat.
Proof. intros I. rewrite (i_cnt _ _ _ _ I). destruct m; lia. Qed.
Lemma cnt_same ts a b : (length (flat_map locked ts) <= 1)%nat -> In a ts -> In b ts -> locked a = [tt] -> locked b = [tt] -> a = b.
Proof.
  assert (Z0 : forall r o, In o r -> locked o = [tt] -> (1 <= length (flat_map locked r))%nat).
  { induction r as [|x r IH]; intros o I L; [destruct I|]. cbn. rewrite app_length. destruct I as [->|I]; [rewrite L; cbn; lia|]. specialize (IH o I L). lia. }
  induction ts as [|x r IH]; intros C A B LA LB; [destruct A|]. cbn in C. rewrite app_length in C. destruct A as [->|A], B as [->|B]; auto.
  - specialize (Z0 r b B LB). rewrite LA in C. cbn in C. lia.
  - specialize (Z0 r a A LA). rewrite LB in C. cbn in C. lia.
  - apply IH; auto. lia.
Qed.
Lemma excl s m H t r : sinv s m H (t :: r) -> locked t = [tt] -> m = true /\ forall o, In o r -> locked o = [].
Proof.
  intros I L. pose proof (i_cnt _ _ _ _ I) as C. cbn in C. rewrite L in C. cbn in C. destruct m; [|discriminate]. split; [reflexivity|].
  intros o J. destruct (locked_one o) as [|E]; [assumption|]. exfalso. injection C as C.
  assert (flat_map locked r = []) by (destruct (flat_map locked r); [reflexivity|discriminate]).
  assert (In tt (flat_map locked r)) by (apply in_flat_map; exists o; rewrite E; cbn; auto). rewrite H0 in H1. destruct H1.
Qed.
Lemma excl_nil s m H t r : sinv s m H (t :: r) -> locked t = [tt] -> flat_map minus r = [] /\ flat_map plus r = [].
Proof.
  intros I L. destruct (excl _ _ _ _ _ I L) as (_ & N). split; apply fm_nil; intros o J; apply unlocked_nil, N, J.
Qed.
Lemma otracked_region o q : In q (otracked o) -> In q (sregion o).
Proof. destruct o; cbn; auto. apply tracked_region. Qed.
Lemma otr_fm ts q : In q (flat_map otracked ts) -> In q (flat_map sregion ts).
Proof. rewrite !in_flat_map. intros (o & A & B). exists o. split; [exact A|apply otracked_region, B]. Qed.
Lemma area H ts q : In q (H ++ flat_map otracked ts) -> In q (H ++ flat_map sregion ts).
Proof. intros X. apply in_app_or in X. apply in_or_app. destruct X; [auto|right; apply otr_fm; assumption]. Qed.

(* what threads in the middle of a split or merge know *)
Lemma minus_facts s m H ts q : sinv s m H ts -> In q (flat_map minus ts) ->
  exists o x, In o ts /\ q = whole x /\ 0 < sa_first x < sa_size x /\ In q H /\ plus o = [first x] /\ minus o = [whole x] /\ locked o = [tt] /\
    In (first x) (parts o) /\ In (second x) (unfound o).
Proof.
  intros I Q. apply in_flat_map in Q. destruct Q as (o & J & Q). pose proof (i_loc _ _ _ _ I o J) as L. exists o.
  destruct o; cbn in Q; try contradiction; destruct Q as [<-|[]]; exists x; cbn in L; unfold mid, sbase in L; cbn; intuition auto.
Qed.
Lemma plus_facts s m H ts e : sinv s m H ts -> In e (flat_map plus ts) ->
  exists o, In o ts /\ plus o = [e] /\ locked o = [tt] /\ In e (parts o) /\
    ((exists x, e = first x /\ In (whole x) H /\ 0 < sa_first x < sa_size x /\ minus o = [whole x]) \/
     (exists y, e = upper y /\ In (union y) H /\ ma_lo y < ma_hi y < ma_lo y + ma_size y)).
Proof.
  intros I Q. apply in_flat_map in Q. destruct Q as (o & J & Q). pose proof (i_loc _ _ _ _ I o J) as L. exists o.
  destruct o; cbn in Q; try contradiction; destruct Q as [<-|[]]; cbn in L; unfold mid, sbase, mbase in L; cbn;
    (split; [exact J|split; [reflexivity|split; [reflexivity|split; [auto|]]]]);
    first [left; exists x; intuition auto; fail|right; exists y; intuition auto].
Qed.
Lemma entry_area s m H ts k c : sinv s m H ts -> In (k, c) (t_map s 0) ->
  exists e b, k = r_ptr e /\ t_info s c = rinfo e /\ tr H ts e /\ In b (H ++ flat_map otracked ts) /\
    r_ptr b <= r_ptr e /\ r_ptr e + r_size e <= r_ptr b + r_size b /\ 0 < r_size e.
Proof.
  intros I M. destruct (proj1 (i_mi _ _ _ _ I) k c M) as (e & K & E & T). exists e. destruct T as [(T & N)|T].
  - exists e. repeat split; auto; try lia. left. auto. apply (ar_size _ (i_ar _ _ _ _ I)), area, T.
  - destruct (plus_facts _ _ _ _ _ I T) as (o & J & P & L & PA & [(x & -> & W & F & _)|(y & -> & W & F)]).
    + exists (whole x). repeat split; auto; cbn; try lia. right. exact T. apply in_or_app. auto.
    + exists (union y). repeat split; auto; cbn; try lia. right. exact T. apply in_or_app. auto.
Qed.

(* what a lookup of an address inside an allocation finds *)
Lemma look_find s m H ts p a : sinv s m H ts -> covered H p a 1 ->
  exists k c, tfind (t_map s 0) a = Some (k, c) /\
    (found s p (filter (within a) (H ++ flat_map parts ts)) a k c \/
     (k + ti_size (t_info s c) <= a /\ existsb (within a) (flat_map unfound ts) = true)).
Proof.
  intros I C. destruct (C a ltac:(lia)) as (q & Q & W & P). apply within_eq in W. pose proof (i_ar _ _ _ _ I) as AREA.
  assert (QA : In q (H ++ flat_map sregion ts)) by (apply in_or_app; auto).
  destruct (in_dec reg_dec q (flat_map minus ts)) as [MN|MN].
  - destruct (minus_facts _ _ _ _ _ I MN) as (o & x & J & EQ & F & _ & PO & MO & LO & PA & UN).
    assert (T : tr H ts (first x)) by (right; apply in_flat_map; exists o; rewrite PO; cbn; auto).
    destruct (proj2 (i_mi _ _ _ _ I) _ T) as (c1 & M1 & _). cbn in M1.
    assert (W' : sa_ptr x <= a < sa_ptr x + sa_size x) by (rewrite EQ in W; exact W).
    destruct (tfind (t_map s 0) a) as [[k c]|] eqn:TF; [|generalize (tfind_none _ _ _ _ TF M1); lia].
    destruct (tfind_some _ _ _ _ TF) as (M & KA & MX). specialize (MX _ _ M1 (proj1 W')).
    destruct (proj1 (i_mi _ _ _ _ I) _ _ M) as (e & K & E & TE). exists k, c. split; [reflexivity|].
    assert (EE : e = first x).
    { destruct TE as [(TE & NM)|TE].
      - exfalso. apply NM. pose proof (ar_size _ AREA e (area _ _ _ TE)). replace e with q; [exact MN|].
        apply (ar_same _ q e k AREA QA (area _ _ _ TE)); [rewrite EQ; cbn; lia|lia].
      - destruct (plus_facts _ _ _ _ _ I TE) as (o' & J' & P' & L' & _). assert (o' = o) by (apply (cnt_same ts); auto; eapply cnt_le; exact I).
        subst o'. congruence. }
    subst e. cbn in K. subst k. destruct (Z_lt_ge_dec a (sa_ptr x + sa_first x)) as [LT|GE].
    + left. exists (sa_first x). rewrite <- P, EQ. cbn. repeat split; try lia; [exact E|]. apply filter_In. split; [|apply within_eq; cbn; lia].
      apply in_or_app. right. apply in_flat_map. exists o. auto.
    + right. rewrite E. cbn. split; [lia|]. apply existsb_exists. exists (second x). split; [apply in_flat_map; exists o; auto|apply within_eq; cbn; lia].
  - assert (T : tr H ts q) by (left; split; [apply in_or_app; auto|exact MN]).
    destruct (proj2 (i_mi _ _ _ _ I) _ T) as (c1 & M1 & _).
    destruct (tfind (t_map s 0) a) as [[k c]|] eqn:TF; [|generalize (tfind_none _ _ _ _ TF M1); lia].
    destruct (tfind_some _ _ _ _ TF) as (M & KA & MX). specialize (MX _ _ M1 (proj1 W)).
    destruct (proj1 (i_mi _ _ _ _ I) _ _ M) as (e & K & E & TE). exists k, c. split; [reflexivity|]. left.
    destruct TE as [(TE & NM)|TE].
    + pose proof (ar_size _ AREA e (area _ _ _ TE)). assert (e = q) by (apply (ar_same _ e q k AREA (area _ _ _ TE) QA); lia). subst e k.
      exists (r_size q). rewrite <- P. repeat split; try lia; [exact E|]. apply filter_In. split; [|apply within_eq; cbn; lia]. apply in_or_app. left. destruct q; exact Q.
    + destruct (plus_facts _ _ _ _ _ I TE) as (o & J & PO & LO & PA & [(x & -> & WH & F & MO)|(y & -> & WH & F)]); cbn in K; subst k.
      * exfalso. apply MN. apply in_flat_map. exists o. split; [exact J|]. rewrite MO. left.
        apply (ar_same _ (whole x) q (sa_ptr x) AREA); [apply in_or_app; auto|exact QA|cbn; lia|lia].
      * assert (union y = q) by (apply (ar_same _ (union y) q (ma_hi y) AREA); [apply in_or_app; auto|exact QA|cbn; lia|lia]).
        subst q. cbn in *. exists (ma_lo y + ma_size y - ma_hi y). rewrite <- P. repeat split; try lia; [exact E|].
        apply filter_In. split; [|apply within_eq; cbn; lia]. apply in_or_app. right. apply in_flat_map. exists o. auto.
Qed.

(* ---- assembling the invariant after a step ---- *)
Lemma nodup_r {A} (l m : list A) : NoDup (l ++ m) -> NoDup m.
Proof. induction l as [|x l IH]; cbn; intros H; [exact H|]. inversion H; auto. Qed.
Lemma inv_info s s' (m m' : bool) H t q r : sinv s m H (t :: r) -> t_map s' 0 = t_map s 0 ->
  RI s' (flat_map own (q ++ r)) (flat_map srefers (q ++ r)) ->
  (forall c, In c (recs s) \/ In c (flat_map srefers r) \/ In c (flat_map own r) -> t_info s' c = t_info s c) ->
  flat_map sregion q = sregion t \/ flat_map sregion q = [] -> flat_map otracked q = otracked t -> flat_map minus q = minus t ->
  flat_map plus q = plus t -> (length (flat_map locked q) + length (flat_map locked r) = if m' then 1 else 0)%nat ->
  (forall o, In o q -> loc s' H o) -> sinv s' m' H (q ++ r).
Proof.
  intros I EM R E SR OT MN PL CN L. constructor; auto.
  - rewrite flat_map_app. pose proof (i_ar _ _ _ _ I) as A. cbn in A. destruct SR as [-> | ->]; [exact A|]. cbn. destruct A as [A1 A2 A3].
    assert (S : forall x, In x (H ++ flat_map sregion r) -> In x (H ++ sregion t ++ flat_map sregion r)).
    { intros x X. apply in_app_or in X. apply in_or_app. destruct X; [auto|right; apply in_or_app; auto]. }
    constructor; auto. apply (nodup_r (sregion t)).
    eapply Permutation_NoDup; [|exact A1]. rewrite !app_assoc. apply Permutation_app_tail. apply Permutation_app_comm.
  - eapply MI_iff; [eapply MI_info; [exact (i_mi _ _ _ _ I)|exact EM|]|].
    + intros c J. apply E. auto.
    + intros x. unfold tr. rewrite !flat_map_app, OT, MN, PL. cbn. tauto.
  - rewrite flat_map_app, app_length. exact CN.
  - intros o J. apply in_app_or in J. destruct J as [J|J]; [auto|]. pose proof (i_loc _ _ _ _ I o (or_intror J)) as LO.
    revert LO. apply loc_frame.
    + intros c [X|[X|X]]; apply E; [auto|right; left|right; right]; apply in_flat_map; exists o; auto.
    + intros k c X _. rewrite EM. exact X.
    + auto.
    + tauto.
Qed.
Lemma inv_local s (m m' : bool) H t q r : sinv s m H (t :: r) -> Permutation (own t) (own q) ->
  (forall c, In c (srefers q) -> In c (srefers t) \/ In c (recs s) \/ In c (own t)) ->
  sregion q = sregion t -> otracked q = otracked t -> minus q = minus t -> plus q = plus t ->
  (length (locked q) + length (flat_map locked r) = if m' then 1 else 0)%nat ->
  loc s H q -> sinv s m' H (q :: r).
Proof.
  intros I O RF A B C D E F. apply (inv_info s s m m' H t [q] r); cbn; rewrite ?app_nil_r; auto.
  - eapply RI_sub; [exact (i_ri _ _ _ _ I)|cbn; apply Permutation_app_tail, O|]. cbn. intros c J. apply in_app_or in J.
    destruct J as [J|J]; [|left; apply in_or_app; auto]. destruct (RF c J) as [X|[X|X]]; [left; apply in_or_app; auto|auto|right; right; apply in_or_app; auto].
  - intros o [<-|[]]. exact F.
Qed.
Lemma cnt_same_lock s (m : bool) H t r (q : spc) : sinv s m H (t :: r) -> locked q = locked t -> (length (locked q) + length (flat_map locked r) = if m then 1 else 0)%nat.
Proof. intros I E. rewrite E, <- app_length. exact (i_cnt _ _ _ _ I). Qed.

Lemma inv_new s s' m H t q r c i : sinv s m H (t :: r) -> rec_new s i = (s', c) -> Permutation (c :: own t) (own q) ->
  (forall x, In x (srefers q) -> In x (srefers t)) ->
  sregion q = sregion t -> otracked q = otracked t -> minus q = minus t -> plus q = plus t -> locked q = locked t ->
  (t_map s' = t_map s -> t_info s' c = i -> (forall x, In x (recs s) \/ In x (srefers t) \/ In x (own t) -> t_info s' x = t_info s x) -> loc s' H q) ->
  sinv s' m H (q :: r).
Proof.
  intros I N O RF A B C D E F. destruct (RI_new _ _ _ _ _ _ (i_ri _ _ _ _ I) N) as (R & EM & EI & N1 & N2 & N3). cbn in N2, N3, R.
  assert (SAME : forall x, In x (recs s) \/ In x (srefers t ++ flat_map srefers r) \/ In x (own t ++ flat_map own r) -> t_info s' x = t_info s x).
  { intros x X. rewrite EI, upd_ne; [reflexivity|]. intros ->. tauto. }
  apply (inv_info s s' m m H t [q] r); cbn; rewrite ?app_nil_r; auto.
  - rewrite EM. reflexivity.
  - eapply RI_sub; [exact R| |].
    + change (c :: own t ++ flat_map own r) with ((c :: own t) ++ flat_map own r). apply Permutation_app_tail, O.
    + intros x X. left. apply in_app_or in X. apply in_or_app. destruct X; auto.
  - intros x [X|[X|X]]; apply SAME; rewrite ?in_app_iff; auto.
  - rewrite E, <- app_length. exact (i_cnt _ _ _ _ I).
  - intros o [<-|[]]. apply F; auto; [rewrite EI, upd_eq; reflexivity|]. intros x [X|[X|X]]; apply SAME; rewrite ?in_app_iff; auto.
Qed.
Lemma inv_free s m H t (q : list spc) r c : sinv s m H (t :: r) -> sunread r c -> Permutation (own t) (c :: flat_map own q) -> srefers t = [] -> flat_map srefers q = [] ->
  flat_map sregion q = sregion t \/ flat_map sregion q = [] -> flat_map otracked q = otracked t -> flat_map minus q = minus t ->
  flat_map plus q = plus t -> flat_map locked q = locked t ->
  (forall o, In o q -> (forall x, In x (recs s) \/ In x (flat_map own q) -> t_info (rec_free s c) x = t_info s x) -> loc (rec_free s c) H o) ->
  sinv (rec_free s c) m H (q ++ r).
Proof.
  intros I U O RT RQ A B C D E F.
  assert (R0 : RI s (c :: flat_map own q ++ flat_map own r) (flat_map srefers r)).
  { eapply RI_sub; [exact (i_ri _ _ _ _ I)| |].
    - cbn. change (c :: flat_map own q ++ flat_map own r) with ((c :: flat_map own q) ++ flat_map own r). apply Permutation_app_tail, O.
    - intros x X. left. cbn. rewrite RT. exact X. }
  destruct (RI_free _ _ _ _ R0 U) as (R & N1 & N2).
  assert (SAME : forall x, x <> c -> t_info (rec_free s c) x = t_info s x) by (intros x X; cbn; apply upd_ne, X).
  apply (inv_info s (rec_free s c) m m H t q r); auto.
  - rewrite !flat_map_app, RQ. exact R.
  - intros x X. apply SAME. intros ->. destruct X as [X|[X|X]]; [exact (N1 X)|exact (U X)|apply N2, in_or_app; auto].
  - rewrite E, <- app_length. exact (i_cnt _ _ _ _ I).
  - intros o J. apply F; auto. intros x X. apply SAME. intros ->. destruct X as [X|X]; [exact (N1 X)|apply N2, in_or_app; auto].
Qed.

(* the search under the mutex *)
Lemma gstep_ok s (T : reg -> Prop) H a leaf g : MI s T -> (forall q, In q H -> T q) -> gloc s H a g ->
  (match g with GOut _ => False | _ => True end) ->
  gloc s H a (gstep s a leaf g) /\ forall c, In c (grefs (gstep s a leaf g)) -> In c (grefs g) \/ In c (recs s).
Proof.
  intros (FW & BW) HT L NG.
  assert (OUT : forall k c, grec s H a k c -> gloc s H a (gout a leaf 0 None (Some (k, c))) /\ forall x, In x (grefs (gout a leaf 0 None (Some (k, c)))) -> x = c).
  { intros k c G. unfold gout. destruct (Z.eqb_spec k a) as [->|N].
    - destruct leaf; cbn; (split; [|intros x [<-|[]]; reflexivity]); repeat split; auto; apply G; reflexivity.
    - cbn. split; [apply G, N|intros x []]. }
  destruct g as [l par last|l par k c|l par k c|l par k c|l par k c|]; [| | | | |destruct NG]; cbn [gloc gstep grefs] in *.
  - destruct L as (-> & -> & ->). destruct (tfind (t_map s 0) a) as [[k c]|] eqn:F.
    + destruct (tfind_some _ _ _ _ F) as (M & KA & MX). cbn. split.
      * repeat split; auto.
        -- destruct (FW _ _ M) as (e & _ & E & _). rewrite E. reflexivity.
        -- intros ->. exact M.
        -- intros N q Q E. destruct (BW q (HT q Q)) as (c1 & M1 & _). rewrite E in M1. specialize (MX _ _ M1). lia.
      * intros x [<-|[]]. right. eapply recs_in, M.
    + cbn. split; [|intros x []]. intros q Q E. destruct (BW q (HT q Q)) as (c1 & M1 & _). generalize (tfind_none _ _ _ _ F M1). lia.
  - destruct L as (-> & -> & G). destruct (a <? _).
    + cbn. split; [auto|]. auto.
    + destruct (OUT k c G) as (X & Y). split; [exact X|]. intros x J. left. left. symmetry. apply Y, J.
  - destruct L as (-> & -> & G). pose proof G as (E & _). rewrite E. cbn. split; auto.
  - destruct L as (-> & -> & G). pose proof G as (E & _). rewrite E. cbn [Z.eqb]. destruct (OUT k c G) as (X & Y). split; [exact X|].
    intros x J. left. left. symmetry. apply Y, J.
  - destruct L as (-> & -> & -> & G). pose proof G as (E & M & _). rewrite E. cbn. split; auto.
Qed.

(* changes of the list of allocations *)
Lemma hdel_out z R : ~ In z R -> filter (fun q => negb (reg_eqb q z)) R = R.
Proof.
  induction R as [|w R IH]; cbn; intros NR; [reflexivity|]. destruct (reg_eqb w z) eqn:E; [apply reg_eqb_eq in E; tauto|]. cbn. f_equal. apply IH. tauto.
Qed.
Lemma split_AR H R x : AR (H ++ R) -> In (whole x) H -> 0 < sa_first x < sa_size x -> AR ((first x :: second x :: hdel (whole x) H) ++ R).
Proof.
  intros A W F. cbn [app]. pose proof A as [N D S].
  assert (SUB : forall q, In q (hdel (whole x) H ++ R) -> In q (H ++ R) /\ q <> whole x).
  { intros q Q. apply in_app_or in Q. destruct Q as [Q|Q]; [apply hdel_in in Q; split; [apply in_or_app; tauto|tauto]|].
    split; [apply in_or_app; auto|]. intros ->. exact (nodup_app _ _ _ N W Q). }
  assert (WI : In (whole x) (H ++ R)) by (apply in_or_app; auto).
  assert (DJ : forall q, In q (hdel (whole x) H ++ R) -> disjoint (first x) q /\ disjoint (second x) q).
  { intros q Q. destruct (SUB q Q) as (Q' & NE). generalize (D _ _ Q' WI NE). unfold disjoint. cbn. lia. }
  assert (SZ : forall q, In q (hdel (whole x) H ++ R) -> 0 < r_size q) by (intros q Q; apply S, SUB, Q).
  assert (FS : disjoint (first x) (second x)) by (unfold disjoint; cbn; lia).
  assert (SYM : forall p q, disjoint p q -> disjoint q p) by (unfold disjoint; lia).
  constructor.
  - constructor; [|constructor].
    + intros [E|Q]; [|generalize (DJ _ Q) (SZ _ Q); unfold disjoint; cbn; lia]. assert (r_ptr (second x) = r_ptr (first x)) by congruence. cbn in *. lia.
    + intros Q. generalize (DJ _ Q) (SZ _ Q). unfold disjoint. cbn. lia.
    + assert (ND : NoDup (filter (fun q => negb (reg_eqb q (whole x))) (H ++ R))) by (apply NoDup_filter, N).
      rewrite filter_app in ND. fold (hdel (whole x) H) in ND.
      replace (filter (fun q => negb (reg_eqb q (whole x))) R) with R in ND; [exact ND|].
      symmetry. apply hdel_out. intros X. exact (nodup_app _ _ _ N W X).
  - intros p q [<-|[<-|P]] [<-|[<-|Q]] NE; try contradiction; auto; try (apply SYM; auto; fail); try (apply (DJ _ Q)); try (apply SYM, (DJ _ P)).
    destruct (SUB _ P), (SUB _ Q). apply D; auto.
  - intros p [<-|[<-|P]]; cbn; try lia. auto.
Qed.
Lemma split_cov H x p a n : 0 < sa_first x < sa_size x -> covered H p a n -> covered (first x :: second x :: hdel (whole x) H) p a n.
Proof.
  intros F C z Z0. destruct (C z Z0) as (q & Q & W & P). apply within_eq in W. destruct (reg_dec q (whole x)) as [->|N].
  - cbn in *. destruct (Z_lt_ge_dec z (sa_ptr x + sa_first x)); [exists (first x)|exists (second x)]; rewrite within_eq; cbn; repeat split; auto; lia.
  - exists q. rewrite within_eq. repeat split; auto; try lia. right. right. apply hdel_in. auto.
Qed.
Lemma merge_AR H R y : AR (H ++ R) -> In (lower y) H -> In (upper y) H -> ma_lo y < ma_hi y < ma_lo y + ma_size y ->
  AR ((union y :: hdel (lower y) (hdel (upper y) H)) ++ R).
Proof.
  intros A WL WU F. cbn [app]. pose proof A as [N D S]. set (H' := hdel (lower y) (hdel (upper y) H)).
  assert (SUB : forall q, In q (H' ++ R) -> In q (H ++ R) /\ q <> lower y /\ q <> upper y).
  { intros q Q. apply in_app_or in Q. destruct Q as [Q|Q].
    - unfold H' in Q. rewrite !hdel_in in Q. split; [apply in_or_app; tauto|tauto].
    - split; [apply in_or_app; auto|]. split; intros ->; [exact (nodup_app _ _ _ N WL Q)|exact (nodup_app _ _ _ N WU Q)]. }
  assert (LI : In (lower y) (H ++ R)) by (apply in_or_app; auto). assert (UI : In (upper y) (H ++ R)) by (apply in_or_app; auto).
  assert (DJ : forall q, In q (H' ++ R) -> disjoint (union y) q).
  { intros q Q. destruct (SUB q Q) as (Q' & N1 & N2). generalize (D _ _ Q' LI N1) (D _ _ Q' UI N2) (S _ Q'). unfold disjoint. cbn. lia. }
  assert (SZ : forall q, In q (H' ++ R) -> 0 < r_size q) by (intros q Q; apply S, SUB, Q).
  assert (SYM : forall p q, disjoint p q -> disjoint q p) by (unfold disjoint; lia).
  constructor.
  - constructor.
    + intros Q. generalize (DJ _ Q) (SZ _ Q). unfold disjoint. cbn. lia.
    + replace (H' ++ R) with (filter (fun q => negb (reg_eqb q (lower y))) (filter (fun q => negb (reg_eqb q (upper y))) (H ++ R))); [apply NoDup_filter, NoDup_filter, N|].
      rewrite !filter_app, (hdel_out (upper y) R), (hdel_out (lower y) R); [reflexivity| |]; intros X; [exact (nodup_app _ _ _ N WL X)|exact (nodup_app _ _ _ N WU X)].
  - intros p q [<-|P] [<-|Q] NE; try contradiction; auto. destruct (SUB _ P), (SUB _ Q). apply D; auto.
  - intros p [<-|P]; cbn; try lia. auto.
Qed.
Lemma merge_cov H y p a n : ma_lo y < ma_hi y < ma_lo y + ma_size y -> covered H p a n -> covered (union y :: hdel (lower y) (hdel (upper y) H)) p a n.
Proof.
  intros F C z Z0. destruct (C z Z0) as (q & Q & W & P). apply within_eq in W. destruct (reg_dec q (lower y)) as [->|N1]; [|destruct (reg_dec q (upper y)) as [->|N2]].
  - cbn in *. exists (union y). rewrite within_eq. cbn. repeat split; auto; lia.
  - cbn in *. exists (union y). rewrite within_eq. cbn. repeat split; auto; lia.
  - exists q. rewrite within_eq. repeat split; auto; try lia. right. rewrite !hdel_in. auto.
Qed.

(* a step of the holder of the mutex that changes the map *)
Lemma inv_map s s' m H H' t q r : sinv s m H (t :: r) -> locked t = [tt] -> locked q = [tt] -> t_info s' = t_info s ->
  RI s' (own q ++ flat_map own r) (srefers q ++ flat_map srefers r) -> sregion t = [] -> sregion q = [] -> otracked t = [] -> otracked q = [] ->
  AR (H' ++ flat_map sregion r) ->
  MI s' (fun x => (In x (H' ++ flat_map otracked r) /\ ~ In x (minus q)) \/ In x (plus q)) ->
  (forall k c x, In (k, c) (t_map s 0) -> In x (flat_map sregion r) -> k = r_ptr x -> In (k, c) (t_map s' 0)) ->
  (forall p a n, covered H p a n -> covered H' p a n) -> loc s' H' q -> sinv s' m H' (q :: r).
Proof.
  intros I LT LQ EI R ST SQ OT OQ A M G C L. destruct (excl _ _ _ _ _ I LT) as (_ & UN).
  assert (N1 : flat_map minus r = []) by (apply fm_nil; intros o J; apply unlocked_nil, UN, J).
  assert (N2 : flat_map plus r = []) by (apply fm_nil; intros o J; apply unlocked_nil, UN, J).
  constructor.
  - exact R.
  - cbn. rewrite SQ. exact A.
  - eapply MI_iff; [exact M|]. intros x. unfold tr. cbn. rewrite OQ, N1, N2, !app_nil_r. tauto.
  - pose proof (i_cnt _ _ _ _ I) as X. cbn in X |- *. rewrite LT in X. rewrite LQ. exact X.
  - intros o [<-|J]; [exact L|]. pose proof (i_loc _ _ _ _ I o (or_intror J)) as LO. revert LO. apply loc_frame.
    + intros c _. rewrite EI. reflexivity.
    + intros k c X [(Y & _)|(x & Y & E)]; [rewrite (UN o J) in Y; contradiction|]. apply (G k c x X); [apply in_flat_map; exists o; auto|exact E].
    + intros p a n _. apply C.
    + intros Y. rewrite (UN o J) in Y. contradiction.
Qed.
