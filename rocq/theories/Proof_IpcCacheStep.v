From Verif Require Import Base Model_IpcCache Spec_IpcCache Proof_IpcCache.

Section S.
Variable hsize : Z -> Z -> Z -> Z.
Variables limit one : Z.
Notation Inv := (Inv hsize limit one).

Notation unheld v := (idle (v_holds v)).

Lemma find_split : forall A (f : A -> bool) l x, find f l = Some x -> exists l1 l2, l = l1 ++ x :: l2 /\ f x = true /\ forall y, In y l1 -> f y = false.
Proof.
  intros A f l. induction l as [|a l IH]; intros x E; [discriminate|]. cbn [find] in E. destruct (f a) eqn:F.
  - injection E as <-. exists [], l. cbn. intuition.
  - destruct (IH x E) as (l1 & l2 & -> & FX & N). exists (a :: l1), l2. split; [reflexivity|]. split; [exact FX|]. intros y [<-|Y]; auto.
Qed.
Lemma ref_zero : forall s v e, Inv s v -> In e (i_lru s) -> (c_ref e = 0 <-> unheld v (c_key e)).
Proof.
  intros s v e I H. rewrite (i_refs _ _ _ _ _ I e H). split.
  - intros Z h HH E. assert (X : In h (filter (holds_key (c_key e)) (v_holds v))) by (apply filter_In; split; [exact HH|apply key_eqb_eq, E]).
    destruct (filter (holds_key (c_key e)) (v_holds v)); [destruct X|cbn in Z; lia].
  - intros U. rewrite filter_none; [reflexivity|]. intros h HH. apply key_eqb_neq. exact (U h HH).
Qed.
Lemma filter_all : forall A (f : A -> bool) l, (forall x, In x l -> f x = true) -> filter f l = l.
Proof. intros A f l. induction l as [|a l IH]; intros H; [reflexivity|]. cbn [filter]. rewrite (H a (or_introl eq_refl)). f_equal. apply IH. intros x X. apply H. right. exact X. Qed.

Definition chosen (s : istate) (v : view) (k : key) (e : centry) : Prop :=
  In e (i_lru s) /\ unheld v (c_key e) /\ k_prov (c_key e) = k_prov k /\
  (c_key e = k \/ limit <> 0 /\ limit <= Z.of_nat (length (i_lru s)) /\
     forall x, In x (i_lru s) -> x <> e -> unheld v (c_key x) -> before (map c_key (i_lru s)) (c_key x) (c_key e)).

Lemma evict_ok : forall s v k hid size e, Inv s v -> chosen s v k e -> (forall x, In x (i_lru s) -> x <> e -> c_key x <> k) -> (limit = 0 \/ k_prov k = one) ->
  Inv (IState (CEntry (c_id e) k 1 hid 0 0 :: without (c_id e) (i_lru s)) (i_cur s - 1 + 1) (i_max s) (fst (ipcOpenedCacheEvictionCallback (i_segs s) k (c_base e) (c_size e))) (i_next s))
      (held v k hid 0 size (after (v_maps v) [EvClose (k_prov (c_key e)) (c_base e) (c_size e)])).
Proof.
  intros s v k hid size e I (IN & U & PR & _) NK ON. pose proof (remove_ok hsize limit one s v I e IN) as R.
  assert (HF : filter (fun h => negb (key_eqb (h_key h) (c_key e))) (v_holds v) = v_holds v).
  { apply filter_all. intros h H. rewrite (proj2 (key_eqb_neq _ _)); [reflexivity|exact (U h H)]. }
  assert (A : Inv (IState (CEntry (c_id e) k 1 hid 0 0 :: i_lru (removed s e)) (i_cur (removed s e) + 1) (i_max (removed s e)) (i_segs (removed s e)) (i_next s))
                  (held (unmapped v e) k hid 0 size (v_maps (unmapped v e)))).
  { apply add_ok; [exact R| |exact (i_fresh _ _ _ _ _ I e IN)|cbn; lia|exact ON|].
    - intros x X. cbn in X. apply without_in in X. split; [|tauto]. apply NK; [tauto|]. intros ->. tauto.
    - destruct (i_peak _ _ _ _ _ I) as [Z|P]; [left; exact Z|right]. cbn [removed i_lru unmapped v_peak]. rewrite (without_length _ e (i_ids _ _ _ _ _ I) IN) in P. lia. }
  unfold held, unmapped in A. cbn [v_holds v_maps v_used v_peak] in A. rewrite HF in A. exact A.
Qed.

Lemma close_named : forall s v e, Inv s v -> In e (i_lru s) -> closes_ok (v_maps v) [EvClose (k_prov (c_key e)) (c_base e) (c_size e)].
Proof.
  intros s v e I H. cbn [closes_ok]. split; [|trivial]. destruct (Z.eq_dec (c_base e) 0) as [Z|B]; [left; exact Z|right].
  exists (mapping_of e). split; [exact (entry_map _ _ _ _ _ I e H B)|]. unfold closes, mapping_of. cbn. rewrite !Z.eqb_refl. reflexivity.
Qed.

Lemma find_key : forall s v e, Inv s v -> In e (i_lru s) -> find (fun x => key_eqb (c_key x) (c_key e)) (i_lru s) = Some e.
Proof.
  intros s v e I H. destruct (find (fun x => key_eqb (c_key x) (c_key e)) (i_lru s)) as [x|] eqn:F.
  - apply find_some in F. destruct F as (X & K). apply key_eqb_eq in K. f_equal. exact (entry_key _ _ _ _ _ I x e X H K).
  - apply (find_none _ _ F) in H. apply key_eqb_neq in H. congruence.
Qed.
Lemma find_hid : forall s v e, Inv s v -> In e (i_lru s) -> find (fun x => key_eqb (c_key x) (c_key e) && (c_hid x =? c_hid e)) (i_lru s) = Some e.
Proof.
  intros s v e I H. destruct (find (fun x => key_eqb (c_key x) (c_key e) && (c_hid x =? c_hid e)) (i_lru s)) as [x|] eqn:F.
  - apply find_some in F. destruct F as (X & K). apply andb_true_iff in K. destruct K as (K & _). apply key_eqb_eq in K. f_equal. exact (entry_key _ _ _ _ _ I x e X H K).
  - apply (find_none _ _ F) in H. apply andb_false_iff in H. destruct H as [H|H]; [apply key_eqb_neq in H; congruence|rewrite Z.eqb_refl in H; discriminate].
Qed.

Definition got (s : istate) (v : view) (k : key) (hid size : Z) (s1 : istate) (evs : list event) (e1 : centry) : Prop :=
  (exists rest, i_lru s1 = e1 :: rest) /\ c_key e1 = k /\ c_hid e1 = hid /\
  Inv s1 (held v k hid 0 size (after (v_maps v) evs)) /\ closes_ok (v_maps v) evs /\
  ((evs = [] /\ (c_base e1 <> 0 -> exists e, In e (i_lru s) /\ c_key e = k /\ c_hid e = hid /\ c_base e = c_base e1 /\ c_size e = c_size e1) /\
     ((exists e, In e (i_lru s) /\ c_key e = k) \/ limit = 0 \/ Z.of_nat (length (i_lru s)) < limit \/ forall x, In x (i_lru s) -> ~ unheld v (c_key x))) \/
   exists e, chosen s v k e /\ evs = [EvClose (k_prov (c_key e)) (c_base e) (c_size e)] /\ c_base e1 = 0 /\ (c_key e = k -> c_hid e <> hid)).

Lemma get_ok : forall s v k hid size o, Inv s v -> no_clash v k hid -> (limit = 0 \/ k_prov k = one) -> oo_mutex o = true ->
  umfIpcOpenedCacheGet s k hid o = Some (ERR_OUT_OF_HOST_MEMORY, 0, s, []) \/
  exists s1 evs e1, umfIpcOpenedCacheGet s k hid o = Some (SUCCESS, c_id e1, s1, evs) /\ got s v k hid size s1 evs e1.
Proof.
  intros s v k hid size o I NC ON OM. unfold umfIpcOpenedCacheGet.
  destruct (find (fun e => key_eqb (c_key e) k && (c_hid e =? hid)) (i_lru s)) as [e|] eqn:F2.
  { right. apply find_some in F2. destruct F2 as (IN & K). apply andb_true_iff in K. destruct K as (K & D). apply key_eqb_eq in K. apply Z.eqb_eq in D.
    assert (EQ : forall T (x y : T), match find (fun e0 : centry => key_eqb (c_key e0) k) (i_lru s) with Some _ => x | None => x end = x) by (intros; destruct (find _ _); reflexivity).
    exists (IState (CEntry (c_id e) (c_key e) (c_ref e + 1) (c_hid e) (c_base e) (c_size e) :: without (c_id e) (i_lru s)) (i_cur s) (i_max s) (i_segs s) (i_next s)), [],
           (CEntry (c_id e) (c_key e) (c_ref e + 1) (c_hid e) (c_base e) (c_size e)).
    split; [destruct (find _ _); reflexivity|]. split; [eexists; reflexivity|]. cbn [c_key c_hid c_base c_size]. split; [exact K|]. split; [exact D|].
    split; [rewrite <- K, <- D; exact (hit_ok hsize limit one s v I e size IN)|]. split; [exact Logic.I|]. left. split; [reflexivity|]. split; [intros _; exists e; auto|]. left. exists e. auto. }
  assert (NF : forall x, In x (i_lru s) -> c_key x = k -> c_hid x <> hid).
  { intros x X K D. apply (find_none _ _ F2) in X. rewrite (proj2 (key_eqb_eq _ _) K), D, Z.eqb_refl in X. discriminate. }
  destruct (find (fun e => key_eqb (c_key e) k) (i_lru s)) as [e|] eqn:F1.
  { right. apply find_some in F1. destruct F1 as (IN & K). apply key_eqb_eq in K.
    assert (C : chosen s v k e).
    { split; [exact IN|]. split; [|split; [congruence|left; exact K]]. intros h H E. apply (NF e IN K). destruct (i_hold _ _ _ _ _ I h H) as (x & X & KX & DX & _).
      rewrite (entry_key _ _ _ _ _ I x e X IN) in * by congruence. rewrite DX. apply NC; [exact H|congruence]. }
    cbv beta zeta iota. unfold ipcOpenedCacheEvictionCallback.
    eexists _, _, (CEntry (c_id e) k 1 hid 0 0). split; [reflexivity|]. split; [eexists; reflexivity|]. split; [reflexivity|]. split; [reflexivity|].
    assert (PE : k_prov k = k_prov (c_key e)) by (rewrite K; reflexivity). rewrite PE.
    split; [apply (evict_ok s v k hid size e I C); [intros x X N E; apply N; apply (entry_key _ _ _ _ _ I x e X IN); congruence|exact ON]|].
    split; [exact (close_named s v e I IN)|]. right. exists e. split; [exact C|]. split; [reflexivity|]. split; [reflexivity|exact (NF e IN)]. }
  assert (NK : forall x, In x (i_lru s) -> c_key x <> k).
  { intros x X K. apply (find_none _ _ F1) in X. rewrite (proj2 (key_eqb_eq _ _) K) in X. discriminate. }
  assert (GROW : (limit = 0 \/ Z.of_nat (length (i_lru s)) + 1 <= Z.max limit (Z.max (v_peak v) (Z.of_nat (length (distinct (k :: map h_key (v_holds v))))))) ->
    (limit = 0 \/ Z.of_nat (length (i_lru s)) < limit \/ forall x, In x (i_lru s) -> ~ unheld v (c_key x)) ->
    (if negb (oo_entry o) then Some (ERR_OUT_OF_HOST_MEMORY, 0, s, @nil event)
     else if negb (oo_mutex o) then None
     else Some (SUCCESS, i_next s, IState (CEntry (i_next s) k 1 hid 0 0 :: i_lru s) (i_cur s + 1) (i_max s) (i_segs s) (i_next s + 1), @nil event)) =
      Some (ERR_OUT_OF_HOST_MEMORY, 0, s, @nil event) \/
    exists s1 evs e1, (if negb (oo_entry o) then Some (ERR_OUT_OF_HOST_MEMORY, 0, s, @nil event)
     else if negb (oo_mutex o) then None
     else Some (SUCCESS, i_next s, IState (CEntry (i_next s) k 1 hid 0 0 :: i_lru s) (i_cur s + 1) (i_max s) (i_segs s) (i_next s + 1), @nil event)) =
      Some (SUCCESS, c_id e1, s1, evs) /\ got s v k hid size s1 evs e1).
  { intros PK WHY. rewrite OM. destruct (oo_entry o); cbn [negb]; [right|left; reflexivity].
    eexists _, _, (CEntry (i_next s) k 1 hid 0 0). split; [reflexivity|]. split; [eexists; reflexivity|]. split; [reflexivity|]. split; [reflexivity|].
    split; [|split; [exact Logic.I|left; split; [reflexivity|split; [intros X; destruct (X eq_refl)|right; exact WHY]]]].
    apply (add_ok hsize limit one s v I); auto; try lia. intros e H. pose proof (i_fresh _ _ _ _ _ I e H). split; [exact (NK e H)|lia]. }
  destruct (i_limit _ _ _ _ _ I) as (ML & LP). rewrite ML, (i_count _ _ _ _ _ I) in *.
  destruct (negb (limit =? 0) && (limit <=? Z.of_nat (length (i_lru s)))) eqn:FULL.
  - apply andb_true_iff in FULL. destruct FULL as (L0 & LE). apply negb_true_iff, Z.eqb_neq in L0. apply Z.leb_le in LE.
    destruct (i_lru s) as [|e0 l0] eqn:EL; [cbn in LE; lia|]. rewrite <- EL in *. cbv beta zeta iota.
    destruct (find (fun e => c_ref e =? 0) (rev (i_lru s))) as [e|] eqn:F3; cbv beta zeta iota.
    + right. destruct (find_split _ _ _ _ F3) as (r1 & r2 & ER & RZ & RN). apply Z.eqb_eq in RZ.
      assert (ES : i_lru s = rev r2 ++ e :: rev r1) by (rewrite <- (rev_involutive (i_lru s)), ER, rev_app_distr; cbn; rewrite <- app_assoc; reflexivity).
      assert (IN : In e (i_lru s)) by (rewrite ES; apply in_elt).
      assert (C : chosen s v k e).
      { split; [exact IN|]. split; [exact (proj1 (ref_zero s v e I IN) RZ)|].
        split; [destruct (i_one _ _ _ _ _ I) as [Z|O]; [congruence|]; destruct ON as [Z|O2]; [congruence|]; rewrite (O e IN); congruence|].
        right. split; [exact L0|]. split; [exact LE|]. intros x X N U. apply (ref_zero s v x I X) in U.
        assert (XR : In x (rev r2)).
        { rewrite ES in X. apply in_app_or in X. destruct X as [X|[X|X]]; [exact X|congruence|]. apply in_rev in X. apply RN in X. rewrite U in X. discriminate. }
        apply in_split in XR. destruct XR as (a & b & XR). rewrite ES, XR. exists (map c_key a), (map c_key b), (map c_key (rev r1)).
        rewrite map_app. rewrite map_app. cbn [map]. rewrite <- app_assoc. reflexivity. }
      unfold ipcOpenedCacheEvictionCallback.
      eexists _, _, (CEntry (c_id e) k 1 hid 0 0). split; [reflexivity|]. split; [eexists; reflexivity|]. split; [reflexivity|]. split; [reflexivity|].
      pose proof C as (_ & _ & PE & _). rewrite <- PE.
      pose proof (evict_ok s v k hid size e I C (fun x X _ => NK x X) ON) as EV. rewrite ML, (i_count _ _ _ _ _ I) in EV.
      split; [exact EV|]. split; [exact (close_named s v e I IN)|]. right. exists e. split; [exact C|]. split; [reflexivity|]. split; [reflexivity|]. intros K. destruct (NK e IN K).
    + assert (ALL : forall x, In x (i_lru s) -> exists h, In h (v_holds v) /\ h_key h = c_key x).
      { intros x X. pose proof (find_none _ _ F3 x (proj1 (in_rev _ _) X)) as Z. cbn in Z. rewrite (i_refs _ _ _ _ _ I x X) in Z.
        destruct (filter (holds_key (c_key x)) (v_holds v)) as [|h t] eqn:FH; [discriminate|].
        assert (HH : In h (filter (holds_key (c_key x)) (v_holds v))) by (rewrite FH; left; reflexivity).
        apply filter_In in HH. destruct HH as (HH & HK). apply key_eqb_eq in HK. eauto. }
      apply GROW; [right|right; right; intros x X U; destruct (ALL x X) as (h & HH & K); exact (U h HH K)].
      assert (B : (length (k :: map c_key (i_lru s)) <= length (distinct (k :: map h_key (v_holds v))))%nat).
      { apply distinct_bound.
        - constructor; [|exact (i_keys _ _ _ _ _ I)]. intros X. apply in_map_iff in X. destruct X as (x & KX & X). exact (NK x X KX).
        - intros y [<-|Y]; [left; reflexivity|]. right. apply in_map_iff in Y. destruct Y as (x & <- & X). destruct (ALL x X) as (h & HH & <-). apply in_map, HH. }
      cbn [length] in B. rewrite map_length in B. clear - B. lia.
  - cbv beta zeta iota. apply andb_false_iff in FULL. destruct FULL as [Z|LT].
    + apply negb_false_iff, Z.eqb_eq in Z. apply GROW; left; exact Z.
    + apply Z.leb_gt in LT. apply GROW; right; [|left]; lia.
Qed.

(* ---- events ---- *)
Lemma after_app : forall M a b, after M (a ++ b) = after (after M a) b.
Proof. intros. unfold after. apply fold_left_app. Qed.
Lemma closes_ok_app : forall a b M, closes_ok M (a ++ b) <-> closes_ok M a /\ closes_ok (after M a) b.
Proof. induction a as [|x a IH]; intros b M; cbn [app closes_ok]; [tauto|]. rewrite IH. unfold after at 2. cbn [fold_left]. unfold after. tauto. Qed.
Lemma opens_ok_app : forall a b M, opens_ok M (a ++ b) <-> opens_ok M a /\ opens_ok (after M a) b.
Proof. induction a as [|x a IH]; intros b M; cbn [app opens_ok]; [tauto|]. rewrite IH. unfold after at 2. cbn [fold_left]. unfold after. tauto. Qed.
Lemma wrap_back : forall a b, 0 <= a < U64 -> wrap (wrap (a + b) - b) = a.
Proof. intros a b H. unfold wrap. rewrite Zminus_mod_idemp_l. replace (a + b - b) with a by lia. apply Z.mod_small, H. Qed.

Lemma find_head : forall (e : centry) rest, find (fun x => c_id x =? c_id e) (e :: rest) = Some e.
Proof. intros. cbn [find]. rewrite Z.eqb_refl. reflexivity. Qed.

(* what one open did *)
Inductive opened (s : istate) (v : view) (k : key) (hid size offset : Z) (up : result * Z) : reply -> Prop :=
| opened_refused : forall r, r_slot r = false -> r_ev r = [] -> r_st r = s -> r_res r <> SUCCESS -> opened s v k hid size offset up r
| opened_got : forall r s1 evs e1, got s v k hid size s1 evs e1 -> r_slot r = true ->
    (c_base e1 <> 0 /\ r_res r = SUCCESS /\ r_ptr r = wrap (c_base e1 + offset) /\ r_ev r = evs /\ r_st r = s1 \/
     c_base e1 = 0 /\ fst up <> SUCCESS /\ r_res r = fst up /\ r_ev r = evs ++ [EvOpenFail k hid] /\ r_st r = s1 \/
     c_base e1 = 0 /\ fst up = SUCCESS /\ r_res r <> SUCCESS /\ r_ev r = evs ++ [EvOpen k hid (snd up) size; EvClose (k_prov k) (snd up) size] /\ r_st r = s1 \/
     c_base e1 = 0 /\ fst up = SUCCESS /\ r_res r = SUCCESS /\ r_ptr r = wrap (snd up + offset) /\ r_ev r = evs ++ [EvOpen k hid (snd up) size] /\
       r_st r = IState (set_mapping (c_id e1) (snd up) size (i_lru s1)) (i_cur s1) (i_max s1) ((snd up, Seg size (k_prov k) (c_id e1)) :: i_segs s1) (i_next s1)) ->
    opened s v k hid size offset up r.

Lemma open_shape : forall s v k hid size offset up o, Inv s v -> open_env hsize v k hid size offset up o -> no_clash v k hid -> (limit = 0 \/ k_prov k = one) ->
  exists r, umfOpenIPCHandle s k hid size offset up o = Some r /\ opened s v k hid size offset up r.
Proof.
  intros s v k hid size offset up o I (SZ & _ & _ & OM & UP) NC ON. unfold umfOpenIPCHandle.
  destruct (get_ok s v k hid size o I NC ON OM) as [->|(s1 & evs & e1 & -> & G)].
  { eexists. split; [reflexivity|]. apply opened_refused; try reflexivity. discriminate. }
  pose proof G as ((rest & EL) & EK & ED & I1 & _). rewrite EL, find_head, <- EL.
  destruct (Z.eqb_spec (c_base e1) 0) as [Z|B]; cbn [negb].
  2:{ eexists. split; [reflexivity|]. apply (opened_got _ _ _ _ _ _ _ _ s1 evs e1); [exact G|reflexivity|]. left. auto. }
  destruct up as (r, p). cbn [fst snd] in *. destruct r.
  2-10: eexists; (split; [reflexivity|]); apply (opened_got _ _ _ _ _ _ _ _ s1 evs e1); [exact G|reflexivity|]; right; left; cbn; repeat split; auto; discriminate.
  specialize (UP eq_refl). destruct (Z.eqb_spec p 0) as [X|_]; [destruct (UP X)|]. unfold umfMemoryTrackerAddIpcSegment.
  assert (FAIL : forall r, r <> SUCCESS -> exists r0, Some (Reply r 0 (evs ++ [EvOpen k hid p size; EvClose (k_prov k) p size]) s1 true) = Some r0 /\ opened s v k hid size offset (SUCCESS, p) r0).
  { intros r N. eexists. split; [reflexivity|]. apply (opened_got _ _ _ _ _ _ _ _ s1 evs e1); [exact G|reflexivity|]. right. right. left. cbn. repeat split; assumption. }
  destruct (oo_value o); cbn [negb]; [|apply FAIL; discriminate]. destruct (seg_get (i_segs s1) p); [apply FAIL; discriminate|]. destruct (oo_leaf o); [|apply FAIL; discriminate].
  eexists. split; [reflexivity|]. apply (opened_got _ _ _ _ _ _ _ _ s1 evs e1); [exact G|reflexivity|]. right. right. right. cbn. repeat split; assumption.
Qed.

Lemma opened_ok : forall s v k hid size offset up o r, Inv s v -> open_env hsize v k hid size offset up o -> opened s v k hid size offset up r ->
  opens_ok (v_maps v) (r_ev r) -> Inv (r_st r) (observe v (COpen k hid size offset up o) r) /\ closes_ok (v_maps v) (r_ev r).
Proof.
  intros s v k hid size offset up o r I (SZ & _ & _ & OM & UP) O OO. destruct O as [r SL EV ST NS|r s1 evs e1 G SL CASES].
  { cbn [observe]. rewrite SL, EV, ST. split; [|exact Logic.I]. destruct v. exact I. }
  pose proof G as ((rest & EL) & EK & ED & I1 & CO & _). cbn [observe]. rewrite SL.
  assert (IN1 : In e1 (i_lru s1)) by (rewrite EL; left; reflexivity).
  destruct CASES as [(B & RS & RP & EV & ST)|[(B & US & RS & EV & ST)|[(B & US & RS & EV & ST)|(B & US & RS & RP & EV & ST)]]].
  - rewrite RS, RP, EV, ST. split; [|exact CO]. destruct (entry_place _ _ _ _ _ I1 e1 IN1 B) as (P1 & P2 & P3). rewrite wrap_back by lia.
    apply (rehold_ok hsize limit one s1 (held v k hid 0 size (after (v_maps v) evs)) (v_holds v) k hid size e1 _ _ I1 IN1 EK ED).
    rewrite (i_size _ _ _ _ _ I1 e1 IN1 B). congruence.
  - rewrite EV, ST. rewrite after_app, closes_ok_app. split; [|split; [exact CO|cbn; auto]].
    replace (match r_res r with SUCCESS => wrap (r_ptr r - offset) | _ => 0 end) with 0 by (rewrite RS; destruct (fst up); congruence). exact I1.
  - rewrite EV in OO. apply opens_ok_app in OO. destruct OO as (_ & OO). cbn [opens_ok] in OO. destruct OO as ((P1 & P2 & P3 & AP) & _).
    rewrite EV, ST, after_app, closes_ok_app.
    replace (match r_res r with SUCCESS => wrap (r_ptr r - offset) | _ => 0 end) with 0 by (destruct (r_res r); congruence).
    assert (EQ : after (after (v_maps v) evs) [EvOpen k hid (snd up) size; EvClose (k_prov k) (snd up) size] = after (v_maps v) evs).
    { set (M := after (v_maps v) evs) in *. unfold after. cbn [fold_left after_event filter]. unfold closes at 1. cbn [m_key m_base m_size]. rewrite !Z.eqb_refl. cbn [negb andb].
      apply filter_all. intros m IN. destruct (closes (k_prov k) (snd up) size m) eqn:C; [exfalso|reflexivity].
      unfold closes in C. rewrite !andb_true_iff, !Z.eqb_eq in C. destruct C as ((_ & C1) & C2). specialize (AP m IN). unfold mapart in AP. lia. }
    rewrite EQ. split; [exact I1|]. split; [exact CO|]. cbn [closes_ok after_event]. split; [trivial|]. split; [|trivial]. right.
    eexists. split; [left; reflexivity|]. unfold closes. cbn. rewrite !Z.eqb_refl. reflexivity.
  - rewrite EV in OO. apply opens_ok_app in OO. destruct OO as (_ & OO). cbn [opens_ok] in OO. destruct OO as ((P1 & P2 & P3 & AP) & _).
    rewrite RS, RP, EV, ST, after_app, closes_ok_app. rewrite wrap_back by lia. split; [|split; [exact CO|cbn; auto]].
    unfold after at 1. cbn [fold_left after_event].
    pose proof (map_ok hsize limit one s1 (held v k hid 0 size (after (v_maps v) evs)) (v_holds v) k hid (snd up) size e1 rest _ _ I1 EL EK ED B SZ P1 P2 P3 AP) as X. exact X.
Qed.

(* ---- close ---- *)
Lemma seg_le_spec : forall m p, (forall x y, In x m -> In y m -> fst x = fst y -> x = y) ->
  match seg_le m p with
  | None => forall x, In x m -> p < fst x
  | Some y => In y m /\ fst y <= p /\ forall x, In x m -> fst x <= p -> fst x <= fst y
  end.
Proof.
  induction m as [|(b, g) m IH]; intros p U; [intros x []|]. cbn [seg_le]. specialize (IH p (fun x y X Y => U x y (or_intror X) (or_intror Y))).
  destruct (seg_le m p) as [(b', g')|].
  - destruct IH as (IN & LE & MX). cbn [fst] in *. destruct ((b <=? p) && (b' <? b)) eqn:C.
    + apply andb_true_iff in C. destruct C as (C1 & C2). apply Z.leb_le in C1. apply Z.ltb_lt in C2. split; [left; reflexivity|]. split; [exact C1|]. intros x [<-|X] L; [cbn; lia|].
      specialize (MX x X L). cbn. lia.
    + split; [right; exact IN|]. split; [exact LE|]. intros x [<-|X] L; [|exact (MX x X L)]. cbn in *. apply andb_false_iff in C. destruct C as [C|C]; [apply Z.leb_gt in C|apply Z.ltb_ge in C]; lia.
  - destruct (Z.leb_spec b p) as [L|L].
    + split; [left; reflexivity|]. split; [exact L|]. intros x [<-|X] LX; [cbn; lia|]. specialize (IH x X). lia.
    + intros x [<-|X]; [exact L|exact (IH x X)].
Qed.

Section C.
Variables (s : istate) (v : view).
Hypothesis I : Inv s v.
Lemma segs_unique : forall x y, In x (i_segs s) -> In y (i_segs s) -> fst x = fst y -> x = y.
Proof.
  intros x y X Y E. apply (i_segm _ _ _ _ _ I) in X, Y. destruct X as (a & A & BA & ->), Y as (b & B & BB & ->). cbn in E.
  rewrite (seg_inj _ _ _ _ _ I a b A B BA E). reflexivity.
Qed.
Lemma seg_get_entry : forall e, In e (i_lru s) -> c_base e <> 0 -> seg_get (i_segs s) (c_base e) = Some (snd (seg_of e)).
Proof.
  intros e H B. unfold seg_get. assert (X : In (seg_of e) (i_segs s)) by (apply (i_segm _ _ _ _ _ I); eauto).
  destruct (find (fun x => fst x =? c_base e) (i_segs s)) as [(b, g)|] eqn:F.
  - apply find_some in F. destruct F as (Y & E). apply Z.eqb_eq in E. rewrite <- (segs_unique _ _ Y X E). reflexivity.
  - apply (find_none _ _ F) in X. cbn in X. rewrite Z.eqb_refl in X. discriminate.
Qed.
Lemma info_entry : forall e p, In e (i_lru s) -> c_base e <> 0 -> c_base e <= p < c_base e + c_size e -> umfMemoryTrackerGetIpcInfo s p = Some (seg_of e).
Proof.
  intros e p H B C. destruct (entry_place _ _ _ _ _ I e H B) as (P1 & P2 & P3). unfold umfMemoryTrackerGetIpcInfo. destruct (Z.eqb_spec p 0) as [Z|_]; [lia|].
  assert (X : In (seg_of e) (i_segs s)) by (apply (i_segm _ _ _ _ _ I); eauto). pose proof (seg_le_spec (i_segs s) p segs_unique) as L.
  destruct (seg_le (i_segs s) p) as [y|].
  - destruct L as (Y & LE & MX). specialize (MX _ X). cbn [fst seg_of] in MX. assert (E : y = seg_of e).
    { apply (i_segm _ _ _ _ _ I) in Y. destruct Y as (f & F & BF & ->). cbn in LE, MX. destruct (entry_apart _ _ _ _ _ I e f H F B BF) as [->|A]; [reflexivity|].
      unfold mapart in A. cbn in A. destruct (entry_place _ _ _ _ _ I f F BF). lia. }
    rewrite E. unfold seg_of. cbn [s_size]. unfold wrap. rewrite Z.mod_small by lia. destruct (p >=? c_base e + c_size e) eqn:G; [|reflexivity]. rewrite Z.geb_leb in G. apply Z.leb_le in G. lia.
  - specialize (L _ X). cbn in L. lia.
Qed.

Lemma drop_split : forall p H, (exists h, In h H /\ h_base h <> 0 /\ h_base h <= p < h_base h + h_size h) ->
  exists H1 h H2, H = H1 ++ h :: H2 /\ drop p H = H1 ++ H2 /\ h_base h <> 0 /\ h_base h <= p < h_base h + h_size h.
Proof.
  intros p H. induction H as [|a H IH]; intros (h & IN & B & C); [destruct IN|]. cbn [drop].
  destruct (negb (h_base a =? 0) && (h_base a <=? p) && (p <? h_base a + h_size a)) eqn:E.
  - rewrite !andb_true_iff in E. destruct E as ((E1 & E2) & E3). apply negb_true_iff, Z.eqb_neq in E1. apply Z.leb_le in E2. apply Z.ltb_lt in E3. exists [], a, H. auto.
  - destruct IN as [->|IN].
    + exfalso. apply Bool.not_true_iff_false in E. apply E. rewrite !andb_true_iff, negb_true_iff, Z.eqb_neq, Z.leb_le, Z.ltb_lt. tauto.
    + destruct (IH (ex_intro _ h (conj IN (conj B C)))) as (H1 & h' & H2 & -> & -> & R). exists (a :: H1), h', H2. auto.
Qed.

Definition released (id : Z) : istate :=
  IState (map (fun e => if c_id e =? id then CEntry (c_id e) (c_key e) (dec64 (c_ref e)) (c_hid e) (c_base e) (c_size e) else e) (i_lru s))
         (i_cur s) (i_max s) (i_segs s) (i_next s).

Lemma close_shape : forall p, (exists h, In h (v_holds v) /\ h_base h <> 0 /\ h_base h <= p < h_base h + h_size h) ->
  exists e, In e (i_lru s) /\ c_base e <> 0 /\ c_base e <= p < c_base e + c_size e /\ umfCloseIPCHandle s p = Some (Reply SUCCESS 0 [] (released (c_id e)) false).
Proof.
  intros p (h & HH & HB & HC). destruct (i_hold _ _ _ _ _ I h HH) as (e & IN & K & D & R). destruct (R HB) as (R1 & R2).
  assert (B : c_base e <> 0) by congruence. exists e. split; [exact IN|]. split; [exact B|]. split; [lia|]. unfold umfCloseIPCHandle.
  rewrite (info_entry e p IN B) by lia. unfold seg_of. rewrite (seg_get_entry e IN B). cbn [snd seg_of s_entry]. unfold umfIpcHandleMappedCacheRelease.
  assert (E : existsb (fun x => c_id x =? c_id e) (i_lru s) = true) by (apply existsb_exists; exists e; split; [exact IN|apply Z.eqb_refl]). rewrite E. reflexivity.
Qed.

Lemma release_ok : forall e p, In e (i_lru s) -> c_base e <> 0 -> c_base e <= p < c_base e + c_size e ->
  (exists h, In h (v_holds v) /\ h_base h <> 0 /\ h_base h <= p < h_base h + h_size h) ->
  Inv (released (c_id e)) (View (drop p (v_holds v)) (v_maps v) (v_used v) (v_peak v)).
Proof.
  intros e p IN B C EX. destruct (drop_split p (v_holds v) EX) as (H1 & h & H2 & EH & -> & HB & HC).
  assert (HIN : In h (v_holds v)) by (rewrite EH; apply in_elt).
  assert (HK : h_key h = c_key e).
  { destruct (i_hold _ _ _ _ _ I h HIN) as (x & X & K & _ & R). destruct (R HB) as (R1 & R2). rewrite <- K. f_equal. apply (entry_at _ _ _ _ _ I x e p); auto; try congruence; lia. }
  set (f := fun x => if c_id x =? c_id e then CEntry (c_id x) (c_key x) (dec64 (c_ref x)) (c_hid x) (c_base x) (c_size x) else x).
  assert (FF : forall x, c_id (f x) = c_id x /\ c_key (f x) = c_key x /\ c_hid (f x) = c_hid x /\ c_base (f x) = c_base x /\ c_size (f x) = c_size x).
  { intros x. unfold f. destruct (c_id x =? c_id e); cbn; auto. }
  assert (MI : map c_id (map f (i_lru s)) = map c_id (i_lru s)) by (rewrite map_map; apply map_ext; intros x; apply FF).
  assert (MK : map c_key (map f (i_lru s)) = map c_key (i_lru s)) by (rewrite map_map; apply map_ext; intros x; apply FF).
  assert (MO : forall x, mapping_of (f x) = mapping_of x) by (intros x; unfold mapping_of; destruct (FF x) as (_ & -> & -> & -> & ->); reflexivity).
  assert (SO : forall x, seg_of (f x) = seg_of x) by (intros x; unfold seg_of; destruct (FF x) as (-> & -> & _ & -> & ->); reflexivity).
  constructor; unfold released; cbn [i_lru i_cur i_max i_segs i_next v_holds v_maps v_used v_peak]; fold f.
  - rewrite MI. exact (i_ids _ _ _ _ _ I).
  - intros x X. apply in_map_iff in X. destruct X as (y & <- & Y). rewrite (proj1 (FF y)). exact (i_fresh _ _ _ _ _ I y Y).
  - rewrite MK. exact (i_keys _ _ _ _ _ I).
  - rewrite map_length. exact (i_count _ _ _ _ _ I).
  - exact (i_limit _ _ _ _ _ I).
  - intros x X. apply in_map_iff in X. destruct X as (y & <- & Y). destruct (FF y) as (_ & FK & _). rewrite FK.
    pose proof (i_refs _ _ _ _ _ I y Y) as RY. rewrite EH, filter_app, app_length in RY. rewrite filter_app, app_length. cbn [filter] in RY.
    change (holds_key (c_key y) h) with (key_eqb (h_key h) (c_key y)) in RY. unfold f. destruct (Z.eqb_spec (c_id y) (c_id e)) as [E|N]; cbn [c_ref].
    + pose proof (entry_id _ _ _ _ _ I y e Y IN E) as ->. rewrite (proj2 (key_eqb_eq _ _) HK) in RY. cbn [length] in RY. unfold dec64. destruct (Z.eqb_spec (c_ref e) 0); lia.
    + rewrite (proj2 (key_eqb_neq _ _)) in RY; [exact RY|]. intros E. apply N. f_equal. apply (entry_key _ _ _ _ _ I); auto. congruence.
  - intros x X. apply in_map_iff in X. destruct X as (y & <- & Y). destruct (FF y) as (_ & -> & -> & -> & ->). exact (i_size _ _ _ _ _ I y Y).
  - intros m. rewrite (i_maps _ _ _ _ _ I). split.
    + intros (y & Y & BY & ->). exists (f y). split; [apply in_map, Y|]. rewrite MO. destruct (FF y) as (_ & _ & _ & -> & _). auto.
    + intros (x & X & BX & ->). apply in_map_iff in X. destruct X as (y & <- & Y). exists y. rewrite MO. destruct (FF y) as (_ & _ & _ & <- & _). auto.
  - intros m. rewrite (i_segm _ _ _ _ _ I). split.
    + intros (y & Y & BY & ->). exists (f y). split; [apply in_map, Y|]. rewrite SO. destruct (FF y) as (_ & _ & _ & -> & _). auto.
    + intros (x & X & BX & ->). apply in_map_iff in X. destruct X as (y & <- & Y). exists y. rewrite SO. destruct (FF y) as (_ & _ & _ & <- & _). auto.
  - exact (i_place _ _ _ _ _ I).
  - exact (i_apart _ _ _ _ _ I).
  - intros g G. destruct (i_hold _ _ _ _ _ I g) as (y & Y & R); [rewrite EH; apply in_or_app; apply in_app_or in G; cbn; tauto|].
    exists (f y). split; [apply in_map, Y|]. destruct (FF y) as (_ & -> & -> & -> & ->). exact R.
  - destruct (i_one _ _ _ _ _ I) as [Z|O]; [left; exact Z|right]. intros x X. apply in_map_iff in X. destruct X as (y & <- & Y). destruct (FF y) as (_ & -> & _). exact (O y Y).
  - rewrite map_length. exact (i_peak _ _ _ _ _ I).
  - rewrite MK. exact (i_used _ _ _ _ _ I).
  - exact (i_once _ _ _ _ _ I).
  - intros x X BX. apply in_map_iff in X. destruct X as (y & <- & Y). destruct (FF y) as (_ & FK & _ & FB & _). rewrite FK. rewrite FB in BX.
    destruct (i_zero _ _ _ _ _ I y Y BX) as (g & G & K). exists g. split; [|exact K]. rewrite EH in G. apply in_app_or in G. apply in_or_app. destruct G as [G|[<-|G]]; auto.
    exfalso. apply B. rewrite <- BX. f_equal. apply (entry_key _ _ _ _ _ I); auto. congruence.
Qed.
End C.

(* ---- destroy ---- *)
Lemma filter_filter : forall A (f g : A -> bool) l, filter f (filter g l) = filter (fun x => g x && f x) l.
Proof. intros A f g l. induction l as [|a l IH]; [reflexivity|]. cbn [filter]. destruct (g a); cbn [andb filter]; [destruct (f a); congruence|exact IH]. Qed.

Definition gone (prov : Z) (l : list centry) (h : hold) : bool := existsb (fun e => (k_prov (c_key e) =? prov) && key_eqb (h_key h) (c_key e)) l.
Lemma destroy_ok : forall prov l s v, Inv s v -> NoDup (map c_id l) -> (forall e, In e l -> In e (i_lru s)) ->
  let (s', evs) := destroy_loop l prov s in
  Inv s' (View (filter (fun h => negb (gone prov l h)) (v_holds v)) (after (v_maps v) evs) (v_used v) (v_peak v)) /\ closes_ok (v_maps v) evs /\
  (forall e, In e (i_lru s') <-> In e (i_lru s) /\ ~ (In e l /\ k_prov (c_key e) = prov)).
Proof.
  intros prov l. induction l as [|e l IH]; intros s v I N SUB; cbn [destroy_loop].
  { cbn [gone existsb negb]. rewrite filter_all by reflexivity. split; [destruct v; exact I|]. split; [exact Logic.I|]. cbn. tauto. }
  cbn in N. inversion N as [|? ? N1 N2]; subst. assert (IN : In e (i_lru s)) by (apply SUB; left; reflexivity).
  destruct (Z.eqb_spec (k_prov (c_key e)) prov) as [E|NE].
  - unfold ipcOpenedCacheEvictionCallback at 1. cbv beta zeta iota.
    pose proof (remove_ok hsize limit one s v I e IN) as R. unfold removed, ipcOpenedCacheEvictionCallback in R. cbn [fst] in R.
    assert (SUB' : forall x, In x l -> In x (without (c_id e) (i_lru s))).
    { intros x X. apply without_in. split; [apply SUB; right; exact X|]. intros EX. apply N1. rewrite <- EX. apply in_map, X. }
    specialize (IH _ _ R N2 SUB'). destruct (destroy_loop l prov _) as (s', evs). destruct IH as (IA & IB & IC). unfold unmapped in IA. cbn [v_holds v_maps v_used v_peak] in IA.
    split; [|split].
    + change (after (v_maps v) ([EvClose (k_prov (c_key e)) (c_base e) (c_size e)] ++ evs)) with
        (after (after_event (v_maps v) (EvClose (k_prov (c_key e)) (c_base e) (c_size e))) evs).
      rewrite filter_filter in IA.
      erewrite filter_ext; [exact IA|]. intros h. cbv beta. unfold gone. cbn [existsb]. rewrite E, Z.eqb_refl. cbn [andb]. rewrite negb_orb. reflexivity.
    + apply closes_ok_app. split; [exact (close_named s v e I IN)|exact IB].
    + intros x. rewrite IC. cbn [i_lru]. rewrite without_in. split.
      * intros ((X & NX) & NL). split; [exact X|]. intros ([->|XL] & P); [congruence|]. tauto.
      * intros (X & NL). split; [split; [exact X|]|].
        -- intros EX. apply NL. pose proof (entry_id _ _ _ _ _ I x e X IN EX) as ->. split; [left; reflexivity|exact E].
        -- intros (XL & P). apply NL. split; [right; exact XL|exact P].
  - specialize (IH s v I N2 (fun x X => SUB x (or_intror X))). destruct (destroy_loop l prov s) as (s', evs). destruct IH as (IA & IB & IC).
    split; [|split; [exact IB|]].
    + erewrite filter_ext; [exact IA|]. intros h. cbv beta. unfold gone. cbn [existsb]. rewrite (proj2 (Z.eqb_neq _ _) NE). reflexivity.
    + intros x. rewrite IC. cbn [In]. split; intros (X & NL); (split; [exact X|]).
      * intros ([<-|XL] & P); tauto.
      * intros (XL & P). apply NL. auto.
Qed.

Lemma destroy_step : forall s v prov, Inv s v ->
  let r := umfIpcOpenedCacheDestroy s prov in
  Inv (r_st r) (observe v (CDestroy prov) r) /\ closes_ok (v_maps v) (r_ev r) /\ forall e, In e (i_lru (r_st r)) <-> In e (i_lru s) /\ k_prov (c_key e) <> prov.
Proof.
  intros s v prov I. unfold umfIpcOpenedCacheDestroy. pose proof (destroy_ok prov (i_lru s) s v I (i_ids _ _ _ _ _ I) (fun e X => X)) as D.
  destruct (destroy_loop (i_lru s) prov s) as (s', evs). destruct D as (DA & DB & DC). cbn [r_st r_ev observe]. split; [|split; [exact DB|intros e; rewrite DC; tauto]].
  erewrite filter_ext_in; [exact DA|]. intros h H. cbv beta. f_equal. unfold gone. destruct (i_hold _ _ _ _ _ I h H) as (e & IN & K & _). symmetry.
  destruct (Z.eqb_spec (k_prov (h_key h)) prov) as [E|NE].
  - apply existsb_exists. exists e. split; [exact IN|]. rewrite K, E, Z.eqb_refl. cbn. apply key_eqb_eq. reflexivity.
  - apply Bool.not_true_iff_false. intros X. apply existsb_exists in X. destruct X as (x & _ & X). apply andb_true_iff in X. destruct X as (X1 & X2). apply Z.eqb_eq in X1. apply key_eqb_eq in X2. congruence.
Qed.

(* ---- all executions ---- *)
Notation call_env := (call_env hsize limit one).
Lemma step_ok : forall s v c, Inv s v -> call_env v c ->
  exists r, step s c = Some r /\ (opens_ok (v_maps v) (r_ev r) -> Inv (r_st r) (observe v c r) /\ closes_ok (v_maps v) (r_ev r)).
Proof.
  intros s v c I CE. destruct c as [k hid size offset up o|p|prov]; cbn [call_env step] in *.
  - destruct CE as (OE & NC & ON). destruct (open_shape s v k hid size offset up o I OE NC ON) as (r & E & O). exists r. split; [exact E|]. intros OO.
    exact (opened_ok s v k hid size offset up o r I OE O OO).
  - destruct (close_shape s v I p CE) as (e & IN & B & C & E). eexists. split; [exact E|]. intros _. cbn [r_st r_ev observe r_res]. split; [|exact Logic.I].
    exact (release_ok s v I e p IN B C CE).
  - eexists. split; [reflexivity|]. intros _. destruct (destroy_step s v prov I) as (A & B & _). auto.
Qed.
Lemma inv_new : 0 <= limit -> Inv (umfIpcCacheGlobalInit limit) (View [] [] [] 0).
Proof.
  intros L. constructor; cbn [umfIpcCacheGlobalInit i_lru i_cur i_max i_segs i_next v_holds v_maps v_used v_peak map length].
  1,3: constructor.
  all: try solve [intros ? []|intros ? ? []].
  - reflexivity.
  - split; [reflexivity|exact L].
  - intros m. split; [intros []|intros (e & [] & _)].
  - intros m. split; [intros []|intros (e & [] & _)].
  - right. intros e [].
  - right. cbn. lia.
  - constructor.
  - constructor.
Qed.
Lemma reached_inv : forall s v, reached hsize limit one s v -> Inv s v.
Proof.
  intros s v R. induction R as [L|s v c r R IH CE E OO]; [exact (inv_new L)|]. destruct (step_ok s v c IH CE) as (r' & E' & X). rewrite E in E'. injection E' as <-. exact (proj1 (X OO)).
Qed.
End S.
