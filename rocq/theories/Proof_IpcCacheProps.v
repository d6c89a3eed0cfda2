From Verif Require Import Base Model_IpcCache Spec_IpcCache Proof_IpcCache Proof_IpcCacheStep.

Section S.
Variable hsize : Z -> Z -> Z -> Z.
Variables limit one : Z.
Notation Inv := (Inv hsize limit one).

Lemma held_open : forall s v h, Inv s v -> In h (v_holds v) -> h_base h <> 0 -> In (Mapping (h_key h) (h_hid h) (h_base h) (h_size h)) (v_maps v).
Proof.
  intros s v h I H B. destruct (i_hold _ _ _ _ _ I h H) as (e & IN & K & D & R). destruct (R B) as (R1 & R2).
  rewrite <- K, <- D, <- R1, <- R2. apply (entry_map _ _ _ _ _ I e IN). congruence.
Qed.
Lemma reopen_same : forall s v h size offset up o, Inv s v -> In h (v_holds v) -> h_base h <> 0 ->
  exists r, umfOpenIPCHandle s (h_key h) (h_hid h) size offset up o = Some r /\ r_res r = SUCCESS /\ r_ptr r = wrap (h_base h + offset) /\ r_ev r = [].
Proof.
  intros s v h size offset up o I H B. destruct (i_hold _ _ _ _ _ I h H) as (e & IN & K & D & R). destruct (R B) as (R1 & R2). rewrite <- K, <- D, <- R1.
  assert (NB : (c_base e =? 0) = false) by (apply Z.eqb_neq; congruence).
  unfold umfOpenIPCHandle, umfIpcOpenedCacheGet. rewrite (find_hid _ _ _ s v e I IN). destruct (find (fun x => key_eqb (c_key x) (c_key e)) (i_lru s)); cbn [i_lru find c_id c_base]; rewrite Z.eqb_refl; cbn [c_base]; rewrite NB;
  cbn [negb]; (eexists; split; [reflexivity|]; auto).
Qed.
Lemma maps_le : forall s v, Inv s v -> (length (v_maps v) <= length (i_lru s))%nat.
Proof.
  intros s v I. rewrite <- (map_length mapping_of (i_lru s)). apply NoDup_incl_length; [exact (i_once _ _ _ _ _ I)|].
  intros m M. apply (i_maps _ _ _ _ _ I) in M. destruct M as (e & IN & _ & ->). apply in_map, IN.
Qed.
Lemma bounded : forall s v, Inv s v -> limit <> 0 -> Z.of_nat (length (v_maps v)) <= Z.max limit (v_peak v).
Proof. intros s v I L. pose proof (maps_le s v I). destruct (i_peak _ _ _ _ _ I) as [Z|P]; [congruence|lia]. Qed.

Definition own_events (k : key) (hid size : Z) (own : list event) : Prop :=
  own = [] \/ own = [EvOpenFail k hid] \/ exists p, own = [EvOpen k hid p size] \/ own = [EvOpen k hid p size; EvClose (k_prov k) p size].
Lemma evicts : forall s v k hid size offset up o r, Inv s v -> call_env hsize limit one v (COpen k hid size offset up o) -> step s (COpen k hid size offset up o) = Some r ->
  exists evs own, r_ev r = evs ++ own /\ own_events k hid size own /\
  ((exists m, In m (v_maps v) /\ evs = [EvClose (k_prov (m_key m)) (m_base m) (m_size m)] /\ idle (v_holds v) (m_key m) /\
      (m_key m = k /\ m_hid m <> hid \/
       limit <> 0 /\ forall m', In m' (v_maps v) -> m' <> m -> idle (v_holds v) (m_key m') -> before (v_used v) (m_key m') (m_key m))) \/
   evs = [] /\
     (own = [] /\ r_res r <> SUCCESS \/ limit = 0 \/ Z.of_nat (length (v_maps v)) < limit \/ (forall m, In m (v_maps v) -> ~ idle (v_holds v) (m_key m)) \/
      (exists m, In m (v_maps v) /\ m_key m = k) \/ ~ idle (v_holds v) k)).
Proof.
  intros s v k hid size offset up o r I (OE & NC & ON) E. destruct (open_shape hsize limit one s v k hid size offset up o I OE NC ON) as (r' & E' & O).
  cbn [step] in E. rewrite E in E'. injection E' as <-. destruct O as [r SL EV ST NS|r s1 evs e1 G SL CASES].
  { exists [], []. split; [exact EV|]. split; [left; reflexivity|]. right. split; [reflexivity|]. left. auto. }
  destruct G as (_ & _ & _ & _ & _ & G).
  assert (OWN : exists own, r_ev r = evs ++ own /\ own_events k hid size own).
  { destruct CASES as [(_ & _ & _ & EV & _)|[(_ & _ & _ & EV & _)|[(_ & _ & _ & EV & _)|(_ & _ & _ & _ & EV & _)]]]; rewrite EV.
    - exists []. split; [symmetry; apply app_nil_r|left; reflexivity].
    - eexists. split; [reflexivity|right; left; reflexivity].
    - eexists. split; [reflexivity|right; right; eexists; right; reflexivity].
    - eexists. split; [reflexivity|right; right; eexists; left; reflexivity]. }
  destruct OWN as (own & EV & OW). exists evs, own. split; [exact EV|]. split; [exact OW|].
  destruct G as [(-> & _ & WHY)|(e & (IN & U & PE & CH) & -> & _ & HD)].
  - right. split; [reflexivity|]. destruct WHY as [(e & IN & K)|[Z|[LT|NI]]].
    + destruct (Z.eq_dec (c_base e) 0) as [Z|B].
      * right. right. right. right. right. intros U. destruct (i_zero _ _ _ _ _ I e IN Z) as (h & HH & HK). apply (U h HH). congruence.
      * right. right. right. right. left. exists (mapping_of e). split; [exact (entry_map _ _ _ _ _ I e IN B)|exact K].
    + right. left. exact Z.
    + right. right. left. pose proof (maps_le s v I). lia.
    + right. right. right. left. intros m M. apply (i_maps _ _ _ _ _ I) in M. destruct M as (e & IN & _ & ->). exact (NI e IN).
  - left. assert (B : c_base e <> 0).
    { intros Z. destruct (i_zero _ _ _ _ _ I e IN Z) as (h & HH & HK). exact (U h HH HK). }
    exists (mapping_of e). split; [exact (entry_map _ _ _ _ _ I e IN B)|]. split; [reflexivity|]. split; [exact U|].
    destruct CH as [K|(L & _ & BF)]; [left; cbn; auto|right]. split; [exact L|]. intros m' M' N U'. apply (i_maps _ _ _ _ _ I) in M'. destruct M' as (x & X & BX & ->).
    apply (before_sub _ _ _ _ _ (i_used _ _ _ _ _ I)). apply BF; [exact X|congruence|exact U'].
Qed.

Lemma close_other : forall s v p, Inv s v -> (forall m, In m (v_maps v) -> ~ mcovers p m) -> umfCloseIPCHandle s p = Some (Reply ERR_INVALID_ARGUMENT 0 [] s false).
Proof.
  intros s v p I N. unfold umfCloseIPCHandle, umfMemoryTrackerGetIpcInfo. destruct (p =? 0); [reflexivity|].
  pose proof (seg_le_spec (i_segs s) p (segs_unique hsize limit one s v I)) as L. destruct (seg_le (i_segs s) p) as [(b, g)|]; [|reflexivity]. destruct L as (IN & LE & _).
  apply (i_segm _ _ _ _ _ I) in IN. destruct IN as (e & IN & B & E). unfold seg_of in E. injection E as -> ->. cbn [s_size fst] in *.
  destruct (entry_place _ _ _ _ _ I e IN B) as (P1 & P2 & P3). unfold wrap. rewrite Z.mod_small by lia.
  destruct (p >=? c_base e + c_size e) eqn:G; [reflexivity|]. exfalso. rewrite Z.geb_leb in G. apply Z.leb_gt in G. apply (N _ (entry_map _ _ _ _ _ I e IN B)).
  unfold mcovers. cbn. lia.
Qed.
Lemma close_legal : forall s v p, Inv s v -> call_env hsize limit one v (CClose p) -> exists s', umfCloseIPCHandle s p = Some (Reply SUCCESS 0 [] s' false).
Proof. intros s v p I CE. destruct (close_shape _ _ _ s v I p CE) as (e & _ & _ & _ & E). eauto. Qed.

Lemma destroy_closes : forall s v prov m, Inv s v -> call_env hsize limit one v (CDestroy prov) ->
  let r := umfIpcOpenedCacheDestroy s prov in
  In m (after (v_maps v) (r_ev r)) <-> In m (v_maps v) /\ k_prov (m_key m) <> prov.
Proof.
  intros s v prov m I CE r. destruct (destroy_step _ _ _ s v prov I) as (I' & _ & KEEP). fold r in I', KEEP. cbn [observe] in I'.
  pose proof (i_maps _ _ _ _ _ I' m) as X. cbn [v_maps] in X. rewrite X, (i_maps _ _ _ _ _ I). split.
  - intros (e & IN & B & ->). apply KEEP in IN. split; [exists e; tauto|exact (proj2 IN)].
  - intros ((e & IN & B & ->) & N). exists e. split; [|auto]. apply KEEP. auto.
Qed.
End S.
