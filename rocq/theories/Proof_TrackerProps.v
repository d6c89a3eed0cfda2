From Verif Require Import Base Model_Critnib Proof_Critnib Spec_Map Proof_CritnibMap Model_Tracker Spec_Tracker Proof_Tracker Proof_TrackerOps Proof_TrackerInv Proof_TrackerStep.

Definition keeps (r : reply) (L : list region) : Prop := exists A', RT (r_st r) A' /\ Inv A' L.

Lemma alloc_ok : forall t A L pool size align up o, RT t A -> Inv A L -> pool <> 0 ->
  (fst up = SUCCESS -> snd up <> 0 -> 0 < size /\ 0 < snd up /\ snd up + size < U64 /\
     forall h, In h L -> inside (Region (snd up) size pool) h \/ apart (Region (snd up) size pool) h) ->
  exists r, trackingAlloc t pool size align up o = Some r /\ keeps r (observe L (TAlloc pool size align up o) r) /\
    (r_res r <> SUCCESS -> r_ptr r = 0 /\ r_st r = t) /\
    (fst up = SUCCESS -> snd up <> 0 -> r_res r <> SUCCESS -> r_ev r = [EvAlloc size align; EvFree (snd up) size]).
Proof.
  intros t A L pool size align (u, p) o R I NP H. cbn [fst snd] in *. unfold trackingAlloc.
  assert (DEC : u = SUCCESS \/ u <> SUCCESS) by (destruct u; auto; right; discriminate). destruct DEC as [->|NS].
  - destruct (Z.eqb_spec p 0) as [->|NZ].
    + eexists. split; [reflexivity|]. split; [exists A; split; [exact R|exact I]|]. cbn. split; [intros X; congruence|]. intros _ X. congruence.
    + destruct (H eq_refl NZ) as (S1 & S2 & S3 & S4).
      destruct (tracker_add_ok t A L (Region p size pool) o R I) as (r & t' & E & X & _); [unfold nice; cbn [g_base g_size g_pool]; lia|exact S4|].
      cbn [g_base g_size g_pool] in E. rewrite E. destruct X as [(-> & A' & R' & I')|(NS & ->)].
      * eexists. split; [reflexivity|]. cbn [r_res r_ptr r_st]. split; [|split; [congruence|congruence]]. exists A'. split; [exact R'|]. unfold observe. cbn [r_res r_ptr].
        destruct (Z.eqb_spec p 0) as [Z|_]; [congruence|exact I'].
      * exists (Reply r 0 [EvAlloc size align; EvFree p size] t). split; [destruct r; congruence|]. split; [|cbn; auto].
        exists A. split; [exact R|]. unfold observe. cbn [r_res]. destruct r; [congruence|exact I..].
  - exists (Reply u 0 [EvAlloc size align] t). split; [destruct u; congruence|]. split; [|cbn; split; [auto|congruence]].
    exists A. split; [exact R|]. unfold observe. cbn [r_res]. destruct u; [congruence|exact I..].
Qed.

Lemma free_ok : forall t A L pool ptr size up o, RT t A -> Inv A L -> is_word ptr ->
  (up <> SUCCESS -> forall g, free_standing L ptr g -> size = g_size g /\ pool = g_pool g /\ o = AddOracle true true true) ->
  exists r, trackingFree t pool ptr size up o = Some r /\ keeps r (observe L (TFree pool ptr size up o) r) /\ r_res r = up /\ r_ev r = [EvFree ptr size].
Proof.
  intros t A L pool ptr size up o R I W H. unfold trackingFree.
  assert (X : exists rm t1, (if ptr =? 0 then Some (ERR_UNKNOWN, t) else umfMemoryTrackerRemove t ptr) = Some (rm, t1) /\
    ((rm = SUCCESS /\ free_standingb L ptr = true /\ exists A', RT t1 A' /\ Inv A' (forget L ptr)) \/
     (rm = ERR_UNKNOWN /\ free_standingb L ptr = false /\ t1 = t))).
  { destruct (Z.eqb_spec ptr 0) as [->|NZ]; [|exact (tracker_remove_ok t A L ptr R I W)]. do 2 eexists. split; [reflexivity|]. right. split; [reflexivity|]. split; [|reflexivity].
    destruct (free_standingb L 0) eqn:F; [|reflexivity]. apply free_standingb_iff in F. destruct F as (g & (O & B & _)). apply owner_in in O.
    destruct (i_nice _ _ I _ (proj1 O)). lia. }
  destruct X as (rm & t1 & -> & X). assert (DEC : up = SUCCESS \/ up <> SUCCESS) by (destruct up; auto; right; discriminate). destruct DEC as [->|NS].
  - eexists. split; [reflexivity|]. split; [|split; reflexivity]. unfold keeps, observe. cbn [r_res r_st].
    destruct X as [(_ & -> & A' & R' & I')|(_ & -> & ->)]; [exists A'; auto|exists A; auto].
  - assert (OB : forall st evs p, observe L (TFree pool ptr size up o) (Reply up p evs st) = L) by (intros; unfold observe; cbn [r_res]; destruct up; congruence).
    destruct X as [(-> & FS & A' & R' & I')|(-> & FS & ->)].
    + apply free_standingb_iff in FS. destruct FS as (g & FS). destruct (H NS g FS) as (-> & -> & ->).
      destruct (forget_carve _ _ _ _ _ R I FS) as (NI & CV & DP & BP). 
      destruct (tracker_add_ok t1 A' (forget L ptr) g (AddOracle true true true) R' I' NI CV) as (r & t2 & E & X & OK & _). rewrite BP in *. rewrite E.
      exists (Reply up 0 [EvFree ptr (g_size g)] t2). split; [destruct up; congruence|]. split; [|split; reflexivity]. unfold keeps. rewrite OB. cbn [r_st].
      specialize (OK eq_refl DP). destruct X as [(_ & A2 & R2 & I2)|(X & _)]; [|congruence]. exists A2. split; [exact R2|]. exact (readd_inv _ _ _ _ _ I FS I2).
    + exists (Reply up 0 [EvFree ptr size] t). split; [destruct up; congruence|]. split; [|split; reflexivity]. unfold keeps. rewrite OB. exists A. auto.
Qed.

Lemma split_ok : forall t A L pool ptr total first value lock up o, RT t A -> Inv A L -> pool <> 0 -> is_word ptr -> is_word first -> is_word total ->
  split_args_ok ptr total first = true ->
  exists r, trackingAllocationSplit t pool ptr total first value lock up o = Some r /\ keeps r (observe L (TSplit pool ptr total first value lock up o) r) /\
    (r_res r = SUCCESS -> exists g, free_standing L ptr g /\ g_size g = total) /\ (up <> SUCCESS -> r_res r <> SUCCESS) /\ (r_res r <> SUCCESS -> keeps r L).
Proof.
  intros t A L pool ptr total first value lock up o R I NP WP WF WT AR. unfold trackingAllocationSplit.
  assert (SAME : forall e evs, e <> SUCCESS -> keeps (Reply e 0 evs t) (observe L (TSplit pool ptr total first value lock up o) (Reply e 0 evs t)) /\
     (r_res (Reply e 0 evs t) = SUCCESS -> exists g, free_standing L ptr g /\ g_size g = total) /\ (up <> SUCCESS -> r_res (Reply e 0 evs t) <> SUCCESS) /\ (r_res (Reply e 0 evs t) <> SUCCESS -> keeps (Reply e 0 evs t) L)).
  { intros e evs N. cbn [r_res]. assert (K : keeps (Reply e 0 evs t) L) by (exists A; auto). split; [|split; [congruence|split; auto]].
    unfold observe. cbn [r_res]. destruct e; [congruence|exact K..]. }
  destruct value; cbn [negb]; [|eexists; split; [reflexivity|apply SAME; discriminate]].
  destruct lock; cbn [negb]; [|eexists; split; [reflexivity|apply SAME; discriminate]].
  destruct (get_nested_leaf _ _ _ R I ptr WP) as [(j & e & par & D & IT & CZ & PO & ->)|(-> & _)]; [|eexists; split; [reflexivity|apply SAME; discriminate]].
  cbn [n_level n_parent]. destruct (Z.eqb_spec (e_size e) total) as [ES|NS]; cbn [negb]; [|eexists; split; [reflexivity|apply SAME; discriminate]].
  assert (DEC : up = SUCCESS \/ up <> SUCCESS) by (destruct up; auto; right; discriminate). destruct DEC as [->|NU].
  2:{ exists (Reply up 0 [EvSplit ptr total first] t). split; [destruct up; congruence|apply SAME; exact NU]. }
  unfold split_args_ok in AR. assert (B : 0 < first < e_size e) by (unfold is_word in *; lia).
  destruct (split_inv A L ptr j e par pool first I D IT CZ PO NP B) as (NONE & I2). set (A1 := put A j ptr (Some (Entry pool first 0))) in *.
  pose proof (poke_RT t A j ptr e (fun _ => Entry pool first 0) R (proj1 IT)) as R1. fold A1 in R1. set (t1 := poke t j ptr (fun _ => Entry pool first 0)) in *.
  assert (NG : nice (region_of ptr e)) by exact (item_nice _ _ I _ _ _ (proj1 IT)). destruct NG as (G1 & _ & G3 & _). change (ptr + e_size e < U64) in G3. change (0 < ptr) in G1.
  assert (E1 : wrap (ptr + first) = ptr + first) by (unfold wrap; apply Z.mod_small; lia).
  assert (E2 : wrap (total - first) = e_size e - first) by (unfold wrap; rewrite <- ES; apply Z.mod_small; lia). rewrite E1, E2.
  assert (JM : (j < MAX_LEVELS)%nat) by (pose proof (depth_le _ _ _ R I ptr); lia).
  destruct (at_level_ok t1 A1 j pool (ptr + first) (e_size e - first) par o R1 ltac:(unfold is_word; lia) JM NONE) as (r & t2 & E & X & _). rewrite E.
  destruct X as [(-> & R2)|(NS & ->)].
  - eexists. split; [reflexivity|]. split; [|split; [|split; [congruence|cbn [r_res]; congruence]]].
    + eexists. split; [exact R2|]. unfold observe. cbn [r_res]. rewrite <- ES. exact I2.
    + intros _. exists (region_of ptr e). split; [exact (leaf_free _ _ I _ _ _ D IT CZ)|exact ES].
  - set (rp := Reply r 0 [EvSplit ptr total first] (poke t1 j ptr (fun _ => e))).
    exists rp. split; [destruct r; congruence|].
    assert (K : keeps rp L).
    { exists A. split; [|exact I]. cbn [rp r_st]. apply (RT_ext _ (put A1 j ptr (Some e))).
      - exact (poke_RT t1 A1 j ptr (Entry pool first 0) (fun _ => e) R1 (put_same _ _ _ _)).
      - intros k q. unfold A1. destruct (put_cases (put A j ptr (Some (Entry pool first 0))) j ptr (Some e) k q) as [(-> & -> & X)|(N & X)]; rewrite X;
          [symmetry; exact (proj1 IT)|]. apply put_other. exact N. }
    split; [|split; [cbn [rp r_res]; congruence|split; [cbn [rp r_res]; congruence|auto]]]. unfold observe. cbn [rp r_res]. destruct r; [congruence|exact K..].
Qed.

Lemma merge_ok : forall dbg t A L pool lo hi total value lock up, RT t A -> Inv A L -> call_env dbg L (TMerge pool lo hi total value lock up) ->
  merge_args_ok lo hi total = true ->
  exists r, trackingAllocationMerge dbg t pool lo hi total value lock up = Some r /\ keeps r (observe L (TMerge pool lo hi total value lock up) r) /\
    (r_res r = SUCCESS -> exists g h, owner L lo = Some g /\ g_base g = lo /\ owner L hi = Some h /\ g_base h = hi /\ g_pool g = g_pool h /\ g_size g + g_size h = total) /\
    (up <> SUCCESS -> r_res r <> SUCCESS) /\ (r_res r <> SUCCESS -> r_st r = t).
Proof.
  intros dbg t A L pool lo hi total value lock up R I (NP & WL & WH & WT & ADJ & DB) AR. unfold trackingAllocationMerge.
  set (goal := fun x : option reply => exists r, x = Some r /\ keeps r (observe L (TMerge pool lo hi total value lock up) r) /\
    (r_res r = SUCCESS -> exists g h, owner L lo = Some g /\ g_base g = lo /\ owner L hi = Some h /\ g_base h = hi /\ g_pool g = g_pool h /\ g_size g + g_size h = total) /\
    (up <> SUCCESS -> r_res r <> SUCCESS) /\ (r_res r <> SUCCESS -> r_st r = t)).
  assert (SAME : forall e evs, e <> SUCCESS -> goal (Some (Reply e 0 evs t))).
  { intros e evs N. eexists. split; [reflexivity|]. cbn [r_res r_st]. assert (K : keeps (Reply e 0 evs t) L) by (exists A; auto).
    split; [|split; [congruence|split; [auto|auto]]]. unfold observe. cbn [r_res]. destruct e; [congruence|exact K..]. }
  change (goal (let err_assert := if dbg then None else Some (Reply ERR_INVALID_ARGUMENT 0 [] t) in
  if negb value then Some (Reply ERR_OUT_OF_HOST_MEMORY 0 [] t)
  else if negb lock then Some (Reply ERR_UNKNOWN 0 [] t)
  else
    match get_most_nested_alloc_segment t lo false with
    | None => err_assert
    | Some (nl, el) =>
        match get_most_nested_alloc_segment t hi false with
        | None => err_assert
        | Some (nh, eh) =>
            if negb (Nat.eqb (n_level nl) (n_level nh)) then err_assert
            else if negb (e_pool el =? e_pool eh) then err_assert
            else if negb (wrap (e_size el + e_size eh) =? total) then err_assert
            else
              match up with
              | SUCCESS =>
                  if negb (n_here nl && n_here nh) then None
                  else
                    let t1 := poke t (n_level nl) lo (fun _ => Entry pool total (e_children el + e_children eh)) in
                    match critnib_remove (level_map t1 (n_level nh)) hi with
                    | Some (m, Some _) => Some (Reply SUCCESS 0 [EvMerge lo hi total] (set_level t1 (n_level nh) m))
                    | _ => None
                    end
              | _ => Some (Reply up 0 [EvMerge lo hi total] t)
              end
        end
    end)). cbv zeta.
  destruct value; cbn [negb]; [|apply SAME; discriminate]. destruct lock; cbn [negb]; [|apply SAME; discriminate].
  (* in a debug build everything that is asserted holds *)
  assert (DBG : dbg = true -> exists j el eh pl ph, get_most_nested_alloc_segment t lo false = Some (Nested j pl (Some (lo, el)) true, el) /\
     get_most_nested_alloc_segment t hi false = Some (Nested j ph (Some (hi, eh)) true, eh) /\ e_pool el = e_pool eh /\ wrap (e_size el + e_size eh) = total).
  { intros DT. destruct (DB DT) as (g & h & FG & FH & LE & PE & SE). destruct (free_leaf _ _ I _ _ FG) as (j & el & D & IT & CZ & ->).
    destruct (free_leaf _ _ I _ _ FH) as (j' & eh & D' & IT' & CZ' & ->). assert (j' = j).
    { unfold stack in D, D'. rewrite rev_length in D, D'. lia. } subst j'.
    destruct (get_nested_any_leaf _ _ _ R I lo j el WL D IT CZ) as (pl & E1). destruct (get_nested_any_leaf _ _ _ R I hi j eh WH D' IT' CZ') as (ph & E2).
    exists j, el, eh, pl, ph. split; [exact E1|]. split; [exact E2|]. cbn in PE, SE. split; [exact PE|]. rewrite SE. unfold wrap. apply Z.mod_small. exact WT. }
  assert (ERR : dbg = false -> goal (if dbg then None else Some (Reply ERR_INVALID_ARGUMENT 0 [] t))) by (intros ->; apply SAME; discriminate).
  assert (CHK : forall (b : bool) k, (dbg = true -> b = true) -> (b = true -> goal k) -> goal (if negb b then (if dbg then None else Some (Reply ERR_INVALID_ARGUMENT 0 [] t)) else k)).
  { intros b k X Y. destruct b; cbn [negb]; [exact (Y eq_refl)|]. destruct dbg; [discriminate (X eq_refl)|exact (ERR eq_refl)]. }
  destruct (get_most_nested_alloc_segment t lo false) as [(nl, el)|] eqn:EL.
  2:{ destruct dbg; [|exact (ERR eq_refl)]. destruct (DBG eq_refl) as (j & el & eh & pl & ph & X & _). discriminate. }
  destruct (get_most_nested_alloc_segment t hi false) as [(nh, eh)|] eqn:EH.
  2:{ destruct dbg; [|exact (ERR eq_refl)]. destruct (DBG eq_refl) as (j & el' & eh & pl & ph & _ & X & _). discriminate. }
  apply CHK; [intros DT; destruct (DBG DT) as (j & el' & eh' & pl & ph & X & Y & _); injection X as -> <-; injection Y as -> <-; cbn [n_level]; apply Nat.eqb_refl|]. intros LV. apply Nat.eqb_eq in LV.
  apply CHK; [intros DT; destruct (DBG DT) as (j & el' & eh' & pl & ph & X & Y & Z & _); injection X as _ <-; injection Y as _ <-; lia|]. intros PE. apply Z.eqb_eq in PE.
  apply CHK; [intros DT; destruct (DBG DT) as (j & el' & eh' & pl & ph & X & Y & _ & Z); injection X as _ <-; injection Y as _ <-; lia|]. intros SE. apply Z.eqb_eq in SE.
  assert (DEC : up = SUCCESS \/ up <> SUCCESS) by (destruct up; auto; right; discriminate). destruct DEC as [->|NU].
  2:{ destruct up; [congruence|apply SAME; discriminate..]. }
  destruct (get_nested_any _ _ _ R I lo nl el WL EL) as (jl & DL & IL & KL). destruct (get_nested_any _ _ _ R I hi nh eh WH EH) as (jh & DH & IH & KH).
  pose proof (item_owner _ _ I _ _ _ _ DL IL) as OL. pose proof (item_owner _ _ I _ _ _ _ DH IH) as OH.
  destruct (ADJ eq_refl _ _ OL eq_refl OH eq_refl) as (AD & FL & FH & NL & NH). cbn [region_of g_size] in AD.
  destruct (free_leaf _ _ I _ _ FL) as (j1 & e1 & D1 & IT1 & CL & RE1). assert (j1 = jl) by lia. subst j1. destruct (item_uniq _ _ I _ _ _ _ _ _ IL IT1) as (_ & <-).
  destruct (free_leaf _ _ I _ _ FH) as (j1 & e1 & D2 & IT2 & CH & RE2). assert (j1 = jh) by lia. subst j1. destruct (item_uniq _ _ I _ _ _ _ _ _ IH IT2) as (_ & <-).
  destruct KL as [(_ & LL & HL)|(X & _)]; [|congruence]. destruct KH as [(_ & LH & HH)|(X & _)]; [|congruence]. rewrite HL, HH, LL, LH. cbn [andb negb].
  assert (J0 : jl = O).
  { destruct (leaf_off _ _ _ _ _ I DL IL CL) as (L1 & L2 & _ & FG & _ & _ & _ & TOP). destruct (TOP lo (proj2 IL)) as (T1 & T2).
    rewrite owner_hd, FG, filter_app, T1 in NL. cbn [app] in NL. destruct (filter (covers lo) L2); [cbn in T2; lia|discriminate]. }
  assert (J0' : jh = O) by (clear - LV LL LH J0; lia). clear LL LH. subst jl jh.
  assert (NG : nice (region_of hi eh)) by exact (item_nice _ _ I _ _ _ (proj1 IH)). destruct NG as (_ & G2 & G3 & _). change (hi + e_size eh < U64) in G3. change (0 < e_size eh) in G2.
  pose proof (i_pos _ _ I _ _ _ (proj1 IL)) as PL.
  assert (TE : total = e_size el + e_size eh) by (rewrite <- SE; unfold wrap; apply Z.mod_small; unfold is_word in *; lia).
  rewrite CL, CH. cbn [Z.add].
  pose proof (poke_RT t A 0 lo el (fun _ => Entry pool total 0) R (proj1 IL)) as R1. set (t1 := poke t 0 lo (fun _ => Entry pool total 0)) in *.
  assert (EH1 : put A 0 lo (Some (Entry pool total 0)) 0%nat hi = Some eh) by (rewrite put_other by lia; exact (proj1 IH)).
  destruct (remove_RT _ _ _ _ _ R1 EH1) as (m & -> & R2).
  eexists. split; [reflexivity|]. cbn [r_res]. split; [|split; [|split; congruence]].
  - exists (put (put A 0 hi None) 0 lo (Some (Entry pool total 0))). split.
    + apply (RT_ext _ _ _ R2). intros k q. destruct (Z.eq_dec q hi) as [->|Q].
      * rewrite (put_other (put A 0 hi None)) by lia. destruct (Nat.eq_dec k 0) as [->|K]; [rewrite !put_same; reflexivity|].
        rewrite !put_other by lia. reflexivity.
      * rewrite put_other by lia. destruct (Nat.eq_dec k 0) as [->|K]; [|rewrite !put_other by lia; reflexivity].
        destruct (Z.eq_dec q lo) as [->|Q2]; [rewrite !put_same; reflexivity|rewrite !put_other by lia; reflexivity].
    + unfold observe. cbn [r_res]. rewrite TE. exact (merge_inv A L lo hi el eh pool I DL IL CL DH IH CH AD NP).
  - intros _. exists (region_of lo el), (region_of hi eh). split; [exact OL|]. split; [reflexivity|]. split; [exact OH|]. split; [reflexivity|]. split; [exact PE|].
    cbn. lia.
Qed.

Lemma step_ok : forall dbg t A L k, RT t A -> Inv A L -> call_env dbg L k -> exists r, step dbg t k = Some r /\ keeps r (observe L k r).
Proof.
  intros dbg t A L k R I CE. destruct k as [pool size align up o|pool ptr size up o|pool ptr total first value lock up o|pool lo hi total value lock up]; cbn [step].
  - destruct CE as (NP & H). destruct (alloc_ok t A L pool size align up o R I NP H) as (r & E & K & _). eauto.
  - destruct CE as (W & H). destruct (free_ok t A L pool ptr size up o R I W H) as (r & E & K & _). eauto.
  - destruct CE as (NP & W1 & W2 & W3). destruct (split_args_ok ptr total first) eqn:AR.
    + destruct (split_ok t A L pool ptr total first value lock up o R I NP W1 W2 W3 AR) as (r & E & K & _). eauto.
    + eexists. split; [reflexivity|]. exists A. auto.
  - destruct (merge_args_ok lo hi total) eqn:AR.
    + destruct (merge_ok dbg t A L pool lo hi total value lock up R I CE AR) as (r & E & K & _). eauto.
    + eexists. split; [reflexivity|]. exists A. auto.
Qed.

Lemma create_ok : RT umfMemoryTrackerCreate (fun _ _ => None) /\ Inv (fun _ _ => None) [].
Proof.
  split.
  - split; [reflexivity|]. intros k. assert (level_map umfMemoryTrackerCreate k = Nil) as ->.
    { unfold level_map, umfMemoryTrackerCreate. destruct (nth_in_or_default k (repeat (@Nil entry) MAX_LEVELS) Nil) as [X|X]; [|exact X].
      apply repeat_spec in X. exact X. }
    exact rep_empty.
  - constructor; try discriminate; [intros g []|constructor|]. intros x k g. unfold stack. cbn. split; [destruct k; discriminate|].
    intros (q & e & (H & _) & _). discriminate.
Qed.
Lemma reached_inv : forall dbg t L, reached dbg t L -> exists A, RT t A /\ Inv A L.
Proof.
  intros dbg t L H. induction H as [|t L k r H (A & R & I) CE ST]; [eexists; exact create_ok|].
  destruct (step_ok dbg t A L k R I CE) as (r' & ST' & K). rewrite ST in ST'. injection ST' as <-. exact K.
Qed.

(* the owner is the innermost region *)
Lemma owner_innermost : forall A L x g, Inv A L -> owner L x = Some g -> forall h, In h L -> covers x h = true -> inside g h.
Proof.
  intros A L x g I O h H C. destruct (owner_split _ _ _ O) as (L1 & L2 & EL & N & CG & _). rewrite EL in H. apply in_app_or in H. destruct H as [H|[<-|H]].
  - rewrite (N h H) in C. discriminate.
  - unfold inside. lia.
  - pose proof (i_ord _ _ I) as OR. rewrite EL in OR. apply ford_app in OR. destruct OR as (_ & O2 & _). inversion O2 as [|? ? F _]; subst.
    rewrite Forall_forall in F. exact (shares_inside _ _ x (F h H) CG C).
Qed.

Lemma info_reached : forall dbg t L x, reached dbg t L -> is_word x -> umfMemoryTrackerGetAllocInfo t x = info_of (owner L x).
Proof. intros dbg t L x H W. destruct (reached_inv _ _ _ H) as (A & R & I). exact (lookup_ok _ _ _ R I x W). Qed.
Lemma pool_reached : forall dbg t L x, reached dbg t L -> is_word x -> umfPoolByPtr t x = pool_of (owner L x).
Proof.
  intros dbg t L x H W. unfold umfPoolByPtr, umfMemoryTrackerGetPool. rewrite (info_reached _ _ _ _ H W). destruct (owner L x); reflexivity.
Qed.
Lemma reached_nice : forall dbg t L g, reached dbg t L -> In g L -> 0 < g_base g /\ 0 < g_size g /\ g_base g + g_size g < U64 /\ g_pool g <> 0.
Proof. intros dbg t L g H IN. destruct (reached_inv _ _ _ H) as (A & R & I). exact (i_nice _ _ I _ IN). Qed.
Lemma reached_nested : forall dbg t L x g, reached dbg t L -> owner L x = Some g -> forall h, In h L -> covers x h = true -> inside g h.
Proof. intros dbg t L x g H. destruct (reached_inv _ _ _ H) as (A & R & I). exact (owner_innermost A L x g I). Qed.
Lemma reached_progress : forall dbg t L k, reached dbg t L -> call_env dbg L k -> exists r, step dbg t k = Some r.
Proof.
  intros dbg t L k H CE. destruct (reached_inv _ _ _ H) as (A & R & I). destruct (step_ok dbg t A L k R I CE) as (r & E & _). eauto.
Qed.
Lemma owner_none : forall L x, owner L x = None -> forall h, In h L -> covers x h = false.
Proof. intros L x. apply find_none. Qed.

Definition refused (k : call) : Prop :=
  match k with
  | TAlloc _ _ _ up _ => fst up <> SUCCESS
  | TFree _ _ _ up _ => up <> SUCCESS
  | TSplit _ _ _ _ _ _ up _ => up <> SUCCESS
  | TMerge _ _ _ _ _ _ up => up <> SUCCESS
  end.
Lemma refused_fails : forall dbg t L k r, reached dbg t L -> call_env dbg L k -> step dbg t k = Some r -> refused k -> r_res r <> SUCCESS.
Proof.
  intros dbg t L k r H CE ST RF. destruct (reached_inv _ _ _ H) as (A & R & I).
  destruct k as [pool size align up o|pool ptr size up o|pool ptr total first value lock up o|pool lo hi total value lock up]; cbn [step refused] in *.
  - unfold trackingAlloc in ST. destruct up as (u, p). cbn [fst] in RF. destruct u; try congruence; injection ST as <-; discriminate.
  - destruct CE as (W & X). destruct (free_ok t A L pool ptr size up o R I W X) as (r' & E & _ & Y & _). rewrite ST in E. injection E as <-. congruence.
  - destruct CE as (NP & W1 & W2 & W3). destruct (split_args_ok ptr total first) eqn:AR; [|injection ST as <-; discriminate].
    destruct (split_ok t A L pool ptr total first value lock up o R I NP W1 W2 W3 AR) as (r' & E & _ & _ & Y & _). rewrite ST in E. injection E as <-. exact (Y RF).
  - destruct (merge_args_ok lo hi total) eqn:AR; [|injection ST as <-; discriminate].
    destruct (merge_ok dbg t A L pool lo hi total value lock up R I CE AR) as (r' & E & _ & _ & Y & _). rewrite ST in E. injection E as <-. exact (Y RF).
Qed.
Lemma failed_same : forall L k r, r_res r <> SUCCESS -> observe L k r = L.
Proof. intros L k r N. unfold observe. destruct (r_res r); congruence. Qed.

Lemma alloc_result : forall dbg t L pool size align up o r, reached dbg t L -> call_env dbg L (TAlloc pool size align up o) ->
  step dbg t (TAlloc pool size align up o) = Some r ->
  (r_res r <> SUCCESS -> r_ptr r = 0 /\ r_st r = t) /\
  (fst up = SUCCESS -> snd up <> 0 -> r_res r <> SUCCESS -> r_ev r = [EvAlloc size align; EvFree (snd up) size]) /\
  (r_res r = SUCCESS -> r_ptr r = snd up /\ r_ev r = [EvAlloc size align]) /\
  (fst up = SUCCESS -> snd up <> 0 -> o = AddOracle true true true -> (length (filter (covers (snd up)) L) < 8)%nat -> r_res r = SUCCESS) /\
  (fst up = SUCCESS -> snd up <> 0 -> length (filter (covers (snd up)) L) = 8%nat -> r_res r = ERR_OUT_OF_RESOURCES).
Proof.
  intros dbg t L pool size align up o r H (NP & CE) ST. destruct (reached_inv _ _ _ H) as (A & R & I).
  destruct (alloc_ok t A L pool size align up o R I NP CE) as (r' & E & _ & X1 & X2). cbn [step] in ST. rewrite ST in E. injection E as <-.
  split; [exact X1|]. split; [exact X2|]. unfold trackingAlloc in ST. destruct up as (u, p). cbn [fst snd] in *.
  assert (DEC : u = SUCCESS \/ u <> SUCCESS) by (destruct u; auto; right; discriminate). destruct DEC as [->|NS].
  2:{ assert (r_res r = u) as -> by (destruct u; [congruence|injection ST as <-; reflexivity..]). split; [congruence|]. split; congruence. }
  destruct (Z.eqb_spec p 0) as [->|NZ].
  { injection ST as <-. cbn. split; [auto|]. split; congruence. }
  destruct (CE eq_refl NZ) as (S1 & S2 & S3 & S4).
  destruct (tracker_add_ok t A L (Region p size pool) o R I) as (e & t' & E & X & Y & Z); [unfold nice; cbn [g_base g_size g_pool]; lia|exact S4|].
  cbn [g_base g_size g_pool] in *. rewrite E in ST. assert (r_res r = e) as RE by (destruct e; injection ST as <-; reflexivity). rewrite RE.
  split; [intros ->; injection ST as <-; split; reflexivity|]. split; [intros _ _ OO D; exact (Y OO D)|intros _ _ D; exact (Z D)].
Qed.

Lemma free_result : forall dbg t L pool p size up o r, reached dbg t L -> call_env dbg L (TFree pool p size up o) ->
  step dbg t (TFree pool p size up o) = Some r -> r_res r = up /\ r_ev r = [EvFree p size].
Proof.
  intros dbg t L pool p size up o r H (W & CE) ST. destruct (reached_inv _ _ _ H) as (A & R & I).
  destruct (free_ok t A L pool p size up o R I W CE) as (r' & E & _ & X). cbn [step] in ST. rewrite ST in E. injection E as <-. exact X.
Qed.

Lemma split_result : forall dbg t L pool p total first value lock up o r, reached dbg t L -> call_env dbg L (TSplit pool p total first value lock up o) ->
  step dbg t (TSplit pool p total first value lock up o) = Some r -> r_res r = SUCCESS -> exists g, free_standing L p g /\ g_size g = total.
Proof.
  intros dbg t L pool p total first value lock up o r H (NP & W1 & W2 & W3) ST OK. destruct (reached_inv _ _ _ H) as (A & R & I). cbn [step] in ST.
  destruct (split_args_ok p total first) eqn:AR; [|injection ST as <-; discriminate].
  destruct (split_ok t A L pool p total first value lock up o R I NP W1 W2 W3 AR) as (r' & E & _ & X & _). rewrite ST in E. injection E as <-. exact (X OK).
Qed.

Lemma owner_app : forall L1 L2 x, owner (L1 ++ L2) x = match owner L1 x with Some g => Some g | None => owner L2 x end.
Proof. intros L1 L2 x. unfold owner. induction L1 as [|h L1 IH]; [reflexivity|]. cbn [app find]. destruct (covers x h); [reflexivity|exact IH]. Qed.
Lemma owner_filter0 : forall L x, filter (covers x) L = [] -> owner L x = None.
Proof. intros L x H. rewrite owner_hd, H. reflexivity. Qed.
Lemma covers_not : forall x g, ~ (g_base g <= x < g_base g + g_size g) -> covers x g = false.
Proof. intros x g N. unfold covers. destruct (Z.leb_spec (g_base g) x); [|reflexivity]. destruct (Z.ltb_spec x (g_base g + g_size g)); [lia|reflexivity]. Qed.
Lemma owner_off : forall L g x, covers x g = false -> owner (g :: L) x = owner L x.
Proof. intros L g x C. unfold owner. cbn [find]. rewrite C. reflexivity. Qed.
Lemma owner_drop : forall L1 L2 g x, covers x g = false -> owner (L1 ++ g :: L2) x = owner (L1 ++ L2) x.
Proof. intros L1 L2 g x C. rewrite !owner_app, (owner_off L2 g x C). reflexivity. Qed.

Lemma split_lookup : forall dbg t L pool p total first value lock up o r x,
  reached dbg t L -> call_env dbg L (TSplit pool p total first value lock up o) ->
  step dbg t (TSplit pool p total first value lock up o) = Some r -> r_res r = SUCCESS -> is_word x ->
  (exists g, free_standing L p g /\ g_size g = total) /\
  umfMemoryTrackerGetAllocInfo (r_st r) x =
    (if (p <=? x) && (x <? p + total) then
       if x <? p + first then (SUCCESS, Some (p, first, pool)) else (SUCCESS, Some (p + first, total - first, pool))
     else umfMemoryTrackerGetAllocInfo t x).
Proof.
  intros dbg t L pool p total first value lock up o r x H CE ST OK W.
  destruct (split_result _ _ _ _ _ _ _ _ _ _ _ _ H CE ST OK) as (g & FS & SZ). split; [eauto|].
  assert (AR : 0 < first < total). { cbn [step] in ST. destruct (split_args_ok p total first) eqn:AR; [|injection ST as <-; discriminate].
    destruct CE as (_ & _ & W1 & W2). unfold split_args_ok in AR. unfold is_word in *. lia. }
  pose proof (reached_step _ _ _ _ _ _ H CE ST) as H2. unfold observe in H2. rewrite OK in H2.
  rewrite (info_reached _ _ _ _ H2 W), (info_reached _ _ _ _ H W). destruct (reached_inv _ _ _ H) as (A & R & I).
  destruct (free_leaf _ _ I _ _ FS) as (j & e & D & IT & CZ & ->). cbn in SZ. subst total.
  destruct (leaf_off _ _ _ _ _ I D IT CZ) as (L1 & L2 & EL & _ & RP & _ & _ & TOP). rewrite RP, EL, !owner_app. cbn [app].
  destruct (Z.leb_spec p x) as [B1|B1]; [destruct (Z.ltb_spec x (p + e_size e)) as [B2|B2]|]; cbn [andb].
  - rewrite (owner_filter0 L1 x (proj1 (TOP x (conj B1 B2)))). unfold owner. cbn [find]. destruct (Z.ltb_spec x (p + first)) as [B3|B3].
    + rewrite (proj2 (covers_iff x (Region p first pool))) by (cbn; lia). reflexivity.
    + rewrite (covers_not x (Region p first pool)) by (cbn; lia). rewrite (proj2 (covers_iff x (Region (p + first) (e_size e - first) pool))) by (cbn; lia). reflexivity.
  - rewrite !owner_off by (apply covers_not; cbn; lia). reflexivity.
  - rewrite !owner_off by (apply covers_not; cbn; lia). reflexivity.
Qed.

Lemma merge_lookup : forall dbg t L pool lo hi total value lock up r x,
  reached dbg t L -> call_env dbg L (TMerge pool lo hi total value lock up) ->
  step dbg t (TMerge pool lo hi total value lock up) = Some r -> r_res r = SUCCESS -> is_word x ->
  (exists g h, free_standing L lo g /\ free_standing L hi h /\ lo + g_size g = hi /\ hi + g_size h = lo + total /\ g_pool g = g_pool h) /\
  umfMemoryTrackerGetAllocInfo (r_st r) x =
    (if (lo <=? x) && (x <? lo + total) then (SUCCESS, Some (lo, total, pool)) else umfMemoryTrackerGetAllocInfo t x).
Proof.
  intros dbg t L pool lo hi total value lock up r x H CE ST OK W. destruct (reached_inv _ _ _ H) as (A & R & I).
  pose proof (reached_step _ _ _ _ _ _ H CE ST) as H2. unfold observe in H2. rewrite OK in H2. rewrite (info_reached _ _ _ _ H2 W), (info_reached _ _ _ _ H W). clear H2.
  cbn [step] in ST. destruct (merge_args_ok lo hi total) eqn:AR; [|injection ST as <-; discriminate].
  destruct (merge_ok dbg t A L pool lo hi total value lock up R I CE AR) as (r' & E & _ & X & Y & _). rewrite ST in E. injection E as <-.
  destruct (X OK) as (g & h & OG & BG & OH & BH & PE & SE). assert (up = SUCCESS) as -> by (destruct up; [reflexivity|exfalso; apply Y; [discriminate|exact OK]..]).
  destruct CE as (_ & _ & _ & _ & ADJ & _). destruct (ADJ eq_refl _ _ OG BG OH BH) as (AD & FL & FH & NL & NH). clear X Y ADJ ST.
  split; [exists g, h; split; [exact FL|]; split; [exact FH|]; split; [exact AD|]; split; [lia|exact PE]|].
  destruct (free_leaf _ _ I _ _ FL) as (jl & el & DL & IL & CL & ->). destruct (free_leaf _ _ I _ _ FH) as (jh & eh & DH & IH & CH & ->). cbn [region_of g_size g_base] in *.
  destruct (leaf_off _ _ _ _ _ I DH IH CH) as (L1 & L2 & EL & FG & _ & _ & _ & TOPH). destruct (leaf_off _ _ _ _ _ I DL IL CL) as (K1 & K2 & EK & _ & _ & _ & _ & TOPL).
  pose proof (i_pos _ _ I _ _ _ (proj1 IL)) as PL. pose proof (i_pos _ _ I _ _ _ (proj1 IH)) as PH.
  assert (OFF : forall y, ~ (hi <= y < hi + e_size eh) -> owner (forget L hi) y = owner L y).
  { intros y N. rewrite FG, EL. symmetry. apply owner_drop. apply covers_not. cbn. lia. }
  assert (FLAT : forall y, hi <= y < hi + e_size eh -> filter (covers y) (forget L hi) = []).
  { intros y B. destruct (TOPH y B) as (T1 & T2). destruct (TOPH hi (proj2 IH)) as (T3 & T4). rewrite FG, filter_app, T1. cbn [app].
    rewrite owner_hd, FG, filter_app, T3 in NH. cbn [app] in NH. destruct (filter (covers hi) L2); [|discriminate]. cbn in T4. rewrite <- T4 in T2.
    destruct (filter (covers y) L2); [reflexivity|discriminate T2]. }
  assert (OL : owner (forget L hi) lo = Some (region_of lo el)) by (rewrite OFF by lia; exact OG).
  destruct (owner_split _ _ _ OL) as (M1 & M2 & EM & NM & CM & _ & RM). rewrite RM. cbn [app].
  destruct (Z.leb_spec lo x) as [B1|B1]; [destruct (Z.ltb_spec x (lo + total)) as [B2|B2]|]; cbn [andb].
  - assert (M1 = [] \/ filter (covers x) M1 = []) as [-> | T]; [right| |].
    + destruct (Z.lt_ge_cases x hi) as [B3|B3].
      * apply (top_split M1 M2 (region_of lo el) lo x NM CM). rewrite <- EM, OFF by lia. rewrite EK, owner_app, (owner_filter0 K1) by (apply TOPL; lia).
        unfold owner. cbn [find]. rewrite (proj2 (covers_iff x (region_of lo el))) by (cbn; lia). reflexivity.
      * assert (F : filter (covers x) (forget L hi) = []) by (apply FLAT; lia). rewrite EM, filter_app in F. apply app_eq_nil in F. exact (proj1 F).
    + unfold owner. cbn [app find]. rewrite (proj2 (covers_iff x (Region lo total pool))) by (cbn; lia). reflexivity.
    + rewrite owner_app, (owner_filter0 _ _ T). unfold owner. cbn [find]. rewrite (proj2 (covers_iff x (Region lo total pool))) by (cbn; lia). reflexivity.
  - rewrite owner_drop by (apply covers_not; cbn; lia). rewrite <- (owner_drop M1 M2 (region_of lo el)) by (apply covers_not; cbn; lia). rewrite <- EM, OFF by lia. reflexivity.
  - rewrite owner_drop by (apply covers_not; cbn; lia). rewrite <- (owner_drop M1 M2 (region_of lo el)) by (apply covers_not; cbn; lia). rewrite <- EM, OFF by lia. reflexivity.
Qed.
