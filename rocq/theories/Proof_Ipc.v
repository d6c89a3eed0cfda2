From Verif Require Import Base Model_Tracker Spec_Tracker Model_Ipc Spec_Ipc Proof_TrackerProps.

Lemma pkey_eqb_eq : forall a b, pkey_eqb a b = true <-> a = b.
Proof. intros (a1, a2) (b1, b2). unfold pkey_eqb. cbn. rewrite andb_true_iff, !Z.eqb_eq. split; [intros (-> & ->); reflexivity|]. intros E. injection E as -> ->. auto. Qed.
Lemma pkey_eqb_neq : forall a b, pkey_eqb a b = false <-> a <> b.
Proof. intros a b. rewrite <- pkey_eqb_eq. destruct (pkey_eqb a b); split; congruence. Qed.

Lemma owner_split : forall L x g, owner L x = Some g -> exists L1 L2, L = L1 ++ g :: L2 /\ covers x g = true /\ forget L x = L1 ++ L2 /\ forall by_, replace L x by_ = L1 ++ by_ ++ L2.
Proof.
  intros L x g. unfold owner. induction L as [|h L IH]; [discriminate|]. cbn [find forget replace]. destruct (covers x h) eqn:C.
  - intros E. injection E as ->. exists [], L. auto.
  - intros E. destruct (IH E) as (L1 & L2 & -> & CG & F & R). exists (h :: L1), L2. cbn. split; [reflexivity|]. split; [exact CG|]. rewrite F. split; [reflexivity|]. intros b. rewrite R. reflexivity.
Qed.

Section P.
Variable dbg : bool.
Variable pid : Z.

Record PInv (q : producer) (v : pview) : Prop := {
  p_reached : reached dbg (q_tr q) (p_regions v);
  p_take : p_taken v = map fst (q_cache q);
  p_keys : NoDup (map fst (q_cache q));
  p_cached : forall k c, In (k, c) (q_cache q) -> v_hid c <= q_id q /\ exists g, In g (p_regions v) /\ region_key g = k /\ v_data c = (g_base g, g_size g);
  p_uniq : NoDup (map region_key (p_regions v));
  p_ids : forall d, In d (p_issued v) -> d_hid d <= q_id q;
  p_same : forall d d', In d (p_issued v) -> In d' (p_issued v) -> d_hid d = d_hid d' -> (d_base d, d_size d) = (d_base d', d_size d');
  p_link : forall k c d, In (k, c) (q_cache q) -> In d (p_issued v) -> d_hid d = v_hid c -> (d_base d, d_size d) = v_data c;
  p_inj : forall k c k' c', In (k, c) (q_cache q) -> In (k', c') (q_cache q) -> v_hid c = v_hid c' -> v_data c = v_data c'
}.

Lemma region_uniq : forall q v g h, PInv q v -> In g (p_regions v) -> In h (p_regions v) -> region_key g = region_key h -> g = h.
Proof.
  intros q v g h I. pose proof (p_uniq _ _ I) as N. induction (p_regions v) as [|x L IH]; [intros []|]. cbn in N. inversion N as [|? ? X Y]; subst. intros [->|HA] [->|HB] E; auto.
  - exfalso. apply X. rewrite E. apply in_map, HB.
  - exfalso. apply X. rewrite <- E. apply in_map, HA.
Qed.

Lemma cache_get_in : forall c k x, cache_get c k = Some x -> In (k, x) c.
Proof.
  intros c k x. unfold cache_get. destruct (find (fun y => pkey_eqb (fst y) k) c) as [(k', y)|] eqn:F; [|discriminate]. intros E. injection E as ->.
  apply find_some in F. destruct F as (IN & E). apply pkey_eqb_eq in E. cbn in E. subst. exact IN.
Qed.
Lemma cache_get_none : forall c k, cache_get c k = None <-> ~ In k (map fst c).
Proof.
  intros c k. unfold cache_get. destruct (find (fun y => pkey_eqb (fst y) k) c) as [(k', y)|] eqn:F.
  - apply find_some in F. destruct F as (IN & E). apply pkey_eqb_eq in E. cbn in E. subst. split; [discriminate|]. intros N. destruct N. apply (in_map fst) in IN. exact IN.
  - split; [|reflexivity]. intros _ IN. apply in_map_iff in IN. destruct IN as (x & <- & IN). apply (find_none _ _ F) in IN. apply pkey_eqb_neq in IN. congruence.
Qed.
Lemma cache_del_in : forall c k x, In x (cache_del c k) <-> In x c /\ fst x <> k.
Proof. intros c k x. unfold cache_del. rewrite filter_In, negb_true_iff, pkey_eqb_neq. tauto. Qed.
Lemma cache_del_map : forall c k, map fst (cache_del c k) = filter (fun x => negb (pkey_eqb x k)) (map fst c).
Proof. intros c k. unfold cache_del. induction c as [|x c IH]; [reflexivity|]. cbn [filter map]. destruct (pkey_eqb (fst x) k); cbn [negb map]; [|f_equal]; exact IH. Qed.
Lemma take_track : forall l T, fold_left taken_after (map ITrack l) T = T.
Proof. induction l as [|e l IH]; intros T; [reflexivity|]. exact (IH T). Qed.
Lemma ok_track : forall l T, ipc_ok T (map ITrack l).
Proof. induction l as [|e l IH]; intros T; [exact I|]. split; [trivial|apply IH]. Qed.

(* a tracked call: which regions stay *)
Lemma track_regions : forall q v k r, PInv q v -> ipc_env dbg v k -> step dbg (q_tr q) k = Some r ->
  reached dbg (r_st r) (observe (p_regions v) k r) /\ NoDup (map region_key (observe (p_regions v) k r)) /\
  forall g, In g (p_regions v) -> In (region_key g) (p_taken v) -> (forall pool p size up o, k = TFree pool p size up o -> region_key g <> (pool, p)) ->
    In g (observe (p_regions v) k r).
Proof.
  intros q v k r I (CE & X) E. set (L := p_regions v) in *. pose proof (p_reached _ _ I) as R. fold L in R. pose proof (p_uniq _ _ I) as N. fold L in N.
  split; [exact (reached_step _ _ _ _ _ _ R CE E)|]. unfold observe.
  assert (DEC : r_res r = SUCCESS \/ r_res r <> SUCCESS) by (destruct (r_res r); auto; right; discriminate).
  destruct DEC as [OK|NS]; [rewrite OK|].
  2:{ replace (match r_res r with SUCCESS => _ | _ => L end) with L by (destruct (r_res r); congruence). auto. }
  destruct k as [pool size align up o|pool p size up o|pool p total first value lock up o|pool lo hi total value lock up]; cbv beta zeta iota.
  - destruct (alloc_result _ _ _ _ _ _ _ _ _ R CE E) as (_ & _ & RP & _). destruct (RP OK) as (RP1 & _). destruct (Z.eqb_spec (r_ptr r) 0) as [_|NZ]; [auto|]. split.
    + cbn [map]. constructor; [|exact N]. intros IN. apply in_map_iff in IN. destruct IN as (g & K & IN). apply (X g IN). rewrite K. unfold region_key. cbn. congruence.
    + intros g IN _ _. right. exact IN.
  - destruct (free_standingb L p) eqn:FS; [|auto]. apply Proof_TrackerOps.free_standingb_iff in FS. destruct FS as (g & FS). pose proof (X g FS) as XP. destruct FS as (O & B & _).
    destruct (owner_split L p g O) as (L1 & L2 & EL & _ & -> & _). rewrite EL in N. rewrite map_app in N. cbn in N. split.
    + rewrite map_app. exact (NoDup_remove_1 _ _ _ N).
    + intros h IN _ NK. rewrite EL in IN. apply in_app_or in IN. apply in_or_app. destruct IN as [IN|[<-|IN]]; auto. exfalso. apply (NK _ _ _ _ _ eq_refl). unfold region_key. congruence.
  - destruct (split_result _ _ _ _ _ _ _ _ _ _ _ _ R CE E OK) as (g & FS & SZ). destruct (X g FS) as (XP & XT). destruct FS as (O & B & NI).
    assert (AR : 0 < first < total). { cbn [step] in E. destruct (split_args_ok p total first) eqn:AR; [|injection E as <-; discriminate].
      destruct CE as (_ & _ & W1 & W2). unfold split_args_ok in AR. unfold is_word in *. lia. }
    destruct (owner_split L p g O) as (L1 & L2 & EL & _ & _ & ->). rewrite EL in N. rewrite map_app in N. cbn in N. split.
    + rewrite map_app. cbn [map app]. apply NoDup_Add with (a := (pool, p + first)) (l := map region_key L1 ++ (pool, p) :: map region_key L2).
      * change ((pool, p) :: map region_key L2) with ([(pool, p)] ++ map region_key L2).
        replace (map region_key L1 ++ region_key (Region p first pool) :: region_key (Region (p + first) (total - first) pool) :: map region_key L2)
          with ((map region_key L1 ++ [(pool, p)]) ++ (pool, p + first) :: map region_key L2) by (rewrite <- app_assoc; reflexivity).
        rewrite app_assoc. apply Add_app.
      * split; [unfold region_key in N at 2; rewrite XP, B in N; exact N|]. intros IN.
        assert (EX : exists h, In h L /\ region_key h = (pool, p + first)).
        { apply in_app_or in IN. destruct IN as [IN|[IN|IN]].
          - apply in_map_iff in IN. destruct IN as (h & K & IN). exists h. split; [rewrite EL; apply in_or_app; left; exact IN|exact K].
          - injection IN as IN. lia.
          - apply in_map_iff in IN. destruct IN as (h & K & IN). exists h. split; [rewrite EL; apply in_or_app; right; right; exact IN|exact K]. }
        destruct EX as (h & IH & K). apply (NI h IH). unfold region_key in K. injection K as _ K. lia.
    + intros h IN T _. rewrite EL in IN. apply in_app_or in IN. apply in_or_app. destruct IN as [IN|[<-|IN]]; [auto| |right; right; right; exact IN].
      exfalso. apply XT. unfold region_key in T. rewrite XP, B in T. exact T.
  - destruct (merge_lookup _ _ _ _ _ _ _ _ _ _ _ 0 R CE E OK ltac:(unfold is_word, U64; lia)) as ((g & h & FG & FH & AD & _ & _) & _).
    destruct (X g (or_introl FG)) as (XP & XT). destruct (X h (or_intror FH)) as (YP & YT). destruct FG as (OG & BG & _), FH as (OH & BH & _).
    destruct (owner_split L hi h OH) as (L1 & L2 & EL & CH & -> & _). rewrite EL in N. rewrite map_app in N. cbn in N. pose proof (NoDup_remove_1 _ _ _ N) as N1. rewrite <- map_app in N1.
    assert (CL : covers lo h = false) by (apply covers_not; destruct (reached_nice dbg _ _ _ R (proj1 (find_some _ _ OG))); lia).
    assert (OG2 : owner (L1 ++ L2) lo = Some g) by (rewrite <- (owner_drop L1 L2 h lo CL), <- EL; exact OG).
    destruct (owner_split _ lo g OG2) as (K1 & K2 & EK & _ & _ & RP). rewrite RP. rewrite EK in N1. rewrite map_app in N1. cbn in N1. split.
    + rewrite map_app. cbn. unfold region_key at 2. cbn. unfold region_key at 2 in N1. rewrite XP, BG in N1. exact N1.
    + intros x IN T _. rewrite EL in IN. assert (IN2 : x <> h -> In x (L1 ++ L2)).
      { intros NE. apply in_app_or in IN. apply in_or_app. destruct IN as [IN|[IN|IN]]; auto. congruence. }
      assert (NH : x <> h) by (intros ->; apply YT; unfold region_key in T; rewrite YP in T; exact T). specialize (IN2 NH). rewrite EK in IN2. apply in_app_or in IN2. apply in_or_app.
      destruct IN2 as [IN2|[<-|IN2]]; [auto| |right; right; exact IN2]. exfalso. apply XT. unfold region_key in T. rewrite XP in T. exact T.
Qed.

Lemma track_ok : forall q v k r i, PInv q v -> ipc_env dbg v k -> track dbg q k = Some (r, i) ->
  PInv (ir_st i) (PView (observe (p_regions v) k r) (fold_left taken_after (ir_ev i) (p_taken v)) (p_issued v)) /\ ipc_ok (p_taken v) (ir_ev i).
Proof.
  intros q v k r i I EN E. unfold track in E. destruct (step dbg (q_tr q) k) as [r0|] eqn:ST; [|discriminate].
  destruct (track_regions q v k r0 I EN ST) as (R' & N' & KEEP).
  assert (KIN : forall key c, In (key, c) (q_cache q) -> In key (p_taken v)) by (intros key c IN; rewrite (p_take _ _ I); apply (in_map fst) in IN; exact IN).
  assert (PLAIN : (forall pool p size up o, k = TFree pool p size up o -> ~ In (pool, p) (p_taken v)) ->
    PInv (Producer (r_st r0) (q_cache q) (q_id q)) (PView (observe (p_regions v) k r0) (p_taken v) (p_issued v))).
  { intros NF. destruct I as [A1 A2 A3 A4 A5 A6 A7 A8 A9]. constructor; cbn [q_tr q_cache q_id p_regions p_taken p_issued]; auto.
    intros key c IN. destruct (A4 key c IN) as (H1 & g & IG & K & D). split; [exact H1|]. exists g. split; [|auto]. apply KEEP; [exact IG|rewrite K; exact (KIN key c IN)|].
    intros pool p size up o -> E2. apply (NF _ _ _ _ _ eq_refl). rewrite <- E2, K. exact (KIN key c IN). }
  assert (GEN : (forall pool p size up o, k = TFree pool p size up o -> ~ In (pool, p) (p_taken v)) -> (r, i) = (r0, IReply (r_res r0) None (map ITrack (r_ev r0)) (Producer (r_st r0) (q_cache q) (q_id q))) ->
    PInv (ir_st i) (PView (observe (p_regions v) k r) (fold_left taken_after (ir_ev i) (p_taken v)) (p_issued v)) /\ ipc_ok (p_taken v) (ir_ev i)).
  { intros NF EQ. injection EQ as -> ->. cbn [ir_st ir_ev]. rewrite take_track. split; [exact (PLAIN NF)|apply ok_track]. }
  destruct k as [pool size align up o|pool p size up o|pool p total first value lock up o|pool lo hi total value lock up]; try (injection E as E1 E2; apply GEN; [discriminate|congruence]).
  destruct (cache_get (q_cache q) (pool, p)) as [c|] eqn:CG.
  2:{ injection E as E1 E2. apply GEN; [|congruence]. intros ? ? ? ? ? Q. injection Q as <- <- _ _ _. rewrite (p_take _ _ I). apply cache_get_none, CG. }
  injection E as <- <-. cbn [ir_st ir_ev fold_left taken_after]. rewrite take_track. apply cache_get_in in CG. split; [|split; [exact (KIN _ _ CG)|apply ok_track]].
  destruct I as [A1 A2 A3 A4 A5 A6 A7 A8 A9]. constructor; cbn [q_tr q_cache q_id p_regions p_taken p_issued]; auto.
  - rewrite A2. symmetry. apply cache_del_map.
  - rewrite cache_del_map. apply NoDup_filter, A3.
  - intros key x IN. apply cache_del_in in IN. destruct IN as (IN & NK). cbn in NK. destruct (A4 key x IN) as (H1 & g & IG & K & D). split; [exact H1|]. exists g. split; [|auto].
    apply KEEP; [exact IG|rewrite K; exact (KIN key x IN)|]. intros ? ? ? ? ? Q. injection Q as <- <- _ _ _. congruence.
  - intros key x d IN. apply cache_del_in in IN. apply (A8 key x d). tauto.
  - intros key x key' x' IN IN'. apply cache_del_in in IN, IN'. apply (A9 key x key' x'); tauto.
Qed.

Definition got_handle (q : producer) (v : pview) (x : Z) (o : get_oracle) (i : ireply) : Prop :=
  (ir_handle i = None /\ ir_res i <> SUCCESS \/
   exists g hid, owner (p_regions v) x = Some g /\ ir_res i = SUCCESS /\ ir_handle i = Some (the_handle pid hid x g) /\
     (~ In (region_key g) (p_taken v) -> hid = q_id q + 1 /\ ir_ev i = [IGet (g_pool g) (g_base g) (g_size g)]) /\ (In (region_key g) (p_taken v) -> ir_ev i = [])).

Lemma get_ok : forall q v x o, PInv q v -> is_word x ->
  let i := umfGetIPCHandle pid q x o in
  PInv (ir_st i) (PView (p_regions v) (fold_left taken_after (ir_ev i) (p_taken v)) (match ir_handle i with Some d => d :: p_issued v | None => p_issued v end)) /\
  ipc_ok (p_taken v) (ir_ev i) /\ got_handle q v x o i /\
  (x <> 0 -> owner (p_regions v) x <> None -> o = GetOracle SUCCESS true SUCCESS true SUCCESS SUCCESS true -> ir_res i = SUCCESS).
Proof.
  intros q v x o I W i. subst i. unfold umfGetIPCHandle.
  assert (SAME : forall r, r <> SUCCESS -> (x <> 0 -> owner (p_regions v) x <> None -> o = GetOracle SUCCESS true SUCCESS true SUCCESS SUCCESS true -> r = SUCCESS) ->
    let i := IReply r None [] q in PInv (ir_st i) (PView (p_regions v) (fold_left taken_after (ir_ev i) (p_taken v)) (match ir_handle i with Some d => d :: p_issued v | None => p_issued v end)) /\
    ipc_ok (p_taken v) (ir_ev i) /\ got_handle q v x o i /\ (x <> 0 -> owner (p_regions v) x <> None -> o = GetOracle SUCCESS true SUCCESS true SUCCESS SUCCESS true -> ir_res i = SUCCESS)).
  { intros r NR NO i. subst i. cbn [ir_st ir_ev ir_handle fold_left ir_res]. split; [destruct v; exact I|]. split; [exact Logic.I|]. split; [left; auto|exact NO]. }
  destruct (Z.eqb_spec x 0) as [X0|X0]; [apply SAME; [discriminate|congruence]|].
  rewrite (info_reached dbg _ _ x (p_reached _ _ I) W). destruct (owner (p_regions v) x) as [g|] eqn:O; cbn [info_of]; [|apply SAME; [discriminate|congruence]].
  destruct (g_hsize o) eqn:HS; try (apply SAME; [discriminate|intros _ _ ->; discriminate]).
  destruct (g_mem o) eqn:HM; cbn [negb]; [|apply SAME; [discriminate|intros _ _ ->; discriminate]].
  pose proof (find_some _ _ O) as (IN & CV).
  destruct (reached_nice dbg _ _ _ (p_reached _ _ I) IN) as (P1 & P2 & P3 & _).
  assert (WR : wrap (x - g_base g) = x - g_base g).
  { unfold wrap. apply Z.mod_small. unfold covers in CV. unfold is_word in W. clear - CV W P1. lia. }
  unfold trackingGetIpcHandle. fold (region_key g). destruct (cache_get (q_cache q) (region_key g)) as [c|] eqn:CG.
  - apply cache_get_in in CG. pose proof (p_cached _ _ I _ _ CG) as (H1 & h & IH & K & D). pose proof (region_uniq q v h g I IH IN K) as ->.
    cbn [ir_st ir_ev ir_handle ir_res fold_left]. rewrite WR, D. change (Handle (v_hid c) (g_base g) pid (g_size g) (x - g_base g) (g_base g, g_size g)) with (the_handle pid (v_hid c) x g).
    split; [|split; [exact Logic.I|split; [|reflexivity]]].
    + pose proof I as [A1 A2 A3 A4 A5 A6 A7 A8 A9]. constructor; cbn [q_tr q_cache q_id p_regions p_taken p_issued]; auto.
      * intros d [<-|ID]; auto.
      * intros d d' [<-|ID] [<-|ID'] E; cbn [the_handle d_hid d_base d_size] in *; auto.
        -- rewrite <- D. symmetry. apply (A8 _ _ d' CG ID'). congruence.
        -- rewrite <- D. apply (A8 _ _ d CG ID). congruence.
      * intros k2 c2 d IN2 [<-|ID] E; [|exact (A8 k2 c2 d IN2 ID E)]. cbn [the_handle d_hid d_base d_size] in *. rewrite <- D. apply (A9 _ _ _ _ CG IN2 E).
    + right. exists g, (v_hid c). split; [exact O|]. split; [reflexivity|]. split; [reflexivity|]. split; [|auto]. intros NT. exfalso. apply NT. rewrite (p_take _ _ I). apply (in_map fst) in CG. exact CG.
  - pose proof (proj1 (cache_get_none _ _) CG) as NC. rewrite <- (p_take _ _ I) in NC.
    destruct (g_usize o) eqn:HU; try (apply SAME; [discriminate|intros _ _ ->; discriminate]).
    destruct (g_val o) eqn:HV; cbn [negb]; [|apply SAME; [discriminate|intros _ _ ->; discriminate]].
    destruct (g_up o) eqn:UP; try (apply SAME; [discriminate|intros _ _ ->; discriminate]).
    pose proof I as [A1 A2 A3 A4 A5 A6 A7 A8 A9].
    destruct (g_ins o) eqn:GI; cbn [ir_st ir_ev ir_handle ir_res fold_left taken_after v_hid v_data].
    + rewrite WR. change (Handle (q_id q + 1) (g_base g) pid (g_size g) (x - g_base g) (g_base g, g_size g)) with (the_handle pid (q_id q + 1) x g). fold (region_key g).
      split; [|split; [split; [exact NC|exact Logic.I]|split; [|reflexivity]]].
      * constructor; cbn [q_tr q_cache q_id p_regions p_taken p_issued map fst]; auto.
        -- f_equal. exact A2.
        -- constructor; [rewrite <- A2; exact NC|exact A3].
        -- intros k c [E|IN2]; [injection E as <- <-; cbn; split; [lia|]; exists g; auto|]. destruct (A4 k c IN2). split; [lia|auto].
        -- intros d [<-|ID]; [cbn; lia|]. pose proof (A6 d ID). lia.
        -- intros d d' [<-|ID] [<-|ID'] E; cbn [the_handle d_hid d_base d_size] in *; auto.
           ++ pose proof (A6 d' ID'). lia.
           ++ pose proof (A6 d ID). lia.
        -- intros k c d [E|IN2] [<-|ID] EH; cbn [the_handle d_hid d_base d_size] in *.
           ++ injection E as <- <-. reflexivity.
           ++ injection E as <- <-. cbn in EH. pose proof (A6 d ID). lia.
           ++ pose proof (proj1 (A4 k c IN2)). lia.
           ++ exact (A8 k c d IN2 ID EH).
        -- intros k c k' c' [E|IN2] [E'|IN2'] EH.
           ++ injection E as <- <-. injection E' as <- <-. reflexivity.
           ++ injection E as <- <-. cbn in EH. pose proof (proj1 (A4 k' c' IN2')). lia.
           ++ injection E' as <- <-. cbn in EH. pose proof (proj1 (A4 k c IN2)). lia.
           ++ exact (A9 k c k' c' IN2 IN2' EH).
      * right. exists g, (q_id q + 1). split; [exact O|]. split; [reflexivity|]. split; [reflexivity|]. split; [auto|]. intros T. destruct (NC T).
    + set (re := match g_put o with SUCCESS => ERR_OUT_OF_HOST_MEMORY | r => r end). assert (NRE : re <> SUCCESS) by (unfold re; destruct (g_put o); discriminate).
      assert (E : (match re with SUCCESS => IReply re None [IGet (g_pool g) (g_base g) (g_size g); IPut (g_pool g) (g_base g)] (Producer (q_tr q) (q_cache q) (q_id q + 1))
                   | _ => IReply re None [IGet (g_pool g) (g_base g) (g_size g); IPut (g_pool g) (g_base g)] (Producer (q_tr q) (q_cache q) (q_id q + 1)) end) =
              IReply re None [IGet (g_pool g) (g_base g) (g_size g); IPut (g_pool g) (g_base g)] (Producer (q_tr q) (q_cache q) (q_id q + 1))) by (destruct re; reflexivity).
      replace (match re with SUCCESS => _ | _ => _ end) with (IReply re None [IGet (g_pool g) (g_base g) (g_size g); IPut (g_pool g) (g_base g)] (Producer (q_tr q) (q_cache q) (q_id q + 1))) by (destruct re; reflexivity).
      cbn [ir_st ir_ev ir_handle ir_res fold_left taken_after filter]. fold (region_key g). rewrite (proj2 (pkey_eqb_eq _ _) eq_refl). cbn [negb].
      assert (EF : filter (fun y => negb (pkey_eqb y (region_key g))) (p_taken v) = p_taken v).
      { clear - NC. induction (p_taken v) as [|y T IH]; [reflexivity|]. cbn [filter]. rewrite (proj2 (pkey_eqb_neq y (region_key g))); [|intros ->; apply NC; left; reflexivity].
        cbn [negb]. f_equal. apply IH. intros X. apply NC. right. exact X. }
      rewrite EF. split; [|split; [split; [exact NC|split; [left; reflexivity|exact Logic.I]]|split; [left; auto|intros _ _ ->; discriminate]]].
      constructor; cbn [q_tr q_cache q_id p_regions p_taken p_issued map fst]; auto.
      * intros k c IN2. destruct (A4 k c IN2). split; [lia|auto].
      * intros d ID. pose proof (A6 d ID). lia.
Qed.

Lemma new_ok : PInv producer_new (PView [] [] []).
Proof. constructor; cbn; try constructor; intros; contradiction. Qed.
Lemma produced_inv : forall q v, produced dbg pid q v -> PInv q v.
Proof.
  intros q v P. induction P as [|q v k r i P IH EN T|q v x o P IH W]; [exact new_ok|exact (proj1 (track_ok q v k r i IH EN T))|exact (proj1 (get_ok q v x o IH W))].
Qed.
End P.
