(* Memory spaces: the operations seen through the targets of a space, and the cases that go wrong. *)
From Verif Require Import Base Model_Memspace Spec_Memspace Proof_Memspace.

Lemma members_live : forall m s ts x, members m s ts -> In x (nodes s) -> exists t, In t ts /\ lookup x m = Some t.
Proof. intros m s ts x E I. unfold members in E. assert (W : In (lookup x m) (map Some ts)) by (rewrite <- E; apply (in_map (fun h => lookup h m)); exact I). apply in_map_iff in W. destruct W as (t & E1 & E2). eauto. Qed.
Lemma members_has : forall m s ts t, members m s ts -> In t ts -> exists x, In x (nodes s) /\ lookup x m = Some t.
Proof. intros m s ts t E I. unfold members in E. assert (W : In (Some t) (map (fun h => lookup h m) (nodes s))) by (rewrite E; apply in_map; exact I). apply in_map_iff in W. destruct W as (x & E1 & E2). eauto. Qed.
Lemma members_exist : forall ss m s, tidy ss m -> In s ss -> exists ts, members m s ts.
Proof.
  intros ss m s T I. assert (L : forall h, In h (nodes s) -> exists t, lookup h m = Some t) by (intros h J; apply (t_live _ _ T); unfold owned; apply in_flat_map; eauto). unfold members. clear - L.
  induction (nodes s) as [|x l IH]; [exists []; reflexivity|]. destruct (L x (or_introl eq_refl)) as (t & E). destruct IH as (ts & W); [intros h J; apply L; right; exact J|]. exists (t :: ts). cbn [map]. rewrite E, W. reflexivity.
Qed.
Lemma map_Some_inj : forall (A : Type) (l l' : list A), map Some l = map Some l' -> l = l'.
Proof. intros A l. induction l as [|x l IH]; intros [|y l'] E; try discriminate; [reflexivity|]. cbn [map] in E. injection E as -> E. f_equal. exact (IH l' E). Qed.
Lemma members_one : forall m s ts ts', members m s ts -> members m s ts' -> ts = ts'.
Proof. intros m s ts ts' E E'. unfold members in *. apply map_Some_inj. congruence. Qed.

Lemma add_members : forall l1 s l2 m h u ts, tidy (l1 ++ s :: l2) m -> members m s ts -> lookup h m = Some u ->
  exists r s' m', space_add s h m = Some (r, s', m') /\ tidy (l1 ++ s' :: l2) m' /\ untouched m m' (owned (l1 ++ l2)) /\
  ((r = SUCCESS /\ members m' s' (ts ++ [u]) /\ forall t, In t ts -> ~ conflict t u) \/
   (r = ERR_INVALID_ARGUMENT /\ unchanged s s' m m' /\ exists t, In t ts /\ conflict t u) \/
   (r = ERR_OUT_OF_HOST_MEMORY /\ unchanged s s' m m' /\ answers m <> [])).
Proof.
  intros l1 s l2 m h u ts T M LU. apply good_tidy in T. apply good_framed in T. destruct T as (F & A). destruct (add_spec _ _ _ _ h u F LU) as (r & s' & m' & E & F' & U & Q). exists r, s', m'. split; [exact E|]. split; [apply good_tidy; apply good_framed; auto|]. split; [intros x I; apply U; apply in_app_iff; right; exact I|].
  destruct Q as [(-> & (h' & NH & LH) & NC)|[(-> & UC & x & t & I & L & C)|(-> & UC & W)]]; [left|right; left|right; right; auto].
  - split; [reflexivity|]. split.
    + unfold members in *. rewrite NH, !map_app. cbn [map]. rewrite LH. f_equal. rewrite <- M. apply map_ext_in. intros x I. apply U. apply in_app_iff. left. exact I.
    + intros t I. destruct (members_has _ _ _ _ M I) as (x & J & L). exact (NC x t J L).
  - split; [reflexivity|]. split; [exact UC|]. destruct (members_live _ _ _ _ M I) as (t' & I' & L'). exists t. split; [congruence|exact C].
Qed.
Lemma map_split : forall (A B : Type) (f : A -> B) l a x b, map f l = a ++ x :: b -> exists l1 y l2, l = l1 ++ y :: l2 /\ map f l1 = a /\ f y = x /\ map f l2 = b.
Proof.
  intros A B f l. induction l as [|z l IH]; intros a x b E; [destruct a; discriminate|]. destruct a as [|w a]; cbn [map app] in E; injection E as E1 E2.
  - exists [], z, l. auto.
  - destruct (IH a x b E2) as (l1 & y & l2 & -> & E3 & E4 & E5). exists (z :: l1), y, l2. cbn [map app]. rewrite E3. subst. auto.
Qed.
Lemma remove_members : forall l1 s l2 m h u ts, tidy (l1 ++ s :: l2) m -> members m s ts -> lookup h m = Some u ->
  exists r s' m', space_remove s h m = Some (r, s', m') /\ tidy (l1 ++ s' :: l2) m' /\ untouched m m' (owned (l1 ++ l2)) /\
  ((r = SUCCESS /\ 1 < Z.of_nat (List.length ts) /\ exists pre post, ts = pre ++ u :: post /\ ~ In u pre /\ members m' s' (pre ++ post)) \/
   (r = ERR_INVALID_ARGUMENT /\ unchanged s s' m m' /\ ~ In u ts) \/
   (r = ERR_OUT_OF_HOST_MEMORY /\ unchanged s s' m m' /\ (answers m <> [] \/ ts = [u]))).
Proof.
  intros l1 s l2 m h u ts T M LU. apply good_tidy in T. apply good_framed in T. destruct T as (F & A). destruct (remove_spec _ _ _ _ h u F LU) as (r & s' & m' & E & F' & U & Q). exists r, s', m'. split; [exact E|]. split; [apply good_tidy; apply good_framed; auto|]. split; [exact U|].
  assert (LL : len (nodes s) = Z.of_nat (List.length ts)) by (unfold len; f_equal; rewrite <- (map_length (fun h => lookup h m) (nodes s)), M, map_length; reflexivity).
  destruct Q as [(-> & LN & _ & pre & x & post & P1 & P2 & P3 & _ & P4 & P5)|[(-> & UC & N)|(-> & UC & NE & W)]]; [left|right; left|right; right].
  - split; [reflexivity|]. split; [rewrite <- LL; exact LN|]. unfold members in M. rewrite P1, map_app in M. cbn [map] in M. symmetry in M. destruct (map_split _ _ _ _ _ _ _ M) as (t1 & y & t2 & -> & M1 & M2 & M3). assert (y = u) by congruence. subst y.
    exists t1, t2. split; [reflexivity|]. split.
    + intros I. assert (W : In (Some u) (map (fun h => lookup h m) pre)) by (rewrite <- M1; apply in_map; exact I). apply in_map_iff in W. destruct W as (z & W1 & W2). exact (P4 z W2 W1).
    + unfold members. rewrite P2. rewrite (map_ext_in _ (fun h => lookup h m) (pre ++ post)) by exact P5. rewrite !map_app, M1, M3. reflexivity.
  - split; [reflexivity|]. split; [exact UC|]. intros I. destruct (members_has _ _ _ _ M I) as (x & J & L). exact (N x J L).
  - split; [reflexivity|]. split; [exact UC|]. destruct W as [W|W]; [left; exact W|].
    destruct (answers m) eqn:AE; [|left; discriminate]. right. unfold space_remove in E. destruct (nodes s) as [|x [|y l]] eqn:NS; [contradiction| |rewrite !len_cons in W; pose proof (len_pos l); lia]. cbn [split_equal] in E. unfold compare in E. rewrite LU in E. unfold members in M. rewrite NS in M. cbn [map] in M. destruct ts as [|t [|t2 ts]]; try discriminate. cbn [map] in M. injection M as M. rewrite M in E. destruct t as (ta & ia), u as (tb & ib). destruct (Z.eqb_spec ta tb) as [->|]; cbn [negb] in E; [|discriminate]. destruct (Z.eqb_spec ia ib) as [->|]; cbn [negb] in E; [reflexivity|discriminate].
Qed.
Lemma clone_members : forall ss m s ts, tidy ss m -> In s ss -> members m s ts ->
  exists r o m', space_clone s m = Some (r, o, m') /\ untouched m m' (owned ss) /\
  ((r = SUCCESS /\ exists s', o = Some s' /\ tidy (ss ++ [s']) m' /\ members m' s' ts) \/ (r <> SUCCESS /\ o = None /\ tidy ss m' /\ (answers m <> [] \/ ts = []))).
Proof.
  intros ss m s ts T I M. apply good_tidy in T. pose proof T as (H & A). destruct (clone_spec s m _ _ H) as ((r & o & m' & E & U & Q) & AA); [intros h J; unfold owned; apply in_flat_map; eauto|]. exists r, o, m'. split; [exact E|]. split; [exact U|]. destruct Q as [(-> & s' & -> & F & V)|(NS & -> & F)].
  - left. split; [reflexivity|]. exists s'. split; [reflexivity|]. split; [apply good_tidy; apply good_push; assumption|]. unfold members in *. rewrite V. exact M.
  - right. split; [exact NS|]. split; [reflexivity|]. split; [apply good_tidy; split; assumption|]. destruct (answers m) eqn:AE; [|left; discriminate]. right. unfold members in M. destruct (nodes s) as [|x l]; [destruct ts; [reflexivity|discriminate]|]. destruct (AA eq_refl ltac:(discriminate)) as (s' & m2 & E'). rewrite E in E'. congruence.
Qed.
Lemma numa_members : forall ss m ids, tidy ss m ->
  (space_from_numa ids m = None /\ answers m <> []) \/
  exists r o m', space_from_numa ids m = Some (r, o, m') /\ untouched m m' (owned ss) /\
  ((r = SUCCESS /\ exists s', o = Some s' /\ tidy (ss ++ [s']) m' /\ members m' s' (map (fun i => (0, i)) ids)) \/ (r <> SUCCESS /\ o = None /\ tidy ss m' /\ (answers m <> [] \/ ids = []))).
Proof.
  intros ss m ids T. apply good_tidy in T. pose proof T as (H & A). destruct (from_numa_spec ids m _ _ H) as [W|((r & o & m' & E & U & Q) & AA)]; [left; exact W|right]. exists r, o, m'. split; [exact E|]. split; [exact U|]. destruct Q as [(-> & s' & -> & F & V)|(NS & -> & F)].
  - left. split; [reflexivity|]. exists s'. split; [reflexivity|]. split; [apply good_tidy; apply good_push; assumption|]. unfold members. rewrite V, map_map. reflexivity.
  - right. split; [exact NS|]. split; [reflexivity|]. split; [apply good_tidy; split; assumption|]. destruct (answers m) eqn:AE; [|left; discriminate]. right. destruct ids as [|x l]; [reflexivity|]. destruct (AA eq_refl ltac:(discriminate)) as (s' & m2 & E'). rewrite E in E'. congruence.
Qed.
Lemma destroy_members : forall l1 s l2 m, tidy (l1 ++ s :: l2) m -> exists m', space_destroy s m = Some m' /\ tidy (l1 ++ l2) m' /\ untouched m m' (owned (l1 ++ l2)).
Proof. intros l1 s l2 m T. apply good_tidy in T. apply good_framed in T. destruct T as (F & A). destruct (destroy_space_spec _ _ _ _ F) as (m' & E & H & U & _). exists m'. split; [exact E|]. split; [apply good_tidy; split; assumption|exact U]. Qed.
Lemma sort_members : forall srt prop l1 s l2 m r s' m', sorts srt -> tidy (l1 ++ s :: l2) m -> space_sort srt prop s m = (r, s', m') ->
  tidy (l1 ++ s' :: l2) m' /\ untouched m m' (nodes s ++ owned (l1 ++ l2)) /\
  ((r = SUCCESS /\ Permutation (nodes s) (nodes s') /\ (forall h, In h (nodes s) -> fst (prop h) = SUCCESS) /\ forall i j a b, (i < j)%nat -> nth_error (nodes s') i = Some a -> nth_error (nodes s') j = Some b -> snd (prop b) <= snd (prop a)) \/
   (r <> SUCCESS /\ unchanged s s' m m' /\ ((r = ERR_OUT_OF_HOST_MEMORY /\ (answers m <> [] \/ nodes s = [])) \/ exists h v, In h (nodes s) /\ prop h = (r, v)))).
Proof.
  intros srt prop l1 s l2 m r s' m' ST T E. apply good_tidy in T. apply good_framed in T. destruct T as (F & A). destruct (sort_spec _ _ _ _ _ _ _ _ _ ST F E) as (F' & S & Q). split; [apply good_tidy; apply good_framed; auto|]. split; [apply same_untouched; exact S|exact Q].
Qed.
Lemma filter_members : forall fail f l1 s l2 m ts, tidy (l1 ++ s :: l2) m -> is_set m s -> members m s ts -> (forall r, fail r <> SUCCESS) ->
  match space_filter fail f s m with
  | None => (forall h r, In h (nodes s) -> f h <> Fail r) /\ (answers m <> [] \/ (1 < Z.of_nat (List.length ts) /\ forall h, In h (nodes s) -> f h = Drop))
  | Some (r, s', m') => tidy (l1 ++ s' :: l2) m' /\ untouched m m' (owned (l1 ++ l2)) /\
      ((r = SUCCESS /\ (forall h r, In h (nodes s) -> f h <> Fail r) /\ nodes s' = filter (fun h => match f h with Drop => false | _ => true end) (nodes s) /\ untouched m m' (nodes s')) \/
       (r <> SUCCESS /\ (unchanged s s' m m' \/ r = ERR_UNKNOWN /\ incl (nodes s') (nodes s)) /\
        (answers m <> [] \/ (exists h r0, In h (nodes s) /\ f h = Fail r0 /\ r = fail r0) \/ (Z.of_nat (List.length ts) <= 1 /\ forall h, In h (nodes s) -> f h = Drop))))
  end.
Proof.
  intros fail f l1 s l2 m ts T IS M FN. apply good_tidy in T. pose proof T as GD. apply good_framed in T. destruct T as (F & A). assert (UQ : uniq m s) by (apply set_uniq; [intros h I; apply (framed_live _ _ _ _ h F); apply in_app_iff; left; exact I|exact IS]).
  assert (LL : len (nodes s) = Z.of_nat (List.length ts)) by (unfold len; f_equal; rewrite <- (map_length (fun h => lookup h m) (nodes s)), M, map_length; reflexivity).
  pose proof (filter_spec fail f s _ _ m F FN) as FS. pose proof (filter_everything fail f s _ _ m F (uniq_distinct _ _ UQ)) as FE. destruct (space_filter fail f s m) as [((r & s') & m')|] eqn:E.
  - destruct FS as (F' & U1 & U2 & IC & Q1 & Q2 & Q3). split; [apply good_tidy; apply good_framed; auto|]. split; [exact U1|]. assert (RS : r = SUCCESS \/ r <> SUCCESS) by (destruct r; auto; right; discriminate). destruct RS as [->|NS]; [left|right].
    + destruct (Q2 eq_refl) as (NF & EX). split; [reflexivity|]. split; [exact NF|]. split; [|exact U2]. rewrite (EX (uniq_distinct _ _ UQ)). apply filter_ext. intros h. unfold drops. destruct (f h); reflexivity.
    + split; [exact NS|]. split; [destruct Q1 as [W|[W|W]]; [contradiction|right; auto|left; exact W]|]. destruct (answers m) eqn:AE; [|left; discriminate]. right. destruct (Q3 NS eq_refl) as [W|W]; [left; exact W|right]. split; [|exact W]. rewrite <- LL. destruct (Z.le_gt_cases (len (nodes s)) 1) as [K|K]; [exact K|]. specialize (FE eq_refl K W). discriminate.
  - destruct FS as (NF & W). split; [exact NF|]. destruct (answers m) eqn:AE; [|left; discriminate]. right. destruct W as [W|W]; [contradiction|]. split; [|exact W]. rewrite <- LL.
    destruct (Z.lt_ge_cases 1 (len (nodes s))) as [K|K]; [exact K|]. exfalso. unfold space_filter in E. destruct (galloc (8 * len (nodes s)) m) as (o & m1) eqn:G. destruct o; cbn [negb] in E; [|discriminate]. destruct (galloc_spec _ _ _ _ G) as (S1 & B1 & Z1 & A1). destruct (nodes s) as [|x [|y l]] eqn:NS; [specialize (Z1 eq_refl); discriminate| |rewrite !len_cons in K; pose proof (len_pos l); lia].
    cbn [collect] in E. rewrite (W x (or_introl eq_refl)) in E. cbn [remove_all] in E. destruct F as (FH & FA). destruct (proj1 (held_live _ _ _ x FH) ltac:(rewrite NS; left; reflexivity)) as (u & LU). assert (F1 : framed s (owned (l1 ++ l2)) (total (l1 ++ l2) + 1) m1) by (split; [eapply held_eq; [eapply held_alloc; eassumption|lia]|exact FA]).
    destruct (remove_spec s _ _ m1 x u F1 ltac:(rewrite (same_lookup m m1 x S1); exact LU)) as (r & s1 & m2 & RM & _ & _ & Q). rewrite RM in E. destruct Q as [(-> & L2 & _)|[(-> & _)|(-> & _)]]; cbn [re_add] in E; discriminate.
Qed.
(* filters that look at the target only *)
Lemma filter_map_views : forall m p l ts, map (fun h => lookup h m) l = map Some ts -> map (fun h => lookup h m) (filter (fun h => match lookup h m with Some t => p t | None => false end) l) = map Some (filter p ts).
Proof. intros m p l. induction l as [|x l IH]; intros [|t ts] E; try discriminate; [reflexivity|]. cbn [map] in E. injection E as E1 E2. cbn [filter]. rewrite E1. destruct (p t); cbn [map]; rewrite (IH ts E2), ?E1; reflexivity. Qed.
Lemma filter_targets : forall f (p : target -> bool) l1 s l2 m ts, tidy (l1 ++ s :: l2) m -> is_set m s -> members m s ts -> (forall h t, lookup h m = Some t -> f h = if p t then Keep else Drop) -> answers m = [] -> existsb p ts = true ->
  exists s' m', space_filter user_fail f s m = Some (SUCCESS, s', m') /\ tidy (l1 ++ s' :: l2) m' /\ untouched m m' (owned (l1 ++ l2)) /\ members m' s' (filter p ts).
Proof.
  intros f p l1 s l2 m ts T IS M FP AE EX. pose proof (filter_members user_fail f l1 s l2 m ts T IS M ltac:(discriminate)) as FS. apply existsb_exists in EX. destruct EX as (t & IT & PT). destruct (members_has _ _ _ _ M IT) as (x & IX & LX). assert (KX : f x = Keep) by (rewrite (FP x t LX), PT; reflexivity).
  destruct (space_filter user_fail f s m) as [((r & s') & m')|].
  - destruct FS as (T' & U & Q). destruct Q as [(-> & NF & NS & U2)|(NS & _ & Q)].
    + exists s', m'. split; [reflexivity|]. split; [exact T'|]. split; [exact U|]. unfold members. rewrite (map_ext_in _ (fun h => lookup h m)) by exact U2. rewrite NS. rewrite <- (filter_map_views m p (nodes s) ts M). f_equal. apply filter_ext_in. intros h I. destruct (members_live _ _ _ _ M I) as (t' & _ & L'). rewrite L', (FP h t' L'). destruct (p t'); reflexivity.
    + exfalso. destruct Q as [W|[(h & r0 & I & W & _)|(_ & W)]]; [exact (W AE)| |rewrite (W x IX) in KX; discriminate]. destruct (members_live _ _ _ _ M I) as (t' & _ & L'). rewrite (FP h t' L') in W. destruct (p t'); discriminate.
  - exfalso. destruct FS as (_ & [W|(_ & W)]); [exact (W AE)|]. rewrite (W x IX) in KX. discriminate.
Qed.
Lemma select_members : forall bw ss m s ts, tidy ss m -> In s ss -> members m s ts ->
  exists r o m', space_select (best_bandwidth bw (nodes s)) s m = Some (r, o, m') /\ untouched m m' (owned ss) /\
  ((r = SUCCESS /\ exists s' best, o = Some s' /\ tidy (ss ++ [s']) m' /\ NoDup best /\ (forall t, In t best <-> exists h, In h (nodes s) /\ best_bandwidth bw (nodes s) h = (SUCCESS, t)) /\ map (fun h => lookup h m') (nodes s') = map (fun h => lookup h m) best) \/
   (r <> SUCCESS /\ o = None /\ tidy ss m' /\ (answers m <> [] \/ ts = [] \/ exists h v, In h (nodes s) /\ best_bandwidth bw (nodes s) h = (r, v)))).
Proof.
  intros bw ss m s ts T I M. apply good_tidy in T. pose proof T as (H & A). destruct (select_spec (best_bandwidth bw (nodes s)) s m _ _ H) as (r & o & m' & E & U & Q); [intros h t J E; unfold owned; apply in_flat_map; exists s; split; [exact I|]; eapply best_in; [|exact E]; intros W; rewrite W in J; destruct J|]. exists r, o, m'. split; [exact E|]. split; [exact U|].
  destruct Q as [(-> & s' & best & -> & F & N & B & _ & V)|(NS & -> & F & W)].
  - left. split; [reflexivity|]. exists s', best. split; [reflexivity|]. split; [apply good_tidy; apply good_push; assumption|]. auto.
  - right. split; [exact NS|]. split; [reflexivity|]. split; [apply good_tidy; split; assumption|]. destruct W as [W|[W|W]]; [auto| |auto]. right. left. unfold members in M. rewrite W in M. destruct ts; [reflexivity|discriminate].
Qed.
Lemma bandwidth_best : forall bw hs i t, hs <> [] -> (forall h, In h hs -> 0 <= snd (bw i h)) -> best_bandwidth bw hs i = (SUCCESS, t) ->
  (forall h, In h hs -> fst (bw i h) = SUCCESS) /\ exists pre post, hs = pre ++ t :: post /\ (forall h, In h pre -> snd (bw i h) < snd (bw i t)) /\ forall h, In h post -> snd (bw i h) <= snd (bw i t).
Proof.
  intros bw hs i t N P E. destruct (best_loop_spec _ _ _ _ _ E) as (S & [(-> & Q)|(pre & post & -> & _ & Q1 & Q2)]); (split; [exact S|]).
  - destruct hs as [|x l]; [contradiction|]. exists [], l. split; [reflexivity|]. split; [intros h []|]. cbn [hd]. intros h I. pose proof (Q h (or_intror I)). pose proof (P x (or_introl eq_refl)). lia.
  - exists pre, post. auto.
Qed.
Lemma latency_best : forall lat hs i t, hs <> [] -> (forall h, In h hs -> snd (lat i h) < U64) -> best_latency lat hs i = (SUCCESS, t) ->
  (forall h, In h hs -> fst (lat i h) = SUCCESS) /\ exists pre post, hs = pre ++ t :: post /\ (forall h, In h pre -> snd (lat i t) < snd (lat i h)) /\ forall h, In h post -> snd (lat i t) <= snd (lat i h).
Proof.
  intros bw hs i t N P E. destruct (least_loop_spec _ _ _ _ _ E) as (S & [(-> & Q)|(pre & post & -> & _ & Q1 & Q2)]); (split; [exact S|]).
  - destruct hs as [|x l]; [contradiction|]. exists [], l. split; [reflexivity|]. split; [intros h []|]. cbn [hd]. intros h I. pose proof (Q h (or_intror I)) as A. pose proof (P x (or_introl eq_refl)) as B. clear - A B. set (U := U64) in *. clearbody U. lia.
  - exists pre, post. auto.
Qed.
Lemma history_tidy : forall srt ans os ss m, sorts srt -> run srt ([], Mem [] 1 ans 0) os = World ss m -> tidy ss m.
Proof. intros srt ans os ss m ST E. pose proof (run_good srt os [] (Mem [] 1 ans 0) ST (good_empty ans)) as W. rewrite E in W. apply good_tidy. exact (proj1 W). Qed.
Lemma history_sets : forall srt ans os ss m, sorts srt -> (forall ids, In (ONuma ids) os -> NoDup ids) -> run srt ([], Mem [] 1 ans 0) os = World ss m -> forall s, In s ss -> is_set m s.
Proof.
  intros srt ans os ss m ST P E s I. pose proof (run_good srt os [] (Mem [] 1 ans 0) ST (good_empty ans)) as W. rewrite E in W. destruct W as (_ & W). apply uniq_set. apply W; [|intros x []|exact I]. apply Forall_forall. intros o IO. destruct o; cbn [plain]; try exact Logic.I. apply P. exact IO.
Qed.
Lemma step_safe : forall srt ss m o, sorts srt -> tidy ss m -> step srt (ss, m) o = Crashed -> answers m <> [] \/ exists i f s, o = OFilter i f /\ nth_error ss i = Some s /\ forall h, In h (nodes s) -> f h = Drop.
Proof. intros srt ss m o ST T E. apply good_tidy in T. pose proof (step_good srt ss m o ST T) as W. rewrite E in W. exact W. Qed.

(* insertion sort: a function that sorts *)
Fixpoint insert (e : Z * Z) (l : list (Z * Z)) : list (Z * Z) := match l with [] => [e] | x :: l' => if fst x <=? fst e then e :: l else x :: insert e l' end.
Definition isort (l : list (Z * Z)) : list (Z * Z) := fold_right insert [] l.
Lemma insert_perm : forall e l, Permutation (e :: l) (insert e l).
Proof. intros e l. induction l as [|x l IH]; cbn [insert]; [reflexivity|]. destruct (fst x <=? fst e); [reflexivity|]. eapply perm_trans; [apply perm_swap|]. apply perm_skip. exact IH. Qed.
Fixpoint desc (l : list (Z * Z)) : Prop := match l with [] => True | x :: l => (forall y, In y l -> fst y <= fst x) /\ desc l end.
Lemma insert_desc : forall e l, desc l -> desc (insert e l).
Proof.
  intros e l. induction l as [|x l IH]; cbn [insert desc]; [intros _; split; [intros y []|exact I]|]. intros (D1 & D2). destruct (Z.leb_spec (fst x) (fst e)) as [L|L]; cbn [desc].
  - split; [intros y [<-|J]; [exact L|specialize (D1 y J); lia]|auto].
  - split; [|exact (IH D2)]. intros y J. apply (Permutation_in _ (Permutation_sym (insert_perm e l))) in J. destruct J as [<-|J]; [lia|exact (D1 y J)].
Qed.
Lemma isort_sorts : sorts isort.
Proof.
  intros l. split.
  - induction l as [|x l IH]; [constructor|]. cbn [isort fold_right]. eapply perm_trans; [apply perm_skip; exact IH|apply insert_perm].
  - assert (D : desc (isort l)) by (induction l as [|x l IH]; [exact I|]; cbn [isort fold_right]; apply insert_desc; exact IH). clear - D. set (k := isort l) in *. clearbody k. clear l. induction k as [|x k IH]; intros i j a b L NA NB; [destruct i; discriminate|]. cbn [desc] in D. destruct D as (D1 & D2). destruct j as [|j]; [lia|]. cbn [nth_error] in NB. destruct i as [|i]; [cbn in NA; injection NA as <-; apply D1; exact (nth_error_In _ _ NB)|]. exact (IH D2 i j a b ltac:(lia) NA NB).
Qed.
