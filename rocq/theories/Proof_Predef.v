(* Proofs about the predefined memory spaces. *)
From Verif Require Import Base Model_Memspace Spec_Memspace Proof_Memspace Model_Predef Spec_Predef.

(* ---- allocations that cannot fail stay so ---- *)
Lemma ga : forall n m o m', answers m = [] -> galloc n m = (o, m') -> answers m' = [].
Proof. intros n m o m' A E. destruct (galloc_spec _ _ _ _ E) as (_ & _ & _ & Q). exact (proj1 (Q A)). Qed.
Lemma make_a : forall t m r h m', answers m = [] -> target_make t m = (r, h, m') -> answers m' = [].
Proof.
  intros t m r h m' A E. unfold target_make in E. destruct (galloc 16 m) as (o1 & m1) eqn:G1. pose proof (ga _ _ _ _ A G1) as A1. destruct o1; [|injection E as <- <- <-; exact A1].
  destruct (galloc 4 m1) as (o2 & m2) eqn:G2. pose proof (ga _ _ _ _ A1 G2) as A2. destruct o2; injection E as <- <- <-; exact A2.
Qed.
Lemma destroy_a : forall hs m m', destroy_all hs m = Some m' -> answers m' = answers m.
Proof.
  intros hs. induction hs as [|h hs IH]; intros m m' E; cbn [destroy_all] in E; [injection E as <-; reflexivity|].
  unfold target_destroy in E. destruct (lookup h m); [|discriminate]. rewrite (IH _ _ E). reflexivity.
Qed.
Lemma clone_loop_a : forall hs dn n m r l m', answers m = [] -> clone_loop hs dn n m = Some (r, l, m') -> answers m' = [].
Proof.
  intros hs. induction hs as [|h hs IH]; intros dn n m r l m' A E; cbn [clone_loop] in E; [injection E as <- <- <-; exact A|].
  unfold target_clone in E. destruct (lookup h m) as [t|]; [|discriminate]. destruct (target_make t m) as ((r1 & h1) & m1) eqn:T. pose proof (make_a _ _ _ _ _ A T) as A1.
  destruct r1; try exact (IH _ _ _ _ _ _ A1 E); destruct (destroy_all dn m1) as [m2|] eqn:D; try discriminate; injection E as <- <- <-; cbn [gfree answers]; rewrite (destroy_a _ _ _ D); exact A1.
Qed.
Lemma numa_loop_a : forall ids dn m r l m', answers m = [] -> numa_loop ids dn m = Some (r, l, m') -> answers m' = [].
Proof.
  intros ids. induction ids as [|i ids IH]; intros dn m r l m' A E; cbn [numa_loop] in E; [injection E as <- <- <-; exact A|].
  destruct (target_make (0, i) m) as ((r1 & h1) & m1) eqn:T. pose proof (make_a _ _ _ _ _ A T) as A1.
  destruct r1; try exact (IH _ _ _ _ _ A1 E); destruct dn; try discriminate; injection E as <- <- <-; exact A1.
Qed.
Lemma numa_a : forall ids m r o m', answers m = [] -> space_from_numa ids m = Some (r, o, m') -> answers m' = [].
Proof.
  intros ids m r o m' A E. unfold space_from_numa in E. destruct ids as [|i ids]; [injection E as <- <- <-; exact A|].
  destruct (galloc 16 m) as (o1 & m1) eqn:G1. pose proof (ga _ _ _ _ A G1) as A1. destruct o1; cbn [negb] in E; [|injection E as <- <- <-; exact A1].
  destruct (galloc _ m1) as (o2 & m2) eqn:G2. pose proof (ga _ _ _ _ A1 G2) as A2. destruct o2; cbn [negb] in E; [|injection E as <- <- <-; exact A2].
  destruct (numa_loop (i :: ids) [] m2) as [((r3 & l3) & m3)|] eqn:L; [|discriminate]. pose proof (numa_loop_a _ _ _ _ _ _ A2 L) as A3. destruct r3; injection E as <- <- <-; exact A3.
Qed.
Lemma clone_a : forall s m r o m', answers m = [] -> space_clone s m = Some (r, o, m') -> answers m' = [].
Proof.
  intros s m r o m' A E. unfold space_clone in E.
  destruct (galloc 16 m) as (o1 & m1) eqn:G1. pose proof (ga _ _ _ _ A G1) as A1. destruct o1; cbn [negb] in E; [|injection E as <- <- <-; exact A1].
  destruct (galloc _ m1) as (o2 & m2) eqn:G2. pose proof (ga _ _ _ _ A1 G2) as A2. destruct o2; cbn [negb] in E; [|injection E as <- <- <-; exact A2].
  destruct (clone_loop (nodes s) [] 2 m2) as [((r3 & l3) & m3)|] eqn:L; [|discriminate]. pose proof (clone_loop_a _ _ _ _ _ _ _ A2 L) as A3. destruct r3; injection E as <- <- <-; exact A3.
Qed.
Lemma sort_a : forall srt prop s m r s' m', answers m = [] -> space_sort srt prop s m = (r, s', m') -> answers m' = [].
Proof.
  intros srt prop s m r s' m' A E. unfold space_sort in E. destruct (galloc _ m) as (o1 & m1) eqn:G1. pose proof (ga _ _ _ _ A G1) as A1. destruct o1; cbn [negb] in E; [|injection E as <- <- <-; exact A1].
  destruct (properties prop (nodes s)) as (r1 & es). destruct r1; injection E as <- <- <-; exact A1.
Qed.
Lemma select_a : forall g s m r o m', answers m = [] -> space_select g s m = Some (r, o, m') -> answers m' = [].
Proof.
  intros g s m r o m' A E. unfold space_select in E.
  destruct (galloc _ m) as (o1 & m1) eqn:G1. pose proof (ga _ _ _ _ A G1) as A1. destruct o1; cbn [negb] in E; [|injection E as <- <- <-; exact A1].
  destruct (best_targets g (nodes s) []) as (rb & best). destruct rb; try (injection E as <- <- <-; exact A1).
  destruct (galloc 16 m1) as (o2 & m2) eqn:G2. pose proof (ga _ _ _ _ A1 G2) as A2. destruct o2; cbn [negb] in E; [|injection E as <- <- <-; exact A2].
  destruct (galloc (8 * len best) m2) as (o3 & m3) eqn:G3. pose proof (ga _ _ _ _ A2 G3) as A3. destruct o3; cbn [negb] in E; [|injection E as <- <- <-; exact A3].
  destruct (clone_loop best [] 3 m3) as [((r4 & l4) & m4)|] eqn:L; [|discriminate]. pose proof (clone_loop_a _ _ _ _ _ _ _ A3 L) as A4. destruct r4; injection E as <- <- <-; exact A4.
Qed.

(* ---- the predefined spaces as a list ---- *)
Definition opt (o : option space) : list space := match o with Some s => [s] | None => [] end.
Lemma exist_eq : forall w, exist w = opt (ptr w All) ++ opt (ptr w Cap) ++ opt (ptr w Bw) ++ opt (ptr w Lat).
Proof. intros w. unfold exist. cbn [flat_map]. rewrite app_nil_r. reflexivity. Qed.
Lemma exist_split : forall w k, exists l1 l2, exist w = l1 ++ opt (ptr w k) ++ l2 /\
  forall w', (forall j, j <> k -> ptr w' j = ptr w j) -> exist w' = l1 ++ opt (ptr w' k) ++ l2.
Proof.
  intros w k. destruct k.
  - exists [], (opt (ptr w Cap) ++ opt (ptr w Bw) ++ opt (ptr w Lat)). rewrite exist_eq. split; [reflexivity|]. intros w' H. rewrite exist_eq, (H Cap), (H Bw), (H Lat) by discriminate. reflexivity.
  - exists (opt (ptr w All)), (opt (ptr w Bw) ++ opt (ptr w Lat)). rewrite exist_eq. split; [reflexivity|]. intros w' H. rewrite exist_eq, (H All), (H Bw), (H Lat) by discriminate. reflexivity.
  - exists (opt (ptr w All) ++ opt (ptr w Cap)), (opt (ptr w Lat)). rewrite exist_eq, <- !app_assoc. split; [reflexivity|]. intros w' H. rewrite exist_eq, (H All), (H Cap), (H Lat), <- !app_assoc by discriminate. reflexivity.
  - exists (opt (ptr w All) ++ opt (ptr w Cap) ++ opt (ptr w Bw)), []. rewrite exist_eq, <- !app_assoc, app_nil_r. split; [reflexivity|]. intros w' H. rewrite exist_eq, (H All), (H Cap), (H Bw), <- !app_assoc, app_nil_r by discriminate. reflexivity.
Qed.
Lemma exist_in : forall w k s, ptr w k = Some s -> In s (exist w).
Proof. intros w k s E. unfold exist. apply in_flat_map. exists k. split; [destruct k; cbn [In]; tauto|]. rewrite E. left. reflexivity. Qed.
Lemma exist_none : forall w, (forall k, ptr w k = None) -> exist w = [].
Proof. intros w H. rewrite exist_eq, !H. reflexivity. Qed.
Lemma owned_in : forall w k s h, ptr w k = Some s -> In h (nodes s) -> In h (owned (exist w)).
Proof. intros w k s h E I. unfold owned. apply in_flat_map. exists s. split; [exact (exist_in _ _ _ E)|exact I]. Qed.
Lemma kind_eqb_spec : forall a b, kind_eqb a b = true <-> a = b.
Proof. intros a b. destruct a, b; cbn; split; intros; congruence. Qed.
Lemma kind_neq : forall a b, a <> b -> kind_eqb a b = false.
Proof. intros a b. destruct a, b; cbn; congruence. Qed.
Lemma kind_refl : forall a, kind_eqb a a = true.
Proof. intros []; reflexivity. Qed.
Lemma kind_dec : forall a b : kind, a = b \/ a <> b.
Proof. intros a b. destruct a, b; ((left; reflexivity) || (right; discriminate)). Qed.
Lemma good_add : forall w w' k s m, good (exist w) (wm w) -> ptr w k = None -> framed s (owned (exist w)) (total (exist w)) m -> (forall j, j <> k -> ptr w' j = ptr w j) -> ptr w' k = Some s -> wm w' = m -> good (exist w') (wm w').
Proof.
  intros w w' k s m (_ & AR) N F O P MM. destruct (exist_split w k) as (l1 & l2 & E1 & E2). rewrite (E2 w' O), P, MM. rewrite N in E1. cbn [opt app] in *. rewrite E1 in *. apply good_framed. split; [exact F|exact AR].
Qed.

Section Machine.
Variables (M : list hw) (attr : bool -> list Z -> hw -> result * Z) (srt : list (Z * Z) -> list (Z * Z)).
Hypothesis WORDS : words attr.
Hypothesis SORTS : sorts srt.
Notation V := (map (fun n => Some (stands n)) M).
Definition qv (lat : bool) (a b : option target) : result * Z :=
  match a, b with
  | Some (_, i), Some (_, j) =>
      match by_place M i, by_place M j with
      | Some x, Some y => if intersects (cpus x) (cpus y) then attr lat (cpus x) y else (SUCCESS, worst lat)
      | _, _ => (ERR_INVALID_ARGUMENT, 0)
      end
  | _, _ => (ERR_INVALID_ARGUMENT, 0)
  end.
Definition cv (a : option target) : result * Z :=
  match a with Some (_, i) => match by_os M i with Some n => (SUCCESS, memory n) | None => (ERR_INVALID_ARGUMENT, 0) end | None => (ERR_INVALID_ARGUMENT, 0) end.
Lemma query_view : forall lat m a b, query M attr lat m a b = qv lat (lookup a m) (lookup b m).
Proof. reflexivity. Qed.
Lemma cap_view : forall m h, capacity M m h = cv (lookup h m).
Proof. reflexivity. Qed.
Lemma qv_word : forall lat a b, 0 <= snd (qv lat a b) < U64.
Proof.
  intros lat a b. assert (W0 : 0 <= 0 < U64) by (unfold U64; lia). unfold qv. destruct a as [(ta & i)|]; [|exact W0]. destruct b as [(tb & j)|]; [|exact W0]. destruct (by_place M i) as [x|]; [|exact W0]. destruct (by_place M j) as [y|]; [|exact W0].
  destruct (intersects (cpus x) (cpus y)); [apply WORDS|]. destruct lat; cbn [snd worst]; unfold U64; lia.
Qed.
Lemma cv_known : forall a, In a V -> fst (cv a) = SUCCESS.
Proof.
  intros a I. apply in_map_iff in I. destruct I as (n & <- & I). unfold cv, stands, by_os. destruct (find (fun x => os_index x =? os_index n) M) eqn:F; [reflexivity|]. pose proof (find_none _ _ F _ I) as W. cbn in W. rewrite Z.eqb_refl in W. discriminate.
Qed.
Definition bestv (lat : bool) (a x : option target) : Prop :=
  In x V /\ forall y, In y V -> if lat then snd (qv lat a x) <= snd (qv lat a y) else snd (qv lat a y) <= snd (qv lat a x).
Definition answered (lat : bool) : Prop := forall a b, In a V -> In b V -> fst (qv lat a b) = SUCCESS.
Definition picks (lat : bool) (v : list (option target)) : Prop :=
  answered lat /\ (forall a, In a V -> exists x, In x v /\ bestv lat a x) /\ (forall x, In x v -> exists a, In a V /\ bestv lat a x) /\ (NoDup V -> NoDup v).
Definition cont (k : kind) (v : list (option target)) : Prop :=
  match k with
  | All => v = V
  | Cap => Permutation V v /\ forall i j a b, (i < j)%nat -> nth_error v i = Some a -> nth_error v j = Some b -> snd (cv b) <= snd (cv a)
  | Bw => picks false v
  | Lat => picks true v
  end.
Lemma pick_spec : forall (lat : bool) m s ss, good ss m -> answers m = [] -> In s ss -> map (fun h => lookup h m) (nodes s) = V ->
  let f : Z -> result * Z := if lat then best_latency (query M attr lat m) (nodes s) else best_bandwidth (query M attr lat m) (nodes s) in
  exists r o m', space_select f s m = Some (r, o, m') /\ untouched m m' (owned ss) /\ answers m' = [] /\
  ((r = SUCCESS /\ exists s', o = Some s' /\ framed s' (owned ss) (total ss) m' /\ picks lat (map (fun h => lookup h m') (nodes s'))) \/
   (r <> SUCCESS /\ o = None /\ held m' (owned ss) (total ss) /\ (nodes s = [] \/ ~ answered lat))).
Proof.
  intros lat m s ss (H & AR) A IS VW f.
  assert (OW : forall h, In h (nodes s) -> In h (owned ss)) by (intros h I; unfold owned; apply in_flat_map; eauto).
  assert (TOV : forall h, In h (nodes s) -> In (lookup h m) V) by (intros h I; rewrite <- VW; apply (in_map (fun h => lookup h m)); exact I).
  assert (OFV : forall a, In a V -> exists h, In h (nodes s) /\ lookup h m = a) by (intros a I; rewrite <- VW in I; apply in_map_iff in I; destruct I as (h & E & I); eauto).
  assert (FS : forall h t, In h (nodes s) -> f h = (SUCCESS, t) -> In t (nodes s) /\ (forall y, In y (nodes s) -> fst (query M attr lat m h y) = SUCCESS) /\ bestv lat (lookup h m) (lookup t m)).
  { intros h t I E. destruct lat; unfold f, best_latency, best_bandwidth in E.
    - destruct (least_loop_spec _ _ _ _ _ E) as (K & [(-> & Q)|(pre & post & EN & Q1 & Q2 & Q3)]).
      + assert (IN : In (hd 0 (nodes s)) (nodes s)) by (destruct (nodes s); [destruct I|left; reflexivity]). split; [exact IN|]. split; [exact K|]. split; [apply TOV; exact IN|]. intros y J. apply OFV in J. destruct J as (z & J & <-). rewrite <- !query_view. specialize (Q z J). pose proof (qv_word true (lookup h m) (lookup z m)). pose proof (qv_word true (lookup h m) (lookup (hd 0 (nodes s)) m)). rewrite <- !query_view in *. clear - Q H0 H1. lia.
      + assert (IN : In t (nodes s)) by (rewrite EN; apply in_app_iff; right; left; reflexivity). split; [exact IN|]. split; [exact K|]. split; [apply TOV; exact IN|]. intros y J. apply OFV in J. destruct J as (z & J & <-). rewrite <- !query_view. rewrite EN in J. apply in_app_iff in J. destruct J as [J|[<-|J]]; [specialize (Q2 z J); clear - Q2; lia|clear; lia|exact (Q3 z J)].
    - destruct (best_loop_spec _ _ _ _ _ E) as (K & [(-> & Q)|(pre & post & EN & Q1 & Q2 & Q3)]).
      + assert (IN : In (hd 0 (nodes s)) (nodes s)) by (destruct (nodes s); [destruct I|left; reflexivity]). split; [exact IN|]. split; [exact K|]. split; [apply TOV; exact IN|]. intros y J. apply OFV in J. destruct J as (z & J & <-). rewrite <- !query_view. specialize (Q z J). pose proof (qv_word false (lookup h m) (lookup z m)). pose proof (qv_word false (lookup h m) (lookup (hd 0 (nodes s)) m)). rewrite <- !query_view in *. clear - Q H0 H1. lia.
      + assert (IN : In t (nodes s)) by (rewrite EN; apply in_app_iff; right; left; reflexivity). split; [exact IN|]. split; [exact K|]. split; [apply TOV; exact IN|]. intros y J. apply OFV in J. destruct J as (z & J & <-). rewrite <- !query_view. rewrite EN in J. apply in_app_iff in J. destruct J as [J|[<-|J]]; [specialize (Q2 z J); clear - Q2; lia|clear; lia|exact (Q3 z J)]. }
  assert (FF : forall h r v, r <> SUCCESS -> In h (nodes s) -> f h = (r, v) -> exists y, In y (nodes s) /\ fst (query M attr lat m h y) <> SUCCESS).
  { assert (L1 : forall (q : Z -> result * Z) hs b t r v, r <> SUCCESS -> best_loop q hs b t = (r, v) -> exists y, In y hs /\ fst (q y) <> SUCCESS).
    { intros q hs. induction hs as [|x hs IH]; intros b t r v N E; cbn [best_loop] in E; [congruence|]. destruct (q x) as (rx & vx) eqn:Q. destruct rx; try (exists x; split; [left; reflexivity|rewrite Q; discriminate]). destruct (t <? vx); destruct (IH _ _ _ _ N E) as (y & I & W); exists y; split; try (right; exact I); exact W. }
    assert (L2 : forall (q : Z -> result * Z) hs b t r v, r <> SUCCESS -> least_loop q hs b t = (r, v) -> exists y, In y hs /\ fst (q y) <> SUCCESS).
    { intros q hs. induction hs as [|x hs IH]; intros b t r v N E; cbn [least_loop] in E; [congruence|]. destruct (q x) as (rx & vx) eqn:Q. destruct rx; try (exists x; split; [left; reflexivity|rewrite Q; discriminate]). destruct (vx <? t); destruct (IH _ _ _ _ N E) as (y & I & W); exists y; split; try (right; exact I); exact W. }
    intros h r v N I E. destruct lat; unfold f in E; [exact (L2 _ _ _ _ _ _ N E)|exact (L1 _ _ _ _ _ _ N E)]. }
  destruct (select_spec f s m (owned ss) (total ss) H) as (r & o & m' & E & U & Q); [intros h t I E; apply OW; exact (proj1 (FS h t I E))|].
  exists r, o, m'. split; [exact E|]. split; [exact U|]. split; [exact (select_a _ _ _ _ _ _ A E)|]. destruct Q as [(-> & s' & best & -> & F & ND & B & K & VB)|(NS & -> & HD & W)].
  - left. split; [reflexivity|]. exists s'. split; [reflexivity|]. split; [exact F|]. rewrite VB.
    assert (NB : forall h, In h best -> In h (nodes s)) by (intros h I; apply B in I; destruct I as (x & I & EX); exact (proj1 (FS _ _ I EX))).
    split; [|split; [|split]].
    + intros a b Ia Ib. apply OFV in Ia, Ib. destruct Ia as (x & Ia & <-), Ib as (y & Ib & <-). rewrite <- query_view. destruct (f x) as (rx & t) eqn:EX. specialize (K x Ia). rewrite EX in K. cbn in K. subst rx. exact (proj1 (proj2 (FS _ _ Ia EX)) y Ib).
    + intros a Ia. apply OFV in Ia. destruct Ia as (x & Ia & <-). destruct (f x) as (rx & t) eqn:EX. specialize (K x Ia). rewrite EX in K. cbn in K. subst rx. exists (lookup t m). split; [apply (in_map (fun h => lookup h m)); apply B; eauto|exact (proj2 (proj2 (FS _ _ Ia EX)))].
    + intros x I. apply in_map_iff in I. destruct I as (t & <- & I). apply B in I. destruct I as (h & I & EX). exists (lookup h m). split; [apply TOV; exact I|exact (proj2 (proj2 (FS _ _ I EX)))].
    + intros NV. apply NoDup_map_on; [exact ND|]. intros x y Ix Iy EQ. apply NB in Ix, Iy. rewrite <- VW in NV. exact (NoDup_map_injective _ _ _ _ _ _ NV Ix Iy EQ).
  - right. split; [exact NS|]. split; [reflexivity|]. split; [exact HD|]. destruct W as [W|[W|(h & v & I & W)]]; [contradiction|left; exact W|]. right. intros AN. destruct (FF _ _ _ NS I W) as (y & J & NQ). apply NQ. rewrite query_view. apply AN; apply TOV; assumption.
Qed.
Lemma make_spec2 : forall k t m s ss, k <> All -> good ss m -> answers m = [] -> In s ss -> map (fun h => lookup h m) (nodes s) = V ->
  exists r o m', make M attr srt k (Some t) s m = Some (r, o, m') /\ untouched m m' (owned ss) /\ answers m' = [] /\
  ((r = SUCCESS /\ exists s', o = Some s' /\ framed s' (owned ss) (total ss) m' /\ cont k (map (fun h => lookup h m') (nodes s'))) \/
   (r <> SUCCESS /\ o = None /\ held m' (owned ss) (total ss) /\ (nodes s = [] \/ (k = Bw /\ ~ answered false) \/ (k = Lat /\ ~ answered true)))).
Proof.
  intros k t m s ss NK G A IS VW. destruct k; [contradiction| | |]; cbn [make].
  - pose proof G as (H & AR). destruct (clone_spec s m (owned ss) (total ss) H) as ((r & o & m1 & E & U & Q) & _); [intros h I; unfold owned; apply in_flat_map; eauto|]. rewrite E. pose proof (clone_a _ _ _ _ _ A E) as A1. destruct Q as [(-> & s1 & -> & F & VC)|(NS & -> & HD)].
    + destruct (space_sort srt (capacity M m1) s1 m1) as ((r2 & s2) & m2) eqn:ES. pose proof (sort_a _ _ _ _ _ _ _ A1 ES) as A2. destruct (sort_spec _ _ _ _ _ _ _ _ _ SORTS F ES) as (F2 & S2 & [(-> & P2 & K2 & O2)|(N2 & UN & W)]).
      * eexists _, _, _. split; [reflexivity|]. split; [intros x I; rewrite <- (U x I); apply same_lookup; exact S2|]. split; [exact A2|]. left. split; [reflexivity|]. exists s2. split; [reflexivity|]. split; [exact F2|]. cbn [cont]. split.
        -- rewrite <- VW, <- VC. rewrite (map_ext (fun h => lookup h m2) (fun h => lookup h m1)) by (intros x; apply same_lookup; exact S2). apply Permutation_map. exact P2.
        -- intros i j a b L NA NB. rewrite nth_error_map in NA, NB. destruct (nth_error (nodes s2) i) as [ha|] eqn:EA; [|discriminate]. destruct (nth_error (nodes s2) j) as [hb|] eqn:EB; [|discriminate]. cbn in NA, NB. injection NA as <-. injection NB as <-. pose proof (O2 i j ha hb L EA EB) as W. rewrite !cap_view in W. rewrite !(same_lookup m1 m2) by exact S2. exact W.
      * exfalso. assert (LV : forall h, In h (nodes s1) -> In (lookup h m1) V) by (intros h I; rewrite <- VW, <- VC; apply (in_map (fun h => lookup h m1)); exact I).
        destruct W as [(_ & [W|W])|(h & v & I & W)]; [contradiction| |].
        -- rewrite W in VC. cbn [map] in VC. destruct (nodes s) as [|x l] eqn:EN; [|discriminate VC]. unfold space_clone in E. rewrite EN in E. destruct (galloc 16 m) as (o1 & m3). destruct o1; cbn [negb] in E; [|discriminate]. change (8 * len []) with 0 in E. unfold galloc in E. cbn [Z.eqb negb] in E. discriminate.
        -- rewrite cap_view in W. pose proof (cv_known _ (LV h I)) as KN. rewrite W in KN. cbn in KN. congruence.
    + assert (NN : nodes s = []).
      { destruct (nodes s) as [|x l] eqn:EN; [reflexivity|]. exfalso. destruct (proj2 (clone_spec s m (owned ss) (total ss) H ltac:(intros h I; unfold owned; apply in_flat_map; eauto)) A ltac:(rewrite EN; discriminate)) as (s3 & m3 & E3). congruence. }
      exists r, None, m1. split; [destruct r; congruence|]. split; [exact U|]. split; [exact A1|]. right. split; [exact NS|]. split; [reflexivity|]. split; [exact HD|]. left. exact NN.
  - destruct (pick_spec false m s ss G A IS VW) as (r & o & m' & E & U & A1 & Q). exists r, o, m'. split; [exact E|]. split; [exact U|]. split; [exact A1|]. destruct Q as [Q|(NS & -> & HD & W)]; [left; exact Q|right]. split; [exact NS|]. split; [reflexivity|]. split; [exact HD|]. tauto.
  - destruct (pick_spec true m s ss G A IS VW) as (r & o & m' & E & U & A1 & Q). exists r, o, m'. split; [exact E|]. split; [exact U|]. split; [exact A1|]. destruct Q as [Q|(NS & -> & HD & W)]; [left; exact Q|right]. split; [exact NS|]. split; [reflexivity|]. split; [exact HD|]. tauto.
Qed.

(* ---- the invariant ---- *)
Record core (w : world) : Prop := Core {
  c_good : good (exist w) (wm w);
  c_ans : answers (wm w) = [];
  c_off : forall k, fired w k = false -> ptr w k = None;
  c_topo : t_all w = if t_fired w then match t_ptr w with Some t => [t] | None => [] end else [];
  c_used : forall k s, ptr w k = Some s -> t_fired w = true /\ t_ptr w <> None;
  c_cont : forall k s, ptr w k = Some s -> cont k (map (fun h => lookup h (wm w)) (nodes s)) }.
Definition stuck (w : world) : Prop := M <> [] -> forall k, k = All \/ k = Cap -> fired w k = true -> ptr w k = None -> t_fired w = true /\ t_ptr w = None.
Definition ext (w w' : world) : Prop :=
  refs w' = refs w /\ (forall j, fired w j = true -> fired w' j = true /\ ptr w' j = ptr w j) /\
  (t_fired w = true -> t_fired w' = true /\ t_ptr w' = t_ptr w) /\ untouched (wm w) (wm w') (owned (exist w)).
Lemma ext_refl : forall w, ext w w.
Proof. intros w. split; [reflexivity|]. split; [auto|]. split; [auto|]. intros h _. reflexivity. Qed.
Lemma ext_owned : forall w w' h, core w -> ext w w' -> In h (owned (exist w)) -> In h (owned (exist w')).
Proof.
  intros w w' h C (_ & X & _) I. unfold owned in *. apply in_flat_map in I. destruct I as (s & I & J). unfold exist in I. apply in_flat_map in I. destruct I as (k & _ & I).
  destruct (ptr w k) as [s'|] eqn:P; [|destruct I]. destruct I as [<-|[]]. apply in_flat_map. exists s'. split; [|exact J]. apply (exist_in _ k). rewrite (proj2 (X k ltac:(destruct (fired w k) eqn:F; [reflexivity|]; rewrite (c_off w C k F) in P; discriminate))). exact P.
Qed.
Lemma ext_trans : forall a b c, core a -> ext a b -> ext b c -> ext a c.
Proof.
  intros a b c C X Y. pose proof X as (X1 & X2 & X3 & X4). destruct Y as (Y1 & Y2 & Y3 & Y4). split; [congruence|]. split; [|split].
  - intros j F. destruct (X2 j F) as (F1 & P1). destruct (Y2 j F1) as (F2 & P2). split; [exact F2|congruence].
  - intros F. destruct (X3 F) as (F1 & P1). destruct (Y3 F1) as (F2 & P2). split; [exact F2|congruence].
  - intros h I. rewrite (Y4 h (ext_owned _ _ _ C X I)). exact (X4 h I).
Qed.
Lemma topo_spec : forall ok w o w', core w -> get_topo ok w = (o, w') ->
  core w' /\ wm w' = wm w /\ ptr w' = ptr w /\ fired w' = fired w /\ refs w' = refs w /\ t_fired w' = true /\ t_ptr w' = o /\
  (t_fired w = true -> o = t_ptr w) /\ (forall t, o = Some t -> there w' t = true) /\ (t_fired w = false -> ok = true -> o <> None).
Proof.
  intros ok w o w' C E. unfold get_topo in E. destruct (t_fired w) eqn:F.
  - injection E as <- <-. split; [exact C|]. do 4 (split; [reflexivity|]). split; [exact F|]. split; [reflexivity|]. split; [auto|]. split; [|discriminate]. intros t E. unfold there. rewrite (c_topo w C), F, E. cbn. rewrite Z.eqb_refl. reflexivity.
  - assert (EA : t_all w = []) by (rewrite (c_topo w C), F; reflexivity). assert (NP : forall k s, ptr w k <> Some s) by (intros k s P; destruct (c_used w C k s P); congruence).
    assert (CC : forall p l n, l = match p with Some t => [t] | None => [] end -> core (w_topo w true p l n)).
    { intros p l n EL. constructor; try apply C; cbn [w_topo t_all t_fired t_ptr ptr]; [exact EL|]. intros k s P. exfalso. exact (NP k s P). }
    destruct ok; injection E as <- <-; (split; [apply CC; rewrite EA; reflexivity|]); do 6 (split; [reflexivity|]); (split; [discriminate|]); split; cbn [there w_topo t_all].
    + intros t E. injection E as <-. unfold there. cbn [w_topo t_all existsb]. rewrite Z.eqb_refl. reflexivity.
    + intros _ _. discriminate.
    + intros t E. discriminate.
    + intros _ E. discriminate.
Qed.
Lemma core_fire : forall w k, core w -> core (w_fire w k true).
Proof.
  intros w k C. constructor; try apply C. cbn [w_fire fired ptr]. intros j E. apply (c_off w C). destruct (kind_eqb j k); [discriminate|exact E].
Qed.
Lemma views_ext : forall w m' k s, core w -> untouched (wm w) m' (owned (exist w)) -> ptr w k = Some s -> map (fun h => lookup h m') (nodes s) = map (fun h => lookup h (wm w)) (nodes s).
Proof. intros w m' k s C U P. apply map_ext_in. intros h I. exact (U h (owned_in _ _ _ _ P I)). Qed.
(* a new space *)
Lemma core_new : forall w k s m, core w -> ptr w k = None -> fired w k = true -> t_fired w = true -> t_ptr w <> None -> framed s (owned (exist w)) (total (exist w)) m -> answers m = [] -> untouched (wm w) m (owned (exist w)) -> cont k (map (fun h => lookup h m) (nodes s)) -> core (w_ptr (w_mem w m) k (Some s)).
Proof.
  intros w k s m C N FK TF TP F A U CO. constructor.
  - apply (good_add w _ k s m (c_good w C) N F); cbn [w_ptr w_mem ptr wm]; [intros j NE; rewrite (kind_neq j k NE); reflexivity|rewrite kind_refl; reflexivity|reflexivity].
  - exact A.
  - cbn [w_ptr w_mem fired ptr]. intros j E. destruct (kind_eqb j k) eqn:K; [apply kind_eqb_spec in K; subst j; congruence|exact (c_off w C j E)].
  - exact (c_topo w C).
  - cbn [w_ptr w_mem ptr t_fired t_ptr]. auto.
  - cbn [w_ptr w_mem ptr wm]. intros j s' P. destruct (kind_eqb j k) eqn:K; [apply kind_eqb_spec in K; subst j; injection P as <-; exact CO|]. rewrite (views_ext w m j s' C U P). exact (c_cont w C j s' P).
Qed.
(* none *)
Lemma core_mem : forall w m, core w -> held m (owned (exist w)) (total (exist w)) -> answers m = [] -> untouched (wm w) m (owned (exist w)) -> core (w_mem w m).
Proof.
  intros w m C H A U. constructor; try apply C.
  - split; [exact H|exact (proj2 (c_good w C))].
  - exact A.
  - cbn [w_mem ptr wm]. intros j s' P. rewrite (views_ext w m j s' C U P). exact (c_cont w C j s' P).
Qed.
Lemma all_spec : forall ok w, core w -> exists w', get_all M ok w = Some (ptr w' All, w') /\ core w' /\ ext w w' /\ (forall j, j <> All -> fired w' j = fired w j /\ ptr w' j = ptr w j) /\ fired w' All = true /\
  (fired w All = false -> t_fired w' = true /\ (M <> [] -> ptr w' All = None -> t_ptr w' = None) /\ (t_fired w = false -> ok = true -> t_ptr w' <> None)).
Proof.
  intros ok w C. unfold get_all. destruct (fired w All) eqn:FA.
  { exists w. split; [reflexivity|]. split; [exact C|]. split; [apply ext_refl|]. split; [auto|]. split; [exact FA|]. discriminate. }
  set (w1 := w_fire w All true). assert (C1 : core w1) by (apply core_fire; exact C). destruct (get_topo ok w1) as (o & w2) eqn:T. destruct (topo_spec _ _ _ _ C1 T) as (C2 & M2 & P2 & F2 & R2 & TF & TP & TS & TH & TN).
  assert (PA : ptr w2 All = None) by (rewrite P2; exact (c_off w C All FA)). assert (FA2 : fired w2 All = true) by (rewrite F2; reflexivity).
  assert (EX : exist w2 = exist w) by (unfold exist; rewrite P2; reflexivity).
  assert (OT : forall j, j <> All -> fired w2 j = fired w j /\ ptr w2 j = ptr w j) by (intros j NE; rewrite F2, P2; unfold w1; cbn [w_fire fired ptr]; rewrite (kind_neq j All NE); auto).
  assert (X2 : ext w w2).
  { split; [exact R2|]. split; [|split].
    - intros j F. assert (NE : j <> All) by congruence. destruct (OT j NE) as (W1 & W2). rewrite W1. auto.
    - intros F. split; [exact TF|]. rewrite TP. exact (TS F).
    - intros h _. rewrite M2. reflexivity. }
  assert (FIN : forall m, M = [] -> held m (owned (exist w2)) (total (exist w2)) -> answers m = [] -> untouched (wm w2) m (owned (exist w2)) -> o <> None ->
    exists w', Some (ptr w2 All, w_mem w2 m) = Some (ptr w' All, w') /\ core w' /\ ext w w' /\ (forall j, j <> All -> fired w' j = fired w j /\ ptr w' j = ptr w j) /\ fired w' All = true /\
    (false = false -> t_fired w' = true /\ (M <> [] -> ptr w' All = None -> t_ptr w' = None) /\ (t_fired w = false -> ok = true -> t_ptr w' <> None))).
  { intros m EM HD AN U NO. exists (w_mem w2 m). split; [reflexivity|]. split; [apply core_mem; assumption|]. split; [apply (ext_trans w w2); [exact C|exact X2|split; [reflexivity|]; split; [auto|]; split; [auto|exact U]]|]. split; [exact OT|]. split; [exact FA2|]. intros _. split; [exact TF|]. split; [intros W; contradiction|]. intros _ _. cbn [w_mem t_ptr]. rewrite TP. exact NO. }
  destruct o as [t|].
  2: { exists w2. split; [rewrite PA; reflexivity|]. split; [exact C2|]. split; [exact X2|]. split; [exact OT|]. split; [exact FA2|]. intros _. split; [exact TF|]. split; [intros _ _; exact TP|]. intros W1 W2. exfalso. exact (TN W1 W2 eq_refl). }
  rewrite (TH t eq_refl). cbn [negb]. pose proof (c_good w2 C2) as (H & AR). destruct (galloc (4 * Z.of_nat (List.length M)) (wm w2)) as (oo & m1) eqn:G. destruct (galloc_spec _ _ _ _ G) as (S1 & B1 & Z1 & A1). pose proof (ga _ _ _ _ (c_ans w2 C2) G) as AN1. pose proof (held_alloc _ _ _ _ _ _ H G) as H1. destruct oo; cbn [negb].
  2: { apply FIN; [|eapply held_eq; [exact H1|lia]|exact AN1|apply same_untouched; exact S1|discriminate]. destruct M as [|n M0]; [reflexivity|]. destruct (A1 (c_ans w2 C2)) as (_ & W). specialize (W ltac:(cbn [List.length]; lia)). discriminate. }
  destruct (from_numa_spec (map os_index M) m1 _ _ H1) as [(_ & W)|((r & os & m2 & E & U & Q) & AV)]; [contradiction|]. rewrite E. pose proof (numa_a _ _ _ _ _ AN1 E) as AN2. destruct Q as [(-> & s & -> & F & VS)|(NS & -> & HD)].
  - assert (FR : framed s (owned (exist w2)) (total (exist w2)) (gfree 1 m2)) by (destruct F as (F & FA'); split; [eapply held_eq; [apply held_free; exact F|lia]|exact FA']).
    assert (UU : untouched (wm w2) (gfree 1 m2) (owned (exist w2))) by (intros h I; rewrite (same_lookup m2 _ h (gfree_same 1 m2)), (U h I); apply same_lookup; exact S1).
    exists (w_ptr (w_mem w2 (gfree 1 m2)) All (Some s)). split; [reflexivity|]. split; [|split; [|split; [|split]]].
    + apply core_new; [exact C2|exact PA|exact FA2|exact TF|rewrite TP; discriminate|exact FR|exact AN2|exact UU|]. cbn [cont]. rewrite (map_ext (fun h => lookup h (gfree 1 m2)) (fun h => lookup h m2)) by (intros x; apply same_lookup; apply gfree_same). rewrite VS, map_map. reflexivity.
    + split; [exact R2|]. split; [|split].
      * intros j FJ. assert (NE : j <> All) by congruence. cbn [w_ptr w_mem fired ptr]. rewrite (kind_neq j All NE). destruct (OT j NE) as (-> & ->). auto.
      * exact (proj1 (proj2 (proj2 X2))).
      * rewrite <- EX. intros h I. change (wm w) with (wm w1). rewrite <- M2. exact (UU h I).
    + intros j NE. cbn [w_ptr w_mem fired ptr]. rewrite (kind_neq j All NE). exact (OT j NE).
    + exact FA2.
    + intros _. split; [exact TF|]. split; [intros _ W; discriminate|]. intros _ _. cbn [w_ptr w_mem t_ptr]. rewrite TP. discriminate.
  - assert (EM : M = []).
    { destruct M as [|n M0]; [reflexivity|]. destruct (AV AN1 ltac:(discriminate)) as (s' & m' & W). congruence. }
    destruct (FIN (gfree 1 m2) EM) as (w' & E' & K'); [eapply held_eq; [apply held_free; exact HD|lia]|exact AN2|intros h I; rewrite (same_lookup m2 _ h (gfree_same 1 m2)), (U h I); apply same_lookup; exact S1|discriminate|]. exists w'. split; [destruct r; congruence|exact K'].
Qed.
Lemma made_spec : forall k ok w, k <> All -> core w -> stuck w -> exists w', get_made M attr srt k ok w = Some (ptr w' k, w') /\ core w' /\ stuck w' /\ ext w w' /\ fired w' k = true /\
  (forall j, j <> All -> j <> k -> fired w' j = fired w j) /\ (fired w All = true -> forall j, j <> k -> fired w' j = fired w j) /\
  (M <> [] -> fired w k = false -> t_fired w' = true /\ (t_fired w = false -> ok = true -> t_ptr w' <> None) /\ (ptr w' k = None -> t_ptr w' <> None -> (k = Bw /\ ~ answered false) \/ (k = Lat /\ ~ answered true))).
Proof.
  intros k ok w NK C SK. unfold get_made. destruct (fired w k) eqn:FK.
  { exists w. split; [reflexivity|]. split; [exact C|]. split; [exact SK|]. split; [apply ext_refl|]. split; [exact FK|]. split; [auto|]. split; [auto|]. discriminate. }
  set (w0 := w_fire w k true). assert (C0 : core w0) by (apply core_fire; exact C).
  assert (X0 : ext w w0).
  { split; [reflexivity|]. split; [|split; [auto|intros h _; reflexivity]]. intros j F. unfold w0. cbn [w_fire fired ptr]. split; [|reflexivity]. destruct (kind_eqb j k); [reflexivity|exact F]. }
  destruct (all_spec ok w0 C0) as (w1 & E1 & C1 & X1 & OT & FA & NEW). rewrite E1.
  assert (XX : ext w w1) by (exact (ext_trans _ _ _ C X0 X1)).
  assert (F0 : forall j, j <> k -> fired w0 j = fired w j) by (intros j NE; unfold w0; cbn [w_fire fired]; rewrite (kind_neq j k NE); reflexivity).
  assert (FO : forall j, j <> All -> j <> k -> fired w1 j = fired w j) by (intros j N1 N2; rewrite (proj1 (OT j N1)); exact (F0 j N2)).
  assert (FO2 : fired w All = true -> forall j, j <> k -> fired w1 j = fired w j) by (intros W j N2; destruct (kind_dec j All) as [->|N1]; [congruence|exact (FO j N1 N2)]).
  assert (FK1 : fired w1 k = true) by (rewrite (proj1 (OT k NK)); unfold w0; cbn [w_fire fired]; rewrite kind_refl; reflexivity).
  assert (PK1 : ptr w1 k = None) by (rewrite (proj2 (OT k NK)); exact (c_off w C k FK)).
  assert (SA : M <> [] -> ptr w1 All = None -> t_fired w1 = true /\ t_ptr w1 = None).
  { intros NM PN. destruct (fired w All) eqn:FW.
    - assert (PW : ptr w All = None) by (rewrite <- (proj2 (proj1 (proj2 XX) All FW)); exact PN). destruct (SK NM All (or_introl eq_refl) FW PW) as (T1 & T2). destruct (proj1 (proj2 (proj2 XX)) T1) as (T3 & T4). split; [exact T3|congruence].
    - assert (FW0 : fired w0 All = false) by (rewrite F0 by (intros W; apply NK; symmetry; exact W); exact FW). destruct (NEW FW0) as (T1 & T2 & _). split; [exact T1|exact (T2 NM PN)]. }
  assert (TT : M <> [] -> t_fired w1 = true).
  { intros NM. destruct (ptr w1 All) as [s|] eqn:P; [exact (proj1 (c_used w1 C1 All s P))|exact (proj1 (SA NM eq_refl))]. }
  assert (TN : M <> [] -> t_fired w = false -> ok = true -> t_ptr w1 <> None).
  { intros NM TW EO. destruct (fired w All) eqn:FW.
    - destruct (ptr w1 All) as [s|] eqn:P; [exact (proj2 (c_used w1 C1 All s P))|]. assert (PW : ptr w All = None) by (rewrite <- (proj2 (proj1 (proj2 XX) All FW)); exact P). destruct (SK NM All (or_introl eq_refl) FW PW). congruence.
    - assert (FW0 : fired w0 All = false) by (rewrite F0 by (intros W; apply NK; symmetry; exact W); exact FW). destruct (NEW FW0) as (_ & _ & T3). exact (T3 TW EO). }
  assert (SC1 : k <> Cap -> stuck w1).
  { intros NC NM j [->| ->] FJ PJ; [exact (SA NM PJ)|]. assert (N2 : Cap <> k) by (intros W; apply NC; symmetry; exact W). rewrite (FO Cap ltac:(discriminate) N2) in FJ. rewrite (proj2 (OT Cap ltac:(discriminate))) in PJ. destruct (SK NM Cap (or_intror eq_refl) FJ PJ) as (T1 & T2). destruct (proj1 (proj2 (proj2 XX)) T1) as (T3 & T4). split; [exact T3|congruence]. }
  destruct (ptr w1 All) as [s|] eqn:PA.
  2: { exists w1. split; [rewrite PK1; reflexivity|]. split; [exact C1|]. split.
       { destruct (kind_dec k Cap) as [->|NC]; [|exact (SC1 NC)]. intros NM j [->| ->] FJ PJ; exact (SA NM eq_refl). }
       split; [exact XX|]. split; [exact FK1|]. split; [exact FO|]. split; [exact FO2|]. intros NM _. destruct (SA NM eq_refl) as (T1 & T2). split; [exact T1|]. split; [intros W1 W2; exact (TN NM W1 W2)|]. intros _ W. contradiction. }
  destruct (c_used w1 C1 All s PA) as (TF & TP). destruct (get_topo ok w1) as (t & w2) eqn:T. assert (TE : t = t_ptr w1 /\ w2 = w1) by (unfold get_topo in T; rewrite TF in T; injection T as <- <-; auto). destruct TE as (-> & ->).
  destruct (topo_spec _ _ _ _ C1 T) as (_ & _ & _ & _ & _ & _ & _ & _ & TH & _). destruct (t_ptr w1) as [t|] eqn:ET; [|contradiction]. rewrite (TH t eq_refl). cbn [negb].
  destruct (make_spec2 k t (wm w1) s (exist w1) NK (c_good w1 C1) (c_ans w1 C1) (exist_in _ _ _ PA) (c_cont w1 C1 All s PA)) as (r & o & m & E & U & A & Q). rewrite E. destruct Q as [(-> & s' & -> & F & CO)|(NS & -> & HD & W)].
  - exists (w_ptr (w_mem w1 m) k (Some s')). split; [reflexivity|]. split; [apply core_new; try assumption; rewrite ET; discriminate|]. split; [|split; [|split; [|split; [|split]]]].
    + intros NM j J FJ PJ. cbn [w_ptr w_mem fired ptr t_fired t_ptr] in *. destruct (kind_eqb j k) eqn:K; [discriminate|]. destruct (kind_dec k Cap) as [->|NC]; [|exact (SC1 NC NM j J FJ PJ)]. destruct J as [->| ->]; [congruence|discriminate].
    + destruct XX as (X1' & X2' & X3' & X4'). split; [exact X1'|]. split; [|split].
      * intros j FJ. cbn [w_ptr w_mem fired ptr]. destruct (kind_eqb j k) eqn:K; [apply kind_eqb_spec in K; subst j; congruence|exact (X2' j FJ)].
      * exact X3'.
      * intros h I. cbn [w_ptr w_mem wm]. rewrite (U h (ext_owned _ _ _ C (conj X1' (conj X2' (conj X3' X4'))) I)). exact (X4' h I).
    + exact FK1.
    + exact FO.
    + exact FO2.
    + intros NM _. split; [exact TF|]. split; [intros W1 W2; cbn [w_ptr w_mem t_ptr]; rewrite ET; discriminate|]. cbn [w_ptr w_mem ptr]. rewrite kind_refl. discriminate.
  - assert (NN : M <> [] -> nodes s <> []) by (intros NM W'; pose proof (c_cont w1 C1 All s PA) as CV; cbn [cont] in CV; rewrite W' in CV; destruct M; [contradiction|discriminate CV]).
    exists (w_mem w1 m). split; [cbn [w_mem ptr]; destruct r; congruence|]. split; [apply core_mem; assumption|]. split; [|split; [|split; [|split; [|split]]]].
    + intros NM j J FJ PJ. cbn [w_mem fired ptr t_fired t_ptr] in *. destruct (kind_dec k Cap) as [->|NC]; [|exact (SC1 NC NM j J FJ PJ)]. exfalso. destruct W as [W|[(W & _)|(W & _)]]; [exact (NN NM W)|discriminate|discriminate].
    + destruct XX as (X1' & X2' & X3' & X4'). split; [exact X1'|]. split; [exact X2'|]. split; [exact X3'|]. intros h I. cbn [w_mem wm]. rewrite (U h (ext_owned _ _ _ C (conj X1' (conj X2' (conj X3' X4'))) I)). exact (X4' h I).
    + exact FK1.
    + exact FO.
    + exact FO2.
    + intros NM _. split; [exact TF|]. split; [intros W1 W2; cbn [w_mem t_ptr]; rewrite ET; discriminate|]. intros _ _. destruct W as [W|W]; [exfalso; exact (NN NM W)|exact W].
Qed.
End Machine.
