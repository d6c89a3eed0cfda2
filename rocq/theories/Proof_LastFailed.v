From Verif Require Import Base Model_LastFailed Spec_LastFailed.
Open Scope Z_scope.

Lemma result_eqb_success r : result_eqb r SUCCESS = true <-> r = SUCCESS.
Proof. destruct r; cbn; split; congruence. Qed.

Lemma check_alive w t h r : alive (check_error w t h r) = alive w.
Proof. destruct r; reflexivity. Qed.

Lemma upstream_alive rs : forall w t u, alive (upstream_calls w t u rs) = alive w.
Proof.
  induction rs as [|r rest IH]; intros w t u; cbn [upstream_calls]; [reflexivity|].
  rewrite IH. apply check_alive.
Qed.

Lemma provider_call_alive w t h c w' : provider_call w t h c = Some w' -> alive w' = alive w.
Proof.
  unfold provider_call. destruct (alive w h) as [[|u]|]; [| |discriminate].
  - intro E. injection E as <-. apply check_alive.
  - destruct (fst c); [|destruct (alive w u); [|discriminate]];
      intro E; injection E as <-; rewrite check_alive;
      first [reflexivity | apply upstream_alive | (cbn [upstream_calls]; rewrite upstream_alive; apply check_alive)].
Qed.

Lemma provider_calls_alive cs : forall w t h w',
  provider_calls w t h cs = Some w' -> alive w' = alive w.
Proof.
  induction cs as [|c rest IH]; intros w t h w'; cbn [provider_calls].
  - intro E. injection E as <-. reflexivity.
  - destruct (provider_call w t h c) as [w1|] eqn:E1; [|discriminate].
    intro E. rewrite (IH _ _ _ _ E). exact (provider_call_alive _ _ _ _ _ E1).
Qed.

(* the last failure of a longer list *)
Definition upd (x : Z) (l : list ret) : Z :=
  match rev (failures l) with [] => x | (h, _, _) :: _ => h end.

Lemma upd_app l1 l2 x : upd x (l1 ++ l2) = upd (upd x l1) l2.
Proof.
  unfold upd, failures. rewrite filter_app, rev_app_distr. unfold ret in *.
  destruct (rev (filter _ l2)) as [|[[h g] r] q]; reflexivity.
Qed.

Lemma upd_one x h g r : upd x [(h, g, r)] = if result_eqb r SUCCESS then x else h.
Proof. destruct r; reflexivity. Qed.

Lemma check_last w t h r t' :
  last (check_error w t h r) t' =
  if t =? t' then (if result_eqb r SUCCESS then last w t' else h) else last w t'.
Proof.
  rewrite (Z.eqb_sym t t'). destruct r; cbn; destruct (t' =? t); reflexivity.
Qed.

Lemma upstream_last rs : forall w t u t',
  last (upstream_calls w t u rs) t' =
  if t =? t' then upd (last w t') (map (fun r => (u, u, r)) rs) else last w t'.
Proof.
  induction rs as [|r rest IH]; intros w t u t'; cbn [upstream_calls map].
  - destruct (t =? t'); reflexivity.
  - rewrite IH, check_last. destruct (t =? t'); [|reflexivity].
    change ((u, u, r) :: map (fun r => (u, u, r)) rest)
      with ([(u, u, r)] ++ map (fun r => (u, u, r)) rest).
    rewrite upd_app, upd_one. reflexivity.
Qed.

Lemma pool_call_last w t p c t' :
  pool_live w p -> exists w', provider_call w t (pool_provider p) c = Some w' /\
  last w' t' = if t =? t' then upd (last w t') (pool_returns p c) else last w t'.
Proof.
  intros [LP LT]. unfold provider_call, pool_provider, pool_returns.
  destruct (tracked p).
  - rewrite (LT eq_refl), LP.
    assert (L : last (check_error (upstream_calls w t (provider p) (fst c)) t (wrapper p)
                        (snd c)) t' =
              if t =? t'
              then upd (last w t') (map (fun r => (provider p, provider p, r)) (fst c) ++
                                    [(wrapper p, provider p, snd c)])
              else last w t').
    { rewrite check_last, upstream_last, upd_app, upd_one.
      destruct (t =? t'); reflexivity. }
    destruct (fst c); eexists; (split; [reflexivity|exact L]).
  - rewrite LP. eexists. split; [reflexivity|]. rewrite check_last, upd_one. reflexivity.
Qed.

Lemma pool_live_alive w w' p : alive w' = alive w -> pool_live w p -> pool_live w' p.
Proof. unfold pool_live. intros ->. tauto. Qed.

Lemma pool_calls_last cs : forall w t p t',
  pool_live w p -> exists w', provider_calls w t (pool_provider p) cs = Some w' /\
  last w' t' = if t =? t' then upd (last w t') (flat_map (pool_returns p) cs) else last w t'.
Proof.
  induction cs as [|c rest IH]; intros w t p t' L; cbn [provider_calls flat_map].
  - eexists. split; [reflexivity|]. destruct (t =? t'); reflexivity.
  - destruct (pool_call_last w t p c t' L) as [w1 [E1 L1]]. rewrite E1.
    assert (L' : pool_live w1 p)
      by (apply (pool_live_alive w); [exact (provider_call_alive _ _ _ _ _ E1)|exact L]).
    destruct (IH w1 t p t' L') as [w2 [E2 L2]].
    exists w2. split; [exact E2|]. rewrite L2, L1.
    destruct (t =? t'); [|reflexivity]. rewrite upd_app. reflexivity.
Qed.

(* the world in which the calls of a new pool are made *)
Lemma new_pool_live w p :
  alive w (provider p) = Some Plain ->
  (tracked p = true -> wrapper p <> 0 /\ alive w (wrapper p) = None) ->
  pool_live (if tracked p then set_alive w (wrapper p) (Some (Tracking (provider p))) else w) p.
Proof.
  intros LP LT. unfold pool_live. destruct (tracked p); [|split; [exact LP|discriminate]].
  destruct (LT eq_refl) as [_ D]. cbn [set_alive alive]. rewrite Z.eqb_refl.
  destruct (provider p =? wrapper p) eqn:E; [|split; [exact LP|reflexivity]].
  apply Z.eqb_eq in E. rewrite E, D in LP. discriminate LP.
Qed.

Lemma exec_last w s : allowed w s -> exists w', exec w s = Some w' /\
  forall t, last w' t = upd (last w t) (returns t s).
Proof.
  destruct s; cbn [allowed exec returns]; intro A.
  - eexists. split; reflexivity.
  - eexists. split; reflexivity.
  - unfold provider_call. rewrite A. eexists. split; [reflexivity|]. intro t'.
    cbn [snd]. rewrite check_last. destruct (t =? t'); [|reflexivity].
    rewrite upd_one. reflexivity.
  - destruct A as [LP LT].
    set (w0 := if tracked p then _ else w).
    assert (L0 : forall t', last w0 t' = last w t')
      by (intro t'; unfold w0; destruct (tracked p); reflexivity).
    pose proof (new_pool_live w p LP LT) as PL. fold w0 in PL.
    destruct (pool_calls_last calls w0 t p 0 PL) as [w1 [E1 _]].
    rewrite E1. eexists. split; [reflexivity|]. intro t'.
    destruct (pool_calls_last calls w0 t p t' PL) as [w2 [E2 L2]].
    rewrite E1 in E2. injection E2 as <-.
    replace (last (if negb ok && tracked p then set_alive w1 (wrapper p) None else w1) t')
      with (last w1 t') by (destruct (negb ok && tracked p); reflexivity).
    rewrite L2, L0. destruct (t =? t'); reflexivity.
  - destruct (pool_calls_last calls w t p 0 A) as [w1 [E1 _]].
    exists w1. split; [exact E1|]. intro t'.
    destruct (pool_calls_last calls w t p t' A) as [w2 [E2 L2]].
    rewrite E1 in E2. injection E2 as <-. rewrite L2. destruct (t =? t'); reflexivity.
  - destruct A as [A _].
    destruct (pool_calls_last calls w t p 0 A) as [w1 [E1 _]]. rewrite E1.
    eexists. split; [reflexivity|]. intro t'.
    destruct (pool_calls_last calls w t p t' A) as [w2 [E2 L2]].
    rewrite E1 in E2. injection E2 as <-.
    transitivity (last w1 t'); [destruct own, (tracked p); reflexivity|].
    rewrite L2. destruct (t =? t'); reflexivity.
Qed.

Lemma reach_last l w t : reach l w -> last w t = last_failure (flat_map (returns t) l).
Proof.
  induction 1 as [|l w s w' R IH A E]; [reflexivity|].
  destruct (exec_last w s A) as [w2 [E2 L]]. rewrite E in E2. injection E2 as <-.
  rewrite L, IH, flat_map_app. cbn [flat_map]. rewrite app_nil_r.
  change (last_failure (flat_map (returns t) l)) with (upd 0 (flat_map (returns t) l)).
  rewrite <- upd_app. reflexivity.
Qed.

(* an allowed step keeps every live handle it does not free *)
Lemma exec_keeps w s w' a n :
  allowed w s -> exec w s = Some w' -> alive w a = Some n -> ~ frees s a ->
  alive w' a = Some n.
Proof.
  intros A E L NF. destruct s; cbn [allowed exec frees] in *.
  - injection E as <-. cbn [set_alive alive]. destruct (a =? h) eqn:X; [|exact L].
    apply Z.eqb_eq in X. destruct A as [_ A]. congruence.
  - injection E as <-. cbn [set_alive alive]. destruct (a =? h) eqn:X; [|exact L].
    apply Z.eqb_eq in X. contradiction.
  - rewrite (provider_call_alive _ _ _ _ _ E). exact L.
  - set (w0 := if tracked p then _ else w) in E.
    destruct (provider_calls w0 t (pool_provider p) calls) as [w1|] eqn:E1; [|discriminate].
    injection E as <-. pose proof (provider_calls_alive _ _ _ _ _ E1) as AL.
    assert (L0 : alive w0 a = Some n).
    { unfold w0. destruct (tracked p) eqn:T; [|exact L]. cbn [set_alive alive].
      destruct (a =? wrapper p) eqn:X; [|exact L]. apply Z.eqb_eq in X.
      destruct A as [_ A]. destruct (A eq_refl). congruence. }
    rewrite <- AL in L0.
    destruct ok; cbn [negb andb]; [exact L0|]. destruct (tracked p) eqn:T; [|exact L0].
    cbn [set_alive alive]. destruct (a =? wrapper p) eqn:X; [|exact L0].
    apply Z.eqb_eq in X. exfalso. apply NF. auto.
  - rewrite (provider_calls_alive _ _ _ _ _ E). exact L.
  - destruct (provider_calls w t (pool_provider p) calls) as [w1|] eqn:E1; [|discriminate].
    injection E as <-. rewrite <- (provider_calls_alive _ _ _ _ _ E1) in L.
    set (w2 := if tracked p then _ else w1).
    assert (L2 : alive w2 a = Some n).
    { unfold w2. destruct (tracked p) eqn:T; [|exact L]. cbn [set_alive alive].
      destruct (a =? wrapper p) eqn:X; [|exact L]. apply Z.eqb_eq in X.
      exfalso. apply NF. auto. }
    destruct own; [|exact L2]. cbn [set_alive alive].
    destruct (a =? provider p) eqn:X; [|exact L2]. apply Z.eqb_eq in X.
    exfalso. apply NF. auto.
Qed.

(* a step in which a handle returned leaves it live, with its user's provider behind *)
Definition stands (w : world) (a h : Z) : Prop :=
  alive w h = Some Plain /\ (a = h \/ alive w a = Some (Tracking h)).

Lemma stands_resolve w a h : stands w a h -> resolve w a = Some h.
Proof.
  unfold stands, resolve. intros [P [->|T]]; [rewrite P; reflexivity|].
  rewrite T, P. reflexivity.
Qed.

Lemma stands_keeps w s w' a h :
  allowed w s -> exec w s = Some w' -> stands w a h -> ~ frees s a -> ~ frees s h ->
  stands w' a h.
Proof.
  intros A E [P T] NA NH. split; [exact (exec_keeps _ _ _ _ _ A E P NH)|].
  destruct T as [->|T]; [left; reflexivity|right; exact (exec_keeps _ _ _ _ _ A E T NA)].
Qed.

Lemma pool_returns_stands w p a h r c :
  pool_live w p -> In (a, h, r) (pool_returns p c) -> stands w a h.
Proof.
  intros [LP LT]. unfold pool_returns, stands. destruct (tracked p).
  - intro IN. apply in_app_or in IN. destruct IN as [IN|[IN|[]]].
    + apply in_map_iff in IN. destruct IN as [x [X _]]. injection X as <- <- <-. auto.
    + injection IN as <- <- <-. auto.
  - intros [IN|[]]. injection IN as <- <- <-. auto.
Qed.

Lemma stands_alive w w' a h : alive w' = alive w -> stands w a h -> stands w' a h.
Proof. unfold stands. intros ->. tauto. Qed.

Lemma returns_stands w s w' t a h r :
  allowed w s -> exec w s = Some w' -> In (a, h, r) (returns t s) ->
  ~ frees s a -> ~ frees s h -> stands w' a h.
Proof.
  intros A E IN NA NH. destruct s; cbn [returns] in IN; try contradiction.
  - destruct (t0 =? t); [|contradiction]. destruct IN as [IN|[]]. injection IN as <- <- <-.
    cbn [exec] in E. apply (stands_alive w).
    + exact (provider_call_alive _ _ _ _ _ E).
    + split; [exact A|left; reflexivity].
  - destruct (t0 =? t); [|contradiction]. apply in_flat_map in IN. destruct IN as [c [_ IN]].
    cbn [allowed exec frees] in *. destruct A as [LP LT].
    pose proof (new_pool_live w p LP LT) as PL.
    pose proof (pool_returns_stands _ _ _ _ _ _ PL IN) as ST.
    set (w0 := if tracked p then _ else w) in *.
    destruct (provider_calls w0 t0 (pool_provider p) calls) as [w1|] eqn:E1; [|discriminate].
    injection E as <-. apply (stands_alive _ w1 _ _ (provider_calls_alive _ _ _ _ _ E1)) in ST.
    destruct ok; cbn [negb andb]; [exact ST|]. destruct (tracked p) eqn:T; [|exact ST].
    destruct ST as [S1 S2].
    assert (N1 : h <> wrapper p) by (intro X; apply NH; auto).
    assert (N2 : a <> wrapper p) by (intro X; apply NA; auto).
    apply Z.eqb_neq in N1, N2. unfold stands. cbn [set_alive alive].
    rewrite N1, N2. auto.
  - destruct (t0 =? t); [|contradiction]. apply in_flat_map in IN. destruct IN as [c [_ IN]].
    cbn [allowed exec] in *. apply (stands_alive w).
    + exact (provider_calls_alive _ _ _ _ _ E).
    + exact (pool_returns_stands _ _ _ _ _ _ A IN).
  - destruct (t0 =? t); [|contradiction]. apply in_flat_map in IN. destruct IN as [c [_ IN]].
    destruct A as [A1 A2]. pose proof (pool_returns_stands _ _ _ _ _ _ A1 IN) as ST.
    apply (stands_keeps w (DropPool t0 p own calls) w'); auto. split; assumption.
Qed.

Lemma reach_split l2 : forall l1 w, reach (l1 ++ l2) w ->
  exists w1, reach l1 w1 /\
    forall a h, stands w1 a h ->
      (forall s, In s l2 -> ~ frees s a /\ ~ frees s h) -> stands w a h.
Proof.
  induction l2 as [|s l2 IH] using rev_ind; intros l1 w R.
  - rewrite app_nil_r in R. exists w. auto.
  - rewrite app_assoc in R. inversion R as [X|l0 w0 s0 w0' R0 A0 E0 X1 X2].
    + destruct (l1 ++ l2); discriminate X.
    + apply app_inj_tail in X1. destruct X1 as [-> ->]. subst w0'.
      destruct (IH l1 w0 R0) as [w1 [R1 K]]. exists w1. split; [exact R1|].
      intros a h ST NF.
      destruct (NF s) as [N1 N2]; [apply in_or_app; right; left; reflexivity|].
      apply (stands_keeps w0 s w); auto. apply K; [exact ST|].
      intros s' IN. apply NF. apply in_or_app. left. exact IN.
Qed.

Lemma last_failure_usable l1 s l2 w t a h r :
  reach (l1 ++ s :: l2) w ->
  In (a, h, r) (returns t s) ->
  (forall s', In s' (s :: l2) -> ~ frees s' a /\ ~ frees s' h) ->
  resolve w a = Some h.
Proof.
  intros R IN NF. apply stands_resolve.
  replace (l1 ++ s :: l2) with ((l1 ++ [s]) ++ l2) in R by (rewrite <- app_assoc; reflexivity).
  destruct (reach_split l2 _ _ R) as [w1 [R1 K]].
  inversion R1 as [X|l0 w0 s0 w0' R0 A0 E0 X1 X2]; [destruct l1; discriminate X|].
  apply app_inj_tail in X1. destruct X1 as [-> ->]. subst w0'.
  apply K.
  - destruct (NF s (or_introl eq_refl)) as [N1 N2]. eapply returns_stands; eauto.
  - intros s' IN'. apply NF. right. exact IN'.
Qed.

Lemma failures_app l1 l2 : failures (l1 ++ l2) = failures l1 ++ failures l2.
Proof. apply filter_app. Qed.

Lemma last_failure_at l1 a h r l2 : r <> SUCCESS -> failures l2 = [] ->
  last_failure (l1 ++ (a, h, r) :: l2) = a.
Proof.
  intros NS F. unfold last_failure. rewrite failures_app.
  change ((a, h, r) :: l2) with ([(a, h, r)] ++ l2). rewrite failures_app, F, app_nil_r.
  replace (failures [(a, h, r)]) with [(a, h, r)]
    by (destruct r; [contradiction NS; reflexivity|..]; reflexivity).
  rewrite rev_app_distr. reflexivity.
Qed.

Lemma last_failed_usable l1 s l2 w t x a h r y :
  reach (l1 ++ s :: l2) w ->
  returns t s = x ++ (a, h, r) :: y -> r <> SUCCESS ->
  failures (y ++ flat_map (returns t) l2) = [] ->
  (forall s', In s' (s :: l2) -> ~ frees s' a /\ ~ frees s' h) ->
  last w t = a /\ resolve w a = Some h.
Proof.
  intros R X NS F NF. split.
  - rewrite (reach_last _ _ t R), flat_map_app. cbn [flat_map]. rewrite X.
    rewrite <- app_assoc. cbn [app]. rewrite app_assoc.
    apply last_failure_at; assumption.
  - apply (last_failure_usable l1 s l2 w t a h r R); [|exact NF].
    rewrite X. apply in_or_app. right. left. reflexivity.
Qed.

Lemma exec_defined w s : allowed w s -> exec w s <> None.
Proof. intros A E. destruct (exec_last w s A) as [w' [E' _]]. congruence. Qed.
