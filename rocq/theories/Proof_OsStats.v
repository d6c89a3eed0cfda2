From Verif Require Import Base Model_Utils Model_OsStats Spec_OsStats.

Lemma nth_split : forall (l : list pc) i p, nth_error l i = Some p -> l = firstn i l ++ p :: skipn (S i) l /\ length (firstn i l) = i.
Proof.
  intros l. induction l as [|x l IH]; intros i p H; [destruct i; discriminate|]. destruct i as [|i]; cbn in H.
  - injection H as ->. split; reflexivity.
  - destruct (IH i p H) as [E L]. cbn [firstn skipn app length]. split; [f_equal; exact E|f_equal; exact L].
Qed.
Lemma sum_app : forall l r, sum (l ++ r) = sum l + sum r.
Proof. intros l r. unfold sum. induction l as [|x l IH]; cbn [app fold_right]; lia. Qed.
Lemma counted_set : forall l i p q, nth_error l i = Some p -> sum (map counted (set_pc l i q)) = sum (map counted l) - counted p + counted q.
Proof.
  intros l i p q H. destruct (nth_split l i p H) as [E _]. unfold set_pc. rewrite map_app, sum_app. cbn [map]. 
  rewrite E at 3. rewrite map_app, sum_app. cbn [map]. unfold sum. cbn [fold_right]. lia.
Qed.
Lemma nth_set : forall l i p q j, nth_error l i = Some p -> nth_error (set_pc l i q) j = if Nat.eqb j i then Some q else nth_error l j.
Proof.
  intros l i p q j H. destruct (nth_split l i p H) as [E L]. unfold set_pc. destruct (Nat.eqb_spec j i) as [->|N].
  - rewrite nth_error_app2 by lia. rewrite L, Nat.sub_diag. reflexivity.
  - rewrite E at 3. destruct (Nat.lt_ge_cases j i).
    + rewrite !nth_error_app1 by lia. reflexivity.
    + rewrite !nth_error_app2 by lia. rewrite L. destruct (j - i)%nat eqn:D; [lia|reflexivity].
Qed.
Lemma drop_sum : forall n l r, drop n l = Some r -> sum l = n + sum r /\ forall x, In x r -> In x l.
Proof.
  intros n l. induction l as [|x l IH]; intros r H; [discriminate|]. cbn in H. destruct (Z.eqb_spec x n) as [->|N].
  - injection H as <-. split; [reflexivity|]. intros y Y. right. exact Y.
  - destruct (drop n l) as [r'|]; [|discriminate]. injection H as <-. destruct (IH r' eq_refl) as [A B]. split.
    + change (sum (x :: l)) with (x + sum l). change (sum (x :: r')) with (x + sum r'). lia.
    + intros y [->|Y]; [left; reflexivity|right; apply B, Y].
Qed.
Lemma counted_quiet : forall s, quiet s -> sum (map counted (t_pc s)) = 0.
Proof.
  intros s Q. unfold quiet in Q. induction (t_pc s) as [|p l IH]; [reflexivity|]. cbn [map]. change (sum (counted p :: map counted l)) with (counted p + sum (map counted l)).
  rewrite IH; [|intros i q H; apply (Q (S i) q), H]. rewrite (Q O p eq_refl). reflexivity.
Qed.

Lemma tstep_total : forall s i a s', tstep s i a = Some s' -> t_alloc s = wrap (total s) -> t_alloc s' = wrap (total s').
Proof.
  intros s i a s' H E. unfold tstep in H. destruct (nth_error (t_pc s) i) as [p|] eqn:P; [|destruct a; discriminate].
  assert (W : forall q, sum (map counted (set_pc (t_pc s) i q)) = sum (map counted (t_pc s)) - counted p + counted q) by (intros; now apply counted_set).
  unfold total in *. destruct p, a; try discriminate.
  - destruct ((0 <=? n) && (n <? U64)); [|discriminate]. injection H as <-. cbn [t_alloc t_pc t_live]. rewrite W. cbn [counted]. rewrite E. f_equal. lia.
  - destruct (drop n (t_live s)) as [l|] eqn:D; [|discriminate]. injection H as <-. cbn [t_alloc t_pc t_live]. rewrite W. cbn [counted]. rewrite E. f_equal. destruct (drop_sum _ _ _ D). lia.
  - injection H as <-. cbn [t_alloc t_pc t_live]. rewrite W. cbn [counted]. rewrite E. f_equal. lia.
  - injection H as <-. cbn [t_alloc t_pc t_live]. rewrite W. cbn [counted]. rewrite E. unfold wrap. rewrite Zplus_mod_idemp_l. f_equal. lia.
  - injection H as <-. cbn [t_alloc t_pc t_live]. rewrite W. cbn [counted]. rewrite E. f_equal. lia.
  - assert (X : forall pk', Some (Stats (t_alloc s) pk' (set_pc (t_pc s) i Idle) (n :: t_live s)) = Some s' -> t_alloc s' = wrap (sum (t_live s') + sum (map counted (t_pc s')))).
    { intros pk' H'. injection H' as <-. cbn [t_alloc t_pc t_live]. rewrite W. cbn [counted]. rewrite E. f_equal. change (sum (n :: t_live s)) with (n + sum (t_live s)). lia. }
    destruct (pk <? al); [destruct (t_peak s =? pk)|]; [eapply X, H| |eapply X, H]. injection H as <-. cbn [t_alloc t_pc t_live]. rewrite W. cbn [counted]. rewrite E. f_equal. lia.
  - injection H as <-. cbn [t_alloc t_pc t_live]. rewrite W. cbn [counted]. rewrite E. unfold wrap. rewrite Zminus_mod_idemp_l. f_equal. lia.
  - injection H as <-. cbn [t_alloc t_pc t_live]. rewrite W. cbn [counted]. rewrite E. f_equal. lia.
Qed.
Lemma exec_total : forall k s h, exec k s h -> t_alloc s = wrap (total s).
Proof.
  intros k s h E. induction E as [|s h i a s' E IH H]; [|eapply tstep_total; eassumption].
  unfold total, t_start. cbn [t_alloc t_pc t_live]. assert (Z0 : sum (map counted (repeat Idle k)) = 0) by (induction k as [|k IH]; [reflexivity|exact IH]). rewrite Z0. reflexivity.
Qed.
Lemma quiet_exact : forall k s h, exec k s h -> quiet s -> t_alloc s = sum (t_live s) mod 2 ^ 64.
Proof. intros k s h E Q. rewrite (exec_total k s h E). unfold total. rewrite (counted_quiet s Q), Z.add_0_r. reflexivity. Qed.

Lemma alone_exec : forall k s h, exec_alone k s h -> exec k s h.
Proof. intros k s h E. induction E; [constructor|]. econstructor; eassumption. Qed.
Lemma alone_total : forall k s h, exec_alone k s h -> total s < 2 ^ 64.
Proof.
  intros k s h E. destruct E as [|s h i a s' E H T _ _]; [|exact T]. unfold total, t_start. cbn [t_live t_pc].
  assert (Z0 : sum (map counted (repeat Idle k)) = 0) by (induction k as [|k IH]; [reflexivity|exact IH]). rewrite Z0. cbn. lia.
Qed.

(* sizes are never negative *)
Record Pos (s : stats) : Prop := { p_live : forall n, In n (t_live s) -> 0 <= n; p_pc : forall i p, nth_error (t_pc s) i = Some p -> 0 <= counted p /\ (forall n, p = PAdd n -> 0 <= n) }.
Lemma sum_nonneg : forall l, (forall n, In n l -> 0 <= n) -> 0 <= sum l.
Proof. intros l H. induction l as [|x l IH]; [cbn; lia|]. change (sum (x :: l)) with (x + sum l). pose proof (H x (or_introl eq_refl)). assert (0 <= sum l) by (apply IH; intros; apply H; right; assumption). lia. Qed.
Lemma pos_total : forall s, Pos s -> 0 <= total s.
Proof.
  intros s [P1 P2]. unfold total. pose proof (sum_nonneg _ P1). assert (0 <= sum (map counted (t_pc s))); [|lia]. apply sum_nonneg. intros n N. apply in_map_iff in N.
  destruct N as (p & <- & IN). apply In_nth_error in IN. destruct IN as [i IN]. destruct (P2 i p IN) as [C _]. exact C.
Qed.
Lemma drop_in : forall n l r, drop n l = Some r -> In n l.
Proof.
  intros n l. induction l as [|x l IH]; intros r H; [discriminate|]. cbn in H. destruct (Z.eqb_spec x n) as [->|N]; [left; reflexivity|]. destruct (drop n l) as [r'|]; [|discriminate]. right. now apply (IH r').
Qed.
Lemma tstep_pos : forall s i a s', tstep s i a = Some s' -> Pos s -> Pos s'.
Proof.
  intros s i a s' H [P1 P2]. unfold tstep in H. destruct (nth_error (t_pc s) i) as [p|] eqn:P; [|destruct a; discriminate].
  assert (X : forall a' k' q l, (forall n, In n l -> 0 <= n) -> 0 <= counted q -> (forall n, q = PAdd n -> 0 <= n) -> Pos (Stats a' k' (set_pc (t_pc s) i q) l)).
  { intros a' k' q l L Q1 Q2. split; cbn [t_live t_pc]; [exact L|]. intros j r. rewrite (nth_set _ _ _ _ _ P). destruct (Nat.eqb j i); [intros [= <-]; auto|apply P2]. }
  destruct (P2 i p P) as [C1 C2].
  destruct p, a; try discriminate; cbn [counted] in *.
  - destruct (Z.leb_spec 0 n); [|discriminate]. destruct (n <? U64); [|discriminate]. injection H as <-. apply X; [exact P1|cbn; lia|]. intros m [= <-]. assumption.
  - destruct (drop n (t_live s)) as [l|] eqn:D; [|discriminate]. injection H as <-. apply X; [|cbn; apply P1; eapply drop_in, D|discriminate]. intros m M. apply P1. apply (drop_sum _ _ _ D), M.
  - injection H as <-. apply X; [exact P1|cbn; lia|discriminate].
  - injection H as <-. apply X; [exact P1|cbn; apply C2; reflexivity|discriminate].
  - injection H as <-. apply X; [exact P1|exact C1|discriminate].
  - assert (L : forall m, In m (n :: t_live s) -> 0 <= m) by (intros m [<-|M]; auto).
    destruct (pk <? al); [destruct (t_peak s =? pk)|]; injection H as <-; apply X; try assumption; try discriminate; cbn; lia.
  - injection H as <-. apply X; [exact P1|cbn; lia|discriminate].
  - injection H as <-. apply X; [exact P1|cbn; lia|discriminate].
Qed.

(* peak: every value is covered by the peak or by a thread that will raise it *)
Definition pending (p : pc) : option Z := match p with PLoad _ al | PLoop _ al _ => Some al | _ => None end.
Record Peak (s : stats) (h : list Z) : Prop := {
  k_in : In (t_peak s) h;
  k_al : In (t_alloc s) h;
  k_cov : forall v, In v h -> v <= t_peak s \/ exists i p al, nth_error (t_pc s) i = Some p /\ pending p = Some al /\ v <= al;
  k_pend : forall i p al, nth_error (t_pc s) i = Some p -> pending p = Some al -> In al h;
  k_low : forall i n al pk, nth_error (t_pc s) i = Some (PLoop n al pk) -> pk <= t_peak s;
  k_store : forall i v, nth_error (t_pc s) i = Some (PStore v) -> v = t_alloc s /\ forall j p, j <> i -> nth_error (t_pc s) j = Some p -> p = Idle
}.
Lemma exec_peak : forall k s h, exec_alone k s h -> Pos s /\ Peak s h.
Proof.
  intros k s h E. induction E as [|s h i a s' E [PS [K1 K2 K3 K4 K5 K6]] H T RQ RA].
  { assert (ID : forall i p, nth_error (repeat Idle k) i = Some p -> p = Idle) by (intros i p H; apply nth_error_In, repeat_spec in H; exact H). split.
    - split; cbn [t_start t_live t_pc]; [intros n []|]. intros i p H. rewrite (ID i p H). split; [cbn; lia|discriminate].
    - split; cbn [t_start t_alloc t_peak t_pc].
      + left; reflexivity.
      + left; reflexivity.
      + intros v [<-|[]]. left. lia.
      + intros i p al H. rewrite (ID i p H). discriminate.
      + intros i n al pk H. specialize (ID _ _ H). discriminate.
      + intros i v H. specialize (ID _ _ H). discriminate. }
  pose proof (tstep_pos _ _ _ _ H PS) as PS'. split; [exact PS'|].
  pose proof (tstep_total _ _ _ _ H (exec_total k s h (alone_exec k s h E))) as TT.
  pose proof (exec_total k s h (alone_exec k s h E)) as T0.
  pose proof (pos_total _ PS) as Q0. pose proof (pos_total _ PS') as Q1. pose proof (alone_total _ _ _ E) as T1.
  assert (W0 : wrap (total s) = total s) by (unfold wrap; apply Z.mod_small; change U64 with (2 ^ 64); lia).
  assert (W1 : wrap (total s') = total s') by (unfold wrap; apply Z.mod_small; change U64 with (2 ^ 64); lia).
  rewrite W0 in T0. rewrite W1 in TT.
  unfold tstep in H. unfold resets in *. destruct (nth_error (t_pc s) i) as [p|] eqn:P; [|destruct a; discriminate].
  assert (NR : (match p, a with PStore _, Go => true | _, _ => false end) = false -> forall j v, nth_error (t_pc s) j <> Some (PStore v)).
  { intros N j v J. rewrite RA in N; [discriminate|]. exists j, v. exact J. }
  (* a step that raises nothing: counters unchanged *)
  assert (X : forall q h' l, (match p, a with PStore _, Go => true | _, _ => false end) = false -> (pending p = None \/ pending q = pending p) -> (pending q = None \/ pending q = pending p) -> (forall v, q <> PStore v) -> (forall n al pk, q = PLoop n al pk -> pk <= t_peak s) ->
    h' = t_alloc s :: h -> Peak (Stats (t_alloc s) (t_peak s) (set_pc (t_pc s) i q) l) h').
  { intros q h' l N Z1 Z2 Z3 Z4 ->. split; cbn [t_alloc t_peak t_pc].
    - right; exact K1.
    - left; reflexivity.
    - intros v V. assert (V' : In v h) by (destruct V as [<-|V]; assumption). destruct (K3 v V') as [L|(j & p' & al & J & PD & L)]; [left; exact L|]. right.
      destruct (Nat.eq_dec j i) as [->|NJ].
      + assert (p' = p) by congruence. subst p'. exists i, q, al. rewrite (nth_set _ _ _ _ _ P), Nat.eqb_refl. split; [reflexivity|]. split; [|exact L]. destruct Z1 as [Z1|Z1]; congruence.
      + exists j, p', al. rewrite (nth_set _ _ _ _ _ P). destruct (Nat.eqb_spec j i); [contradiction|]. auto.
    - intros j p' al J PD. right. rewrite (nth_set _ _ _ _ _ P) in J. destruct (Nat.eqb_spec j i) as [->|NJ]; [|eapply K4; eassumption]. injection J as <-.
      destruct Z2 as [Z2|Z2]; [congruence|]. rewrite Z2 in PD. eapply K4; eassumption.
    - intros j n al pk J. rewrite (nth_set _ _ _ _ _ P) in J. destruct (Nat.eqb_spec j i) as [->|NJ]; [injection J as ->; eapply Z4; reflexivity|eapply K5, J].
    - intros j v J. rewrite (nth_set _ _ _ _ _ P) in J. destruct (Nat.eqb_spec j i) as [->|NJ]; [injection J as ->; exfalso; eapply Z3; reflexivity|exfalso; eapply NR; eassumption]. }
  destruct p, a; try discriminate.
  - (* begin alloc *) destruct ((0 <=? n) && (n <? U64)); [|discriminate]. injection H as <-. apply X; try reflexivity; auto; discriminate.
  - destruct (drop n (t_live s)) as [l|] eqn:D; [|discriminate]. injection H as <-. apply X; try reflexivity; auto; discriminate.
  - (* begin reset *) injection H as <-. specialize (RQ eq_refl). split; cbn [t_alloc t_peak t_pc].
    + right; exact K1.
    + left; reflexivity.
    + intros v V. assert (V' : In v h) by (destruct V as [<-|V]; assumption). destruct (K3 v V') as [L|(j & p' & al & J & PD & L)]; [left; exact L|].
      rewrite (RQ j p' J) in PD. discriminate.
    + intros j p' al J PD. rewrite (nth_set _ _ _ _ _ P) in J. destruct (Nat.eqb_spec j i); [injection J as <-; discriminate|]. rewrite (RQ j p' J) in PD. discriminate.
    + intros j n al pk J. rewrite (nth_set _ _ _ _ _ P) in J. destruct (Nat.eqb_spec j i); [discriminate|]. specialize (RQ _ _ J). discriminate.
    + intros j v J. rewrite (nth_set _ _ _ _ _ P) in J. destruct (Nat.eqb_spec j i) as [->|NJ]; [injection J as ->; split; [reflexivity|]|specialize (RQ _ _ J); discriminate].
      intros j' p' NE J'. rewrite (nth_set _ _ _ _ _ P) in J'. destruct (Nat.eqb_spec j' i); [contradiction|]. apply (RQ _ _ J').
  - (* add *) injection H as <-. cbn [t_alloc] in *. split; cbn [t_alloc t_peak t_pc].
    + right; exact K1.
    + left; reflexivity.
    + intros v [<-|V].
      * right. exists i, (PLoad n (wrap (t_alloc s + n))), (wrap (t_alloc s + n)). rewrite (nth_set _ _ _ _ _ P), Nat.eqb_refl. split; [reflexivity|]. split; [reflexivity|]. apply Z.le_refl.
      * destruct (K3 v V) as [L|(j & p' & al & J & PD & L)]; [left; exact L|]. right. exists j, p', al. rewrite (nth_set _ _ _ _ _ P).
        destruct (Nat.eqb_spec j i) as [->|NJ]; [|auto]. assert (p' = PAdd n) by congruence. subst p'. discriminate.
    + intros j p' al J PD. rewrite (nth_set _ _ _ _ _ P) in J. destruct (Nat.eqb_spec j i); [injection J as <-; injection PD as <-; left; reflexivity|right; eapply K4; eassumption].
    + intros j n' al pk J. rewrite (nth_set _ _ _ _ _ P) in J. destruct (Nat.eqb_spec j i); [discriminate|eapply K5, J].
    + intros j v J. rewrite (nth_set _ _ _ _ _ P) in J. destruct (Nat.eqb_spec j i); [discriminate|exfalso; eapply NR; [reflexivity|exact J]].
  - (* load *) injection H as <-. apply X; try reflexivity; auto; [discriminate|]. intros n' al' pk [= _ _ <-]. lia.
  - (* loop *)
    destruct (Z.ltb_spec pk al) as [L|L].
    + destruct (Z.eqb_spec (t_peak s) pk) as [E1|E1].
      * injection H as <-. split; cbn [t_alloc t_peak t_pc].
        -- right. eapply K4; [exact P|reflexivity].
        -- left; reflexivity.
        -- intros v V. assert (V' : In v h) by (destruct V as [<-|V]; assumption). destruct (K3 v V') as [L'|(j & p' & al' & J & PD & L')]; [left; lia|].
           destruct (Nat.eq_dec j i) as [->|NJ].
           ++ assert (p' = PLoop n al pk) by congruence. subst p'. injection PD as <-. left. exact L'.
           ++ right. exists j, p', al'. rewrite (nth_set _ _ _ _ _ P). destruct (Nat.eqb_spec j i); [contradiction|]. auto.
        -- intros j p' al' J PD. right. rewrite (nth_set _ _ _ _ _ P) in J. destruct (Nat.eqb_spec j i); [injection J as <-; discriminate|eapply K4; eassumption].
        -- intros j n' al' pk' J. rewrite (nth_set _ _ _ _ _ P) in J. destruct (Nat.eqb_spec j i); [discriminate|]. specialize (K5 _ _ _ _ J). lia.
        -- intros j v J. rewrite (nth_set _ _ _ _ _ P) in J. destruct (Nat.eqb_spec j i); [discriminate|exfalso; eapply NR; [reflexivity|exact J]].
      * injection H as <-. apply X; try reflexivity; auto; [discriminate|]. intros n' al' pk' [= _ _ <-]. lia.
    + (* leaves without raising *)
      injection H as <-. pose proof (K5 _ _ _ _ P) as KL. split; cbn [t_alloc t_peak t_pc].
      * right; exact K1.
      * left; reflexivity.
      * intros v V. assert (V' : In v h) by (destruct V as [<-|V]; assumption). destruct (K3 v V') as [L'|(j & p' & al' & J & PD & L')]; [left; lia|].
        destruct (Nat.eq_dec j i) as [->|NJ].
        -- assert (p' = PLoop n al pk) by congruence. subst p'. injection PD as <-. left. lia.
        -- right. exists j, p', al'. rewrite (nth_set _ _ _ _ _ P). destruct (Nat.eqb_spec j i); [contradiction|]. auto.
      * intros j p' al' J PD. right. rewrite (nth_set _ _ _ _ _ P) in J. destruct (Nat.eqb_spec j i); [injection J as <-; discriminate|eapply K4; eassumption].
      * intros j n' al' pk' J. rewrite (nth_set _ _ _ _ _ P) in J. destruct (Nat.eqb_spec j i); [discriminate|eapply K5, J].
      * intros j v J. rewrite (nth_set _ _ _ _ _ P) in J. destruct (Nat.eqb_spec j i); [discriminate|exfalso; eapply NR; [reflexivity|exact J]].
  - (* sub *)
    injection H as <-. cbn [t_alloc] in *.
    assert (LE : wrap (t_alloc s - n) <= t_alloc s).
    { rewrite TT, T0. unfold total. cbn [t_live t_pc]. rewrite (counted_set _ _ _ _ P). cbn [counted]. destruct PS as [_ PS]. destruct (PS _ _ P) as [C _]. cbn [counted] in C. lia. }
    split; cbn [t_alloc t_peak t_pc].
    + right; exact K1.
    + left; reflexivity.
    + assert (CV : forall v, In v h -> v <= t_peak s \/ exists j p al, nth_error (set_pc (t_pc s) i Idle) j = Some p /\ pending p = Some al /\ v <= al).
      { intros v V. destruct (K3 v V) as [L'|(j & p' & al' & J & PD & L')]; [left; exact L'|]. right. exists j, p', al'. rewrite (nth_set _ _ _ _ _ P).
        destruct (Nat.eqb_spec j i) as [->|NJ]; [|auto]. assert (p' = PSub n) by congruence. subst p'. discriminate. }
      intros v [<-|V]; [|apply CV, V]. destruct (CV _ K2) as [L'|(j & p' & al' & J & PD & L')]; [left; lia|]. right. exists j, p', al'. repeat split; try assumption. lia.
    + intros j p' al J PD. right. rewrite (nth_set _ _ _ _ _ P) in J. destruct (Nat.eqb_spec j i); [injection J as <-; discriminate|eapply K4; eassumption].
    + intros j n' al pk J. rewrite (nth_set _ _ _ _ _ P) in J. destruct (Nat.eqb_spec j i); [discriminate|eapply K5, J].
    + intros j v J. rewrite (nth_set _ _ _ _ _ P) in J. destruct (Nat.eqb_spec j i); [discriminate|exfalso; eapply NR; [reflexivity|exact J]].
  - (* store *)
    injection H as <-. destruct (K6 _ _ P) as [-> AL]. split; cbn [t_alloc t_peak t_pc].
    + left; reflexivity.
    + left; reflexivity.
    + intros v [<-|[]]. left. lia.
    + intros j p' al J PD. rewrite (nth_set _ _ _ _ _ P) in J. destruct (Nat.eqb_spec j i) as [->|NJ]; [injection J as <-; discriminate|]. rewrite (AL j p' NJ J) in PD. discriminate.
    + intros j n' al pk J. rewrite (nth_set _ _ _ _ _ P) in J. destruct (Nat.eqb_spec j i) as [->|NJ]; [discriminate|]. specialize (AL _ _ NJ J). discriminate.
    + intros j v J. rewrite (nth_set _ _ _ _ _ P) in J. destruct (Nat.eqb_spec j i) as [->|NJ]; [discriminate|]. specialize (AL _ _ NJ J). discriminate.
Qed.
Lemma quiet_peak : forall k s h, exec_alone k s h -> In (t_peak s) h /\ (quiet s -> (forall v, In v h -> v <= t_peak s) /\ t_alloc s = sum (t_live s)).
Proof.
  intros k s h E. destruct (exec_peak k s h E) as [PS [K1 K2 K3 K4 K5 K6]]. split; [exact K1|]. intros Q. split.
  - intros v V. destruct (K3 v V) as [L|(j & p & al & J & PD & L)]; [exact L|]. rewrite (Q j p J) in PD. discriminate.
  - rewrite (quiet_exact k s h (alone_exec _ _ _ E) Q). apply Z.mod_small. pose proof (alone_total _ _ _ E). pose proof (pos_total _ PS). unfold total in *. rewrite (counted_quiet s Q) in *. lia.
Qed.
