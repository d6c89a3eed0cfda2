(* Proofs about the front end of memory providers. *)
From Verif Require Import Base Proof_Utils Model_ProviderApi Spec_ProviderApi.

Lemma is_set_ok : forall s, is_set s = true <-> s <> Null.
Proof. intros []; cbn; split; intros; try discriminate; try reflexivity; congruence. Qed.
Lemma not_set_ok : forall s, negb (is_set s) = true <-> s = Null.
Proof. intros []; cbn; split; intros; try discriminate; reflexivity. Qed.

Lemma usable_iff : forall o, validateOps o = true <-> usable o.
Proof.
  intros o. unfold validateOps, validateOpsMandatory, validateOpsExt, validateOpsIpc, usable.
  repeat rewrite andb_true_iff. repeat rewrite orb_true_iff. repeat rewrite andb_true_iff. repeat rewrite is_set_ok. repeat rewrite not_set_ok. split.
  - intros ((M & E) & I). split; [|split].
    + intros x X. destruct x; cbn in X; try contradiction; tauto.
    + destruct E as [(E1 & E2)|(E1 & E2)]; tauto.
    + intros x y X Y N. destruct I as [I|I]; destruct x; cbn in X; try contradiction; try tauto; destruct y; cbn in Y; try contradiction; tauto.
  - intros (M & E & I). split; [split|].
    + repeat split; apply M; exact Logic.I.
    + destruct (o OSplit) eqn:A; [right; split; [reflexivity|apply E; reflexivity]|left|left]; (split; [discriminate|intros X; apply E in X; discriminate]).
    + destruct (o OIpcSize) eqn:A.
      * right. repeat split; apply (I OIpcSize); (exact Logic.I || exact A).
      * left. assert (D : forall x, ipc x -> o x <> Null) by (intros x X Y; pose proof (I x OIpcSize X Logic.I Y) as Z; congruence). repeat split; try discriminate; apply D; exact Logic.I.
      * left. assert (D : forall x, ipc x -> o x <> Null) by (intros x X Y; pose proof (I x OIpcSize X Logic.I Y) as Z; congruence). repeat split; try discriminate; apply D; exact Logic.I.
Qed.

Definition filled (o : ops) : ops := assignOpsIpcDefaults (assignOpsExtDefaults o).
Lemma filled_spec : forall o x, filled o x = match o x with Null => if match x with OInitialize | OFinalize | OAlloc | OFree | OLastError | ORecommended | OMinPage | OName => true | _ => false end then Null else Default | s => s end.
Proof.
  intros o x. unfold filled, assignOpsIpcDefaults, assignOpsExtDefaults, if_null.
  destruct x; cbn; destruct (o _); reflexivity.
Qed.


Lemma create_total : forall u params out mem r, umfMemoryProviderCreate u params out mem r <> None.
Proof.
  intros u params out mem r. unfold umfMemoryProviderCreate. destruct u as [o|]; [|discriminate]. destruct (out =? 0); [discriminate|]. cbn [orb].
  destruct (validateOps o) eqn:V; cbn [negb]; [|discriminate]. apply usable_iff in V. destruct V as (M & _). pose proof (M OInitialize I) as N.
  destruct mem; cbn [negb]; [|discriminate]. destruct (o OInitialize); [contradiction| |]; destruct r; discriminate.
Qed.

Lemma create_spec : forall u params out mem r res eff t, umfMemoryProviderCreate u params out mem r = Some (res, eff, t) ->
  (res = SUCCESS <-> exists o, u = Some o /\ usable o /\ out <> 0 /\ mem = true /\ r = SUCCESS) /\
  (res = SUCCESS -> eff = [HandleAlloc; Up OInitialize [params]] /\ exists o o', u = Some o /\ t = Some o' /\ (forall x, o x <> Null -> o' x = o x) /\ (forall x, o x = Null -> o' x = Default)) /\
  (res <> SUCCESS -> t = None /\ (eff = [] \/ eff = [HandleAlloc; Up OInitialize [params]; HandleFree])).
Proof.
  intros u params out mem r res eff t H. unfold umfMemoryProviderCreate in H. destruct u as [o|].
  2: { injection H as <- <- <-. split; [split; [discriminate|intros (o & X & _); discriminate]|]. split; [discriminate|]. auto. }
  destruct (out =? 0) eqn:O; cbn [orb] in H.
  { injection H as <- <- <-. apply Z.eqb_eq in O. split; [split; [discriminate|intros (o' & _ & _ & X & _); contradiction]|]. split; [discriminate|]. auto. }
  apply Z.eqb_neq in O. destruct (validateOps o) eqn:V; cbn [negb] in H.
  2: { injection H as <- <- <-. split; [split; [discriminate|intros (o' & X & U & _); injection X as <-; apply usable_iff in U; congruence]|]. split; [discriminate|]. auto. }
  apply usable_iff in V. destruct mem; cbn [negb] in H.
  2: { injection H as <- <- <-. split; [split; [discriminate|intros (o' & _ & _ & _ & X & _); discriminate]|]. split; [discriminate|]. auto. }
  pose proof (proj1 V OInitialize I) as N.
  assert (OUT : (r = SUCCESS /\ Some (SUCCESS, [HandleAlloc; Up OInitialize [params]], Some (filled o)) = Some (res, eff, t)) \/ (r <> SUCCESS /\ Some (r, [HandleAlloc; Up OInitialize [params]; HandleFree], None) = Some (res, eff, t))).
  { destruct (o OInitialize); [contradiction| |]; destruct r; try (left; split; [reflexivity|exact H]); right; (split; [discriminate|exact H]). }
  clear H. destruct OUT as [(R & H)|(R & H)]; injection H as <- <- <-.
  - split; [split; [intros _; exists o; auto|reflexivity]|]. split; [|intros X; contradiction]. intros _. split; [reflexivity|]. exists o, (filled o). split; [reflexivity|]. split; [reflexivity|].
    destruct V as (M & _). split; intros x X; rewrite filled_spec.
    + destruct (o x); [contradiction|reflexivity|reflexivity].
    + rewrite X. destruct x; try reflexivity; exfalso; exact (M _ (Logic.I : mandatory ltac:(match type of X with _ ?z = _ => exact z end)) X).
  - split; [split; [intros X; contradiction|intros (o' & _ & _ & _ & _ & X); contradiction]|]. split; [intros X; contradiction|]. auto.
Qed.

Lemma created_full : forall o x, created o -> o x <> Null.
Proof.
  intros o x (u & params & out & mem & r & eff & H). destruct (create_spec _ _ _ _ _ _ _ _ H) as (_ & X & _). destruct (X eq_refl) as (_ & o1 & o2 & -> & E & A & B).
  injection E as <-. destruct (o1 x) eqn:D; [rewrite (B x D); discriminate| |]; rewrite (A x) by (rewrite D; discriminate); rewrite D; discriminate.
Qed.

Definition judge (k : pcall) : bool :=
  match k with
  | PAlloc h _ _ out | PRecommended h _ out | PMinPage h _ out | PIpcSize h out => negb (h =? 0) && negb (out =? 0)
  | PFree h _ _ => negb (h =? 0)
  | PLazy h ptr _ | PForce h ptr _ | PIpcClose h ptr _ => negb (h =? 0) && negb (ptr =? 0)
  | PSplit h ptr total first => negb (h =? 0) && negb (ptr =? 0) && (0 <? first) && (first <? total)
  | PMerge h low high total => negb (h =? 0) && (0 <? low) && (low <? high) && (high <? low + total)
  | PIpcGet h ptr _ data => negb (h =? 0) && negb (ptr =? 0) && negb (data =? 0)
  | PIpcPut h data => negb (h =? 0) && negb (data =? 0)
  | PIpcOpen h data out => negb (h =? 0) && negb (data =? 0) && negb (out =? 0)
  end.
Lemma nz : forall x, negb (x =? 0) = true <-> x <> 0.
Proof. intros x. rewrite negb_true_iff. apply Z.eqb_neq. Qed.
Lemma judge_ok : forall k, judge k = true <-> acceptable k.
Proof. intros k. destruct k; unfold judge, acceptable, target; cbn [request fst]; repeat rewrite andb_true_iff; repeat rewrite nz; repeat rewrite Z.ltb_lt; intuition lia. Qed.

Lemma api_spec : forall tab last k r, (forall h x, tab h x <> Null) -> words k ->
  exists e up z, api tab last k r = Some (e, up, z) /\ expected tab k r e /\
    (reaches tab k -> up = [request k]) /\ (~ reaches tab k -> up = []) /\
    (acceptable k /\ ~ ipc (wanted k) /\ (tab (target k) (wanted k) = User -> r <> SUCCESS) -> z = target k) /\
    (~ (acceptable k /\ ~ ipc (wanted k) /\ (tab (target k) (wanted k) = User -> r <> SUCCESS)) -> z = last).
Proof.
  intros tab last k r FULL W.
  assert (CORE : api tab last k r = if judge k then (if match wanted k with OIpcSize | OIpcGet | OIpcPut | OIpcOpen | OIpcClose => true | _ => false end then unchecked tab (target k) (wanted k) (snd (request k)) r last else checked tab (target k) (wanted k) (snd (request k)) r last) else refuse last).
  { destruct W as (W0 & W). destruct k; unfold api, judge, wanted, target in *; cbn [request fst snd] in *; try (repeat (match goal with |- context [?x =? 0] => destruct (x =? 0) end; cbn [negb andb]; try reflexivity); fail).
    - (* split *) assert (F1 : is_word first) by (apply W; right; right; left; reflexivity). assert (F2 : is_word total) by (apply W; right; left; reflexivity). unfold is_word in *.
      destruct (h =? 0); [reflexivity|]. destruct (ptr =? 0); [reflexivity|]. cbn [negb andb].
      destruct (first =? 0) eqn:E1; cbn [orb].
      { apply Z.eqb_eq in E1. subst first. reflexivity. }
      apply Z.eqb_neq in E1. replace (0 <? first) with true by (symmetry; apply Z.ltb_lt; lia). cbn [andb].
      destruct (total =? 0) eqn:E2. { apply Z.eqb_eq in E2. subst total. replace (first <? 0) with false by (symmetry; apply Z.ltb_ge; lia). reflexivity. }
      destruct (total <=? first) eqn:E3; [apply Z.leb_le in E3; replace (first <? total) with false by (symmetry; apply Z.ltb_ge; lia); reflexivity|].
      apply Z.leb_gt in E3. replace (first <? total) with true by (symmetry; apply Z.ltb_lt; lia). reflexivity.
    - (* merge *) assert (F1 : is_word low) by (apply W; left; reflexivity). assert (F2 : is_word high) by (apply W; right; left; reflexivity). assert (F3 : is_word total) by (apply W; right; right; left; reflexivity). unfold is_word in *.
      destruct (h =? 0); [reflexivity|]. cbn [negb andb].
      destruct (low =? 0) eqn:E1; cbn [orb]. { apply Z.eqb_eq in E1. subst low. reflexivity. }
      apply Z.eqb_neq in E1. replace (0 <? low) with true by (symmetry; apply Z.ltb_lt; lia). cbn [andb].
      destruct (high =? 0) eqn:E2. { apply Z.eqb_eq in E2. subst high. replace (low <? 0) with false by (symmetry; apply Z.ltb_ge; lia). reflexivity. }
      destruct (total =? 0) eqn:E3. { apply Z.eqb_eq in E3. subst total. destruct (low <? high) eqn:E4; [|reflexivity]. apply Z.ltb_lt in E4. cbn [andb]. replace (high <? low + 0) with false by (symmetry; apply Z.ltb_ge; lia). reflexivity. }
      destruct (high <=? low) eqn:E4. { apply Z.leb_le in E4. replace (low <? high) with false by (symmetry; apply Z.ltb_ge; lia). reflexivity. }
      apply Z.leb_gt in E4. replace (low <? high) with true by (symmetry; apply Z.ltb_lt; lia). cbn [andb]. rewrite (wrap_id (high - low)) by (unfold is_word; lia).
      destruct (total <=? high - low) eqn:E5; [apply Z.leb_le in E5; replace (high <? low + total) with false by (symmetry; apply Z.ltb_ge; lia); reflexivity|].
      apply Z.leb_gt in E5. replace (high <? low + total) with true by (symmetry; apply Z.ltb_lt; lia). reflexivity. }
  rewrite CORE. clear CORE. destruct (judge k) eqn:J.
  - apply judge_ok in J. pose proof (FULL (target k) (wanted k)) as N. unfold unchecked, checked, invoke, expected, reaches.
    assert (RQ : request k = (target k, wanted k, snd (request k))) by (unfold target, wanted; destruct (request k) as [[a b] c]; reflexivity).
    assert (CASES : (ipc (wanted k) /\ (match wanted k with OIpcSize | OIpcGet | OIpcPut | OIpcOpen | OIpcClose => true | _ => false end) = true) \/ (~ ipc (wanted k) /\ (match wanted k with OIpcSize | OIpcGet | OIpcPut | OIpcOpen | OIpcClose => true | _ => false end) = false)) by (destruct (wanted k); cbn; tauto).
    destruct CASES as [(IP & ->)|(IP & ->)]; destruct (tab (target k) (wanted k)) eqn:T; try contradiction.
    + eexists _, _, _. split; [reflexivity|]. split; [tauto|]. split; [intros _; rewrite <- RQ; reflexivity|]. split; [tauto|]. split; [tauto|reflexivity].
    + eexists _, _, _. split; [reflexivity|]. split; [split; [tauto|split; [intros _ X; discriminate|reflexivity]]|]. split; [intros (_ & X); discriminate|]. split; [reflexivity|]. split; [tauto|reflexivity].
    + eexists _, _, _. split; [reflexivity|]. split; [tauto|]. split; [intros _; rewrite <- RQ; reflexivity|]. split; [tauto|]. unfold checkErrorAndSetLastProvider.
      destruct r; try (split; [reflexivity|intros X; exfalso; apply X; split; [exact J|split; [exact IP|intros _ Y; discriminate]]]). split; [intros (_ & _ & X); destruct (X eq_refl eq_refl)|reflexivity].
    + eexists _, _, _. split; [reflexivity|]. split; [split; [tauto|split; [intros _ X; discriminate|reflexivity]]|]. split; [intros (_ & X); discriminate|]. split; [reflexivity|]. unfold checkErrorAndSetLastProvider.
      split; [reflexivity|]. intros X. exfalso. apply X. split; [exact J|]. split; [exact IP|]. intros Y. discriminate.
  - assert (NJ : ~ acceptable k) by (intros X; apply judge_ok in X; congruence). unfold refuse, expected, reaches. eexists _, _, _. split; [reflexivity|]. split; [tauto|]. split; [tauto|]. split; [reflexivity|]. split; [tauto|reflexivity].
Qed.

Lemma judge_dec : forall tab k, {reaches tab k} + {~ reaches tab k}.
Proof.
  intros tab k. unfold reaches. destruct (judge k) eqn:J.
  - apply judge_ok in J. destruct (tab (target k) (wanted k)); [right|left|right]; try (split; [exact J|reflexivity]); intros (_ & X); discriminate.
  - right. intros (X & _). apply judge_ok in X. congruence.
Qed.
Lemma failed_dec : forall tab k r, {acceptable k /\ ~ ipc (wanted k) /\ (tab (target k) (wanted k) = User -> r <> SUCCESS)} + {~ (acceptable k /\ ~ ipc (wanted k) /\ (tab (target k) (wanted k) = User -> r <> SUCCESS))}.
Proof.
  intros tab k r. destruct (judge k) eqn:J; [|right; intros (X & _); apply judge_ok in X; congruence]. apply judge_ok in J.
  assert (IP : {ipc (wanted k)} + {~ ipc (wanted k)}) by (destruct (wanted k); cbn; (left; exact I) || (right; tauto)). destruct IP as [IP|IP]; [right; tauto|].
  destruct (tab (target k) (wanted k)); try (left; split; [exact J|split; [exact IP|intros X; discriminate]]).
  destruct r; try (left; split; [exact J|split; [exact IP|intros _ X; discriminate]]). right. intros (_ & _ & X). exact (X eq_refl eq_refl).
Qed.

Lemma serve_spec : forall tab, (forall h x, tab h x <> Null) -> forall l last, (forall t k r, In (t, k, r) l -> words k) ->
  exists es ups last', serve tab last l = Some (es, ups, last') /\
    Forall2 (fun x e => let '(_, k, r) := x in expected tab k r e) l es /\ received tab l ups /\
    (forall t, ((forall x, In x l -> ~ failed tab t x) /\ last' t = last t) \/
       exists pre u k r post, l = pre ++ (u, k, r) :: post /\ failed tab t (u, k, r) /\ (forall x, In x post -> ~ failed tab t x) /\ last' t = target k).
Proof.
  intros tab FULL l. induction l as [|[[t k] r] l IH]; intros last W.
  - exists [], [], last. split; [reflexivity|]. split; [constructor|]. split; [constructor|]. intros t. left. split; [intros x []|reflexivity].
  - destruct (api_spec tab (last t) k r FULL (W t k r (or_introl eq_refl))) as (e & up & z & A1 & A2 & A3 & A4 & A5 & A6).
    destruct (IH (fun u => if Nat.eqb u t then z else last u)) as (es & ups & last' & B1 & B2 & B3 & B4).
    { intros u k' r' X. apply (W u k' r'). right. exact X. }
    cbn [serve]. rewrite A1, B1. exists (e :: es), (up ++ ups), last'. split; [reflexivity|]. split; [constructor; [exact A2|exact B2]|]. split.
    + destruct (judge_dec tab k) as [J|J]; [rewrite (A3 J); apply rc_reach; assumption|rewrite (A4 J); apply rc_not; assumption].
    + intros u. destruct (B4 u) as [(C1 & C2)|(pre & u' & k' & r' & post & C1 & C2 & C3 & C4)].
      * destruct (failed_dec tab k r) as [F|F].
        -- specialize (A5 F). subst z. destruct (Nat.eqb u t) eqn:E.
           ++ apply Nat.eqb_eq in E. subst u. right. exists [], t, k, r, l. split; [reflexivity|]. split; [split; [reflexivity|exact F]|]. split; [exact C1|exact C2].
           ++ left. split; [|exact C2]. intros x [<-|X]; [|exact (C1 x X)]. intros (X & _). subst u. rewrite Nat.eqb_refl in E. discriminate.
        -- specialize (A6 F). subst z. left. split.
           ++ intros x [<-|X]; [|exact (C1 x X)]. intros (_ & X). exact (F X).
           ++ rewrite C2. destruct (Nat.eqb u t) eqn:E; [apply Nat.eqb_eq in E; subst u; reflexivity|reflexivity].
      * right. exists ((t, k, r) :: pre), u', k', r', post. split; [rewrite C1; reflexivity|]. auto.
Qed.
