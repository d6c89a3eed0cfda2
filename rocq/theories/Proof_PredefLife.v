(* Proofs about the predefined memory spaces over initialisations and tear-downs. *)
From Verif Require Import Base Model_Memspace Spec_Memspace Proof_Memspace Model_Predef Spec_Predef Proof_Predef.

Section Machine.
Variables (M : list hw) (attr : bool -> list Z -> hw -> result * Z) (srt : list (Z * Z) -> list (Z * Z)).
Hypothesis WORDS : words attr.
Hypothesis SORTS : sorts srt.
Notation core := (core M attr).
Notation stuck := (stuck M).
Lemma get_spec : forall k ok w, core w -> stuck w -> exists w', get M attr srt k ok w = Some (ptr w' k, w') /\ core w' /\ stuck w' /\ ext w w' /\ fired w' k = true /\
  (forall j, j <> All -> j <> k -> fired w' j = fired w j) /\
  (M <> [] -> k = All \/ k = Cap -> t_fired w' = true) /\
  (M <> [] -> (t_fired w = true -> t_ptr w <> None) -> ok = true -> (t_fired w' = true -> t_ptr w' <> None) /\ (fired w k = false -> ptr w' k = None -> (k = Bw /\ ~ answered M attr false) \/ (k = Lat /\ ~ answered M attr true))).
Proof.
  intros k ok w C SK. destruct (kind_dec k All) as [->|NK].
  - cbn [get]. destruct (all_spec M attr ok w C) as (w' & E & C' & X & OT & FA & NEW). exists w'. split; [exact E|]. split; [exact C'|].
    assert (ST : stuck w').
    { intros NM j J FJ PJ. assert (KEEP : fired w j = true -> ptr w j = None -> t_fired w' = true /\ t_ptr w' = None) by (intros F1 P1; destruct (SK NM j J F1 P1) as (T1 & T2); destruct (proj1 (proj2 (proj2 X)) T1) as (T3 & T4); split; [exact T3|congruence]).
      destruct J as [->| ->].
      - destruct (fired w All) eqn:FW; [apply KEEP; [reflexivity|]; rewrite <- (proj2 (proj1 (proj2 X) All FW)); exact PJ|]. destruct (NEW eq_refl) as (T1 & T2 & _). split; [exact T1|exact (T2 NM PJ)].
      - destruct (OT Cap ltac:(discriminate)) as (F1 & P1). apply KEEP; congruence. }
    assert (TF : M <> [] -> t_fired w' = true).
    { intros NM. destruct (ptr w' All) as [s|] eqn:P; [exact (proj1 (c_used _ _ w' C' All s P))|exact (proj1 (ST NM All (or_introl eq_refl) FA P))]. }
    split; [exact ST|]. split; [exact X|]. split; [exact FA|]. split; [intros j N _; exact (proj1 (OT j N))|]. split; [intros NM _; exact (TF NM)|].
    intros NM LK EO. assert (TP : t_ptr w' <> None).
    { destruct (t_fired w) eqn:TW; [rewrite (proj2 (proj1 (proj2 (proj2 X)) TW)); exact (LK eq_refl)|]. destruct (fired w All) eqn:FW; [|destruct (NEW eq_refl) as (_ & _ & T3); exact (T3 eq_refl EO)].
      destruct (ptr w All) as [s|] eqn:P; [destruct (c_used _ _ w C All s P); congruence|destruct (SK NM All (or_introl eq_refl) FW P); congruence]. }
    split; [intros _; exact TP|]. intros FW PN. destruct (NEW FW) as (_ & T2 & _). exfalso. exact (TP (T2 NM PN)).
  - assert (EG : get M attr srt k ok w = get_made M attr srt k ok w) by (destruct k; [contradiction|reflexivity|reflexivity|reflexivity]). rewrite EG.
    destruct (made_spec M attr srt WORDS SORTS k ok w NK C SK) as (w' & E & C' & ST & X & FK & FO & _ & NEW). exists w'. split; [exact E|]. split; [exact C'|]. split; [exact ST|]. split; [exact X|]. split; [exact FK|]. split; [exact FO|]. split.
    + intros NM [->| ->]; [contradiction|]. destruct (ptr w' Cap) as [s|] eqn:P; [exact (proj1 (c_used _ _ w' C' Cap s P))|exact (proj1 (ST NM Cap (or_intror eq_refl) FK P))].
    + intros NM LK EO. assert (TP : t_fired w' = true -> t_ptr w' <> None).
      { intros TF'. destruct (t_fired w) eqn:TW; [rewrite (proj2 (proj1 (proj2 (proj2 X)) TW)); exact (LK eq_refl)|]. destruct (fired w k) eqn:FW; [|destruct (NEW NM eq_refl) as (_ & T2 & _); exact (T2 eq_refl EO)].
        exfalso. unfold get_made in E. rewrite FW in E. injection E as _ E. subst w'. congruence. }
      split; [exact TP|]. intros FW PN. destruct (NEW NM FW) as (T1 & _ & T3). exact (T3 PN (TP T1)).
Qed.

(* ---- tearing down ---- *)
Definition reset (w : world) (k : kind) : bool := match ptr w k, k with Some _, Lat => fired w k | Some _, _ => false | None, _ => fired w k end.
Lemma destroy_spec1 : forall k w, good (exist w) (wm w) -> answers (wm w) = [] -> exists w', destroy k w = Some w' /\ good (exist w') (wm w') /\ answers (wm w') = [] /\
  ptr w' k = None /\ fired w' k = reset w k /\ (forall j, j <> k -> ptr w' j = ptr w j /\ fired w' j = fired w j) /\
  refs w' = refs w /\ t_fired w' = t_fired w /\ t_ptr w' = t_ptr w /\ t_all w' = t_all w /\ t_next w' = t_next w.
Proof.
  intros k w G A. unfold destroy, reset. destruct (ptr w k) as [s|] eqn:P.
  - destruct (exist_split w k) as (l1 & l2 & E1 & E2). rewrite P in E1. cbn [opt app] in E1. rewrite E1 in G. apply good_framed in G. destruct G as (F & AR). destruct (destroy_space_spec _ _ _ _ F) as (m & -> & H & U & AA).
    assert (EX : forall w', (forall j, j <> k -> ptr w' j = ptr w j) -> ptr w' k = None -> exist w' = l1 ++ l2) by (intros w' O N; rewrite (E2 w' O), N; reflexivity).
    destruct k; (eexists; split; [reflexivity|]); (split; [rewrite (EX _); [split; [exact H|exact AR]|intros j NE; cbn [w_fire w_ptr w_mem ptr]; rewrite (kind_neq j _ NE); reflexivity|reflexivity]|]); (split; [cbn [w_fire w_ptr w_mem wm]; congruence|]); (split; [reflexivity|]); (split; [reflexivity|]); (split; [intros j NE; cbn [w_fire w_ptr w_mem ptr fired]; try rewrite (kind_neq j _ NE); auto|]); auto.
  - exists w. split; [reflexivity|]. split; [exact G|]. split; [exact A|]. split; [exact P|]. split; [reflexivity|]. split; [auto|]. auto.
Qed.
Lemma tear_spec : forall w, core w -> stuck w -> refs w = 1 ->
  match tear w with
  | Some w' => (t_ptr w = None \/ t_fired w = true) /\ core w' /\ stuck w' /\ clean w' /\ refs w' = 0 /\ t_ptr w' = t_ptr w /\ (t_fired w' = true -> t_fired w = true) /\ (forall j, fired w' j = reset w j) /\ (t_ptr w <> None -> t_fired w' = false)
  | None => t_ptr w <> None /\ t_fired w = false
  end.
Proof.
  intros w C SK R. unfold tear. rewrite R. cbn [Z.eqb]. change (1 =? 1) with true. cbv iota.
  set (w0 := w_refs w (wrap (1 - 1))). assert (G0 : good (exist w0) (wm w0)) by exact (c_good _ _ w C). assert (A0 : answers (wm w0) = []) by exact (c_ans _ _ w C).
  destruct (destroy_spec1 All w0 G0 A0) as (w1 & -> & G1 & A1 & P1 & F1 & O1 & R1 & T1 & Q1 & L1 & N1). cbn [andthen].
  destruct (destroy_spec1 Cap w1 G1 A1) as (w2 & -> & G2 & A2 & P2 & F2 & O2 & R2 & T2 & Q2 & L2 & N2). cbn [andthen].
  destruct (destroy_spec1 Bw w2 G2 A2) as (w3 & -> & G3 & A3 & P3 & F3 & O3 & R3 & T3 & Q3 & L3 & N3). cbn [andthen].
  destruct (destroy_spec1 Lat w3 G3 A3) as (w4 & -> & G4 & A4 & P4 & F4 & O4 & R4 & T4 & Q4 & L4 & N4). cbn [andthen].
  assert (NP : forall k, ptr w4 k = None).
  { intros k. destruct k; [rewrite (proj1 (O4 All ltac:(discriminate))), (proj1 (O3 All ltac:(discriminate))), (proj1 (O2 All ltac:(discriminate))); exact P1|rewrite (proj1 (O4 Cap ltac:(discriminate))), (proj1 (O3 Cap ltac:(discriminate))); exact P2|rewrite (proj1 (O4 Bw ltac:(discriminate))); exact P3|exact P4]. }
  assert (FR : forall k, fired w4 k = reset w k).
  { intros k. destruct k.
    - rewrite (proj2 (O4 All ltac:(discriminate))), (proj2 (O3 All ltac:(discriminate))), (proj2 (O2 All ltac:(discriminate))), F1. reflexivity.
    - rewrite (proj2 (O4 Cap ltac:(discriminate))), (proj2 (O3 Cap ltac:(discriminate))), F2. unfold reset. destruct (O1 Cap ltac:(discriminate)) as (-> & ->). reflexivity.
    - rewrite (proj2 (O4 Bw ltac:(discriminate))), F3. unfold reset. destruct (O2 Bw ltac:(discriminate)) as (-> & ->). destruct (O1 Bw ltac:(discriminate)) as (-> & ->). reflexivity.
    - rewrite F4. unfold reset. destruct (O3 Lat ltac:(discriminate)) as (-> & ->). destruct (O2 Lat ltac:(discriminate)) as (-> & ->). destruct (O1 Lat ltac:(discriminate)) as (-> & ->). reflexivity. }
  assert (EX : exist w4 = []) by (apply exist_none; exact NP). rewrite EX in G4. destruct G4 as (H4 & _).
  assert (HP : heap (wm w4) = []) by (destruct H4 as [_ HPM _ _]; apply Permutation_sym, Permutation_nil in HPM; unfold keys in HPM; destruct (heap (wm w4)); [reflexivity|discriminate]).
  assert (BL : blocks (wm w4) = 0) by exact (h_blocks _ _ _ H4).
  assert (TF : t_fired w4 = t_fired w) by (rewrite T4, T3, T2, T1; reflexivity). assert (TP : t_ptr w4 = t_ptr w) by (rewrite Q4, Q3, Q2, Q1; reflexivity). assert (TA : t_all w4 = t_all w) by (rewrite L4, L3, L2, L1; reflexivity).
  assert (RR : refs w4 = 0) by (rewrite R4, R3, R2, R1; reflexivity).
  assert (OFF : forall k, reset w k = true -> fired w k = true) by (intros k W; unfold reset in W; destruct (ptr w k) as [s|]; [destruct k; congruence|exact W]).
  assert (CC : forall w', ptr w' = ptr w4 -> wm w' = wm w4 -> t_all w' = (if t_fired w' then match t_ptr w' with Some t => [t] | None => [] end else []) -> core w').
  { intros w' E1 E2 E3. constructor.
    - unfold exist. rewrite E1, E2. change (good (exist w4) (wm w4)). rewrite EX. split; [exact H4|intros s []].
    - rewrite E2. exact A4.
    - intros k _. rewrite E1. exact (NP k).
    - exact E3.
    - intros k s P. rewrite E1, NP in P. discriminate.
    - intros k s P. rewrite E1, NP in P. discriminate. }
  assert (ST : M <> [] -> forall k, k = All \/ k = Cap -> reset w k = true -> t_fired w = true /\ t_ptr w = None).
  { intros NM k J F. apply (SK NM k J (OFF k F)). unfold reset in F. destruct (ptr w k); [|reflexivity]. destruct J as [->| ->]; discriminate. }
  unfold destroy_topo. rewrite TP. pose proof (c_topo _ _ w C) as CT. destruct (t_ptr w) as [t|] eqn:ET.
  - destruct (t_fired w) eqn:EF.
    + assert (TH : there w4 t = true) by (unfold there; rewrite TA, CT; cbn; rewrite Z.eqb_refl; reflexivity). rewrite TH.
      assert (FL : filter (fun x => negb (x =? t)) (t_all w4) = []) by (rewrite TA, CT; cbn; rewrite Z.eqb_refl; reflexivity). rewrite FL.
      split; [right; reflexivity|]. split; [apply CC; reflexivity|]. split; [|split; [|split; [|split; [|split; [|split]]]]].
      * intros NM k J FK _. cbn [w_topo fired] in FK. rewrite FR in FK. destruct (ST NM k J FK). congruence.
      * split; [exact NP|]. split; [exact HP|]. split; [exact BL|reflexivity].
      * exact RR.
      * reflexivity.
      * cbn. discriminate.
      * exact FR.
      * reflexivity.
    + assert (TH : there w4 t = false) by (unfold there; rewrite TA, CT; reflexivity). rewrite TH. split; [discriminate|reflexivity].
  - assert (EA : t_all w = []) by (rewrite CT; destruct (t_fired w); reflexivity).
    split; [left; reflexivity|]. split; [apply CC; [reflexivity|reflexivity|]; rewrite TA, EA, TP; destruct (t_fired w4); reflexivity|]. split; [|split; [|split; [|split; [|split; [|split]]]]].
    + intros NM k J FK _. rewrite FR in FK. destruct (ST NM k J FK). split; congruence.
    + split; [exact NP|]. split; [exact HP|]. split; [exact BL|congruence].
    + exact RR.
    + exact TP.
    + congruence.
    + exact FR.
    + intros W. contradiction.
Qed.
Lemma core_refs : forall w r, core w -> core (w_refs w r).
Proof. intros w r C. constructor; apply C. Qed.
Lemma ask_spec : forall ok w, core w -> stuck w -> exists w', ask ok w = Some w' /\ core w' /\ stuck w' /\ ext w w' /\ fired w' = fired w /\ ptr w' = ptr w /\ t_fired w' = true /\ ((t_fired w = true -> t_ptr w <> None) -> ok = true -> t_ptr w' <> None).
Proof.
  intros ok w C SK. unfold ask. destruct (get_topo ok w) as (o & w') eqn:T. destruct (topo_spec _ _ _ _ _ _ C T) as (C2 & M2 & P2 & F2 & R2 & TF & TP & TS & TH & TN).
  exists w'. split; [destruct o as [t|]; [rewrite (TH t eq_refl)|]; reflexivity|]. split; [exact C2|]. split; [|split; [|split; [exact F2|split; [exact P2|split; [exact TF|]]]]].
  - intros NM k J FK PK. rewrite F2 in FK. rewrite P2 in PK. destruct (SK NM k J FK PK) as (T1 & T2). split; [exact TF|]. rewrite TP, (TS T1). exact T2.
  - split; [exact R2|]. split; [intros j FJ; rewrite F2, P2; auto|]. split; [intros F; split; [exact TF|rewrite TP; exact (TS F)]|]. intros h _. rewrite M2. reflexivity.
  - intros LK EO. rewrite TP. destruct (t_fired w) eqn:TW; [rewrite (TS eq_refl); exact (LK eq_refl)|exact (TN eq_refl EO)].
Qed.
Definition Inv (w : world) : Prop := core w /\ stuck w /\ 0 <= refs w < U64.
Lemma inv_start : Inv start.
Proof.
  split; [|split].
  - constructor; [|reflexivity|reflexivity|reflexivity|discriminate|discriminate]. split; [|intros s []]. constructor; [constructor|constructor|intros h []|reflexivity].
  - intros NM k J F. discriminate.
  - cbn. unfold U64. lia.
Qed.
Lemma inv_step : forall w o w', Inv w -> step M attr srt w o = Some w' -> Inv w'.
Proof.
  intros w o w' (C & SK & R) E. assert (WR : forall x, 0 <= wrap x < U64) by (intros x; apply Z.mod_pos_bound; unfold U64; lia). destruct o as [| |k ok|ok]; cbn [step] in E.
  - injection E as <-. split; [apply core_refs; exact C|]. split; [exact SK|apply WR].
  - destruct (Z.eq_dec (refs w) 1) as [R1|R1].
    + pose proof (tear_spec w C SK R1) as T. rewrite E in T. destruct T as (_ & C' & S' & _ & R' & _). split; [exact C'|]. split; [exact S'|]. rewrite R'. unfold U64. lia.
    + unfold tear in E. destruct (Z.eqb_spec (refs w) 1); [contradiction|]. injection E as <-. split; [apply core_refs; exact C|]. split; [exact SK|apply WR].
  - destruct (get_spec k ok w C SK) as (w1 & E1 & C1 & S1 & X1 & _). rewrite E1 in E. injection E as <-. split; [exact C1|]. split; [exact S1|]. rewrite (proj1 X1). exact R.
  - destruct (ask_spec ok w C SK) as (w1 & E1 & C1 & S1 & X1 & _). rewrite E1 in E. injection E as <-. split; [exact C1|]. split; [exact S1|]. rewrite (proj1 X1). exact R.
Qed.
Lemma inv_run : forall os w w', Inv w -> run M attr srt w os = Some w' -> Inv w'.
Proof.
  intros os. induction os as [|o os IH]; intros w w' I E; cbn [run] in E; [injection E as <-; exact I|]. destruct (step M attr srt w o) as [w1|] eqn:S; [|discriminate]. exact (IH w1 w' (inv_step _ _ _ I S) E).
Qed.

(* ---- histories ---- *)
Lemma uses_safe : forall os d ever used w, M <> [] -> Inv w -> refs w = d -> (used = true -> t_fired w = true) -> (ever = false -> t_ptr w = None) -> uses d ever used os -> exists w', run M attr srt w os = Some w'.
Proof.
  intros os. induction os as [|o os IH]; intros d ever used w NM I R US EV U; cbn [run]; [eauto|].
  assert (NX : forall w1 d' ever' used', step M attr srt w o = Some w1 -> refs w1 = d' -> (used' = true -> t_fired w1 = true) -> (ever' = false -> t_ptr w1 = None) -> uses d' ever' used' os -> exists w', match step M attr srt w o with Some w1 => run M attr srt w1 os | None => None end = Some w').
  { intros w1 d' ever' used' S R1 U1 E1 UU. rewrite S. exact (IH d' ever' used' w1 NM (inv_step _ _ _ I S) R1 U1 E1 UU). }
  destruct I as (C & SK & RR). destruct o as [| |k ok|ok]; cbn [uses] in U.
  - destruct U as (B & U). apply (NX (w_refs w (wrap (refs w + 1))) (d + 1) ever used); [reflexivity| |exact US|exact EV|exact U]. cbn [w_refs refs]. rewrite R. apply Z.mod_small. lia.
  - destruct U as (B & U). destruct (Z.eqb_spec d 1) as [D|D].
    + destruct U as (CND & U). assert (R1 : refs w = 1) by congruence. pose proof (tear_spec w C SK R1) as T. cbn [step] in *. destruct (tear w) as [w1|].
      * destruct T as (_ & C1 & S1 & _ & R0 & TP & TF & _). apply (NX w1 0 ever false); [reflexivity|exact R0|discriminate|intros W; rewrite TP; exact (EV W)|exact U].
      * exfalso. destruct T as (T1 & T2). destruct CND as [W|W]; [specialize (US W); congruence|exact (T1 (EV W))].
    + apply (NX (w_refs w (wrap (refs w - 1))) (d - 1) ever used); [| |exact US|exact EV|exact U].
      * cbn [step]. unfold tear. destruct (Z.eqb_spec (refs w) 1); [congruence|reflexivity].
      * cbn [w_refs refs]. rewrite R. apply Z.mod_small. lia.
  - destruct (get_spec k ok w C SK) as (w1 & E1 & C1 & S1 & X1 & FK & _ & TF & _). apply (NX w1 d true (used || match k with All | Cap => true | _ => false end)); [cbn [step]; rewrite E1; reflexivity|rewrite (proj1 X1); exact R| |discriminate|exact U].
    intros W. apply orb_true_iff in W. destruct W as [W|W]; [exact (proj1 (proj1 (proj2 (proj2 X1)) (US W)))|]. apply (TF NM). destruct k; try discriminate W; auto.
  - destruct (ask_spec ok w C SK) as (w1 & E1 & C1 & S1 & X1 & _ & _ & TF & _). apply (NX w1 d true true); [exact E1|rewrite (proj1 X1); exact R|auto|discriminate|exact U].
Qed.
Lemma wrap_wrap : forall a b, wrap (wrap a + b) = wrap (a + b).
Proof. intros a b. unfold wrap. apply Zplus_mod_idemp_l. Qed.
Lemma run_refs : forall os w w', Inv w -> run M attr srt w os = Some w' -> refs w' = wrap (refs w + depth os).
Proof.
  intros os. induction os as [|o os IH]; intros w w' I E; cbn [run] in E.
  - injection E as <-. cbn [depth]. destruct I as (_ & _ & R). unfold wrap. rewrite Z.add_0_r, Z.mod_small by exact R. reflexivity.
  - destruct (step M attr srt w o) as [w1|] eqn:S; [|discriminate]. rewrite (IH w1 w' (inv_step _ _ _ I S) E). destruct I as (C & SK & R). destruct o as [| |k ok|ok]; cbn [step depth] in *.
    + injection S as <-. cbn [w_refs refs]. rewrite wrap_wrap. f_equal. lia.
    + destruct (Z.eq_dec (refs w) 1) as [R1|R1].
      * pose proof (tear_spec w C SK R1) as T. rewrite S in T. destruct T as (_ & _ & _ & _ & R0 & _). rewrite R0, R1. f_equal. lia.
      * unfold tear in S. destruct (Z.eqb_spec (refs w) 1); [contradiction|]. injection S as <-. cbn [w_refs refs]. rewrite wrap_wrap. f_equal. lia.
    + destruct (get_spec k ok w C SK) as (w2 & E1 & _ & _ & X1 & _). rewrite E1 in S. injection S as <-. rewrite (proj1 X1). reflexivity.
    + destruct (ask_spec ok w C SK) as (w2 & E1 & _ & _ & X1 & _). rewrite E1 in S. injection S as <-. rewrite (proj1 X1). reflexivity.
Qed.
Lemma run_clean : forall os w w', run M attr srt start os = Some w -> depth os = 1 -> step M attr srt w Tear = Some w' -> clean w'.
Proof.
  intros os w w' E D S. pose proof (inv_run _ _ _ inv_start E) as (C & SK & R). pose proof (run_refs _ _ _ inv_start E) as RR. rewrite D in RR. change (refs w = 1) in RR. pose proof (tear_spec w C SK RR) as T. cbn [step] in S. rewrite S in T. exact (proj1 (proj2 (proj2 (proj2 T)))).
Qed.
(* nothing a period has is lost within it *)
Definition kept (w w' : world) : Prop := (forall j, fired w j = true -> fired w' j = true /\ ptr w' j = ptr w j) /\ untouched (wm w) (wm w') (owned (exist w)).
Lemma kept_owned : forall w w' h, core w -> kept w w' -> In h (owned (exist w)) -> In h (owned (exist w')).
Proof.
  intros w w' h C (X & _) I. unfold owned in *. apply in_flat_map in I. destruct I as (s & I & J). unfold exist in I. apply in_flat_map in I. destruct I as (k & _ & I).
  destruct (ptr w k) as [s'|] eqn:P; [|destruct I]. destruct I as [<-|[]]. apply in_flat_map. exists s'. split; [|exact J]. apply (exist_in _ k). rewrite (proj2 (X k ltac:(destruct (fired w k) eqn:F; [reflexivity|]; rewrite (c_off _ _ w C k F) in P; discriminate))). exact P.
Qed.
Lemma run_kept : forall os w w', Inv w -> within (refs w) os -> run M attr srt w os = Some w' -> kept w w'.
Proof.
  intros os. induction os as [|o os IH]; intros w w' I WI E; cbn [run] in E.
  - injection E as <-. split; [auto|intros h _; reflexivity].
  - destruct (step M attr srt w o) as [w1|] eqn:S; [|discriminate]. pose proof (inv_step _ _ _ I S) as I1.
    assert (K1 : kept w w1 /\ within (refs w1) os).
    { destruct I as (C & SK & R). destruct o as [| |k ok|ok]; cbn [step within] in *.
      - injection S as <-. split; [split; [auto|intros h _; reflexivity]|]. cbn [w_refs refs]. unfold wrap. rewrite Z.mod_small by lia. exact (proj2 WI).
      - unfold tear in S. destruct (Z.eqb_spec (refs w) 1) as [R1|R1]; [lia|]. injection S as <-. split; [split; [auto|intros h _; reflexivity]|]. cbn [w_refs refs]. unfold wrap. rewrite Z.mod_small by lia. exact (proj2 WI).
      - destruct (get_spec k ok w C SK) as (w2 & E1 & _ & _ & X1 & _). rewrite E1 in S. injection S as <-. destruct X1 as (X1 & X2 & _ & X4). split; [split; assumption|]. rewrite X1. exact WI.
      - destruct (ask_spec ok w C SK) as (w2 & E1 & _ & _ & X1 & _). rewrite E1 in S. injection S as <-. destruct X1 as (X1 & X2 & _ & X4). split; [split; assumption|]. rewrite X1. exact WI. }
    destruct K1 as (K1 & W1). destruct (IH w1 w' I1 W1 E) as (Y1 & Y2). pose proof K1 as (X1 & X2). split.
    + intros j F. destruct (X1 j F) as (F1 & P1). destruct (Y1 j F1) as (F2 & P2). split; [exact F2|congruence].
    + intros h J. rewrite (Y2 h (kept_owned _ _ _ (proj1 I) K1 J)). exact (X2 h J).
Qed.
Lemma run_same : forall before w k ok o w1 os w2 ok' o' w3, run M attr srt start before = Some w -> 0 <= depth before < U64 -> get M attr srt k ok w = Some (o, w1) -> within (depth before) os -> run M attr srt w1 os = Some w2 -> get M attr srt k ok' w2 = Some (o', w3) ->
  o' = o /\ forall s ts, o = Some s -> members (wm w1) s ts -> members (wm w3) s ts.
Proof.
  intros before w k ok o w1 os w2 ok' o' w3 EB DB E1 WI E2 E3. pose proof (inv_run _ _ _ inv_start EB) as IW. pose proof (run_refs _ _ _ inv_start EB) as RW. change (refs start) with 0 in RW. rewrite Z.add_0_l in RW. unfold wrap in RW. rewrite Z.mod_small in RW by exact DB.
  assert (I1 : Inv w1) by (apply (inv_step w (Get k ok)); [exact IW|cbn [step]; rewrite E1; reflexivity]). pose proof IW as (C & SK & R). destruct (get_spec k ok w C SK) as (w1' & EE & C1 & S1 & X1 & F1 & _). rewrite E1 in EE. injection EE as -> ->.
  destruct (run_kept os w1' w2 I1 ltac:(rewrite (proj1 X1), RW; exact WI) E2) as (K1 & K2). pose proof (inv_run _ _ _ I1 E2) as (C2 & SK2 & R2). destruct (get_spec k ok' w2 C2 SK2) as (w3' & EE & C3 & S3 & X3 & F3 & _). rewrite E3 in EE. injection EE as -> ->.
  destruct (K1 k F1) as (F2 & P2). pose proof (proj2 (proj1 (proj2 X3) k F2)) as P3. split; [congruence|]. intros s ts P ME. unfold members in *. rewrite <- ME. apply map_ext_in. intros h I. pose proof (owned_in _ _ _ _ P I) as OW. rewrite <- (K2 h OW). apply (proj2 (proj2 (proj2 X3))). apply (kept_owned w1'); [exact C1|split; assumption|exact OW].
Qed.
Lemma run_get : forall os w k ok, run M attr srt start os = Some w -> exists o w', get M attr srt k ok w = Some (o, w') /\ tidy (exist w') (wm w') /\ (forall s, o = Some s -> In s (exist w') /\ cont M attr k (map (fun h => lookup h (wm w')) (nodes s))).
Proof.
  intros os w k ok E. pose proof (inv_run _ _ _ inv_start E) as (C & SK & R). destruct (get_spec k ok w C SK) as (w' & E1 & C1 & _). exists (ptr w' k), w'. split; [exact E1|]. split; [apply good_tidy; exact (c_good _ _ w' C1)|]. intros s P. split; [exact (exist_in _ _ _ P)|exact (c_cont _ _ w' C1 k s P)].
Qed.
(* hwloc never fails *)
Definition lucky (w : world) : Prop := (t_fired w = true -> t_ptr w <> None) /\ (answered M attr false -> fired w Bw = true -> ptr w Bw <> None).
Lemma lucky_run : forall os w w', M <> [] -> Inv w -> lucky w -> loads os -> run M attr srt w os = Some w' -> lucky w'.
Proof.
  intros os. induction os as [|o os IH]; intros w w' NM I LK LD E; cbn [run] in E; [injection E as <-; exact LK|].
  destruct (step M attr srt w o) as [w1|] eqn:S; [|discriminate]. assert (L1 : lucky w1); [|exact (IH w1 w' NM (inv_step _ _ _ I S) L1 (fun o' J => LD o' (or_intror J)) E)].
  destruct I as (C & SK & R). destruct LK as (LT & LB). pose proof (LD o (or_introl eq_refl)) as OK. destruct o as [| |k ok|ok]; cbn [step] in S.
  - injection S as <-. split; assumption.
  - destruct (Z.eq_dec (refs w) 1) as [R1|R1].
    + pose proof (tear_spec w C SK R1) as T. rewrite S in T. destruct T as (_ & _ & _ & (NP & _) & _ & TP & TF & FR & TN). split.
      * intros F. rewrite TP. apply LT. exact (TF F).
      * intros AN F. exfalso. rewrite FR in F. unfold reset in F. destruct (ptr w Bw) as [s|] eqn:P; [discriminate|]. exact (LB AN F eq_refl).
    + unfold tear in S. destruct (Z.eqb_spec (refs w) 1); [contradiction|]. injection S as <-. split; assumption.
  - destruct (get_spec k ok w C SK) as (w2 & E1 & C2 & S2 & X2 & F2 & FO & _ & GOOD). rewrite E1 in S. injection S as <-. destruct (GOOD NM LT OK) as (G1 & G2). split; [exact G1|]. intros AN F. destruct (fired w Bw) eqn:FB.
    + rewrite (proj2 (proj1 (proj2 X2) Bw FB)). exact (LB AN eq_refl).
    + destruct (kind_dec Bw k) as [<-|NK]; [|rewrite (FO Bw ltac:(discriminate) NK) in F; congruence]. intros P. destruct (G2 FB P) as [(_ & W)|(W & _)]; [exact (W AN)|discriminate].
  - destruct (ask_spec ok w C SK) as (w2 & E1 & C2 & S2 & X2 & EF & EP & TF & GOOD). rewrite E1 in S. injection S as <-. split; [intros _; exact (GOOD LT OK)|]. rewrite EF, EP. exact LB.
Qed.
Lemma run_available : forall os w k, M <> [] -> loads os -> run M attr srt start os = Some w -> k = All \/ k = Cap \/ (k = Bw /\ answered M attr false) -> exists s w', get M attr srt k true w = Some (Some s, w').
Proof.
  intros os w k NM LD E K. pose proof (inv_run _ _ _ inv_start E) as I. assert (LS : lucky start) by (split; cbn; [discriminate|discriminate]). assert (L : lucky w) by exact (lucky_run _ _ _ NM inv_start LS LD E).
  pose proof I as (C & SK & R). assert (L2 : loads [Get k true]) by (intros o [<-|[]]; reflexivity). destruct (get_spec k true w C SK) as (w' & E1 & C1 & S1 & X1 & F1 & _). assert (L' : lucky w') by (apply (lucky_run [Get k true] w w' NM I L L2); cbn [run step]; rewrite E1; reflexivity).
  destruct (ptr w' k) as [s|] eqn:P; [eauto|]. exfalso. destruct L' as (LT & LB). destruct K as [->|[->|(-> & AN)]].
  - destruct (S1 NM All (or_introl eq_refl) F1 P) as (T1 & T2). exact (LT T1 T2).
  - destruct (S1 NM Cap (or_intror eq_refl) F1 P) as (T1 & T2). exact (LT T1 T2).
  - exact (LB AN F1 P).
Qed.
End Machine.
