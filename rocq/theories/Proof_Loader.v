(* Proofs about loading libraries. *)
From Verif Require Import Base Model_Loader Spec_Loader.

Definition wf (l : lib) : Prop := incl (l_checked l) (l_loaded l).
Lemma zin_in x l : zin x l = true <-> In x l.
Proof. unfold zin. rewrite existsb_exists. split; [intros (y & I & E); apply Z.eqb_eq in E; subst y; exact I|intros I; exists x; split; [exact I|apply Z.eqb_refl]]. Qed.
Lemma wf_tbb : wf tbb. Proof. intros x I. apply zin_in. cbn in I. repeat (destruct I as [<-|I]; [reflexivity|]). destruct I. Qed.
Lemma wf_cuda : wf cuda. Proof. intros x I. apply zin_in. cbn in I. repeat (destruct I as [<-|I]; [reflexivity|]). destruct I. Qed.
Lemma wf_level_zero : wf level_zero. Proof. intros x I. apply zin_in. cbn in I. repeat (destruct I as [<-|I]; [reflexivity|]). destruct I. Qed.
Lemma complete_b l has : forallb has (l_checked l) = true <-> complete l has.
Proof. unfold complete. apply forallb_forall. Qed.

Definition hold (s : lstate) : Z := if handle s then 1 else 0.
Definition open_ (l : lib) (has : Z -> bool) (s : lstate) : Prop :=
  handle s = true /\ complete l has /\ (forall x, In x (l_loaded l) -> ptr s x = if has x then Some (gen s) else None).

(* [down]: the library has been torn down *)
Record linv (l : lib) (has : Z -> bool) (down : bool) (s : lstate) : Prop := LInv {
  li_user : 0 <= user s;
  li_refs : user s + hold s <= refs s;
  li_live : 0 <= live s;
  li_open : down = false -> once s = true -> failed s = false -> open_ l has s;
  li_fresh : once s = false -> failed s = false /\ handle s = false /\ live s = 0;
  li_used : 0 < live s -> down = false /\ once s = true /\ failed s = false }.

Ltac sd := unfold defined; cbn [In app]; intuition (try discriminate).
Lemma defined_app a b : defined a -> defined b -> defined (a ++ b).
Proof. unfold defined. rewrite !in_app_iff. tauto. Qed.
Lemma defined_nil : defined [].
Proof. sd. Qed.

Lemma init_inv l has ok cl s : (l_early l = false \/ complete l has) -> linv l has false s -> once s = false ->
  let (s', o) := init l has ok cl s in linv l has false s' /\ defined o /\ live s' = live s /\ once s' = true.
Proof.
  intros EC [U R L _ F _] O. destruct (F O) as (F1 & F2 & F3). unfold hold in R. rewrite F2 in R. unfold init, dl_open.
  assert (N : forall r u g, 0 <= u -> u <= r ->
    linv l has false (LState r u g true true (if l_early l then false else handle s) (ptr s) (live s))).
  { intros r u g Hu Hr. constructor; unfold hold; cbn; try lia; try congruence; try (destruct (l_early l); rewrite ?F2; lia). }
  assert (M : forall r u g, 0 <= u -> u + 1 <= r ->
    let s' := LState r u g (once s) (failed s) (handle s) (ptr s) (live s) in
    let (t, o) := (if forallb has (l_checked l) then (LState r u g true (failed s) true (lookup l has s') (live s), [])
      else let (s0, e) := dl_close cl s' in (LState (refs s0) (user s0) (gen s0) true true (l_early l) (lookup l has s') (live s0), [e])) in
    linv l has false t /\ defined o /\ live t = live s /\ once t = true).
  { intros r u g Hu Hr s'. destruct (forallb has (l_checked l)) eqn:E.
    - apply complete_b in E. split; [|repeat split; sd]. constructor; unfold hold; cbn; try lia; try congruence.
      intros _ _ _. repeat split; [exact E|]. intros x I. cbn. unfold lookup. apply zin_in in I. rewrite I. reflexivity.
    - destruct EC as [EC|EC]; [|apply complete_b in EC; congruence].
      unfold dl_close. cbn [refs user s' gen once failed handle ptr live]. destruct (Z.leb_spec r u); [lia|].
      destruct cl; cbn; (split; [|repeat split; sd]); constructor; unfold hold; cbn; rewrite ?EC; try lia; try congruence. }
  destruct (Z.ltb_spec 0 (refs s)).
  - exact (M (refs s + 1) (user s) (gen s) ltac:(lia) ltac:(lia)).
  - destruct (negb (l_noload l) && ok); [exact (M 1 (user s) (gen s + 1) ltac:(lia) ltac:(lia))|]. split; [apply N; lia|]. repeat split; sd.
Qed.

Lemma lstep_inv l has down s e : wf l -> (l_early l = false \/ complete l has) -> linv l has down s ->
  (match e with Use x => 0 < live s /\ In x (l_loaded l) /\ (In x (l_checked l) \/ In x (l_guarded l)) | Destroy => 0 < live s
    | TearDown _ => live s = 0 | Create _ _ => down = false | _ => True end) ->
  linv l has (match e with TearDown _ => true | _ => down end) (fst (lstep l has s e)) /\ defined (snd (lstep l has s e)).
Proof.
  intros W EC I D. pose proof I as [U R L O F V]. unfold hold in R.
  destruct e as [ok| |ok cl| |x|cl]; cbn [lstep].
  - unfold dl_open. destruct (Z.ltb_spec 0 (refs s)) as [P|P]; cbn [negb andb].
    + cbn. split; [|apply defined_nil]. constructor; unfold hold, open_ in *; cbn; try lia; assumption.
    + destruct ok; cbn; (split; [|apply defined_nil]); [|exact I].
      assert (H0 : handle s = false) by (destruct (handle s); [lia|reflexivity]).
      constructor; unfold hold, open_ in *; cbn; try assumption; try (rewrite H0; lia); try lia.
      all: intros d o f; destruct (O d o f) as (H & _); congruence.
  - destruct (Z.ltb_spec 0 (user s)); cbn; (split; [|apply defined_nil]); [|exact I].
    constructor; unfold hold, open_ in *; cbn; try assumption; try (destruct (handle s); lia); try lia.
  - subst down. assert (X : forall s', linv l has false s' -> once s' = true ->
      let (t, p) := if failed s' then (s', [Unavailable])
        else (LState (refs s') (user s') (gen s') (once s') (failed s') (handle s') (ptr s') (live s' + 1), [Created]) in
      linv l has false t /\ defined p).
    { intros s' I' O'. destruct (failed s') eqn:FE; [split; [exact I'|sd]|]. destruct I' as [U' R' L' O1 F' V'].
      split; [|sd]. constructor; unfold hold, open_ in *; cbn; rewrite ?FE in *; try assumption; try lia; try congruence; auto. }
    destruct (once s) eqn:OE.
    + specialize (X s I OE). cbn [app]. destruct (failed s); cbn; exact X.
    + pose proof (init_inv l has ok cl s EC I OE) as Y. destruct (init l has ok cl s) as [s' o]. destruct Y as (Y1 & Y2 & Y3 & Y4).
      specialize (X s' Y1 Y4). destruct (failed s'); cbn [fst snd]; (split; [apply X|apply defined_app; [exact Y2|apply X]]).
  - cbn. split; [|apply defined_nil]. constructor; unfold hold, open_ in *; cbn; try assumption; try lia.
    all: first [intros o; destruct (F o) as (_ & _ & Z0); lia | intros H; apply V; lia].
  - cbn. split; [exact I|]. destruct D as (D & IL & DD). destruct (V D) as (V1 & V2 & V3). destruct (O V1 V2 V3) as (H1 & H2 & H3).
    rewrite (H3 x IL). rewrite H1 in R.
    destruct (has x) eqn:HX.
    + rewrite Z.eqb_refl. destruct (Z.ltb_spec 0 (refs s)); [cbn [andb]; sd|lia].
    + destruct DD as [DD|DD]; [rewrite (H2 x DD) in HX; discriminate|]. apply zin_in in DD. rewrite DD. sd.
  - destruct (handle s) eqn:HE.
    + unfold dl_close. destruct (Z.leb_spec (refs s) (user s)); [lia|].
      assert (OE : once s = true) by (destruct (once s) eqn:OE; [reflexivity|]; destruct (F eq_refl) as (_ & H0 & _); congruence).
      destruct cl; cbn; (split; [|sd]); constructor; unfold hold; cbn; try assumption; try lia; try congruence;
        try (destruct (l_keep l); cbn; lia).
    + cbn. split; [|apply defined_nil]. constructor; unfold hold; rewrite ?HE; try assumption; try lia; try congruence.
Qed.

Lemma lrun_inv l has : wf l -> (l_early l = false \/ complete l has) -> forall es down s, linv l has down s ->
  proper l has s es -> one_period down es -> uses_required l es -> defined (snd (lrun l has s es)).
Proof.
  intros W EC. induction es as [|e es IH]; intros down s I P O Q; [apply defined_nil|]. cbn [lrun]. cbn [proper] in P. destruct P as [P1 P2].
  assert (S : linv l has (match e with TearDown _ => true | _ => down end) (fst (lstep l has s e)) /\ defined (snd (lstep l has s e))).
  { apply lstep_inv; try assumption. destruct e; try exact P1; try exact Logic.I.
    - cbn in O. tauto.
    - destruct P1 as [A B]. repeat split; [exact A|exact B|]. apply Q. left. reflexivity. }
  destruct (lstep l has s e) as [s' o]. cbn [fst snd] in *. destruct S as [S1 S2].
  specialize (IH _ s' S1 P2). destruct (lrun l has s' es) as [s'' p]. cbn [snd] in *. apply defined_app; [exact S2|]. apply IH.
  - destruct e; cbn in O; tauto.
  - intros x X. apply Q. right. exact X.
Qed.
Lemma linv0 l has : linv l has false lstate0.
Proof. constructor; unfold hold; cbn; try lia; try congruence; auto. Qed.
Lemma defined_one l has es : wf l -> (l_early l = false \/ complete l has) -> proper l has lstate0 es -> one_period false es -> uses_required l es ->
  defined (snd (lrun l has lstate0 es)).
Proof. intros. eapply lrun_inv; eauto. apply linv0. Qed.

(* references: holds for every history *)
Definition rinv (s : lstate) : Prop := 0 <= user s /\ refs s = user s + hold s /\ (once s = false -> handle s = false).
Lemma rinv_step l has s e : (l_early l = false \/ complete l has) -> rinv s ->
  match e with Create _ cl | TearDown cl => cl = true | _ => True end -> rinv (fst (lstep l has s e)) /\ ~ In OverClosed (snd (lstep l has s e)).
Proof.
  unfold rinv. intros EC (U & R & F) D. unfold hold in *. destruct e as [ok| |ok cl| |x|cl]; cbn [lstep].
  - unfold dl_open. destruct (Z.ltb_spec 0 (refs s)); cbn [negb andb]; [cbn; intuition lia|].
    destruct ok; cbn; [|intuition]. destruct (handle s); intuition lia.
  - destruct (Z.ltb_spec 0 (user s)); cbn; [|intuition]. destruct (handle s); intuition lia.
  - subst cl. assert (X : forall s' o, (0 <= user s' /\ refs s' = user s' + (if handle s' then 1 else 0) /\ (once s' = false -> handle s' = false)) /\ ~ In OverClosed o ->
      let (t, p) := if failed s' then (s', o ++ [Unavailable])
        else (LState (refs s') (user s') (gen s') (once s') (failed s') (handle s') (ptr s') (live s' + 1), o ++ [Created]) in
      (0 <= user t /\ refs t = user t + (if handle t then 1 else 0) /\ (once t = false -> handle t = false)) /\ ~ In OverClosed p).
    { intros s' o (A & B). destruct (failed s'); (split; [exact A|]); rewrite in_app_iff; cbn; intuition discriminate. }
    assert (Y : let (s', o) := if once s then (s, []) else init l has ok true s in
       (0 <= user s' /\ refs s' = user s' + (if handle s' then 1 else 0) /\ (once s' = false -> handle s' = false)) /\ ~ In OverClosed o).
    { destruct (once s) eqn:OE; [rewrite OE; intuition congruence|]. specialize (F eq_refl). rewrite F in R. unfold init, dl_open.
      destruct (Z.ltb_spec 0 (refs s)).
      - destruct (forallb has (l_checked l)) eqn:E; [cbn; intuition (try lia; try discriminate)|].
        destruct EC as [EC|EC]; [|apply complete_b in EC; congruence]. unfold dl_close. cbn.
        destruct (Z.leb_spec (refs s + 1) (user s)); [lia|]. cbn. rewrite EC. intuition (try lia; try discriminate).
      - destruct (negb (l_noload l) && ok).
        + destruct (forallb has (l_checked l)) eqn:E; [cbn; intuition (try lia; try discriminate)|].
          destruct EC as [EC|EC]; [|apply complete_b in EC; congruence]. unfold dl_close. cbn.
          destruct (Z.leb_spec 1 (user s)); [lia|]. cbn. rewrite EC. intuition (try lia; try discriminate).
        + cbn. rewrite F. destruct (l_early l); intuition (try lia; try discriminate). }
    destruct (if once s then (s, []) else init l has ok true s) as [s' o].
    specialize (X s' o Y). destruct (failed s'); exact X.
  - cbn. intuition.
  - cbn. split; [intuition|]. destruct (ptr s x); [destruct (_ && _)|destruct (zin _ _)]; cbn; intuition discriminate.
  - subst cl. destruct (handle s) eqn:HE; [|cbn; rewrite HE; intuition].
    unfold dl_close. destruct (Z.leb_spec (refs s) (user s)); [lia|]. cbn. rewrite andb_false_r. intuition (try lia; try discriminate).
Qed.
Lemma rinv_run l has : (l_early l = false \/ complete l has) -> forall es s, rinv s -> closes_succeed es ->
  rinv (fst (lrun l has s es)) /\ ~ In OverClosed (snd (lrun l has s es)).
Proof.
  intros EC. induction es as [|e es IH]; intros s I C; [cbn; auto|]. cbn [lrun].
  pose proof (rinv_step l has s e EC I) as S. assert (D := C e (or_introl eq_refl)). specialize (S D).
  destruct (lstep l has s e) as [s' o]. cbn [fst snd] in S. destruct S as [S1 S2]. specialize (IH s' S1 (fun x X => C x (or_intror X))).
  destruct (lrun l has s' es) as [s'' p]. cbn [fst snd] in *. rewrite in_app_iff. tauto.
Qed.
Lemma lrun_app l has a : forall s b, lrun l has s (a ++ b) = let (s1, o) := lrun l has s a in let (s2, p) := lrun l has s1 b in (s2, o ++ p).
Proof.
  induction a as [|e a IH]; intros s b; cbn [lrun app]; [destruct (lrun l has s b); reflexivity|].
  destruct (lstep l has s e) as [s' o]. rewrite IH. destruct (lrun l has s' a) as [s1 p]. destruct (lrun l has s1 b). rewrite app_assoc. reflexivity.
Qed.
Lemma refs_back l has es : (l_early l = false \/ complete l has) -> closes_succeed es ->
  let s := fst (lrun l has lstate0 (es ++ [TearDown true])) in refs s = user s.
Proof.
  intros EC C. assert (I0 : rinv lstate0) by (unfold rinv, hold; cbn; intuition).
  rewrite lrun_app. destruct (rinv_run l has EC es lstate0 I0 C) as (I & _). destruct (lrun l has lstate0 es) as [s o]. cbn [fst] in I.
  destruct I as (U & R & F). unfold hold in R. cbn. destruct (handle s) eqn:H; cbn; [|lia].
  unfold dl_close. destruct (Z.leb_spec (refs s) (user s)); [lia|]. cbn. lia.
Qed.
Lemma never_over l has es : (l_early l = false \/ complete l has) -> closes_succeed es -> ~ In OverClosed (snd (lrun l has lstate0 es)).
Proof. intros EC C. apply rinv_run; [exact EC| |exact C]. unfold rinv, hold; cbn; intuition. Qed.

(* every creation has the same outcome *)
Definition decided (s : lstate) : Prop := once s = true.
Lemma init_once l has ok cl s : once (fst (init l has ok cl s)) = true.
Proof.
  unfold init. destruct (dl_open _ _ _) as [s'|]; [|reflexivity]. destruct (forallb _ _); [reflexivity|]. destruct (dl_close _ _); reflexivity.
Qed.
Lemma init_out l has ok cl s : ~ In Created (snd (init l has ok cl s)) /\ ~ In Unavailable (snd (init l has ok cl s)).
Proof.
  unfold init. destruct (dl_open _ _ _) as [s'|]; [|cbn; auto]. destruct (forallb _ _); [cbn; auto|]. unfold dl_close.
  destruct (_ <=? _); [|destruct cl]; cbn; intuition discriminate.
Qed.
Lemma dl_close_stat cl s : once (fst (dl_close cl s)) = once s /\ failed (fst (dl_close cl s)) = failed s.
Proof. unfold dl_close. destruct (_ <=? _); [|destruct cl]; cbn; auto. Qed.
Lemma once_step l has s e : once s = true -> once (fst (lstep l has s e)) = true /\ failed (fst (lstep l has s e)) = failed s /\
  (In Created (snd (lstep l has s e)) -> failed s = false) /\ (In Unavailable (snd (lstep l has s e)) -> failed s = true).
Proof.
  intros O. destruct e as [ok| |ok cl| |x|cl]; cbn [lstep].
  - unfold dl_open. destruct (0 <? refs s); [|destruct (negb false && ok)]; cbn; intuition.
  - destruct (0 <? user s); cbn; intuition.
  - rewrite O. destruct (failed s) eqn:F; cbn; rewrite ?F; intuition discriminate.
  - cbn. intuition.
  - cbn. split; [exact O|]. split; [reflexivity|]. destruct (ptr s x); [destruct (_ && _)|destruct (zin _ _)]; cbn; intuition discriminate.
  - destruct (handle s); [|cbn; intuition]. pose proof (dl_close_stat cl s) as (A & B).
    assert (N : snd (dl_close cl s) <> Created /\ snd (dl_close cl s) <> Unavailable) by (unfold dl_close; destruct (_ <=? _); [|destruct cl]; cbn; split; discriminate).
    destruct (dl_close cl s) as [s' o]. cbn in *. rewrite A, B. intuition.
Qed.
Lemma once_run l has es : forall s, once s = true ->
  (In Created (snd (lrun l has s es)) -> failed s = false) /\ (In Unavailable (snd (lrun l has s es)) -> failed s = true).
Proof.
  induction es as [|e es IH]; intros s O; [cbn; tauto|]. cbn [lrun]. destruct (once_step l has s e O) as (A & B & C & D).
  destruct (lstep l has s e) as [s' o]. cbn [fst snd] in *. destruct (IH s' A) as (E & F). rewrite B in E, F.
  destruct (lrun l has s' es) as [s'' p]. cbn [snd] in *. rewrite !in_app_iff. tauto.
Qed.
Lemma same_run l has es : forall s, (once s = false -> failed s = false) ->
  ~ (In Created (snd (lrun l has s es)) /\ In Unavailable (snd (lrun l has s es))).
Proof.
  induction es as [|e es IH]; intros s F; [cbn; tauto|].
  destruct (once s) eqn:O.
  - intros (A & B). destruct (once_run l has (e :: es) s O) as (X & Y). specialize (X A). specialize (Y B). congruence.
  - specialize (F eq_refl). cbn [lrun]. destruct e as [ok| |ok cl| |x|cl]; cbn [lstep].
    + unfold dl_open. destruct (0 <? refs s); [|destruct (negb false && ok)]; cbn;
        match goal with |- context [lrun l has ?t es] => specialize (IH t); destruct (lrun l has t es); cbn in *; apply IH; intros; exact F end.
    + destruct (0 <? user s); match goal with |- context [lrun l has ?t es] => specialize (IH t); destruct (lrun l has t es); cbn in *; apply IH; intros; exact F end.
    + rewrite O. pose proof (init_once l has ok cl s) as P. pose proof (init_out l has ok cl s) as (Q & R).
      destruct (init l has ok cl s) as [s' o]. cbn [fst snd] in *.
      destruct (failed s') eqn:FE.
      * pose proof (once_run l has es s' P) as (A & B). destruct (lrun l has s' es) as [s'' p]. cbn [snd] in *. rewrite !in_app_iff.
        rewrite FE in *. cbn. intuition congruence.
      * match goal with |- context [lrun l has ?t es] => pose proof (once_run l has es t P) as (A & B); destruct (lrun l has t es) as [s'' p] end.
        cbn [snd failed] in *. rewrite !in_app_iff. rewrite ?FE in *. cbn. intuition congruence.
    + match goal with |- context [lrun l has ?t es] => specialize (IH t); destruct (lrun l has t es); cbn in *; apply IH; intros; exact F end.
    + specialize (IH s ltac:(intros; exact F)). destruct (lrun l has s es) as [s'' p]. cbn [snd] in *. rewrite !in_app_iff.
      destruct (ptr s x); [destruct (_ && _)|destruct (zin _ _)]; cbn; intuition discriminate.
    + destruct (handle s).
      * pose proof (dl_close_stat cl s) as (A & B).
        assert (N : snd (dl_close cl s) <> Created /\ snd (dl_close cl s) <> Unavailable) by (unfold dl_close; destruct (_ <=? _); [|destruct cl]; cbn; split; discriminate).
        destruct (dl_close cl s) as [s' o]. cbn [fst snd] in *.
        match goal with |- context [lrun l has ?t es] => specialize (IH t); destruct (lrun l has t es) as [s'' p] end. cbn [snd once failed] in *.
        rewrite !in_app_iff. cbn. rewrite A, B in IH. specialize (IH ltac:(intros; exact F)). intuition.
      * specialize (IH s ltac:(intros; exact F)). destruct (lrun l has s es). exact IH.
Qed.

(* the first creation *)
Lemma first_create l has es s ok cl : complete l has -> fst (lrun l has lstate0 es) = s -> once s = false -> failed s = false ->
  0 < refs s \/ (l_noload l = false /\ ok = true) -> In Created (snd (lstep l has s (Create ok cl))).
Proof.
  intros CO _ O F A. cbn [lstep]. rewrite O. unfold init, dl_open.
  assert (X : forallb has (l_checked l) = true) by (apply complete_b; exact CO).
  destruct (Z.ltb_spec 0 (refs s)).
  - rewrite X. cbn. rewrite F. cbn. auto.
  - destruct A as [A|(A & ->)]; [lia|]. rewrite A. cbn. rewrite X. cbn. rewrite F. cbn. auto.
Qed.
Lemma not_created_fresh l has es : forall s, once s = false -> failed s = false -> (forall ok cl, ~ In (Create ok cl) es) ->
  once (fst (lrun l has s es)) = false /\ failed (fst (lrun l has s es)) = false.
Proof.
  induction es as [|e es IH]; intros s O F N; [cbn; auto|]. cbn [lrun].
  assert (S : once (fst (lstep l has s e)) = false /\ failed (fst (lstep l has s e)) = false).
  { destruct e as [ok| |ok cl| |x|cl]; cbn [lstep].
    - unfold dl_open. destruct (0 <? refs s); [|destruct (negb false && ok)]; cbn; auto.
    - destruct (0 <? user s); cbn; auto.
    - elim (N ok cl). left. reflexivity.
    - cbn. auto.
    - cbn. auto.
    - destruct (handle s); [|cbn; auto]. pose proof (dl_close_stat cl s) as (A & B). destruct (dl_close cl s). cbn in *. rewrite A, B. auto. }
  destruct (lstep l has s e) as [s' o]. cbn [fst] in S. specialize (IH s' (proj1 S) (proj2 S) (fun ok cl X => N ok cl (or_intror X))).
  destruct (lrun l has s' es). exact IH.
Qed.
