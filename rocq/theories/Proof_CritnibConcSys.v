(* The writers one after the other, and the reader in between. *)
From Verif Require Import Base Model_Utils Proof_Utils Model_Critnib Proof_Critnib Spec_Map
  Model_CritnibConc Proof_CritnibConc Proof_CritnibConcStep Proof_CritnibConcGet Proof_CritnibConcWrite Proof_CritnibConcOps
  Proof_CritnibConcPlan Proof_CritnibConcRemove Spec_CritnibConc.

Lemma safe_refl : forall h st, Inv h st -> safe h st h st.
Proof.
  intros h st I. split; [exact I|exact I|lia| | |].
  - intros [|x|n] _; cbn; auto.
  - intros p M E _. split; [exact E|]. destruct p; cbn; auto.
  - intros p _ R. left. exact R.
Qed.

Lemma contents_two : forall h m m', contents h m -> contents h m' -> forall k, m k = m' k.
Proof.
  intros h m m' (A & _) (B & _) k. destruct (m k) as [v|] eqn:E.
  - symmetry. apply B, A. exact E.
  - destruct (m' k) as [v|] eqn:E'; [|reflexivity]. apply B, A in E'. congruence.
Qed.

Lemma now_contents : forall k h m (S : option word -> Prop), contents h m -> S (option_map User (m k)) -> now k h S.
Proof.
  intros k h m S (C1 & C2) H. split.
  - intros x Hx. destruct (C2 k x Hx) as (v & Ev). rewrite Ev. rewrite (proj2 (C1 k v)) in H by eauto. exact H.
  - intros N. destruct (m k) as [v|] eqn:E; [|exact H]. apply C1 in E. destruct E as (x & Hx & _). exfalso. exact (N x Hx).
Qed.

Lemma plan_ok : forall h st m o, Good h st (-1) (-1) m -> op_word o -> remove_count h + 1 < U64 ->
  exists r ss, plan h o = Some (r, ss) /\ Done h st m o r ss.
Proof.
  intros h st m [ml mn k v u|k] G W U; cbn [plan op_word] in *.
  - destruct (insert_ok h st m k v u ml mn G W) as (c & ss & -> & D). eauto.
  - destruct (remove_ok h st m k G W U) as (r & ss & -> & D). eauto.
Qed.

Definition all (l : list (op Z * out Z)) (m : amap (V := Z)) : Prop := runs empty (map fst l) (map snd l) m.
Lemma runs_snoc : forall (m : amap (V := Z)) os rs m1 o r m2, runs m os rs m1 -> allowed m1 o r m2 -> runs m (os ++ [o]) (rs ++ [r]) m2.
Proof.
  intros m os rs m1 o r m2 R A. induction R as [m|m o' r' m' os rs m'' A' R IH]; cbn [app].
  - eapply runs_cons; [exact A|apply runs_nil].
  - eapply runs_cons; [exact A'|exact (IH A)].
Qed.
Lemma after_all : forall l m, all l m -> after l (length l) m.
Proof. intros l m H. unfold after. rewrite firstn_all. exact H. Qed.
Lemma after_prefix : forall l e m, all l m -> after (l ++ e) (length l) m.
Proof. intros l e m H. unfold after. rewrite firstn_app, Nat.sub_diag, firstn_all, firstn_O, app_nil_r. exact H. Qed.

(* what holds between two steps of the writers; [e] operations have taken effect *)
Inductive Pend : system -> (ptr -> status) -> nat -> amap (V := Z) -> Prop :=
| Idle : forall h l r st m, Good h st (-1) (-1) m -> all l m -> Pend (System h l [] r) st (length l) m
| Busy : forall h l o a ss r st e m m0 mf st', ss <> [] -> Inv h st -> 0 <= remove_count h -> all l m0 -> allowed m0 o a mf ->
    script m0 mf h st ss (applys h ss) st' -> Good (applys h ss) st' (-1) (-1) mf -> contents h m -> some_child h ->
    ((forall k, m k = m0 k) /\ contents h m0 /\ e = length l \/ m = mf /\ e = length (l ++ [(o, a)])) ->
    Pend (System h (l ++ [(o, a)]) ss r) st e m.

Lemma pend_facts : forall s st e m, Pend s st e m ->
  Inv (mem s) st /\ 0 <= remove_count (mem s) /\ contents (mem s) m /\ (completed s <= e <= begun s)%nat /\ some_child (mem s) /\
  exists m', after (log s) e m' /\ forall k, m k = m' k.
Proof.
  intros s st e m P. destruct P as [h l r st m (B & C & T) A|h l o a ss r st e m m0 mf st' N I R0 A Al Sc G C SCh [(X & C0 & ->)|(-> & ->)]]; unfold completed, begun; cbn [mem log todo].
  - split; [exact (b_inv _ _ _ _ B)|]. split; [exact (b_rc _ _ _ _ B)|]. split; [exact C|]. split; [lia|]. split; [apply two_some; exact T|]. exists m. split; [apply after_all; exact A|reflexivity].
  - split; [exact I|]. split; [exact R0|]. split; [exact C|]. split; [destruct ss; [congruence|]; rewrite app_length; cbn [length]; lia|]. split; [exact SCh|].
    exists m0. split; [apply after_prefix; exact A|exact X].
  - split; [exact I|]. split; [exact R0|]. split; [exact C|]. split; [destruct ss; [congruence|]; lia|]. split; [exact SCh|].
    exists mf. split; [|reflexivity]. apply after_all. unfold all. rewrite !map_app. exact (runs_snoc _ _ _ _ _ _ _ A Al).
Qed.

(* a step of the writers *)
Lemma write_step : forall k s st e m a, Pend s st e m -> is_write a = true -> action_word a -> remove_count (mem s) + 1 < U64 ->
  exists s' st' e' m', sstep k s a = Some s' /\ Pend s' st' e' m' /\ (e <= e')%nat /\ safe (mem s) st (mem s') st' /\
  reader s' = reader s /\ remove_count (mem s') <= remove_count (mem s) + 1.
Proof.
  intros k s st e m a P Hw Ha U. pose proof (pend_facts _ _ _ _ P) as (I & R0 & C & E & SC & _).
  assert (Same : sstep k s a = Some s -> exists s' st' e' m', sstep k s a = Some s' /\ Pend s' st' e' m' /\ (e <= e')%nat /\ safe (mem s) st (mem s') st' /\
    reader s' = reader s /\ remove_count (mem s') <= remove_count (mem s) + 1).
  { intros X. exists s, st, e, m. rewrite X. split; [reflexivity|]. split; [exact P|]. split; [lia|]. split; [apply safe_refl; exact I|]. split; [reflexivity|lia]. }
  destruct P as [h l r st m G A|h l o a0 ss r st e m m0 mf st' N I' R0' A Al Sc G C0 SCh Ph].
  - destruct a as [o| |]; [|apply Same; reflexivity|discriminate]. clear Same.
    cbn [sstep todo mem log reader] in *. destruct (plan_ok h st m o G Ha U) as (a & ss & -> & (st' & mf & Al & Sc & G')).
    destruct ss as [|s1 ss].
    + exists (System h (l ++ [(o, a)]) [] r), st, (length (l ++ [(o, a)])), mf. split; [reflexivity|].
      assert (Est : st' = st) by (inversion Sc; reflexivity). cbn [applys fold_left] in G'. rewrite Est in G'.
      split; [apply Idle; [exact G'|unfold all; rewrite !map_app; exact (runs_snoc _ _ _ _ _ _ _ A Al)]|].
      split; [rewrite app_length; lia|]. split; [apply safe_refl; exact I|]. split; [reflexivity|cbn; lia].
    + exists (System h (l ++ [(o, a)]) (s1 :: ss) r), st, (length l), m. split; [reflexivity|].
      split; [eapply Busy; eauto; try discriminate; left; auto|]. split; [lia|]. split; [apply safe_refl; exact I|]. split; [reflexivity|cbn; lia].
  - destruct ss as [|s1 ss]; [congruence|]. destruct a as [o'| |]; [apply Same; reflexivity| |discriminate]. clear Same.
    cbn [sstep todo mem log reader] in *. inversion Sc as [|h1 stx s2 st1 ss2 h2 st2 Sf Cd Sd Sc' E1 E2 E3 E4 E5]; subst; clear Sc.
    assert (Mono : m = mf /\ e = length (l ++ [(o, a0)]) -> contents (apply h s1) mf).
    { intros (-> & _). destruct Cd as [(X & Y)|X]; [|exact X]. exact (contents_ext _ _ _ (contents_two h m0 mf X C0) Y). }
    assert (New : exists e' m', (e <= e')%nat /\ contents (apply h s1) m' /\
       ((forall k, m' k = m0 k) /\ contents (apply h s1) m0 /\ e' = length l \/ m' = mf /\ e' = length (l ++ [(o, a0)]))).
    { destruct Ph as [(Q1 & Q2 & Q3)|Q].
      - destruct Cd as [(X & Y)|X].
        + exists (length l), m0. split; [lia|]. split; [exact Y|]. left. auto.
        + exists (length (l ++ [(o, a0)])), mf. split; [rewrite app_length; lia|]. auto.
      - exists e, mf. split; [lia|]. split; [exact (Mono Q)|]. right. split; [reflexivity|apply Q]. }
    destruct New as (e' & m' & Q1 & Q2 & Q3). change (applys h (s1 :: ss)) with (applys (apply h s1) ss) in *.
    assert (Rb : 0 <= remove_count (apply h s1)) by (pose proof (s_rc _ _ _ _ Sf); lia).
    assert (Rc : remove_count (apply h s1) <= remove_count h + 1).
    { destruct h as [r1 c p s k0 v dn dl pn pl rc nn nl], s1; cbn [apply remove_count] in *; try lia.
      rewrite wrap_id by (unfold is_word; lia). lia. }
    destruct ss as [|s3 ss].
    + assert (Est : st' = st1) by (inversion Sc'; reflexivity). cbn [applys fold_left] in G. rewrite Est in G.
      exists (System (apply h s1) (l ++ [(o, a0)]) [] r), st1, (length (l ++ [(o, a0)])), mf. split; [reflexivity|].
      split; [apply Idle; [exact G|unfold all; rewrite !map_app; exact (runs_snoc _ _ _ _ _ _ _ A Al)]|].
      split; [destruct Ph as [(_ & _ & ->)|(_ & ->)]; rewrite app_length; lia|]. split; [exact Sf|]. split; [reflexivity|exact Rc].
    + exists (System (apply h s1) (l ++ [(o, a0)]) (s3 :: ss) r), st1, e', m'. split; [reflexivity|].
      split; [eapply Busy; eauto; try discriminate; exact (s_post _ _ _ _ Sf)|]. split; [exact Q1|]. split; [exact Sf|]. split; [reflexivity|exact Rc].
Qed.

Definition same_core (s t : system) : Prop := mem s = mem t /\ log s = log t /\ todo s = todo t.

Lemma sexec_snoc : forall k al s a, sexec k s (al ++ [a]) = match sexec k s al with Some t => sstep k t a | None => None end.
Proof.
  intros k al. induction al as [|b al IH]; intros s a; cbn [app sexec].
  - destruct (sstep k s a); reflexivity.
  - destruct (sstep k s b); [apply IH|reflexivity].
Qed.

(* loads change nothing for the writers *)
Lemma core_step : forall k k' s t a t', same_core s t -> is_write a = true -> sstep k' t a = Some t' ->
  exists s', sstep k s a = Some s' /\ same_core s' t' /\ reader s' = reader s.
Proof.
  intros k k' [h l td r] [h' l' td' r'] a t' (E1 & E2 & E3) Hw St. cbn [mem log todo] in *. subst h' l' td'.
  destruct a as [o| |]; [| |discriminate]; cbn [sstep todo mem log reader] in *.
  - destruct td.
    + destruct (plan h o) as [(a & ss)|]; [|discriminate]. injection St as <-. eexists. split; [reflexivity|]. split; [split; auto|reflexivity].
    + injection St as <-. eexists. split; [reflexivity|]. split; [split; auto|reflexivity].
  - destruct td; injection St as <-; (eexists; split; [reflexivity|]; split; [split; auto|reflexivity]).
Qed.
Lemma pend_core : forall s t st e m, same_core s t -> Pend t st e m -> Pend s st e m.
Proof.
  intros [h l td r] t st e m (E1 & E2 & E3) P. cbn [mem log todo] in *.
  destruct P as [h' l' r' st m G A|h' l' o a ss r' st e m m0 mf st' N I R0 A Al Sc G C SCh Ph]; cbn [mem log todo] in *; subst.
  - apply Idle; assumption.
  - eapply Busy; eauto.
Qed.

Record History (h : heap) (wl : list action) (ST : nat -> ptr -> status) (E : nat -> nat) (M : nat -> amap (V := Z)) : Prop := {
  hi_at : forall n, (n <= length wl)%nat -> exists s, sexec 0 (start h) (firstn n wl) = Some s /\ Pend s (ST n) (E n) (M n) /\
    remove_count (mem s) <= Z.of_nat n;
  hi_step : forall n s s', (n < length wl)%nat -> sexec 0 (start h) (firstn n wl) = Some s -> sexec 0 (start h) (firstn (S n) wl) = Some s' ->
    (E n <= E (S n))%nat /\ safe (mem s) (ST n) (mem s') (ST (S n)) }.

Lemma empty_reach : forall h, root h = PNull -> forall p, p <> PNull -> ~ Reach h p.
Proof.
  intros h E p N (l & lo & S & L & D).
  assert (X : forall l lo S, live h l lo S -> l = LRoot).
  { intros l0 lo0 S0 L0. induction L0 as [|l0 lo0 S0 n i L0 IH E0 Hi]; [reflexivity|]. subst l0. cbn [deref] in E0. congruence. }
  rewrite (X _ _ _ L) in D. cbn [deref] in D. congruence.
Qed.
Lemma empty_good : forall h, empty_heap h -> Good h (fun _ => Fresh) (-1) (-1) empty.
Proof.
  intros h (E1 & E2 & E3 & E4 & E5 & E6). pose proof (empty_reach h E1) as NR. split; [|split].
  - split; try (intros; reflexivity).
    + split.
      * intros l lo S L. destruct (ptr_null_dec (deref h l)) as [->|N]; [exact I|]. exfalso. apply (NR _ N). exists l, lo, S. auto.
      * intros p N R. exfalso. exact (NR p N R).
      * intros p M X. discriminate.
      * intros n M X. discriminate.
    + exists []. rewrite E2. split; [constructor|]. split; [constructor|intros n []].
    + exists []. rewrite E3. split; [constructor|]. split; [constructor|intros n []].
    + intros j n _ _ X. rewrite E4 in X. discriminate.
    + intros j n _ _ X. rewrite E5 in X. discriminate.
    + lia.
  - split.
    + intros k v. split; [discriminate|]. intros (x & (R & _) & _). exfalso. exact (NR (PLeaf x) ltac:(discriminate) R).
    + intros k x (R & _). exfalso. exact (NR (PLeaf x) ltac:(discriminate) R).
  - intros n R _. exfalso. exact (NR (PNode n) ltac:(discriminate) R).
Qed.

Theorem history_exists : forall h wl, empty_heap h -> Forall (fun a => is_write a = true /\ action_word a) wl ->
  Z.of_nat (length wl) + 16 < U64 -> exists ST E M, History h wl ST E M.
Proof.
  intros h wl He. induction wl as [|a wl IH] using rev_ind; intros W B.
  - exists (fun _ _ => Fresh), (fun _ => O), (fun _ => empty). split.
    + intros n Hn. cbn [length] in Hn. rewrite firstn_nil. exists (start h). split; [reflexivity|]. split.
      * apply (Idle h [] RStart); [apply empty_good; exact He|apply runs_nil].
      * cbn [mem start]. destruct He as (_ & _ & _ & _ & _ & ->). lia.
    + intros n s s' Hn. cbn in Hn. lia.
  - apply Forall_app in W. destruct W as (W & Wa). inversion Wa as [|? ? (Ha1 & Ha2) _]; subst. rewrite app_length in B. cbn [length] in B.
    destruct (IH W ltac:(lia)) as (ST & E & M & (HA & HS)). clear IH.
    destruct (HA (length wl) (Nat.le_refl _)) as (s & Es & P & Rc). rewrite firstn_all in Es.
    destruct (write_step 0 s _ _ _ a P Ha1 Ha2 ltac:(clear - B Rc; lia)) as (s' & st' & e' & m' & St & P' & Le & Sf & _ & Rc').
    assert (Fn : forall n, (n <= length wl)%nat -> firstn n (wl ++ [a]) = firstn n wl).
    { intros n Hn. rewrite firstn_app. replace (n - length wl)%nat with O by lia. rewrite firstn_O, app_nil_r. reflexivity. }
    assert (Fl : firstn (S (length wl)) (wl ++ [a]) = wl ++ [a]).
    { apply firstn_all2. rewrite app_length. cbn [length]. lia. }
    assert (El : sexec 0 (start h) (wl ++ [a]) = Some s') by (rewrite sexec_snoc, Es; exact St).
    exists (fun n => if (n <=? length wl)%nat then ST n else st'), (fun n => if (n <=? length wl)%nat then E n else e'),
      (fun n => if (n <=? length wl)%nat then M n else m'). split.
    + intros n Hn. rewrite app_length in Hn. cbn [length] in Hn. destruct (Nat.leb_spec n (length wl)) as [Hl|Hl].
      * rewrite (Fn n Hl). exact (HA n Hl).
      * assert (n = S (length wl)) as -> by lia. rewrite Fl. exists s'. split; [exact El|]. split; [exact P'|]. lia.
    + intros n t t' Hn. rewrite app_length in Hn. cbn [length] in Hn. rewrite (Fn n) by lia.
      destruct (Nat.leb_spec n (length wl)) as [_|Hl]; [|lia].
      destruct (Nat.leb_spec (S n) (length wl)) as [Hl|Hl].
      * rewrite (Fn (S n) Hl). intros. apply HS; [lia|assumption|assumption].
      * assert (n = length wl) as -> by lia. rewrite Fl, firstn_all, Es, El. intros X Y. injection X as <-. injection Y as <-. auto.
Qed.

Section Run.
Variables (h : heap) (wl : list action) (ST : nat -> ptr -> status) (E : nat -> nat) (M : nat -> amap (V := Z)).
Hypothesis H : History h wl ST E M.
Hypothesis W : Forall (fun a => is_write a = true /\ action_word a) wl.
Hypothesis B : Z.of_nat (length wl) + 16 < U64.

Lemma effects_mono : forall j i, (i <= j)%nat -> (j <= length wl)%nat -> (E i <= E j)%nat.
Proof.
  induction j as [|j IH]; intros i Hi Hj; [assert (i = O) as -> by lia; lia|].
  destruct (Nat.eq_dec i (S j)) as [->|N]; [lia|].
  destruct (hi_at _ _ _ _ _ H j ltac:(lia)) as (s & Es & _). destruct (hi_at _ _ _ _ _ H (S j) Hj) as (s' & Es' & _).
  pose proof (proj1 (hi_step _ _ _ _ _ H j s s' ltac:(lia) Es Es')). specialize (IH i ltac:(lia) ltac:(lia)). lia.
Qed.
Lemma effects_ok : effects h wl E.
Proof.
  intros n Hn. split; [intros i Hi; apply effects_mono; assumption|].
  destruct (hi_at _ _ _ _ _ H n Hn) as (s & Es & P & _). exists s. split; [exact Es|].
  destruct (pend_facts _ _ _ _ P) as (_ & _ & _ & Q & _ & m & Q2 & _). split; [exact Q|]. exists m. exact Q2.
Qed.

Definition moments (k : Z) (a b : nat) (r : option word) : Prop := exists i, (a <= i <= b)%nat /\ r = option_map User (M i k).

Lemma before_snoc : forall al a, (In RLoad al -> before (al ++ [a]) = before al) /\
  (~ In RLoad al -> before al = length (filter is_write al)).
Proof.
  induction al as [|b al IH]; intros a; [split; [intros []|reflexivity]|]. destruct (IH a) as (I1 & I2).
  destruct b; cbn [app before filter is_write length]; (split; [|]).
  1,3: intros [X|X]; [discriminate|rewrite (I1 X); reflexivity].
  1,2: intros X; rewrite I2; [reflexivity|intros Y; apply X; right; exact Y].
  - reflexivity.
  - intros X. exfalso. apply X. left. reflexivity.
Qed.
Lemma load_dec : forall al, In RLoad al \/ ~ In RLoad al.
Proof.
  intros al. induction al as [|a al [IH|IH]]; [right; intros []|left; right; exact IH|].
  destruct a; [right|right|left; left; reflexivity]; (intros [X|X]; [discriminate|exact (IH X)]).
Qed.

Lemma reader_run : forall k, is_word k -> forall al n, (n <= length wl)%nat -> filter is_write al = firstn n wl ->
  exists s t, sexec k (start h) al = Some s /\ sexec 0 (start h) (firstn n wl) = Some t /\ same_core s t /\
  rinv k (mem t) (ST n) (moments k (before al) n) (reader s) /\ (~ In RLoad al -> reader s = RStart).
Proof.
  intros k Wk al. induction al as [|a al IH] using rev_ind; intros n Hn F.
  - cbn [filter] in F. rewrite <- F. exists (start h), (start h). cbn. repeat split; auto.
  - rewrite filter_app in F. cbn [filter] in F. destruct (before_snoc al a) as (B1 & B2).
    assert (Ca : a = RLoad \/ is_write a = true) by (destruct a; auto). destruct Ca as [Ea|Hw].
    { rewrite Ea in F. cbn [is_write] in F. rewrite app_nil_r in F. destruct (IH n Hn F) as (s & t & Es & Et & SC & R & NR).
        exists (System (mem s) (log s) (todo s) (get_step (mem s) k (reader s))), t.
        split; [rewrite sexec_snoc, Es; rewrite Ea; reflexivity|]. split; [exact Et|]. split; [exact SC|]. cbn [reader].
        split; [|intros X; exfalso; apply X, in_or_app; right; left; congruence].
        rewrite (proj1 SC). destruct (hi_at _ _ _ _ _ H n Hn) as (t' & Et' & P & Rc). rewrite Et in Et'. injection Et' as <-.
        destruct (pend_facts _ _ _ _ P) as (Iv & R0 & C & _).
        assert (Eb : before (al ++ [a]) = before al).
        { destruct (load_dec al) as [X|X]; [exact (B1 X)|]. rewrite Ea. clear - X. induction al as [|b al IH]; [reflexivity|].
          destruct b; cbn [app before]; try (f_equal; apply IH; intros Y; apply X; right; exact Y). reflexivity. }
        assert (Lb : (before al <= n)%nat).
        { assert (X : (before al <= length (filter is_write al))%nat).
          { clear. induction al as [|b al IH]; [reflexivity|]. destruct b; cbn [before filter is_write length]; lia. }
          rewrite F, firstn_length in X. lia. }
        rewrite Eb. apply (reader_step k Wk (mem t) (ST n)); try assumption.
        - eapply now_contents; [exact C|]. exists n. split; [lia|reflexivity].
        - unfold DELETED_LIFE. clear - Rc B Hn. lia. }
    rewrite Hw in F.
    assert (Ln : exists n', n = S n' /\ filter is_write al = firstn n' wl /\ firstn (S n') wl = firstn n' wl ++ [a]).
    { destruct n as [|n']; [destruct (filter is_write al); discriminate F|]; exists n'; split; [reflexivity|];
         assert (X : firstn (S n') wl = firstn n' wl ++ [nth n' wl a]) by
           (clear - Hn; revert n' Hn; induction wl as [|b l IHl]; intros n' Hn; [cbn in Hn; lia|]; destruct n'; [reflexivity|]; cbn [firstn app nth]; f_equal; apply IHl; cbn in Hn; lia);
         rewrite X in F; apply app_inj_tail in F; destruct F as (F1 & F2); split; [exact F1|]; rewrite X, <- F2; reflexivity. }
    all: destruct Ln as (n' & -> & F' & Fs).
    all: destruct (IH n' ltac:(lia) F') as (s & t & Es & Et & SC & R & NR).
    all: destruct (hi_at _ _ _ _ _ H (S n') Hn) as (t' & Et' & P' & Rc').
    all: destruct (hi_at _ _ _ _ _ H n' ltac:(lia)) as (t0 & Et0 & P0 & Rc0); rewrite Et in Et0; injection Et0 as <-.
    all: destruct (hi_step _ _ _ _ _ H n' t t' ltac:(lia) Et Et') as (_ & Sf).
    all: pose proof Et' as St; rewrite Fs, sexec_snoc, Et in St.
    all: destruct (core_step k 0 s t a t' SC Hw St) as (s' & Es' & SC' & Rd).
    all: exists s', t'; split; [rewrite sexec_snoc, Es; exact Es'|]; split; [exact Et'|]; split; [exact SC'|]; rewrite Rd.
    all: destruct (load_dec al) as [X|X].
    2: (split; [rewrite (NR X); exact Coq.Init.Logic.I|intros _; exact (NR X)]).
    all: split; [|intros Y; exfalso; apply Y, in_or_app; left; exact X].
    all: rewrite (B1 X).
    all: assert (Lb : (before al <= n')%nat) by
      (assert (Z : (before al <= length (filter is_write al))%nat) by (clear; induction al as [|b al IH]; [reflexivity|]; destruct b; cbn [before filter is_write length]; lia);
       rewrite F', firstn_length in Z; lia).
    all: destruct (pend_facts _ _ _ _ P0) as (_ & _ & C0 & _); destruct (pend_facts _ _ _ _ P') as (_ & _ & C1 & _).
    all: apply (reader_env k (mem t) (ST n') (mem t') (ST (S n')) (moments k (before al) n') (moments k (before al) (S n'))); try assumption.
    1: eapply now_contents; [exact C0|]; exists n'; split; [lia|reflexivity].
    1: intros r (i & Hi & Er); exists i; split; [lia|exact Er].
    all: eapply now_contents; [exact C1|]; exists (S n'); split; [lia|reflexivity].
Qed.

Theorem reader_result : forall k al n s r, is_word k -> (n <= length wl)%nat -> filter is_write al = firstn n wl ->
  sexec k (start h) al = Some s -> reader s = RDone r -> held h wl E (before al) n k r.
Proof.
  intros k al n s r Wk Hn F Es Er. destruct (reader_run k Wk al n Hn F) as (s' & t & Es' & Et & SC & R & _).
  rewrite Es in Es'. injection Es' as <-. rewrite Er in R. cbn [rinv] in R. destruct R as (i & Hi & ->).
  destruct (hi_at _ _ _ _ _ H i ltac:(lia)) as (si & Esi & P & _). destruct (pend_facts _ _ _ _ P) as (_ & _ & _ & _ & _ & m & A & Em).
  exists i, si, m. split; [exact Hi|]. split; [exact Esi|]. split; [exact A|]. rewrite Em. reflexivity.
Qed.
End Run.

(* a reader left alone is done after a few loads *)
Fixpoint loads (j : nat) (h : heap) (k : Z) (pc : rpc) : rpc := match j with O => pc | S j => loads j h k (get_step h k pc) end.
Lemma loads_app : forall i j h k pc, loads (i + j) h k pc = loads j h k (loads i h k pc).
Proof. induction i as [|i IH]; intros; [reflexivity|]. cbn [Nat.add loads]. apply IH. Qed.
Lemma sexec_loads : forall k j s, sexec k s (repeat RLoad j) = Some (System (mem s) (log s) (todo s) (loads j (mem s) k (reader s))).
Proof. intros k. induction j as [|j IH]; intros s; [destruct s; reflexivity|]. cbn [repeat sexec sstep loads]. rewrite IH. reflexivity. Qed.

Lemma walk_down : forall f h k w l lo S, WF h -> live h l lo S -> S < 4 * Z.of_nat f ->
  exists j r, (j <= 2 * f + 1)%nat /\ loads j h k (RAt w (deref h l)) = RRes w r.
Proof.
  induction f as [|f IH]; intros h k w l lo S W L Hf.
  - exfalso. pose proof (live_ival h W _ _ _ L) as (A & _). lia.
  - destruct (deref h l) as [|x|n] eqn:E.
    + exists 1%nat, None. split; [lia|reflexivity].
    + destruct (lkey h x =? k) eqn:Ek.
      * exists 2%nat, (Some (lval h x)). split; [lia|]. cbn [loads get_step]. rewrite Ek. reflexivity.
      * exists 1%nat, None. split; [lia|]. cbn [loads get_step]. rewrite Ek. reflexivity.
    + pose proof (W _ _ _ L) as Lc. rewrite E in Lc. destruct Lc as ((B1 & B2 & B3 & B4) & B5).
      destruct (IH h k w (LChild n (slice_index k (nshift h n))) _ _ W (live_child h l lo S n _ L E (slice_range' _ _)) ltac:(lia)) as (j & r & Hj & Ej).
      exists (2 + j)%nat, r. split; [lia|]. rewrite loads_app. exact Ej.
Qed.
Lemma solo : forall h k, WF h -> 0 <= remove_count h -> remove_count h + 16 < U64 -> exists j r, (j <= 40)%nat /\ loads j h k RStart = RDone r.
Proof.
  intros h k W R0 R1. destruct (walk_down 17 h k (remove_count h) LRoot 0 64 W (live_root h) ltac:(lia)) as (j & r & Hj & Ej).
  exists (2 + (j + 1))%nat, r. split; [lia|]. rewrite loads_app. cbn [loads get_step]. rewrite loads_app.
  change (root h) with (deref h LRoot). rewrite Ej. cbn [loads get_step]. unfold DELETED_LIFE.
  rewrite wrap_id by (unfold is_word; lia). destruct (Z.leb_spec (remove_count h + 16) (remove_count h)); [lia|reflexivity].
Qed.

Theorem get_done : forall h wl k, empty_heap h -> Forall (fun a => is_write a = true /\ action_word a) wl -> Z.of_nat (length wl) + 16 < U64 ->
  exists j s r, (j <= 40)%nat /\ sexec k (start h) (wl ++ repeat RLoad j) = Some s /\ reader s = RDone r.
Proof.
  intros h wl k He W B. destruct (history_exists h wl He W B) as (ST & E & M & H).
  destruct (hi_at _ _ _ _ _ H (length wl) (Nat.le_refl _)) as (t & Et & P & Rc). rewrite firstn_all in Et.
  destruct (pend_facts _ _ _ _ P) as (Iv & R0 & _).
  destruct (solo (mem t) k (i_wf _ _ Iv) R0 ltac:(lia)) as (j & r & Hj & Ej).
  assert (X : sexec k (start h) wl = Some t /\ reader t = RStart).
  { clear - Et W. assert (G : forall wl s t, Forall (fun a => is_write a = true /\ action_word a) wl -> sexec 0 s wl = Some t -> sexec k s wl = Some t /\ reader t = reader s).
    { clear. induction wl as [|a wl IH]; intros s t W Et; [injection Et as <-; split; reflexivity|]. inversion W as [|? ? (Ha & _) W']; subst.
      cbn [sexec] in *. assert (Es : sstep k s a = sstep 0 s a) by (destruct a; [reflexivity|reflexivity|discriminate]). rewrite Es.
      destruct (sstep 0 s a) as [s1|] eqn:E1; [|discriminate]. destruct (IH s1 t W' Et) as (X & Y). split; [exact X|]. rewrite Y.
      destruct a as [o| |]; [| |discriminate]; cbn [sstep] in E1.
      - destruct (todo s); [destruct (plan (mem s) o) as [(a & ss)|]; [|discriminate]|]; injection E1 as <-; reflexivity.
      - destruct (todo s); injection E1 as <-; reflexivity. }
    exact (G wl (start h) t W Et). }
  destruct X as (X1 & X2). exists j, (System (mem t) (log t) (todo t) (RDone r)), r. split; [exact Hj|]. split; [|reflexivity].
  assert (G : forall al s bl t, sexec k s al = Some t -> sexec k s (al ++ bl) = sexec k t bl).
  { clear. induction al as [|a al IH]; intros s bl t E; [injection E as <-; reflexivity|]. cbn [app sexec] in *. destruct (sstep k s a); [apply IH; exact E|discriminate]. }
  rewrite (G _ _ _ _ X1), sexec_loads, X2, Ej. reflexivity.
Qed.
