(* The writers one after the other, and an ordered lookup in between. *)
From Verif Require Import Base Model_Utils Proof_Utils Model_Critnib Proof_Critnib Spec_Map
  Model_CritnibConc Proof_CritnibConc Proof_CritnibConcStep Proof_CritnibConcGet Proof_CritnibConcWrite Proof_CritnibConcOps
  Proof_CritnibConcPlan Proof_CritnibConcRemove Spec_CritnibConc Proof_CritnibConcSys Model_CritnibFind
  Proof_CritnibFind Proof_CritnibFindStep Proof_CritnibFindExact.

Lemma fexec_snoc : forall k al s a, fexec k s (al ++ [a]) = match fexec k s al with Some t => fstep k t a | None => None end.
Proof.
  intros k al. induction al as [|b al IH]; intros s a; cbn [app fexec].
  - destruct (fstep k s a); reflexivity.
  - destruct (fstep k s b); [apply IH|reflexivity].
Qed.

Section Run.
Variables (h : heap) (wl : list action) (ST : nat -> ptr -> status) (E : nat -> nat) (M : nat -> amap (V := Z)).
Hypothesis H : History h wl ST E M.
Hypothesis B : Z.of_nat (length wl) + 16 < U64.
Variable k : Z.
Hypothesis Wk : is_word k.

Definition entries_in (a b : nat) (q : Z) (v : word) : Prop := exists i u, (a <= i <= b)%nat /\ M i q = Some u /\ v = User u.
Definition stable (a : Z) (x y : nat) : Prop := forall i, (x <= i <= y)%nat -> nearest k a (M i).

Lemma present_contents : forall h0 m (P : Z -> word -> Prop), contents h0 m -> (forall q u, m q = Some u -> P q (User u)) -> present h0 P.
Proof.
  intros h0 m P (C1 & C2) HP q x Hx. destruct (C2 q x Hx) as (v & Ev). rewrite Ev. apply HP. apply C1. eauto.
Qed.
Lemma before_le : forall al, (before al <= length (filter is_write al))%nat.
Proof. induction al as [|b al IH]; [reflexivity|]. destruct b; cbn [before filter is_write length]; lia. Qed.
Lemma before_load : forall al, before (al ++ [RLoad]) = before al.
Proof. induction al as [|b al IH]; [reflexivity|]. destruct b; cbn [app before]; congruence. Qed.

Lemma stable_facts : forall a x y, is_word a -> stable a x y -> (x <= y)%nat ->
  ~ moments M a x y None /\ (forall b v, entries_in x y b v -> b <= k -> b <= a) /\ a <= k.
Proof.
  intros a x y Wa St Hxy. split; [|split].
  - intros (i & Hi & E1). destruct (St i Hi) as (X & _). destruct (M i a); [discriminate|congruence].
  - intros b v (i & u & Hi & Eu & _) Hb. destruct (St i Hi) as (_ & _ & X). apply X; [congruence|exact Hb].
  - exact (proj1 (proj2 (St x ltac:(lia)))).
Qed.

Lemma find_run : forall al n, (n <= length wl)%nat -> filter is_write al = firstn n wl ->
  exists s pc, fexec k (start h, FStart) al = Some (s, pc) /\ sexec 0 (start h) (firstn n wl) = Some s /\
  sinv k (mem s) (ST n) (entries_in (before al) n) pc /\
  (forall a, is_word a -> stable a (before al) n -> einv a (mem s) (ST n) (moments M a (before al) n) pc) /\ (~ In RLoad al -> pc = FStart).
Proof.
  intros al. induction al as [|x al IH] using rev_ind; intros n Hn F.
  - cbn [filter] in F. rewrite <- F. exists (start h), FStart. split; [reflexivity|]. split; [reflexivity|]. split; [exact Coq.Init.Logic.I|].
    split; [intros; exact Coq.Init.Logic.I|reflexivity].
  - rewrite filter_app in F. cbn [filter] in F. destruct (before_snoc al x) as (B1 & B2).
    assert (Cx : x = RLoad \/ is_write x = true) by (destruct x; auto). destruct Cx as [Ex|Hw].
    { subst x. cbn [is_write] in F. rewrite app_nil_r in F. destruct (IH n Hn F) as (s & pc & Es & Et & R1 & R2 & NR).
      destruct (hi_at _ _ _ _ _ H n Hn) as (t' & Et' & P & Rc). rewrite Et in Et'. injection Et' as <-.
      destruct (pend_facts _ _ _ _ P) as (Iv & R0 & C & _ & SC & _).
      pose proof (before_le al) as Lb. rewrite F, firstn_length in Lb.
      assert (Pr : present (mem s) (entries_in (before al) n)).
      { apply (present_contents _ _ _ C). intros q u Eq. exists n, u. split; [lia|auto]. }
      assert (Rb : remove_count (mem s) + DELETED_LIFE < U64) by (unfold DELETED_LIFE; clear - Rc B Hn; lia).
      exists s, (find_step (mem s) k pc). split; [rewrite fexec_snoc, Es; reflexivity|]. split; [exact Et|]. rewrite before_load.
      split; [exact (find_step_ok k Wk (mem s) (ST n) _ Iv Pr SC R0 Rb pc R1)|]. split.
      - intros a Wa St. destruct (stable_facts a _ _ Wa St ltac:(lia)) as (X1 & X2 & X3).
        apply (exact_step k a Wa X3 (mem s) (ST n) (entries_in (before al) n) (moments M a (before al) n) Iv Pr SC R0 Rb); auto.
        eapply now_contents; [exact C|]. exists n. split; [lia|reflexivity].
      - intros X. exfalso. apply X, in_or_app. right. left. reflexivity. }
    rewrite Hw in F.
    assert (Ln : exists n', n = S n' /\ filter is_write al = firstn n' wl /\ firstn (S n') wl = firstn n' wl ++ [x]).
    { destruct n as [|n']; [destruct (filter is_write al); discriminate F|]; exists n'; split; [reflexivity|];
         assert (X : firstn (S n') wl = firstn n' wl ++ [nth n' wl x]) by
           (clear - Hn; revert n' Hn; induction wl as [|b l IHl]; intros n' Hn; [cbn in Hn; lia|]; destruct n'; [reflexivity|]; cbn [firstn app nth]; f_equal; apply IHl; cbn in Hn; lia);
         rewrite X in F; apply app_inj_tail in F; destruct F as (F1 & F2); split; [exact F1|]; rewrite X, <- F2; reflexivity. }
    destruct Ln as (n' & -> & F' & Fs).
    destruct (IH n' ltac:(lia) F') as (s & pc & Es & Et & R1 & R2 & NR).
    destruct (hi_at _ _ _ _ _ H (S n') Hn) as (t' & Et' & P' & Rc').
    destruct (hi_at _ _ _ _ _ H n' ltac:(lia)) as (t0 & Et0 & P0 & Rc0); rewrite Et in Et0; injection Et0 as <-.
    destruct (hi_step _ _ _ _ _ H n' s t' ltac:(lia) Et Et') as (_ & Sf).
    pose proof Et' as St; rewrite Fs, sexec_snoc, Et in St.
    exists t', pc. split; [rewrite fexec_snoc, Es; destruct x; [| |discriminate]; cbn [fstep fst snd]; rewrite St; reflexivity|]. split; [exact Et'|].
    destruct (load_dec al) as [X|X].
    2:{ rewrite (NR X). split; [exact Coq.Init.Logic.I|]. split; [intros; exact Coq.Init.Logic.I|reflexivity]. }
    rewrite (B1 X). pose proof (before_le al) as Lb. rewrite F', firstn_length in Lb.
    destruct (pend_facts _ _ _ _ P0) as (_ & _ & C0 & _ & SC0 & _); destruct (pend_facts _ _ _ _ P') as (_ & _ & C1 & _).
    assert (Pr : present (mem s) (entries_in (before al) n')).
    { apply (present_contents _ _ _ C0). intros q u Eq. exists n', u. split; [lia|auto]. }
    split; [|split; [|intros Y; exfalso; apply Y, in_or_app; left; exact X]].
    + apply (find_env k (mem s) (ST n') (mem t') (ST (S n')) (entries_in (before al) n')); auto.
      intros q v (i & u & Hi & Eu). exists i, u. split; [lia|exact Eu].
    + intros a Wa Sta. assert (Sta' : stable a (before al) n') by (intros i Hi; apply Sta; lia).
      apply (exact_env k a (mem s) (ST n') (mem t') (ST (S n')) (entries_in (before al) n') (moments M a (before al) n')); auto.
      * eapply now_contents; [exact C0|]. exists n'. split; [lia|reflexivity].
      * intros r (i & Hi & Er). exists i. split; [lia|exact Er].
      * eapply now_contents; [exact C1|]. exists (S n'). split; [lia|reflexivity].
Qed.

Lemma moment_after : forall i, (i <= length wl)%nat -> exists s m, sexec 0 (start h) (firstn i wl) = Some s /\ after (log s) (E i) m /\ forall q, M i q = m q.
Proof.
  intros i Hi. destruct (hi_at _ _ _ _ _ H i Hi) as (s & Es & P & _). destruct (pend_facts _ _ _ _ P) as (_ & _ & _ & _ & _ & m & A & Em).
  exists s, m. auto.
Qed.

Theorem find_result : forall al n s r, (n <= length wl)%nat -> filter is_write al = firstn n wl ->
  fexec k (start h, FStart) al = Some (s, FDone r) ->
  match r with
  | Some (a, v) => a <= k /\ once h wl E (before al) n (fun m => option_map User (m a) = Some v)
  | None => True
  end /\
  forall a, is_word a -> always h wl E (before al) n (nearest k a) ->
  exists v, r = Some (a, v) /\ once h wl E (before al) n (fun m => option_map User (m a) = Some v).
Proof.
  intros al n s r Hn F Es. destruct (find_run al n Hn F) as (s' & pc & Es' & _ & R1 & R2 & _).
  rewrite Es in Es'. injection Es' as <- <-. cbn in R1, R2. split.
  - destruct r as [(a & v)|]; [|exact I]. destruct R1 as ((i & u & Hi & Eu & ->) & L). split; [exact L|].
    destruct (moment_after i ltac:(lia)) as (si & m & A1 & A2 & A3). exists i, si, m. split; [exact Hi|]. split; [exact A1|]. split; [exact A2|].
    rewrite <- A3, Eu. reflexivity.
  - intros a Wa Al. destruct (R2 a Wa) as (v & -> & (i & Hi & Ei)).
    + intros i Hi. destruct (moment_after i ltac:(lia)) as (si & m & A1 & A2 & A3). destruct (Al i si m Hi A1 A2) as (N1 & N2 & N3).
      split; [rewrite A3; exact N1|]. split; [exact N2|]. intros b Hb. apply N3. rewrite <- A3. exact Hb.
    + exists v. split; [reflexivity|]. destruct (moment_after i ltac:(lia)) as (si & m & A1 & A2 & A3).
      exists i, si, m. split; [exact Hi|]. split; [exact A1|]. split; [exact A2|]. rewrite <- A3. symmetry. exact Ei.
Qed.
Theorem find_none : forall al n s r, (n <= length wl)%nat -> filter is_write al = firstn n wl ->
  fexec k (start h, FStart) al = Some (s, FDone r) -> always h wl E (before al) n (none_below k) -> r = None.
Proof.
  intros al n s r Hn F Es Al. destruct (find_result al n s r Hn F Es) as (X & _). destruct r as [(a & v)|]; [|reflexivity].
  exfalso. destruct X as (L & i & si & m & Hi & A1 & A2 & Ea). pose proof (Al i si m Hi A1 A2 a) as Y.
  destruct (m a); [|discriminate]. specialize (Y ltac:(discriminate)). lia.
Qed.
End Run.
