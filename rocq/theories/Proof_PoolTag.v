(* Proofs about the tag of a pool. *)
From Verif Require Import Base Model_PoolTag Spec_PoolTag.

Lemma upd_same : forall T (f : Z -> T) t x, upd f t x t = x.
Proof. intros. unfold upd. rewrite Z.eqb_refl. reflexivity. Qed.
Lemma upd_other : forall T (f : Z -> T) t x u, u <> t -> upd f t x u = f u.
Proof. intros. unfold upd. replace (u =? t) with false by (symmetry; apply Z.eqb_neq; assumption). reflexivity. Qed.

Definition ok (c : call) : Prop := match c with SetTag null _ _ => null = false | GetTag null out => null = false /\ out = true end.
Definition is_set (c : call) : Prop := match c with SetTag _ _ _ => True | _ => False end.
(* what the register knows of a thread *)
Definition view (p : pc) : phase :=
  match p with
  | Idle => Free | Begin c | Held c | Copied c _ => Asked c | Stored _ v | Out v => Answered SUCCESS v
  end.
Definition inside (p : pc) : Prop := match p with Held _ | Copied _ _ | Stored _ _ => True | _ => False end.
Definition sound (g : Z) (p : pc) : Prop :=
  match p with
  | Held c => ok c
  | Copied c v => ok c /\ match c with SetTag _ _ old => v = (if old then Some g else None) | _ => False end
  | _ => True
  end.
Definition I (s : pstate) : Prop := forall t, (inside (p_pc s t) <-> p_lock s = Some t) /\ sound (p_tag s) (p_pc s t).

Lemma begin_answer : forall c g, match c with SetTag null _ _ => null | GetTag null out => null || negb out end = true -> answer c g = (g, (ERR_INVALID_ARGUMENT, None)).
Proof. intros [[] n old|[] []] g; cbn; congruence. Qed.
Lemma begin_ok : forall c, match c with SetTag null _ _ => null | GetTag null out => null || negb out end = false -> ok c.
Proof. intros [[] n old|[] []]; cbn; auto; discriminate. Qed.
Lemma atomic_ext : forall ms g ph ph', atomic ms g ph -> (forall u, ph' u = ph u) -> atomic ms g ph'.
Proof.
  intros ms g ph ph' A E. destruct A as [ph H|ms g ph ph0 t c A F H|ms g ph ph0 t c g' r v A F W H|ms g ph ph0 t r v A F H].
  - apply at_start. intros t. rewrite E. apply H.
  - eapply at_call; [exact A|exact F|]. intros u. rewrite E. apply H.
  - eapply at_effect; [exact A|exact F|exact W|]. intros u. rewrite E. apply H.
  - eapply at_return; [exact A|exact F|]. intros u. rewrite E. apply H.
Qed.

Lemma view_upd : forall s t p u, view (upd (p_pc s) t p u) = upd (fun x => view (p_pc s x)) t (view p) u.
Proof. intros s t p u. unfold upd. destruct (u =? t); reflexivity. Qed.

(* only the thread that moves changes, and the lock and the tag stay *)
Lemma I_move : forall s t p, I s -> (inside p <-> inside (p_pc s t)) -> sound (p_tag s) p -> I (at_pc s t p).
Proof.
  intros s t p H N S u. unfold at_pc. cbn [p_pc p_lock p_tag]. destruct (Z.eq_dec u t) as [->|NE]; [rewrite upd_same|rewrite upd_other by exact NE; exact (H u)].
  split; [|exact S]. rewrite N. exact (proj1 (H t)).
Qed.

Lemma step_sim : forall s t s' e ms, I s -> advance s t = Some (s', e) -> atomic ms (p_tag s) (fun u => view (p_pc s u)) ->
  I s' /\ exists ms', atomic ms' (p_tag s') (fun u => view (p_pc s' u)) /\ visible ms' = (match e with Some e => e :: visible ms | None => visible ms end).
Proof.
  intros s t s' e ms H A M. unfold advance in A. pose proof (H t) as (H1 & H2). destruct (p_pc s t) as [|c|c|c v|c v|v] eqn:P; try discriminate.
  - destruct (match c with SetTag null _ _ => null | GetTag null out => null || negb out end) eqn:IV.
    + injection A as <- <-. split; [apply I_move; [exact H|rewrite P; cbn; tauto|exact Logic.I]|].
      exists (Ev (Return t ERR_INVALID_ARGUMENT None) :: Effect t :: ms). split; [|reflexivity]. unfold at_pc. cbn [p_tag p_pc].
      eapply at_return with (ph := upd (fun u => view (p_pc s u)) t (Answered ERR_INVALID_ARGUMENT None)); [|apply upd_same|].
      * eapply at_effect; [exact M|cbn beta; rewrite P; reflexivity|exact (begin_answer c _ IV)|reflexivity].
      * intros u. rewrite view_upd. unfold upd. destruct (u =? t); reflexivity.
    + destruct (p_lock s) as [o|] eqn:L; [discriminate|]. injection A as <- <-. split.
      * intros u. cbn [p_pc p_lock p_tag]. destruct (Z.eq_dec u t) as [->|NE]; [rewrite upd_same; split; [cbn; tauto|exact (begin_ok c IV)]|].
        rewrite upd_other by exact NE. destruct (H u) as (Q1 & Q2). split; [|exact Q2]. rewrite Q1, L. split; [discriminate|intros W; injection W as W; congruence].
      * exists ms. split; [|reflexivity]. cbn [p_tag p_pc]. eapply atomic_ext; [exact M|]. intros u. cbn beta. rewrite view_upd. unfold upd. destruct (u =? t) eqn:UT; [apply Z.eqb_eq in UT; subst; rewrite P; reflexivity|reflexivity].
  - destruct c as [nl n old|nl out]; injection A as <- <-.
    + split; [apply I_move; [exact H|rewrite P; cbn; tauto|]|].
      * cbn [sound]. split; [exact H2|reflexivity].
      * exists ms. split; [|reflexivity]. unfold at_pc. cbn [p_tag p_pc]. eapply atomic_ext; [exact M|]. intros u. cbn beta. rewrite view_upd. unfold upd. destruct (u =? t) eqn:UT; [apply Z.eqb_eq in UT; subst; rewrite P; reflexivity|reflexivity].
    + destruct H2 as (-> & ->). split; [apply I_move; [exact H|rewrite P; cbn; tauto|exact Logic.I]|].
      exists (Effect t :: ms). split; [|reflexivity]. unfold at_pc. cbn [p_tag p_pc]. eapply at_effect; [exact M|cbn beta; rewrite P; reflexivity|reflexivity|]. intros u. rewrite view_upd. reflexivity.
  - destruct c as [nl n old|nl out]; [|discriminate]. injection A as <- <-. destruct H2 as (O & V). cbn [ok] in O. subst nl v. split.
    + intros u. cbn [p_pc p_lock p_tag]. destruct (Z.eq_dec u t) as [->|NE]; [rewrite upd_same; split; [|exact Logic.I]|].
      * cbn [inside]. rewrite <- H1. cbn. tauto.
      * rewrite upd_other by exact NE. destruct (H u) as (Q1 & Q2). split; [exact Q1|]. assert (LT : p_lock s = Some t) by (apply H1; exact Logic.I).
        assert (NI : ~ inside (p_pc s u)) by (intros W; apply Q1 in W; congruence). destruct (p_pc s u); cbn in *; tauto.
    + exists (Effect t :: ms). split; [|reflexivity]. cbn [p_tag p_pc]. eapply at_effect; [exact M|cbn beta; rewrite P; reflexivity|reflexivity|]. intros u. rewrite view_upd. reflexivity.
  - injection A as <- <-. split.
    + intros u. cbn [p_pc p_lock p_tag]. destruct (Z.eq_dec u t) as [->|NE]; [rewrite upd_same; split; [cbn; split; [tauto|discriminate]|exact Logic.I]|].
      rewrite upd_other by exact NE. destruct (H u) as (Q1 & Q2). split; [|exact Q2]. assert (LT : p_lock s = Some t) by (apply H1; exact Logic.I). rewrite Q1, LT. split; [intros W; injection W as W; congruence|discriminate].
    + exists ms. split; [|reflexivity]. cbn [p_tag p_pc]. eapply atomic_ext; [exact M|]. intros u. cbn beta. rewrite view_upd. unfold upd. destruct (u =? t) eqn:UT; [apply Z.eqb_eq in UT; subst; rewrite P; reflexivity|reflexivity].
  - injection A as <- <-. split; [apply I_move; [exact H|rewrite P; cbn; tauto|exact Logic.I]|].
    exists (Ev (Return t SUCCESS v) :: ms). split; [|reflexivity]. unfold at_pc. cbn [p_tag p_pc]. eapply at_return; [exact M|cbn beta; rewrite P; reflexivity|]. intros u. rewrite view_upd. reflexivity.
Qed.

Lemma run_sim : forall s tr, run s tr -> I s /\ exists ms, atomic ms (p_tag s) (fun u => view (p_pc s u)) /\ visible ms = tr.
Proof.
  intros s tr R. induction R as [|s tr t c R (H & ms & M & V) P|s tr t s' e R (H & ms & M & V) A].
  - split; [intros t; cbn; split; [split; [tauto|discriminate]|exact Logic.I]|]. exists []. split; [apply at_start; reflexivity|reflexivity].
  - split; [apply I_move; [exact H|rewrite P; cbn; tauto|exact Logic.I]|]. exists (Ev (Call t c) :: ms). split; [|cbn; f_equal; exact V]. unfold at_pc. cbn [p_tag p_pc].
    eapply at_call; [exact M|cbn beta; rewrite P; reflexivity|]. intros u. rewrite view_upd. reflexivity.
  - destruct (step_sim s t s' e ms H A M) as (H' & ms' & M' & V'). split; [exact H'|]. exists ms'. split; [exact M'|]. rewrite V'. destruct e; [f_equal; exact V|exact V].
Qed.
Lemma tag_linear : forall s tr, run s tr -> exists ms g ph, atomic ms g ph /\ visible ms = tr.
Proof. intros s tr R. destruct (run_sim s tr R) as (_ & ms & M & V). exists ms, (p_tag s), (fun u => view (p_pc s u)). auto. Qed.
Lemma tag_exclusive : forall s tr t u, run s tr -> touches (p_pc s t) -> touches (p_pc s u) -> t = u.
Proof.
  intros s tr t u R T U. destruct (run_sim s tr R) as (H & _). assert (A : p_lock s = Some t) by (apply (proj1 (H t)); destruct (p_pc s t); cbn in *; tauto).
  assert (B : p_lock s = Some u) by (apply (proj1 (H u)); destruct (p_pc s u); cbn in *; tauto). congruence.
Qed.
Lemma tag_moves : forall s tr t, run s tr -> p_pc s t <> Idle -> exists u s' e, advance s u = Some (s', e) /\ (u = t \/ p_lock s = Some u).
Proof.
  intros s tr t R N. destruct (run_sim s tr R) as (H & _).
  assert (IN : forall u, inside (p_pc s u) -> exists s' e, advance s u = Some (s', e)).
  { intros u W. unfold advance. destruct (H u) as (_ & S). destruct (p_pc s u) as [|c|c|c v|c v|v]; cbn in W; try contradiction.
    - destruct c; eexists _, _; reflexivity.
    - destruct c; [eexists _, _; reflexivity|destruct S as (_ & [])].
    - eexists _, _; reflexivity. }
  destruct (p_lock s) as [o|] eqn:L.
  - destruct (IN o) as (s' & e & A); [apply (proj1 (H o)); exact L|]. exists o, s', e. auto.
  - destruct (p_pc s t) as [|c|c|c v|c v|v] eqn:P; try contradiction; try (destruct (IN t) as (s' & e & A); [rewrite P; exact Logic.I|exists t, s', e; auto]).
    + exists t. unfold advance. rewrite P, L. destruct (match c with SetTag null _ _ => null | GetTag null out => null || negb out end); eexists _, _; split; [reflexivity|auto|reflexivity|auto].
    + exists t. unfold advance. rewrite P. eexists _, _. split; [reflexivity|auto].
Qed.
