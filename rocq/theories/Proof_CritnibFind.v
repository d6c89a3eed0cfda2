(* The ordered lookup beside writers: what the reader holds was in the map meanwhile. *)
From Verif Require Import Base Model_Utils Proof_Utils Model_Critnib Proof_Critnib Spec_Map
  Model_CritnibConc Proof_CritnibConc Proof_CritnibConcStep Proof_CritnibConcGet Proof_CritnibConcWrite Model_CritnibFind.

Definition slot (h : heap) (n i k : Z) : Prop :=
  npath h n + i * 2 ^ nshift h n <= k < npath h n + i * 2 ^ nshift h n + 2 ^ nshift h n.

(* below a place that is taken there is a key *)
Lemma witness : forall f h l lo S, WF h -> some_child h -> live h l lo S -> deref h l <> PNull -> S < 4 * Z.of_nat f ->
  exists k x, has h k x /\ lo <= k < lo + 2 ^ S.
Proof.
  induction f as [|f IH]; intros h l lo S W C L N Hf.
  - exfalso. pose proof (live_ival h W _ _ _ L) as (A & _). lia.
  - pose proof (W _ _ _ L) as Lc. destruct (deref h l) as [|x|n] eqn:E; [congruence| |].
    + exists (lkey h x), x. split; [split; [exists l, lo, S; auto|reflexivity]|exact Lc].
    + destruct (C n ltac:(exists l, lo, S; auto)) as (i & Hi & Ci).
      destruct (IH h (LChild n i) _ _ W C (live_child h l lo S n i L E Hi) Ci) as (k & x & Hx & Hk).
      { destruct Lc as ((B1 & B2 & B3 & B4) & B5). lia. }
      exists k, x. split; [exact Hx|]. exact (proj1 (slot_inside h l lo S n i W L E Hi k Hk)).
Qed.

Section State.
Variables (h : heap) (st : ptr -> status) (w : Z) (P : Z -> word -> Prop).
(* entries that are or were in the map since the lookup began *)
Definition present : Prop := forall k x, has h k x -> P k (lval h x).
Inductive vis : ptr -> Prop :=
| V_null : vis PNull
| V_live : forall p, Reach h p -> vis p
| V_leaf : forall x M, st (PLeaf x) = Retired M -> w <= M -> P (lkey h x) (lval h x) -> vis (PLeaf x)
| V_node : forall n M, st (PNode n) = Retired M -> w <= M ->
    (forall i, 0 <= i < 16 -> vis (child h n i)) ->
    (forall i, 0 <= i < 16 -> child h n i <> PNull -> exists k v, slot h n i k /\ P k v) -> vis (PNode n).

Lemma vis_guard : forall p, vis p -> guard h st w p.
Proof.
  intros p V. destruct V as [|p R|x M E HM V|n M E HM V1 V2]; [left; reflexivity|right; left; exact R| |];
    right; right; exists M; auto.
Qed.

Hypothesis Iv : Inv h st.
Hypothesis Pr : present.
Hypothesis SC : some_child h.
Hypothesis Rc : remove_count h < w + DELETED_LIFE.

Lemma vis_leaf : forall x, vis (PLeaf x) -> P (lkey h x) (lval h x).
Proof.
  intros x V. inversion V as [|p R Ep|x0 M E HM V1 Ep|]; subst; [|exact V1]. apply Pr. split; [exact R|reflexivity].
Qed.
Lemma vis_node : forall n, vis (PNode n) -> local h 0 64 (PNode n).
Proof.
  intros n V. inversion V as [|p (l & lo & S & L & E) Ep| |n0 M E HM V1 V2 Ep]; subst.
  - pose proof (i_wf _ _ Iv _ _ _ L) as Lc. rewrite E in Lc. pose proof (live_ival h (i_wf _ _ Iv) _ _ _ L) as (A1 & A2 & A3 & A4 & A5).
    destruct Lc as ((B1 & B2 & B3 & B4) & B5). split; [split; [exact B1|split; [exact B2|split; [lia|exact B4]]]|].
    change (2 ^ 64) with U64. lia.
  - exact (proj1 (i_kids _ _ Iv n M E ltac:(lia))).
Qed.
Lemma vis_child : forall n i, vis (PNode n) -> 0 <= i < 16 -> vis (child h n i) /\
  local h (npath h n + i * 2 ^ nshift h n) (nshift h n) (child h n i) /\
  (child h n i <> PNull -> exists k v, slot h n i k /\ P k v).
Proof.
  intros n i V Hi. inversion V as [|p (l & lo & S & L & E) Ep| |n0 M E HM V1 V2 Ep]; subst.
  - pose proof (live_child h l lo S n i L E Hi) as L2. pose proof (i_wf _ _ Iv _ _ _ L2) as Lc. cbn [deref] in Lc.
    split; [apply V_live; exists (LChild n i); eauto|]. split; [exact Lc|]. intros N.
    pose proof (live_ival h (i_wf _ _ Iv) _ _ _ L2) as (A1 & _).
    destruct (witness 17 h (LChild n i) _ _ (i_wf _ _ Iv) SC L2 N ltac:(lia)) as (k & x & Hx & Hk).
    exists k, (lval h x). split; [exact Hk|]. exact (Pr k x Hx).
  - split; [exact (V1 i Hi)|]. split; [|exact (V2 i Hi)].
    destruct (i_kids _ _ Iv n M E ltac:(lia)) as (_ & K). destruct (K i Hi) as [->|(Lc & _)]; [exact I|exact Lc].
Qed.
End State.

Lemma vis_env : forall h st h' st' w (P P' : Z -> word -> Prop), safe h st h' st' -> w <= remove_count h ->
  remove_count h' < w + DELETED_LIFE -> present h P -> some_child h -> (forall k v, P k v -> P' k v) ->
  forall p, vis h st w P p -> vis h' st' w P' p.
Proof.
  intros h st h' st' w P P' Sf Hw U Pr SC Sub p V. pose proof (s_rc _ _ _ _ Sf) as Rc. pose proof (s_pre _ _ _ _ Sf) as Iv.
  induction V as [|p R|x M E HM V|n M E HM V1 IH V2].
  - apply V_null.
  - destruct p as [|x|n]; [apply V_null| |].
    + pose proof (s_head _ _ _ _ Sf _ R) as Hd. cbn in Hd.
      destruct (s_reach _ _ _ _ Sf (PLeaf x) ltac:(discriminate) R) as [R'|(E & B & _)]; [apply V_live; exact R'|].
      cbn in B. apply (V_leaf _ _ _ _ _ _ E); [lia|]. rewrite Hd, B. apply Sub, Pr. split; [exact R|reflexivity].
    + pose proof (s_head _ _ _ _ Sf _ R) as Hd. cbn in Hd. destruct Hd as (Hp & Hs).
      destruct (s_reach _ _ _ _ Sf (PNode n) ltac:(discriminate) R) as [R'|(E & B & K)]; [apply V_live; exact R'|].
      cbn in B. apply (V_node _ _ _ _ _ _ E); [lia| |].
      * intros i Hi. rewrite (B i Hi). destruct (child h n i) as [|y|y] eqn:Ec; [apply V_null| |]; (assert (N : child h n i <> PNull) by (rewrite Ec; discriminate); rewrite <- Ec; apply V_live; exact (K i Hi N)).
      * intros i Hi. rewrite (B i Hi). intros N.
        destruct (vis_child h st w P Iv Pr SC ltac:(lia) n i (V_live _ _ _ _ _ R) Hi) as (_ & _ & X).
        destruct (X N) as (k & v & Hk & Hv). exists k, v. split; [unfold slot in *; rewrite Hp, Hs; exact Hk|apply Sub; exact Hv].
  - destruct (s_ret _ _ _ _ Sf _ _ E ltac:(lia)) as (A & B & D). cbn in B, D.
    apply (V_leaf _ _ _ _ _ _ A HM). rewrite B, D. apply Sub. exact V.
  - destruct (s_ret _ _ _ _ Sf _ _ E ltac:(lia)) as (A & B & D). cbn in B, D. destruct B as (Hp & Hs).
    apply (V_node _ _ _ _ _ _ A HM).
    + intros i Hi. rewrite (D i Hi). exact (IH i Hi).
    + intros i Hi. rewrite (D i Hi). intros N. destruct (V2 i Hi N) as (k & v & Hk & Hv). exists k, v.
      split; [unfold slot in *; rewrite Hp, Hs; exact Hk|apply Sub; exact Hv].
Qed.
Lemma vis_head : forall h st h' st' w P p, safe h st h' st' -> w <= remove_count h ->
  remove_count h' < w + DELETED_LIFE -> vis h st w P p -> same_head h h' p.
Proof. intros h st h' st' w P p Sf Hw U V. exact (proj2 (guard_env h st h' st' w p Sf Hw U (vis_guard _ _ _ _ _ V))). Qed.
