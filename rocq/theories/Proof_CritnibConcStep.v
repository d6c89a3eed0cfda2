(* What single stores do to the tree in the heap. *)
From Verif Require Import Base Model_Utils Proof_Utils Model_Critnib Proof_Critnib Spec_Map Model_CritnibConc Proof_CritnibConc.

(* [h'] is [h] with the place [l] now holding [q] *)
Record swap (h h' : heap) (l : loc) (q : ptr) : Prop := {
  sw_at : deref h' l = q;
  sw_else : forall l', l' <> l -> deref h' l' = deref h l';
  sw_path : npath h' = npath h; sw_shift : nshift h' = nshift h; sw_key : lkey h' = lkey h;
  sw_val : lval h' = lval h; sw_dn : deleted_node h' = deleted_node h; sw_dl : deleted_leaf h' = deleted_leaf h;
  sw_pn : pend_node h' = pend_node h; sw_pl : pend_leaf h' = pend_leaf h;
  sw_rc : remove_count h' = remove_count h;
  sw_nn : next_node h' = next_node h; sw_nl : next_leaf h' = next_leaf h }.

Lemma loc_dec : forall a b : loc, {a = b} + {a <> b}.
Proof. decide equality; apply Z.eq_dec. Defined.

Lemma store_swap : forall h l q, swap h (apply h (store_at l q)) l q.
Proof.
  intros [r c p s k v dn dl pn pl rc nn nl] [|n i] q; split; try reflexivity; cbn [store_at apply deref child root].
  - intros [|n i] N; [congruence|reflexivity].
  - unfold put2. rewrite !Z.eqb_refl. reflexivity.
  - intros [|n' i'] N; [reflexivity|]. unfold put2. cbn [deref child].
    destruct (Z.eqb_spec n' n), (Z.eqb_spec i' i); cbn [andb]; try reflexivity. congruence.
Qed.

Section Swap.
Variables (h h' : heap) (l : loc) (q : ptr).
Hypothesis SW : swap h h' l q.

Lemma sw_local : forall lo S p, local h' lo S p <-> local h lo S p.
Proof.
  intros lo S [|x|n]; cbn [local]; unfold node_ok;
    rewrite ?(sw_path _ _ _ _ SW), ?(sw_shift _ _ _ _ SW), ?(sw_key _ _ _ _ SW); tauto.
Qed.
Lemma sw_covers : forall k p, covers h' k p <-> covers h k p.
Proof.
  intros k [|x|n]; cbn [covers];
    rewrite ?(sw_path _ _ _ _ SW), ?(sw_shift _ _ _ _ SW), ?(sw_key _ _ _ _ SW); tauto.
Qed.
Lemma live_child' : forall l0 lo S n i, live h' l0 lo S -> deref h' l0 = PNode n -> 0 <= i < 16 ->
  live h' (LChild n i) (npath h n + i * 2 ^ nshift h n) (nshift h n).
Proof.
  intros l0 lo S n i L E Hi. rewrite <- (sw_path _ _ _ _ SW), <- (sw_shift _ _ _ _ SW). eapply live_child; eauto.
Qed.

(* from nothing or a leaf to nothing or a leaf: the same places are live *)
Lemma live_flat : (forall n, q <> PNode n) -> (forall n, deref h l <> PNode n) ->
  forall l1 lo1 S1, live h' l1 lo1 S1 <-> live h l1 lo1 S1.
Proof.
  intros Nq No l1 lo1 S1. split; intros L.
  - induction L as [|l0 lo0 S0 n i L IH E Hi]; [apply live_root|].
    rewrite (sw_path _ _ _ _ SW), (sw_shift _ _ _ _ SW). eapply live_child; [exact IH| |exact Hi].
    destruct (loc_dec l0 l) as [->|N].
    + exfalso. rewrite (sw_at _ _ _ _ SW) in E. exact (Nq _ E).
    + rewrite <- (sw_else _ _ _ _ SW _ N). exact E.
  - induction L as [|l0 lo0 S0 n i L IH E Hi]; [apply live_root|].
    eapply live_child'; [exact IH| |exact Hi].
    destruct (loc_dec l0 l) as [->|N].
    + exfalso. exact (No _ E).
    + rewrite (sw_else _ _ _ _ SW _ N). exact E.
Qed.

(* a new node in front of what was there *)
Section Split.
Variables (m ik ip kx lo S : Z).
Hypothesis Ll : live h l lo S.
Hypothesis Nm : ~ Reach h (PNode m).
Hypothesis Eq : q = PNode m.
Hypothesis Ck : child h m ik = PLeaf kx.
Hypothesis Cp : child h m ip = deref h l.
Hypothesis Bip : 0 <= ip < 16.
Hypothesis Co : forall i, 0 <= i < 16 -> i <> ik -> i <> ip -> child h m i = PNull.

Lemma live_no_m : forall i lo1 S1, ~ live h (LChild m i) lo1 S1.
Proof.
  intros i lo1 S1 L. apply Nm. inversion L as [|l0 lo0 S0 n0 i0 L0 E0 Hi0]. exists l0, lo0, S0. split; [exact L0|congruence].
Qed.
Lemma split_not_m : forall i, l <> LChild m i.
Proof. intros i ->. exact (live_no_m _ _ _ Ll). Qed.
Lemma live_split_old : forall l1 lo1 S1, live h l1 lo1 S1 -> live h' l1 lo1 S1.
Proof.
  intros l1 lo1 S1 L. induction L as [|l0 lo0 S0 n i L IH E Hi]; [apply live_root|].
  destruct (loc_dec l0 l) as [->|N].
  - eapply live_child'; [| |exact Hi].
    + eapply live_child'; [exact IH|rewrite (sw_at _ _ _ _ SW); exact Eq|exact Bip].
    + rewrite (sw_else _ _ _ _ SW) by (apply not_eq_sym; apply split_not_m). cbn [deref]. rewrite Cp. exact E.
  - eapply live_child'; [exact IH|rewrite (sw_else _ _ _ _ SW _ N); exact E|exact Hi].
Qed.
Lemma live_split_new : forall i, 0 <= i < 16 -> live h' (LChild m i) (npath h m + i * 2 ^ nshift h m) (nshift h m).
Proof.
  intros i Hi. eapply live_child'; [apply live_split_old; exact Ll|rewrite (sw_at _ _ _ _ SW); exact Eq|exact Hi].
Qed.
Lemma live_split_inv : forall l1 lo1 S1, live h' l1 lo1 S1 ->
  live h l1 lo1 S1 \/ exists i, 0 <= i < 16 /\ l1 = LChild m i /\ lo1 = npath h m + i * 2 ^ nshift h m /\ S1 = nshift h m.
Proof.
  intros l1 lo1 S1 L. induction L as [|l0 lo0 S0 n i L IH E Hi]; [left; apply live_root|].
  rewrite (sw_path _ _ _ _ SW), (sw_shift _ _ _ _ SW).
  destruct (loc_dec l0 l) as [->|N].
  - rewrite (sw_at _ _ _ _ SW), Eq in E. assert (n = m) as -> by congruence.
    right. exists i. auto.
  - rewrite (sw_else _ _ _ _ SW _ N) in E. left.
    destruct IH as [IH|(i0 & Hi0 & -> & _)].
    + eapply live_child; eauto.
    + cbn [deref] in E. destruct (Z.eq_dec i0 ik) as [->|N1]; [rewrite Ck in E; discriminate|].
      destruct (Z.eq_dec i0 ip) as [->|N2]; [|rewrite (Co i0 Hi0 N1 N2) in E; discriminate].
      rewrite Cp in E. eapply live_child; [exact Ll|exact E|exact Hi].
Qed.
Lemma split_kids : forall i, 0 <= i < 16 -> deref h' (LChild m i) = child h m i.
Proof. intros i Hi. rewrite (sw_else _ _ _ _ SW) by (apply not_eq_sym; apply split_not_m). reflexivity. Qed.
Lemma split_reach : forall p, Reach h p -> Reach h' p.
Proof.
  intros p (l1 & lo1 & S1 & L & E). destruct (loc_dec l1 l) as [->|N].
  - exists (LChild m ip), (npath h m + ip * 2 ^ nshift h m), (nshift h m).
    split; [exact (live_split_new ip Bip)|]. rewrite split_kids by exact Bip. congruence.
  - exists l1, lo1, S1. split; [exact (live_split_old _ _ _ L)|]. rewrite (sw_else _ _ _ _ SW _ N). exact E.
Qed.
Lemma split_reach_inv : forall p, Reach h' p -> p = PNull \/ Reach h p \/ p = PNode m \/ p = PLeaf kx.
Proof.
  intros p (l1 & lo1 & S1 & L & E). destruct (live_split_inv _ _ _ L) as [L0|(i & Hi & -> & _)].
  - destruct (loc_dec l1 l) as [->|N].
    + right. right. left. rewrite <- E, (sw_at _ _ _ _ SW). exact Eq.
    + right. left. exists l1, lo1, S1. rewrite (sw_else _ _ _ _ SW _ N) in E. auto.
  - rewrite split_kids in E by exact Hi.
    destruct (Z.eq_dec i ik) as [->|N1]; [right; right; right; congruence|].
    destruct (Z.eq_dec i ip) as [->|N2]; [right; left; exists l, lo, S; split; [exact Ll|congruence]|].
    left. rewrite (Co i Hi N1 N2) in E. congruence.
Qed.
End Split.

(* a node gives way to its only child *)
Section Collapse.
Variables (n o lo S : Z).
Hypothesis W : WF h.
Hypothesis Ll : live h l lo S.
Hypothesis En : deref h l = PNode n.
Hypothesis Ho : 0 <= o < 16.
Hypothesis Eq : q = child h n o.
Hypothesis Co : forall i, 0 <= i < 16 -> i <> o -> child h n i = PNull.

Lemma collapse_nself : forall i, l <> LChild n i.
Proof.
  intros i ->. pose proof (W _ _ _ Ll) as Lc. rewrite En in Lc. destruct Lc as ((A1 & A2 & A3 & A4) & A5).
  assert (S = nshift h n) by (inversion Ll; congruence). lia.
Qed.
Lemma collapse_kids : forall i, deref h' (LChild n i) = child h n i.
Proof. intros i. rewrite (sw_else _ _ _ _ SW) by (apply not_eq_sym; apply collapse_nself). reflexivity. Qed.
Lemma live_collapse_inv : forall l1 lo1 S1, live h' l1 lo1 S1 -> live h l1 lo1 S1.
Proof.
  intros l1 lo1 S1 L. induction L as [|l0 lo0 S0 n0 i L IH E Hi]; [apply live_root|].
  rewrite (sw_path _ _ _ _ SW), (sw_shift _ _ _ _ SW).
  destruct (loc_dec l0 l) as [->|N].
  - rewrite (sw_at _ _ _ _ SW), Eq in E.
    eapply live_child; [eapply live_child; [exact Ll|exact En|exact Ho]|exact E|exact Hi].
  - rewrite (sw_else _ _ _ _ SW _ N) in E. eapply live_child; eauto.
Qed.
Lemma collapse_top : live h' l lo S.
Proof.
  pose proof (W _ _ _ Ll) as Lc. rewrite En in Lc. destruct Lc as ((A1 & A2 & A3 & A4) & A5).
  destruct (walk_reaches h W _ _ _ Ll _ A5) as (j & Hj).
  assert (Q : forall i, (i <= j)%nat -> walk h' (npath h n) i = walk h (npath h n) i).
  { induction i as [|i IH]; intros Hi; [reflexivity|]. cbn [walk]. rewrite IH by lia.
    destruct (loc_dec (walk h (npath h n) i) l) as [E|N].
    - exfalso. pose proof Ll as Ll2. rewrite <- Hj in Ll2.
      replace j with (i + Datatypes.S (j - i - 1))%nat in Ll2 by lia.
      destruct (walk_nested h (npath h n) W i n ltac:(rewrite E; exact En) _ _ _ Ll2) as (B & _). lia.
    - rewrite (sw_else _ _ _ _ SW _ N), (sw_shift _ _ _ _ SW). reflexivity. }
  destruct (walk_live h' (npath h n) j) as (lo1 & S1 & L1). rewrite (Q j) in L1 by lia. rewrite Hj in L1.
  pose proof (live_collapse_inv _ _ _ L1) as L2.
  assert (lo1 = lo /\ S1 = S) as (-> & ->); [|exact L1].
  clear - L2 Ll. inversion L2; subst; inversion Ll; subst; auto.
Qed.
Lemma live_collapse_old : forall l1 lo1 S1, live h l1 lo1 S1 -> live h' l1 lo1 S1 \/ exists i, 0 <= i < 16 /\ l1 = LChild n i.
Proof.
  intros l1 lo1 S1 L. induction L as [|l0 lo0 S0 n0 i L IH E Hi]; [left; apply live_root|].
  destruct (loc_dec l0 l) as [->|N].
  - right. exists i. split; [exact Hi|]. congruence.
  - left. destruct IH as [IH|(i0 & Hi0 & ->)].
    + eapply live_child'; [exact IH|rewrite (sw_else _ _ _ _ SW _ N); exact E|exact Hi].
    + cbn [deref] in E. destruct (Z.eq_dec i0 o) as [->|N1]; [|rewrite (Co _ Hi0 N1) in E; discriminate].
      assert (Ll' : live h' l lo S).
      { exact collapse_top. }
      eapply live_child'; [exact Ll'|rewrite (sw_at _ _ _ _ SW), Eq; exact E|exact Hi].
Qed.
End Collapse.
End Swap.
