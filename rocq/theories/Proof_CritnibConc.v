(* The tree inside the heap: which places are live, the walk of a key, and what one
   store does to them. *)
From Verif Require Import Base Model_Utils Proof_Utils Model_Critnib Proof_Critnib Spec_Map Model_CritnibConc.

(* a node's own numbers make sense below [S] *)
Definition node_ok (h : heap) (S n : Z) : Prop :=
  0 <= nshift h n /\ nshift h n mod 4 = 0 /\ nshift h n + 4 <= S /\
  npath h n mod 2 ^ (nshift h n + 4) = 0.
(* [p] may stand at a place for the keys [lo, lo + 2^S) *)
Definition local (h : heap) (lo S : Z) (p : ptr) : Prop :=
  match p with
  | PNull => True
  | PLeaf x => lo <= lkey h x < lo + 2 ^ S
  | PNode n => node_ok h S n /\ lo <= npath h n < lo + 2 ^ S
  end.

Inductive live (h : heap) : loc -> Z -> Z -> Prop :=
| live_root : live h LRoot 0 64
| live_child : forall l lo S n i, live h l lo S -> deref h l = PNode n -> 0 <= i < 16 ->
    live h (LChild n i) (npath h n + i * 2 ^ nshift h n) (nshift h n).

Definition Reach (h : heap) (p : ptr) : Prop := exists l lo S, live h l lo S /\ deref h l = p.
Definition WF (h : heap) : Prop := forall l lo S, live h l lo S -> local h lo S (deref h l).

(* the key lies in what the pointer stands for *)
Definition covers (h : heap) (k : Z) (p : ptr) : Prop :=
  match p with
  | PNull => False
  | PLeaf x => lkey h x = k
  | PNode n => npath h n <= k < npath h n + 2 ^ (nshift h n + 4)
  end.

Lemma ival_top : ival 0 64.
Proof. unfold ival. change (2 ^ 64) with U64. repeat split; try reflexivity; lia. Qed.

Lemma live_ival : forall h, WF h -> forall l lo S, live h l lo S -> ival lo S.
Proof.
  intros h W l lo S L. induction L as [|l lo S n i L IH E Hi].
  - apply ival_top.
  - pose proof (W _ _ _ L) as Lc. rewrite E in Lc. destruct Lc as ((A1 & A2 & A3 & A4) & A5).
    exact (proj1 (ival_child lo S (npath h n) (nshift h n) i IH A1 A2 A3 A4 A5 Hi)).
Qed.

(* the interval of a slot is inside that of the place its node stands at, and inside
   the node's cover *)
Lemma slot_inside : forall h l lo S n i, WF h -> live h l lo S -> deref h l = PNode n -> 0 <= i < 16 ->
  forall k, npath h n + i * 2 ^ nshift h n <= k < npath h n + i * 2 ^ nshift h n + 2 ^ nshift h n ->
  lo <= k < lo + 2 ^ S /\ covers h k (PNode n).
Proof.
  intros h l lo S n i W L E Hi k Hk.
  pose proof (W _ _ _ L) as Lc. rewrite E in Lc. destruct Lc as ((A1 & A2 & A3 & A4) & A5).
  destruct (ival_child lo S (npath h n) (nshift h n) i (live_ival h W _ _ _ L) A1 A2 A3 A4 A5 Hi) as (_ & B & C).
  split; [lia|]. cbn [covers]. rewrite shift_pow by exact A1.
  pose proof (pow2_pos (nshift h n) A1) as P. clear - Hk P Hi. nia.
Qed.

Lemma cover_slot : forall h S n k, node_ok h S n -> covers h k (PNode n) ->
  let i := slice_index k (nshift h n) in
  0 <= i < 16 /\ npath h n + i * 2 ^ nshift h n <= k < npath h n + i * 2 ^ nshift h n + 2 ^ nshift h n.
Proof. intros h S n k (A1 & A2 & A3 & A4) C. exact (slice_in (npath h n) (nshift h n) k A1 A4 C). Qed.

(* the walk of a key, place by place; it stays where it ends *)
Fixpoint walk (h : heap) (k : Z) (j : nat) : loc :=
  match j with
  | O => LRoot
  | S j => match deref h (walk h k j) with
           | PNode n => LChild n (slice_index k (nshift h n))
           | _ => walk h k j
           end
  end.

Lemma walk_reaches : forall h, WF h -> forall l lo S, live h l lo S ->
  forall k, lo <= k < lo + 2 ^ S -> exists j, walk h k j = l.
Proof.
  intros h W l lo S L. induction L as [|l lo S n i L IH E Hi]; intros k Hk.
  - exists 0%nat. reflexivity.
  - destruct (slot_inside h l lo S n i W L E Hi k Hk) as (Hp & _).
    destruct (IH k Hp) as (j & Hj). exists (Datatypes.S j). cbn [walk]. rewrite Hj, E.
    pose proof (W _ _ _ L) as Lc. rewrite E in Lc. destruct Lc as ((A1 & A2 & A3 & A4) & A5).
    rewrite (slice_unique (npath h n) (nshift h n) k i A1 A4 Hi Hk). reflexivity.
Qed.

Lemma walk_stays : forall h k j, (forall n, deref h (walk h k j) <> PNode n) -> forall d, walk h k (j + d) = walk h k j.
Proof.
  intros h k j N d. induction d as [|d IH].
  - rewrite Nat.add_0_r. reflexivity.
  - rewrite Nat.add_succ_r. cbn [walk]. rewrite IH. destruct (deref h (walk h k j)) eqn:E; try reflexivity.
    exfalso. exact (N _ eq_refl).
Qed.

Lemma slice_range' : forall k s, 0 <= slice_index k s < 16.
Proof.
  intros. unfold slice_index, NIB. change 15 with (2 ^ 4 - 1). rewrite land_low by lia.
  apply Z.mod_pos_bound. lia.
Qed.

Lemma walk_live : forall h k j, exists lo S, live h (walk h k j) lo S.
Proof.
  intros h k j. induction j as [|j IH].
  - exists 0, 64. apply live_root.
  - cbn [walk]. destruct IH as (lo1 & S1 & L1). destruct (deref h (walk h k j)) eqn:EE; eauto.
    eexists _, _. eapply live_child; [exact L1|exact EE|apply slice_range'].
Qed.

(* the places of a walk that are live, with their intervals, nest *)
Lemma walk_nested : forall h k, WF h -> forall j n, deref h (walk h k j) = PNode n ->
  forall d lo S, live h (walk h k (j + Datatypes.S d)) lo S ->
  S <= nshift h n /\ forall q, lo <= q < lo + 2 ^ S -> covers h q (PNode n).
Proof.
  intros h k W j n E d. induction d as [|d IH]; intros lo S L.
  - rewrite Nat.add_1_r in L. cbn [walk] in L. rewrite E in L.
    inversion L as [|l lo0 S0 n0 i0 L0 E0 Hi0]; subst. split; [lia|].
    intros q Hq. exact (proj2 (slot_inside h l lo0 S0 n _ W L0 E0 Hi0 q Hq)).
  - replace (j + Datatypes.S (Datatypes.S d))%nat with (Datatypes.S (j + Datatypes.S d)) in L by lia.
    cbn [walk] in L. destruct (deref h (walk h k (j + Datatypes.S d))) as [|x|n'] eqn:E'; try (exact (IH lo S L)).
    inversion L as [|l lo0 S0 n0 i0 L0 E0 Hi0]; subst.
    assert (Lw : exists lo1 S1, live h (walk h k (j + Datatypes.S d)) lo1 S1 /\ lo1 <= npath h n' < lo1 + 2 ^ S1 /\ nshift h n' + 4 <= S1 /\
       (forall q, npath h n' + slice_index k (nshift h n') * 2 ^ nshift h n' <= q < npath h n' + slice_index k (nshift h n') * 2 ^ nshift h n' + 2 ^ nshift h n' -> lo1 <= q < lo1 + 2 ^ S1)).
    { assert (Lx : exists lo1 S1, live h (walk h k (j + Datatypes.S d)) lo1 S1).
      { apply walk_live. }
      destruct Lx as (lo1 & S1 & L1). exists lo1, S1. split; [exact L1|].
      pose proof (W _ _ _ L1) as Lc. rewrite E' in Lc. destruct Lc as ((A1 & A2 & A3 & A4) & A5).
      split; [exact A5|]. split; [exact A3|].
      intros q Hq. exact (proj1 (slot_inside h _ lo1 S1 n' _ W L1 E' Hi0 q Hq)). }
    destruct Lw as (lo1 & S1 & L1 & A5 & A3 & Q). destruct (IH lo1 S1 L1) as (B1 & B2). split; [lia|].
    intros q Hq. apply B2. apply Q. exact Hq.
Qed.

(* every object of the tree stands at one place only *)
Lemma unique_node : forall h l lo S l' lo' S' n, WF h -> live h l lo S -> live h l' lo' S' ->
  deref h l = PNode n -> deref h l' = PNode n -> l = l'.
Proof.
  intros h l lo S l' lo' S' n W L L' E E'.
  pose proof (W _ _ _ L) as Lc. rewrite E in Lc. destruct Lc as ((A1 & A2 & A3 & A4) & A5).
  pose proof (W _ _ _ L') as Lc'. rewrite E' in Lc'. destruct Lc' as ((_ & _ & A3' & _) & A5').
  destruct (walk_reaches h W _ _ _ L _ A5) as (j & Hj).
  destruct (walk_reaches h W _ _ _ L' _ A5') as (j' & Hj').
  destruct (lt_eq_lt_dec j j') as [[LT|EQ]|GT].
  - exfalso. replace j' with (j + Datatypes.S (j' - j - 1))%nat in Hj' by lia.
    rewrite <- Hj' in L'. rewrite <- Hj in E.
    destruct (walk_nested h _ W j n E _ _ _ L') as (B & _). lia.
  - subst. reflexivity.
  - exfalso. replace j with (j' + Datatypes.S (j - j' - 1))%nat in Hj by lia.
    rewrite <- Hj in L. rewrite <- Hj' in E'.
    destruct (walk_nested h _ W j' n E' _ _ _ L) as (B & _). lia.
Qed.

Lemma unique_leaf : forall h l lo S l' lo' S' x x', WF h -> live h l lo S -> live h l' lo' S' ->
  deref h l = PLeaf x -> deref h l' = PLeaf x' -> lkey h x = lkey h x' -> l = l' /\ x = x'.
Proof.
  intros h l lo S l' lo' S' x x' W L L' E E' K.
  pose proof (W _ _ _ L) as Lc. rewrite E in Lc. pose proof (W _ _ _ L') as Lc'. rewrite E' in Lc'.
  cbn [local] in Lc, Lc'. rewrite <- K in Lc'.
  destruct (walk_reaches h W _ _ _ L _ Lc) as (j & Hj).
  destruct (walk_reaches h W _ _ _ L' _ Lc') as (j' & Hj').
  assert (EQ : l = l').
  { destruct (le_lt_dec j j') as [LE|LT].
    - replace j' with (j + (j' - j))%nat in Hj' by lia. rewrite walk_stays in Hj' by (rewrite Hj, E; discriminate). congruence.
    - replace j with (j' + (j - j'))%nat in Hj by lia. rewrite walk_stays in Hj by (rewrite Hj', E'; discriminate). congruence. }
  split; [exact EQ|]. subst l'. congruence.
Qed.

(* what the tree holds for a key *)
Definition has (h : heap) (k : Z) (x : Z) : Prop := Reach h (PLeaf x) /\ lkey h x = k.

(* nothing is stored under a key at whose place something else stands *)
Lemma walk_absent : forall h l lo S k, WF h -> live h l lo S -> lo <= k < lo + 2 ^ S ->
  ~ covers h k (deref h l) -> forall x, ~ has h k x.
Proof.
  intros h l lo S k W L Hk N x ((l' & lo' & S' & L' & E') & K).
  pose proof (W _ _ _ L') as Lc'. rewrite E' in Lc'. cbn [local] in Lc'. rewrite K in Lc'.
  destruct (walk_reaches h W _ _ _ L _ Hk) as (j & Hj).
  destruct (walk_reaches h W _ _ _ L' _ Lc') as (j' & Hj').
  destruct (le_lt_dec j' j) as [LE|LT].
  - replace j with (j' + (j - j'))%nat in Hj by lia. rewrite walk_stays in Hj by (rewrite Hj', E'; discriminate).
    assert (l = l') as -> by congruence. rewrite E' in N. exact (N K).
  - destruct (deref h l) as [|y|n] eqn:E.
    + replace j' with (j + (j' - j))%nat in Hj' by lia. rewrite walk_stays in Hj' by (rewrite Hj, E; discriminate). congruence.
    + replace j' with (j + (j' - j))%nat in Hj' by lia. rewrite walk_stays in Hj' by (rewrite Hj, E; discriminate).
      assert (y = x) as -> by congruence. exact (N K).
    + replace j' with (j + Datatypes.S (j' - j - 1))%nat in Hj' by lia.
      rewrite <- Hj' in L'. rewrite <- Hj in E.
      destruct (walk_nested h _ W j n E _ _ _ L') as (_ & B). apply N. apply B. lia.
Qed.

Lemma has_unique : forall h k x x', WF h -> has h k x -> has h k x' -> x = x'.
Proof.
  intros h k x x' W ((l & lo & S & L & E) & K) ((l' & lo' & S' & L' & E') & K').
  exact (proj2 (unique_leaf h _ _ _ _ _ _ _ _ W L L' E E' ltac:(congruence))).
Qed.
