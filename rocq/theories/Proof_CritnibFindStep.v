(* The ordered lookup: what it finds, and when it finds the neighbour. *)
From Verif Require Import Base Model_Utils Proof_Utils Model_Critnib Proof_Critnib Spec_Map
  Model_CritnibConc Proof_CritnibConc Proof_CritnibConcStep Proof_CritnibConcGet Proof_CritnibConcWrite Model_CritnibFind Proof_CritnibFind.

Definition started_at (pc : fpc) : Z :=
  match pc with
  | FRoot w | FAt w _ _ | FShift w _ _ _ | FCmp w _ _ | FNib w _ _ | FChild w _ _ _ | FBack w _
  | FPred w _ _ _ | FPred2 w _ _ _ | FFound w _ | FVal w _ _ | FRes w _ => w
  | FStart | FDone _ => 0
  end.
Definition running (pc : fpc) : Prop := match pc with FStart | FDone _ => False | _ => True end.

Section Find.
Variable k : Z.
Hypothesis Wk : is_word k.

Section State.
Variables (h : heap) (st : ptr -> status) (P : Z -> word -> Prop) (w : Z).
Definition frame_ok (f : Z * Z) : Prop :=
  vis h st w P (PNode (fst f)) /\ covers h k (PNode (fst f)) /\ 0 <= snd f <= slice_index k (nshift h (fst f)).
Definition below (n : Z) : Prop := npath h n + 2 ^ (nshift h n + 4) <= k.
Definition answer_ok (r : option (Z * word)) : Prop := match r with Some (a, v) => P a v /\ a <= k | None => True end.
Definition sbody (pc : fpc) : Prop :=
  match pc with
  | FStart | FRoot _ => True
  | FAt _ stk p => Forall frame_ok stk /\ vis h st w P p
  | FShift _ stk n path => Forall frame_ok stk /\ vis h st w P (PNode n) /\ path = npath h n
  | FCmp _ stk n => Forall frame_ok stk /\ vis h st w P (PNode n) /\ ~ covers h k (PNode n)
  | FNib _ stk n => Forall frame_ok stk /\ vis h st w P (PNode n) /\ covers h k (PNode n)
  | FChild _ stk n nib => Forall frame_ok stk /\ vis h st w P (PNode n) /\ covers h k (PNode n) /\ nib = slice_index k (nshift h n)
  | FBack _ stk => Forall frame_ok stk
  | FPred _ stk n nib => Forall frame_ok stk /\ vis h st w P (PNode n) /\ below n /\ nib <= 15
  | FPred2 _ stk n nib => Forall frame_ok stk /\ vis h st w P (PNode n) /\ below n /\ 0 <= nib <= 15
  | FFound _ x => vis h st w P (PLeaf x) /\ lkey h x <= k
  | FVal _ x a => vis h st w P (PLeaf x) /\ lkey h x = a /\ a <= k
  | FRes _ r => answer_ok r
  | FDone r => answer_ok r
  end.
End State.
Definition wrapped (h : heap) (Q : Z -> fpc -> Prop) (pc : fpc) : Prop :=
  match pc with
  | FStart => True
  | FDone _ => Q 0 pc
  | _ => 0 <= started_at pc <= remove_count h /\ (remove_count h < started_at pc + DELETED_LIFE -> Q (started_at pc) pc)
  end.
Definition sinv (h : heap) (st : ptr -> status) (P : Z -> word -> Prop) (pc : fpc) : Prop := wrapped h (sbody h st P) pc.

(* a node inside a slot of another *)
Lemma slot_node : forall h n i m, local h 0 64 (PNode n) -> 0 <= i < 16 ->
  local h (npath h n + i * 2 ^ nshift h n) (nshift h n) (PNode m) ->
  npath h n + i * 2 ^ nshift h n <= npath h m /\ npath h m + 2 ^ (nshift h m + 4) <= npath h n + i * 2 ^ nshift h n + 2 ^ nshift h n.
Proof.
  intros h n i m ((A1 & A2 & A3 & A4) & A5) Hi ((B1 & B2 & B3 & B4) & B5). split; [lia|].
  destruct (ival_child 0 64 (npath h n) (nshift h n) i ival_top A1 A2 A3 A4 A5 Hi) as (I2 & _).
  destruct (ival_child _ _ (npath h m) (nshift h m) 15 I2 B1 B2 B3 B4 B5 ltac:(lia)) as (_ & _ & X).
  rewrite Z.pow_add_r by lia. change (2 ^ 4) with 16. lia.
Qed.
Lemma slot_before : forall h n i, local h 0 64 (PNode n) -> covers h k (PNode n) -> 0 <= i < slice_index k (nshift h n) ->
  npath h n + i * 2 ^ nshift h n + 2 ^ nshift h n <= k.
Proof.
  intros h n i ((A1 & A2 & A3 & A4) & A5) C Hi.
  destruct (cover_slot h 64 n k (conj A1 (conj A2 (conj A3 A4))) C) as (_ & X & _).
  pose proof (Z.pow_pos_nonneg 2 (nshift h n) ltac:(lia) A1). nia.
Qed.

Section Step.
Variables (h : heap) (st : ptr -> status) (P : Z -> word -> Prop).
Hypothesis Iv : Inv h st.
Hypothesis Pr : present h P.
Hypothesis SC : some_child h.
Hypothesis R0 : 0 <= remove_count h.
Hypothesis R1 : remove_count h + DELETED_LIFE < U64.

Lemma covers_outside : forall w n, remove_count h < w + DELETED_LIFE -> vis h st w P (PNode n) ->
  (outside k (npath h n) (nshift h n) = false <-> covers h k (PNode n)).
Proof.
  intros w n U V. destruct (vis_node h st w P Iv U n V) as ((A1 & A2 & A3 & A4) & A5).
  change (2 ^ 64) with U64 in A5. apply outside_false; [exact Wk|unfold is_word; lia|lia|exact A4].
Qed.

Lemma find_step_ok : forall pc, sinv h st P pc -> sinv h st P (find_step h k pc).
Proof.
  intros pc H. unfold sinv in *.
  destruct pc as [|w|w stk p|w stk n path|w stk n|w stk n|w stk n nib|w stk|w stk n nib|w stk n nib|w x|w x a|w r|r];
    cbn [wrapped started_at find_step] in *.
  - split; [lia|]. intros _. exact I.
  - destruct H as (H1 & _). split; [exact H1|]. intros U. cbn [sbody]. split; [constructor|]. apply V_live.
    exists LRoot, 0, 64. split; [apply live_root|reflexivity].
  - destruct H as (H1 & H2). destruct p as [|x|n].
    + split; [exact H1|]. intros U. exact (proj1 (H2 U)).
    + destruct (Z.leb_spec (lkey h x) k) as [L|L]; (split; [exact H1|]); intros U; destruct (H2 U) as (F & V); cbn [sbody]; auto.
    + split; [exact H1|]. intros U. destruct (H2 U) as (F & V). cbn [sbody]. auto.
  - destruct H as (H1 & H2). destruct (outside k path (nshift h n)) eqn:O; (split; [exact H1|]); intros U; destruct (H2 U) as (F & V & ->); cbn [sbody].
    + split; [exact F|]. split; [exact V|]. intros C. apply (covers_outside w n U V) in C. congruence.
    + split; [exact F|]. split; [exact V|]. apply (covers_outside w n U V). exact O.
  - destruct H as (H1 & H2). destruct (Z.ltb_spec (npath h n) k) as [L|L]; (split; [exact H1|]); intros U; destruct (H2 U) as (F & V & C); cbn [sbody]; [|exact F].
    split; [exact F|]. split; [exact V|]. split; [|lia]. unfold below. cbn [covers] in C. lia.
  - destruct H as (H1 & H2). split; [exact H1|]. intros U. destruct (H2 U) as (F & V & C). cbn [sbody]. auto.
  - destruct H as (H1 & H2). split; [exact H1|]. intros U. destruct (H2 U) as (F & V & C & ->). cbn [sbody].
    pose proof (slice_range' k (nshift h n)) as Hi. split.
    + constructor; [|exact F]. split; [exact V|]. split; [exact C|]. cbn [fst snd]. lia.
    + exact (proj1 (vis_child h st w P Iv Pr SC U n _ V Hi)).
  - destruct H as (H1 & H2). destruct stk as [|(n & nib) stk].
    + split; [exact H1|]. intros U. exact I.
    + destruct (Z.ltb_spec 0 nib) as [L|L].
      * assert (X : remove_count h < w + DELETED_LIFE -> Forall (frame_ok h st P w) stk /\ vis h st w P (child h n (nib - 1)) /\
          local h (npath h n + (nib - 1) * 2 ^ nshift h n) (nshift h n) (child h n (nib - 1)) /\
          npath h n + (nib - 1) * 2 ^ nshift h n + 2 ^ nshift h n <= k /\ frame_ok h st P w (n, nib - 1) /\ local h 0 64 (PNode n) /\ 0 <= nib - 1 < 16).
        { intros U. pose proof (H2 U) as F. inversion F as [|? ? (V & C & Hn) F']; subst. cbn [fst snd] in *.
          pose proof (slice_range' k (nshift h n)) as Hi. assert (Hi' : 0 <= nib - 1 < 16) by lia.
          destruct (vis_child h st w P Iv Pr SC U n _ V Hi') as (V1 & V2 & _).
          pose proof (vis_node h st w P Iv U n V) as Lc.
          split; [exact F'|]. split; [exact V1|]. split; [exact V2|]. split; [apply (slot_before h n (nib - 1) Lc C); lia|].
          split; [split; [exact V|split; [exact C|cbn [fst snd]; lia]]|]. split; [exact Lc|exact Hi']. }
        destruct (child h n (nib - 1)) as [|x|m]; (split; [exact H1|]); intros U; destruct (X U) as (F & V & Lc & Hk & Ff & L0 & Hi); cbn [sbody].
        -- constructor; assumption.
        -- cbn [local] in Lc. split; [exact V|lia].
        -- split; [exact F|]. split; [exact V|]. split; [|lia]. unfold below.
           pose proof (slot_node h n (nib - 1) m L0 Hi Lc). lia.
      * split; [exact H1|]. intros U. pose proof (H2 U) as F. inversion F; subst. cbn [sbody]. assumption.
  - destruct H as (H1 & H2). destruct (Z.ltb_spec nib 0) as [L|L].
    + split; [exact H1|]. intros U. exact (proj1 (H2 U)).
    + destruct (child h n nib); (split; [exact H1|]); intros U; destruct (H2 U) as (F & V & B & Hn); cbn [sbody]; (split; [exact F|]); (split; [exact V|]); (split; [exact B|lia]).
  - destruct H as (H1 & H2).
    assert (X : remove_count h < w + DELETED_LIFE -> vis h st w P (child h n nib) /\
          local h (npath h n + nib * 2 ^ nshift h n) (nshift h n) (child h n nib) /\ local h 0 64 (PNode n) /\
          npath h n + nib * 2 ^ nshift h n + 2 ^ nshift h n <= k).
    { intros U. destruct (H2 U) as (F & V & B & Hn). destruct (vis_child h st w P Iv Pr SC U n nib V ltac:(lia)) as (V1 & V2 & _).
      pose proof (vis_node h st w P Iv U n V) as Lc. split; [exact V1|]. split; [exact V2|]. split; [exact Lc|].
      destruct Lc as ((A1 & A2 & A3 & A4) & A5). destruct (ival_child 0 64 (npath h n) (nshift h n) nib ival_top A1 A2 A3 A4 A5 ltac:(lia)) as (I2 & _).
      unfold below in B. rewrite Z.pow_add_r in B by lia. change (2 ^ 4) with 16 in B.
      pose proof (Z.pow_pos_nonneg 2 (nshift h n) ltac:(lia) A1). nia. }
    destruct (child h n nib) as [|x|m]; (split; [exact H1|]); intros U; destruct (H2 U) as (F & V & B & Hn); destruct (X U) as (V1 & Lc & L0 & Hk); cbn [sbody].
    + exact F.
    + cbn [local] in Lc. split; [exact V1|lia].
    + split; [exact F|]. split; [exact V1|]. split; [|lia]. unfold below. pose proof (slot_node h n nib m L0 ltac:(lia) Lc). lia.
  - destruct H as (H1 & H2). split; [exact H1|]. intros U. destruct (H2 U) as (V & L). cbn [sbody]. auto.
  - destruct H as (H1 & H2). split; [exact H1|]. intros U. destruct (H2 U) as (V & E & L). cbn [sbody answer_ok]. split; [|exact L].
    rewrite <- E. exact (vis_leaf h st w P Pr x V).
  - destruct H as (H1 & H2). assert (Wr : wrap (w + DELETED_LIFE) = w + DELETED_LIFE) by (apply wrap_id; unfold is_word, DELETED_LIFE in *; lia).
    rewrite Wr. destruct (Z.leb_spec (w + DELETED_LIFE) (remove_count h)) as [G|G]; [exact I|]. exact (H2 G).
  - exact H.
Qed.
End Step.

Lemma frames_env : forall h st h' st' w (P P' : Z -> word -> Prop), safe h st h' st' -> w <= remove_count h ->
  remove_count h' < w + DELETED_LIFE -> present h P -> some_child h -> (forall k v, P k v -> P' k v) ->
  forall stk, Forall (frame_ok h st P w) stk -> Forall (frame_ok h' st' P' w) stk.
Proof.
  intros h st h' st' w P P' Sf Hw U Pr SC Sub stk F. apply (Forall_impl _ (P := frame_ok h st P w)); [|exact F].
  intros (n & nib) (V & C & Hn). cbn [fst snd] in *. pose proof (vis_head h st h' st' w P _ Sf Hw U V) as Hd.
  split; [exact (vis_env h st h' st' w P P' Sf Hw U Pr SC Sub _ V)|]. split; [apply (same_head_covers h h' k _ Hd); exact C|].
  cbn in Hd |- *. destruct Hd as (_ & ->). exact Hn.
Qed.

Lemma find_env : forall h st h' st' (P P' : Z -> word -> Prop) pc, safe h st h' st' -> present h P -> some_child h -> (forall k v, P k v -> P' k v) ->
  sinv h st P pc -> sinv h' st' P' pc.
Proof.
  intros h st h' st' P P' pc Sf Pr SC Sub H. pose proof (s_rc _ _ _ _ Sf) as Rc. unfold sinv in *.
  assert (AO : forall r, answer_ok P r -> answer_ok P' r) by (intros [(a & v)|] X; [split; [apply Sub; apply X|apply X]|exact I]).
  assert (VE : forall w p, w <= remove_count h -> remove_count h' < w + DELETED_LIFE -> vis h st w P p -> vis h' st' w P' p).
  { intros w p Hw U. exact (vis_env h st h' st' w P P' Sf Hw U Pr SC Sub p). }
  assert (FE : forall w stk, w <= remove_count h -> remove_count h' < w + DELETED_LIFE -> Forall (frame_ok h st P w) stk -> Forall (frame_ok h' st' P' w) stk).
  { intros w stk Hw U. exact (frames_env h st h' st' w P P' Sf Hw U Pr SC Sub stk). }
  assert (HE : forall w p, w <= remove_count h -> remove_count h' < w + DELETED_LIFE -> vis h st w P p -> same_head h h' p).
  { intros w p Hw U. exact (vis_head h st h' st' w P p Sf Hw U). }
  destruct pc as [|w|w stk p|w stk n path|w stk n|w stk n|w stk n nib|w stk|w stk n nib|w stk n nib|w x|w x a|w r|r];
    cbn [wrapped started_at] in *; try exact I; try (exact (AO _ H)); destruct H as (H1 & H2); (split; [lia|]); intros U; specialize (H2 ltac:(lia)); cbn [sbody] in *.
  - exact I.
  - destruct H2 as (F & V). split; [apply FE|apply VE]; auto; lia.
  - destruct H2 as (F & V & ->). pose proof (HE w _ ltac:(lia) U V) as Hd. cbn in Hd.
    split; [apply FE; auto; lia|]. split; [apply VE; auto; lia|]. symmetry. apply Hd.
  - destruct H2 as (F & V & C). pose proof (HE w _ ltac:(lia) U V) as Hd.
    split; [apply FE; auto; lia|]. split; [apply VE; auto; lia|]. intros X. apply C. apply (same_head_covers h h' k _ Hd). exact X.
  - destruct H2 as (F & V & C). pose proof (HE w _ ltac:(lia) U V) as Hd.
    split; [apply FE; auto; lia|]. split; [apply VE; auto; lia|]. apply (same_head_covers h h' k _ Hd). exact C.
  - destruct H2 as (F & V & C & ->). pose proof (HE w _ ltac:(lia) U V) as Hd.
    split; [apply FE; auto; lia|]. split; [apply VE; auto; lia|]. split; [apply (same_head_covers h h' k _ Hd); exact C|].
    cbn in Hd. destruct Hd as (_ & ->). reflexivity.
  - apply FE; auto; lia.
  - destruct H2 as (F & V & B & Hn). pose proof (HE w _ ltac:(lia) U V) as Hd. cbn in Hd. destruct Hd as (E1 & E2).
    split; [apply FE; auto; lia|]. split; [apply VE; auto; lia|]. split; [unfold below in *; rewrite E1, E2; exact B|exact Hn].
  - destruct H2 as (F & V & B & Hn). pose proof (HE w _ ltac:(lia) U V) as Hd. cbn in Hd. destruct Hd as (E1 & E2).
    split; [apply FE; auto; lia|]. split; [apply VE; auto; lia|]. split; [unfold below in *; rewrite E1, E2; exact B|exact Hn].
  - destruct H2 as (V & L). pose proof (HE w _ ltac:(lia) U V) as Hd. cbn in Hd. split; [apply VE; auto; lia|lia].
  - destruct H2 as (V & E & L). pose proof (HE w _ ltac:(lia) U V) as Hd. cbn in Hd. split; [apply VE; auto; lia|]. split; [congruence|exact L].
  - exact (AO _ H2).
Qed.
End Find.
