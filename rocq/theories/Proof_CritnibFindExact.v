(* The ordered lookup finds the neighbour if that does not change meanwhile. *)
From Verif Require Import Base Model_Utils Proof_Utils Model_Critnib Proof_Critnib Spec_Map
  Model_CritnibConc Proof_CritnibConc Proof_CritnibConcStep Proof_CritnibConcGet Proof_CritnibConcWrite Model_CritnibFind
  Proof_CritnibFind Proof_CritnibFindStep.

Section Exact.
Variables (k a : Z).
Hypothesis Wk : is_word k.
Hypothesis Wa : is_word a.
Hypothesis Hak : a <= k.

Section State.
Variables (h : heap) (st : ptr -> status) (S : option word -> Prop) (w : Z).
(* the neighbour is below the node of a waiting call, left of where the search went *)
Definition inA (stk : list (Z * Z)) : Prop :=
  exists top n nib rest, stk = top ++ (n, nib) :: rest /\ on_track a h st w S (PNode n) /\
  slice_index a (nshift h n) < nib /\ Forall (fun f => a < npath h (fst f)) top.
Definition far (p : ptr) : Prop := match p with PNull => True | PLeaf x => a < lkey h x | PNode n => a < npath h n end.
Definition ebody (pc : fpc) : Prop :=
  match pc with
  | FStart | FRoot _ => True
  | FAt _ stk p => on_track a h st w S p \/ (inA stk /\ far p)
  | FShift _ stk n _ | FCmp _ stk n | FNib _ stk n | FChild _ stk n _ => on_track a h st w S (PNode n) \/ (inA stk /\ a < npath h n)
  | FBack _ stk => inA stk
  | FPred _ stk n nib => (on_track a h st w S (PNode n) /\ slice_index a (nshift h n) <= nib) \/ (inA stk /\ a < npath h n)
  | FPred2 _ stk n nib => (on_track a h st w S (PNode n) /\ nib = slice_index a (nshift h n)) \/ (inA stk /\ a < npath h n)
  | FFound _ x => at_value a h st w S x
  | FVal _ x b => at_value a h st w S x /\ b = a
  | FRes _ r | FDone r => exists v, r = Some (a, v) /\ S (Some v)
  end.
End State.
Definition einv (h : heap) (st : ptr -> status) (S : option word -> Prop) (pc : fpc) : Prop := wrapped h (ebody h st S) pc.

Section Step.
Variables (h : heap) (st : ptr -> status) (P : Z -> word -> Prop) (S : option word -> Prop).
Hypothesis Iv : Inv h st.
Hypothesis Pr : present h P.
Hypothesis SC : some_child h.
Hypothesis R0 : 0 <= remove_count h.
Hypothesis R1 : remove_count h + DELETED_LIFE < U64.
Hypothesis Nw : now a h S.
Hypothesis NoS : ~ S None.
Hypothesis Near : forall b v, P b v -> b <= k -> b <= a.

Lemma track_covers : forall w n, on_track a h st w S (PNode n) -> covers h a (PNode n).
Proof.
  intros w n T. inversion T as [p R C E|p SN G C E|x M0 E1 E2 E3 E4 E|n0 M0 E1 E2 E3 E4 E]; subst; [exact C|exfalso; exact (NoS SN)|exact E3].
Qed.
Lemma track_leaf : forall w x, on_track a h st w S (PLeaf x) -> lkey h x = a /\ at_value a h st w S x.
Proof.
  intros w x T. destruct (load_key a h st w S x Nw T) as (A & B).
  destruct (Z.eq_dec (lkey h x) a) as [E|N]; [split; [exact E|exact (A E)]|exfalso; exact (NoS (B N))].
Qed.
Lemma track_null : forall w, ~ on_track a h st w S PNull.
Proof. intros w T. exact (NoS (load_null a h st w S T)). Qed.
Lemma value_key : forall w x, at_value a h st w S x -> lkey h x = a.
Proof. intros w x [(_ & E)|(M & _ & _ & E & _)]; exact E. Qed.
Lemma value_val : forall w x, at_value a h st w S x -> S (Some (lval h x)).
Proof. intros w x [X|(M & _ & _ & _ & X)]; [exact (proj1 Nw x X)|exact X]. Qed.

(* the slot of the neighbour *)
Lemma slot_a : forall n, local h 0 64 (PNode n) -> covers h a (PNode n) -> slot h n (slice_index a (nshift h n)) a.
Proof. intros n (A & _) C. exact (proj2 (cover_slot h 64 n a A C)). Qed.
Lemma slot_right : forall n i b, local h 0 64 (PNode n) -> covers h a (PNode n) -> slice_index a (nshift h n) < i ->
  npath h n + i * 2 ^ nshift h n <= b -> a < b.
Proof.
  intros n i b Lc C Hi Hb. pose proof (slot_a n Lc C) as X. unfold slot in X. destruct Lc as ((A1 & _) & _).
  pose proof (Z.pow_pos_nonneg 2 (nshift h n) ltac:(lia) A1). nia.
Qed.
Lemma slot_left : forall n i b, local h 0 64 (PNode n) -> 0 <= i -> npath h n + i * 2 ^ nshift h n <= b -> a < npath h n -> a < b.
Proof.
  intros n i b ((A1 & _) & _) Hi Hb Hn. pose proof (Z.pow_pos_nonneg 2 (nshift h n) ltac:(lia) A1). nia.
Qed.
Lemma local_far : forall n i p, local h 0 64 (PNode n) -> 0 <= i -> a < npath h n -> local h (npath h n + i * 2 ^ nshift h n) (nshift h n) p -> far h p.
Proof.
  intros n i [|x|m] Lc Hi Hn L; cbn [far local] in *; [exact I| |].
  - apply (slot_left n i _ Lc Hi); lia.
  - apply (slot_left n i _ Lc Hi); lia.
Qed.
Lemma local_right : forall n i p, local h 0 64 (PNode n) -> covers h a (PNode n) -> slice_index a (nshift h n) < i ->
  local h (npath h n + i * 2 ^ nshift h n) (nshift h n) p -> far h p.
Proof.
  intros n i [|x|m] Lc C Hi L; cbn [far local] in *; [exact I| |].
  - apply (slot_right n i _ Lc C Hi); lia.
  - apply (slot_right n i _ Lc C Hi); lia.
Qed.
Lemma far_leaf : forall w x, vis h st w P (PLeaf x) -> lkey h x <= k -> a < lkey h x -> False.
Proof. intros w x V L F. pose proof (Near _ _ (vis_leaf h st w P Pr x V) L). lia. Qed.

Lemma slices_le : forall n, local h 0 64 (PNode n) -> covers h a (PNode n) -> covers h k (PNode n) ->
  slice_index a (nshift h n) <= slice_index k (nshift h n).
Proof.
  intros n Lc C1 C2. pose proof (slot_a n Lc C1) as X. destruct Lc as (Lc & _). destruct (cover_slot h 64 n k Lc C2) as (_ & Y).
  unfold slot in X. destruct Lc as (A1 & _). pose proof (Z.pow_pos_nonneg 2 (nshift h n) ltac:(lia) A1). nia.
Qed.

Lemma inA_pop : forall w n nib stk, inA h st S w ((n, nib) :: stk) ->
  (on_track a h st w S (PNode n) /\ slice_index a (nshift h n) < nib) \/ (a < npath h n /\ inA h st S w stk).
Proof.
  intros w n nib stk (top & n1 & nib1 & rest & E & T & Hn & F). destruct top as [|f top]; cbn [app] in E; inversion E; subst.
  - left. auto.
  - right. inversion F; subst. split; [assumption|]. exists top, n1, nib1, rest. auto.
Qed.
Lemma inA_push : forall w n nib stk, a < npath h n -> inA h st S w stk -> inA h st S w ((n, nib) :: stk).
Proof.
  intros w n nib stk Hn (top & n1 & nib1 & rest & -> & T & H1 & F). exists ((n, nib) :: top), n1, nib1, rest.
  split; [reflexivity|]. split; [exact T|]. split; [exact H1|]. constructor; assumption.
Qed.

Lemma exact_step : forall pc, sinv k h st P pc -> einv h st S pc -> einv h st S (find_step h k pc).
Proof.
  intros pc HS H. unfold einv, sinv in *.
  destruct pc as [|w|w stk p|w stk n path|w stk n|w stk n|w stk n nib|w stk|w stk n nib|w stk n nib|w x|w x b|w r|r];
    cbn [wrapped started_at find_step] in *.
  - split; [lia|]. intros _. exact I.
  - destruct H as (H1 & _). split; [exact H1|]. intros U. cbn [ebody]. left. change (root h) with (deref h LRoot).
    refine (at_place a h st w S LRoot 0 64 (i_wf _ _ Iv) Nw (live_root h) _). change (2 ^ 64) with U64. unfold is_word in Wa. lia.
  - destruct H as (H1 & H2), HS as (_ & HS). destruct p as [|x|n].
    + split; [exact H1|]. intros U. cbn [ebody]. destruct (H2 U) as [T|(A & _)]; [exfalso; exact (track_null w T)|exact A].
    + destruct (Z.leb_spec (lkey h x) k) as [L|L]; (split; [exact H1|]); intros U; cbn [ebody]; destruct (H2 U) as [T|(A & F)].
      * exact (proj2 (track_leaf w x T)).
      * exfalso. destruct (HS U) as (_ & V). exact (far_leaf w x V L F).
      * exfalso. destruct (track_leaf w x T) as (E & _). lia.
      * exact A.
    + split; [exact H1|]. intros U. exact (H2 U).
  - destruct H as (H1 & H2). destruct (outside k path (nshift h n)); (split; [exact H1|]); intros U; exact (H2 U).
  - destruct H as (H1 & H2), HS as (_ & HS). destruct (Z.ltb_spec (npath h n) k) as [L|L]; (split; [exact H1|]); intros U; cbn [ebody]; destruct (H2 U) as [T|(A & F)].
    + left. split; [exact T|]. pose proof (slice_range' a (nshift h n)). lia.
    + right. auto.
    + exfalso. destruct (HS U) as (_ & V & C). apply C. pose proof (track_covers w n T) as Ca. cbn [covers] in *. lia.
    + exact A.
  - destruct H as (H1 & H2). split; [exact H1|]. intros U. exact (H2 U).
  - destruct H as (H1 & H2), HS as (_ & HS). split; [exact H1|]. intros U. cbn [ebody]. destruct (HS U) as (_ & V & C & ->).
    pose proof (slice_range' k (nshift h n)) as Hi. pose proof (vis_node h st w P Iv U n V) as Lc.
    destruct (vis_child h st w P Iv Pr SC U n _ V Hi) as (_ & Lch & _).
    destruct (H2 U) as [T|(A & F)].
    + pose proof (track_covers w n T) as Ca. pose proof (slices_le n Lc Ca C) as Le.
      destruct (Z.eq_dec (slice_index a (nshift h n)) (slice_index k (nshift h n))) as [E|N].
      * left. rewrite <- E. exact (load_child a h st w S n Iv Nw U T).
      * right. split; [exists [], n, (slice_index k (nshift h n)), stk; split; [reflexivity|split; [exact T|split; [lia|constructor]]]|].
        apply (local_right n _ _ Lc Ca) with (2 := Lch). lia.
    + right. split; [apply inA_push; assumption|]. apply (local_far n _ _ Lc) with (3 := Lch); [lia|exact F].
  - destruct H as (H1 & H2), HS as (_ & HS). destruct stk as [|(n & nib) stk].
    + split; [exact H1|]. intros U. exfalso. destruct (H2 U) as (top & n & nib & rest & E & _). destruct top; discriminate.
    + destruct (Z.ltb_spec 0 nib) as [L|L].
      * assert (X : remove_count h < w + DELETED_LIFE -> local h 0 64 (PNode n) /\ 0 <= nib - 1 < 16 /\ nib - 1 < slice_index k (nshift h n) /\ covers h k (PNode n) /\
           vis h st w P (child h n (nib - 1)) /\ local h (npath h n + (nib - 1) * 2 ^ nshift h n) (nshift h n) (child h n (nib - 1)) /\
           (child h n (nib - 1) <> PNull -> exists b v, slot h n (nib - 1) b /\ P b v)).
        { intros U. pose proof (HS U) as F. inversion F as [|? ? (V & C & Hn) F']; subst. cbn [fst snd] in *.
          pose proof (slice_range' k (nshift h n)) as Hi. assert (Hi' : 0 <= nib - 1 < 16) by lia.
          pose proof (vis_child h st w P Iv Pr SC U n _ V Hi') as (V1 & V2 & V3).
          split; [exact (vis_node h st w P Iv U n V)|]. split; [exact Hi'|]. split; [lia|]. split; [exact C|]. auto. }
        assert (Y : remove_count h < w + DELETED_LIFE ->
          (on_track a h st w S (PNode n) /\ nib - 1 = slice_index a (nshift h n) /\ on_track a h st w S (child h n (nib - 1))) \/
          (child h n (nib - 1) = PNull /\ inA h st S w ((n, nib - 1) :: stk)) \/
          (a < npath h n /\ inA h st S w stk /\ far h (child h n (nib - 1)))).
        { intros U. destruct (X U) as (Lc & Hi & Hk & C & V & Lch & Wt). destruct (inA_pop w n nib stk (H2 U)) as [(T & Hn)|(F & A)].
          - pose proof (track_covers w n T) as Ca. destruct (Z.eq_dec (nib - 1) (slice_index a (nshift h n))) as [E|N].
            + left. split; [exact T|]. split; [exact E|]. rewrite E. exact (load_child a h st w S n Iv Nw U T).
            + right. left. split.
              * destruct (child h n (nib - 1)) eqn:Ec; [reflexivity| |]; exfalso;
                  (destruct Wt as (b & v & Sb & Pb); [discriminate|]); pose proof (slot_before k h n (nib - 1) Lc C ltac:(lia)) as Hk'; unfold slot in Sb;
                  pose proof (Near b v Pb ltac:(lia)); pose proof (slot_right n (nib - 1) b Lc Ca ltac:(lia) ltac:(lia)); lia.
              * exists [], n, (nib - 1), stk. split; [reflexivity|]. split; [exact T|]. split; [lia|constructor].
          - right. right. split; [exact F|]. split; [exact A|]. exact (local_far n (nib - 1) _ Lc ltac:(lia) F Lch). }
        destruct (child h n (nib - 1)) as [|x|m]; (split; [exact H1|]); intros U; destruct (X U) as (Lc & Hi & Hk & C & V & Lch & Wt);
          destruct (Y U) as [(T & E & T')|[(E & A)|(F & A & F')]]; cbn [ebody]; try discriminate.
        -- exfalso. exact (track_null w T').
        -- exact A.
        -- apply inA_push; assumption.
        -- exact (proj2 (track_leaf w x T')).
        -- exfalso. apply (far_leaf w x V); [|exact F']. pose proof (slot_before k h n (nib - 1) Lc C ltac:(lia)). cbn [local] in Lch. lia.
        -- left. split; [exact T'|]. pose proof (slice_range' a (nshift h m)). lia.
        -- right. split; [exact A|exact F'].
      * split; [exact H1|]. intros U. cbn [ebody]. destruct (inA_pop w n nib stk (H2 U)) as [(T & Hn)|(F & A)]; [|exact A].
        exfalso. pose proof (slice_range' a (nshift h n)). lia.
  - destruct H as (H1 & H2), HS as (_ & HS). destruct (Z.ltb_spec nib 0) as [L|L].
    + split; [exact H1|]. intros U. cbn [ebody]. destruct (H2 U) as [(T & Hn)|(A & F)]; [|exact A].
      exfalso. pose proof (slice_range' a (nshift h n)). lia.
    + assert (Y : remove_count h < w + DELETED_LIFE -> on_track a h st w S (PNode n) -> slice_index a (nshift h n) <= nib ->
        (nib = slice_index a (nshift h n) /\ on_track a h st w S (child h n nib)) \/ (child h n nib = PNull /\ slice_index a (nshift h n) <= nib - 1)).
      { intros U T Hn. destruct (HS U) as (_ & V & B & Hb). pose proof (track_covers w n T) as Ca. pose proof (vis_node h st w P Iv U n V) as Lc.
        destruct (vis_child h st w P Iv Pr SC U n nib V ltac:(lia)) as (_ & Lch & Wt).
        destruct (Z.eq_dec nib (slice_index a (nshift h n))) as [E|N].
        - left. split; [exact E|]. rewrite E. exact (load_child a h st w S n Iv Nw U T).
        - right. split; [|lia]. destruct (child h n nib) eqn:Ec; [reflexivity| |]; exfalso;
            (destruct Wt as (b & v & Sb & Pb); [discriminate|]); unfold slot in Sb;
            (assert (Hk' : b <= k) by (clear - Sb B Hb L Lc; unfold below in B; destruct Lc as ((A1 & _) & _); rewrite Z.pow_add_r in B by lia; change (2 ^ 4) with 16 in B;
               pose proof (Z.pow_pos_nonneg 2 (nshift h n) ltac:(lia) A1); nia));
            pose proof (Near b v Pb Hk'); pose proof (slot_right n nib b Lc Ca ltac:(lia) ltac:(lia)); lia. }
      destruct (child h n nib) as [|x|m]; (split; [exact H1|]); intros U; cbn [ebody]; destruct (H2 U) as [(T & Hn)|(A & F)].
      * destruct (Y U T Hn) as [(E & T')|(_ & E)]; [exfalso; exact (track_null w T')|]. left. auto.
      * right. auto.
      * destruct (Y U T Hn) as [(E & T')|(E & _)]; [|discriminate]. left. auto.
      * right. auto.
      * destruct (Y U T Hn) as [(E & T')|(E & _)]; [|discriminate]. left. auto.
      * right. auto.
  - destruct H as (H1 & H2), HS as (_ & HS).
    assert (Y : remove_count h < w + DELETED_LIFE -> on_track a h st w S (child h n nib) \/
       (inA h st S w stk /\ far h (child h n nib) /\ vis h st w P (child h n nib) /\ local h (npath h n + nib * 2 ^ nshift h n) (nshift h n) (child h n nib) /\
        npath h n + nib * 2 ^ nshift h n + 2 ^ nshift h n <= k)).
    { intros U. destruct (HS U) as (_ & V & B & Hb). pose proof (vis_node h st w P Iv U n V) as Lc.
      destruct (vis_child h st w P Iv Pr SC U n nib V ltac:(lia)) as (V1 & Lch & _). destruct (H2 U) as [(T & Hn)|(A & F)].
      - left. rewrite Hn. exact (load_child a h st w S n Iv Nw U T).
      - right. split; [exact A|]. split; [exact (local_far n nib _ Lc ltac:(lia) F Lch)|]. split; [exact V1|]. split; [exact Lch|].
        clear - B Hb Lc. unfold below in B; destruct Lc as ((A1 & _) & _); rewrite Z.pow_add_r in B by lia; change (2 ^ 4) with 16 in B;
               pose proof (Z.pow_pos_nonneg 2 (nshift h n) ltac:(lia) A1); nia. }
    destruct (child h n nib) as [|x|m]; (split; [exact H1|]); intros U; cbn [ebody]; destruct (Y U) as [T|(A & F & V & Lch & Hk)].
    + exfalso. exact (track_null w T).
    + exact A.
    + exact (proj2 (track_leaf w x T)).
    + exfalso. apply (far_leaf w x V); [cbn [local] in Lch; lia|exact F].
    + left. split; [exact T|]. pose proof (slice_range' a (nshift h m)). lia.
    + right. auto.
  - destruct H as (H1 & H2). split; [exact H1|]. intros U. cbn [ebody]. split; [exact (H2 U)|exact (value_key w x (H2 U))].
  - destruct H as (H1 & H2). split; [exact H1|]. intros U. cbn [ebody]. destruct (H2 U) as (V & ->). exists (lval h x). split; [reflexivity|exact (value_val w x V)].
  - destruct H as (H1 & H2). assert (Wr : wrap (w + DELETED_LIFE) = w + DELETED_LIFE) by (apply wrap_id; unfold is_word, DELETED_LIFE in *; lia).
    rewrite Wr. destruct (Z.leb_spec (w + DELETED_LIFE) (remove_count h)) as [G|G]; [exact I|]. exact (H2 G).
  - exact H.
Qed.
End Step.

(* the nodes the invariant speaks of keep their path *)
Lemma inA_env : forall h st h' st' w (P : Z -> word -> Prop) (S S' : option word -> Prop) stk, safe h st h' st' -> w <= remove_count h ->
  remove_count h' < w + DELETED_LIFE -> now a h S -> (forall r, S r -> S' r) -> now a h' S' -> Forall (frame_ok k h st P w) stk ->
  inA h st S w stk -> inA h' st' S' w stk.
Proof.
  intros h st h' st' w P S S' stk Sf Hw U N Sub N' F (top & n & nib & rest & E & T & Hn & Ft). exists top, n, nib, rest.
  split; [exact E|]. rewrite E in F. apply Forall_app in F. destruct F as (F1 & F2). inversion F2 as [|? ? (V & _ & _) _]; subst. cbn [fst] in V.
  pose proof (vis_head h st h' st' w P _ Sf Hw U V) as Hd. cbn in Hd. destruct Hd as (_ & Es).
  split; [exact (track_env a h st h' st' w S S' Sf Hw U N Sub N' _ T)|]. split; [rewrite Es; exact Hn|].
  apply Forall_forall. intros f Hf. pose proof (proj1 (Forall_forall _ _) Ft f Hf) as X. destruct (proj1 (Forall_forall _ _) F1 f Hf) as (V1 & _).
  pose proof (vis_head h st h' st' w P _ Sf Hw U V1) as Hd. cbn in Hd, X |- *. destruct Hd as (-> & _). exact X.
Qed.
Lemma exact_env : forall h st h' st' (P : Z -> word -> Prop) (S S' : option word -> Prop) pc, safe h st h' st' ->
  now a h S -> (forall r, S r -> S' r) -> now a h' S' -> sinv k h st P pc -> einv h st S pc -> einv h' st' S' pc.
Proof.
  intros h st h' st' P S S' pc Sf N Sub N' HS H. pose proof (s_rc _ _ _ _ Sf) as Rc. unfold sinv, einv in *.
  assert (TE : forall w p, w <= remove_count h -> remove_count h' < w + DELETED_LIFE -> on_track a h st w S p -> on_track a h' st' w S' p).
  { intros w p Hw U. exact (track_env a h st h' st' w S S' Sf Hw U N Sub N' p). }
  assert (AE : forall w stk, w <= remove_count h -> remove_count h' < w + DELETED_LIFE -> Forall (frame_ok k h st P w) stk -> inA h st S w stk -> inA h' st' S' w stk).
  { intros w stk Hw U F. exact (inA_env h st h' st' w P S S' stk Sf Hw U N Sub N' F). }
  assert (HE : forall w p, w <= remove_count h -> remove_count h' < w + DELETED_LIFE -> vis h st w P p -> same_head h h' p).
  { intros w p Hw U. exact (vis_head h st h' st' w P p Sf Hw U). }
  assert (VE : forall w x, w <= remove_count h -> remove_count h' < w + DELETED_LIFE -> at_value a h st w S x -> at_value a h' st' w S' x).
  { intros w x Hw U. exact (value_env a h st h' st' w S S' x Sf Hw U N Sub). }
  assert (RE : forall r, (exists v, r = Some (a, v) /\ S (Some v)) -> exists v, r = Some (a, v) /\ S' (Some v)).
  { intros r (v & E & X). exists v. auto. }
  destruct pc as [|w|w stk p|w stk n path|w stk n|w stk n|w stk n nib|w stk|w stk n nib|w stk n nib|w x|w x b|w r|r];
    cbn [wrapped started_at] in *; try exact I; try (exact (RE _ H)); destruct H as (H1 & H2), HS as (_ & HS); (split; [lia|]); intros U;
    specialize (H2 ltac:(lia)); specialize (HS ltac:(lia)); cbn [ebody sbody] in *.
  - exact I.
  - destruct HS as (F & V). pose proof (HE w _ ltac:(lia) U V) as Hd. destruct H2 as [T|(A & Fr)]; [left; apply TE; auto; lia|].
    right. split; [apply AE; auto; lia|]. destruct p as [|x|n]; cbn in *; [exact I|lia|]. destruct Hd as (-> & _). exact Fr.
  - destruct HS as (F & V & _). pose proof (HE w _ ltac:(lia) U V) as Hd. destruct H2 as [T|(A & Fr)]; [left; apply TE; auto; lia|].
    right. split; [apply AE; auto; lia|]. cbn in Hd. destruct Hd as (-> & _). exact Fr.
  - destruct HS as (F & V & _). pose proof (HE w _ ltac:(lia) U V) as Hd. destruct H2 as [T|(A & Fr)]; [left; apply TE; auto; lia|].
    right. split; [apply AE; auto; lia|]. cbn in Hd. destruct Hd as (-> & _). exact Fr.
  - destruct HS as (F & V & _). pose proof (HE w _ ltac:(lia) U V) as Hd. destruct H2 as [T|(A & Fr)]; [left; apply TE; auto; lia|].
    right. split; [apply AE; auto; lia|]. cbn in Hd. destruct Hd as (-> & _). exact Fr.
  - destruct HS as (F & V & _). pose proof (HE w _ ltac:(lia) U V) as Hd. destruct H2 as [T|(A & Fr)]; [left; apply TE; auto; lia|].
    right. split; [apply AE; auto; lia|]. cbn in Hd. destruct Hd as (-> & _). exact Fr.
  - apply AE; auto; lia.
  - destruct HS as (F & V & _). pose proof (HE w _ ltac:(lia) U V) as Hd. cbn in Hd. destruct Hd as (E1 & E2).
    rewrite E1, E2. destruct H2 as [(T & Hn)|(A & Fr)]; [left; split; [apply TE; auto; lia|exact Hn]|right; split; [apply AE; auto; lia|exact Fr]].
  - destruct HS as (F & V & _). pose proof (HE w _ ltac:(lia) U V) as Hd. cbn in Hd. destruct Hd as (E1 & E2).
    rewrite E1, E2. destruct H2 as [(T & Hn)|(A & Fr)]; [left; split; [apply TE; auto; lia|exact Hn]|right; split; [apply AE; auto; lia|exact Fr]].
  - apply VE; auto; lia.
  - destruct H2 as (V & E). split; [apply VE; auto; lia|exact E].
  - exact (RE _ H2).
Qed.
End Exact.
