(* The reader: what it may rely on while the writer changes the heap. *)
From Verif Require Import Base Model_Utils Proof_Utils Model_Critnib Proof_Critnib Spec_Map Model_CritnibConc Proof_CritnibConc.

(* ghost state of an object: M of [Retired M] is the value of remove_count during the
   removal that took it out of the tree *)
Inductive status := Fresh | Live | Retired (M : Z) | Freed | Mine.
Definition loose (h : heap) (s : status) : Prop :=
  match s with Live => False | Retired M => M + DELETED_LIFE <= remove_count h | _ => True end.

Record Inv (h : heap) (st : ptr -> status) : Prop := {
  i_wf : WF h;
  i_live : forall p, p <> PNull -> Reach h p -> st p = Live;
  i_ret : forall p M, st p = Retired M -> M <= remove_count h;
  i_kids : forall n M, st (PNode n) = Retired M -> remove_count h < M + DELETED_LIFE ->
    local h 0 64 (PNode n) /\
    forall i, 0 <= i < 16 -> child h n i = PNull \/
      (local h (npath h n + i * 2 ^ nshift h n) (nshift h n) (child h n i) /\
       (Reach h (child h n i) \/ exists M', st (child h n i) = Retired M' /\ M <= M')) }.

Definition same_head (h h' : heap) (p : ptr) : Prop :=
  match p with PNull => True | PLeaf x => lkey h' x = lkey h x | PNode n => npath h' n = npath h n /\ nshift h' n = nshift h n end.
Definition same_body (h h' : heap) (p : ptr) : Prop :=
  match p with PNull => True | PLeaf x => lval h' x = lval h x | PNode n => forall i, 0 <= i < 16 -> child h' n i = child h n i end.

(* what one store of the writer may do, as far as readers are concerned *)
Record safe (h : heap) (st : ptr -> status) (h' : heap) (st' : ptr -> status) : Prop := {
  s_pre : Inv h st; s_post : Inv h' st';
  s_rc : remove_count h <= remove_count h';
  s_head : forall p, Reach h p -> same_head h h' p;
  s_ret : forall p M, st p = Retired M -> remove_count h' < M + DELETED_LIFE ->
    st' p = Retired M /\ same_head h h' p /\ same_body h h' p;
  s_reach : forall p, p <> PNull -> Reach h p -> Reach h' p \/
    (st' p = Retired (remove_count h') /\ same_body h h' p /\
     match p with PNode n => forall i, 0 <= i < 16 -> child h n i <> PNull -> Reach h' (child h n i) | _ => True end) }.

Lemma same_head_covers : forall h h' k p, same_head h h' p -> (covers h' k p <-> covers h k p).
Proof. intros h h' k [|x|n] H; cbn in *; [tauto|rewrite H; tauto|destruct H as (-> & ->); tauto]. Qed.
Lemma covers_dec : forall h k p, {covers h k p} + {~ covers h k p}.
Proof.
  intros h k [|x|n]; cbn [covers].
  - right. tauto.
  - apply Z.eq_dec.
  - destruct (Z_le_gt_dec (npath h n) k) as [A|A]; [|right; lia].
    destruct (Z_lt_ge_dec k (npath h n + 2 ^ (nshift h n + 4))) as [B|B]; [left|right]; lia.
Qed.

(* what stands in a slot only covers keys the node covers *)
Lemma slot_covers : forall h lo S n i p k, ival lo S -> local h lo S (PNode n) -> 0 <= i < 16 ->
  local h (npath h n + i * 2 ^ nshift h n) (nshift h n) p -> covers h k p -> covers h k (PNode n).
Proof.
  intros h lo S n i p k HI ((A1 & A2 & A3 & A4) & A5) Hi Lc C.
  destruct (ival_child lo S (npath h n) (nshift h n) i HI A1 A2 A3 A4 A5 Hi) as (I2 & _ & _).
  assert (B : npath h n + i * 2 ^ nshift h n <= k < npath h n + i * 2 ^ nshift h n + 2 ^ nshift h n).
  { destruct p as [|x|n']; cbn [covers local] in *; [tauto|lia|].
    destruct Lc as ((B1 & B2 & B3 & B4) & B5).
    pose proof (node_fits _ _ (npath h n') (nshift h n' + 4) I2 ltac:(lia) B4 B5). lia. }
  cbn [covers]. rewrite shift_pow by exact A1. pose proof (pow2_pos (nshift h n) A1) as P. clear - B P Hi. nia.
Qed.

Section Reader.
Variable k : Z.
Hypothesis Wk : is_word k.

(* results the reader may give; what holds now is one of them *)
Definition now (h : heap) (S : option word -> Prop) : Prop :=
  (forall x, has h k x -> S (Some (lval h x))) /\ ((forall x, ~ has h k x) -> S None).

Section State.
Variables (h : heap) (st : ptr -> status) (w : Z) (S : option word -> Prop).

Definition guard (p : ptr) : Prop := p = PNull \/ Reach h p \/ exists M, st p = Retired M /\ w <= M.

Inductive on_track : ptr -> Prop :=
| P_live : forall p, Reach h p -> covers h k p -> on_track p
| P_avoid : forall p, S None -> guard p -> ~ covers h k p -> on_track p
| P_leaf : forall x M, st (PLeaf x) = Retired M -> w <= M -> lkey h x = k -> S (Some (lval h x)) -> on_track (PLeaf x)
| P_node : forall n M, st (PNode n) = Retired M -> w <= M -> covers h k (PNode n) ->
    on_track (child h n (slice_index k (nshift h n))) -> on_track (PNode n).

Definition at_value (x : Z) : Prop :=
  has h k x \/ exists M, st (PLeaf x) = Retired M /\ w <= M /\ lkey h x = k /\ S (Some (lval h x)).
End State.

Definition rinv (h : heap) (st : ptr -> status) (S : option word -> Prop) (pc : rpc) : Prop :=
  match pc with
  | RStart => True
  | RRoot w => 0 <= w <= remove_count h
  | RAt w p => 0 <= w <= remove_count h /\ (remove_count h < w + DELETED_LIFE -> on_track h st w S p)
  | RSlot w n sh => 0 <= w <= remove_count h /\ (remove_count h < w + DELETED_LIFE -> on_track h st w S (PNode n) /\ sh = nshift h n)
  | RVal w x => 0 <= w <= remove_count h /\ (remove_count h < w + DELETED_LIFE -> at_value h st w S x)
  | RRes w r => 0 <= w <= remove_count h /\ (remove_count h < w + DELETED_LIFE -> S r)
  | RDone r => S r
  end.

(* the pointer at a live place for the key *)
Lemma at_place : forall h st w S l lo S0, WF h -> now h S -> live h l lo S0 -> lo <= k < lo + 2 ^ S0 ->
  on_track h st w S (deref h l).
Proof.
  intros h st w S l lo S0 W (N1 & N2) L Hk. destruct (covers_dec h k (deref h l)) as [C|C].
  - apply P_live; [exists l, lo, S0; auto|exact C].
  - apply P_avoid; [|right; left; exists l, lo, S0; auto|exact C].
    apply N2. exact (walk_absent h l lo S0 k W L Hk C).
Qed.

Lemma load_child : forall h st w S n, Inv h st -> now h S -> remove_count h < w + DELETED_LIFE ->
  on_track h st w S (PNode n) -> on_track h st w S (child h n (slice_index k (nshift h n))).
Proof.
  intros h st w S n I N U T. inversion T as [p R C E|p SN G C E|x M0 E1 E2 E3 E4 E|n0 M0 E1 E2 E3 E4 E]; subst.
  - destruct R as (l & lo & S0 & L & E). pose proof (i_wf _ _ I _ _ _ L) as Lc. rewrite E in Lc.
    destruct (cover_slot h S0 n k (proj1 Lc) C) as (Hi & Hk).
    change (child h n (slice_index k (nshift h n))) with (deref h (LChild n (slice_index k (nshift h n)))).
    exact (at_place h st w S _ _ _ (i_wf _ _ I) N (live_child h l lo S0 n _ L E Hi) Hk).
  - set (i := slice_index k (nshift h n)). assert (Hi : 0 <= i < 16) by apply slice_range'.
    destruct G as [G|[(l & lo & S0 & L & E)|(M & Es & HM)]]; [discriminate| |].
    + pose proof (i_wf _ _ I _ _ _ L) as Lc. rewrite E in Lc.
      pose proof (live_child h l lo S0 n i L E Hi) as Lc2. pose proof (i_wf _ _ I _ _ _ Lc2) as Lc3. cbn [deref] in Lc3.
      apply P_avoid; [exact SN|right; left; exists (LChild n i), (npath h n + i * 2 ^ nshift h n), (nshift h n); split; [exact Lc2|reflexivity]|].
      intros C2. apply C. exact (slot_covers h lo S0 n i _ k (live_ival h (i_wf _ _ I) _ _ _ L) Lc Hi Lc3 C2).
    + destruct (i_kids _ _ I n M Es ltac:(lia)) as (Lc & K). destruct (K i Hi) as [E0|(Lc3 & K2)].
      * rewrite E0. apply P_avoid; [exact SN|left; reflexivity|cbn; tauto].
      * apply P_avoid; [exact SN| |].
        -- destruct K2 as [K2|(M' & K2 & K3)]; [right; left; exact K2|]. right. right. exists M'. split; [exact K2|lia].
        -- intros C2. apply C. exact (slot_covers h 0 64 n i _ k ival_top Lc Hi Lc3 C2).
  - exact E4.
Qed.

Lemma load_key : forall h st w S x, now h S -> on_track h st w S (PLeaf x) ->
  (lkey h x = k -> at_value h st w S x) /\ (lkey h x <> k -> S None).
Proof.
  intros h st w S x N T. inversion T as [p R C E|p SN G C E|x0 M0 E1 E2 E3 E4 E|n0 M0 E1 E2 E3 E4 E]; subst.
  - split; [|intros D; exfalso; exact (D C)]. intros K. left. split; [exact R|exact K].
  - split; [intros D; exfalso; exact (C D)|auto].
  - split; [|congruence]. intros _. right. exists M0. auto.
Qed.

Lemma load_null : forall h st w S, on_track h st w S PNull -> S None.
Proof.
  intros h st w S T. inversion T as [p R C E|p SN G C E|x0 M0 E1 E2 E3 E4 E|n0 M0 E1 E2 E3 E4 E]; subst.
  - destruct C.
  - exact SN.
Qed.

(* a load of the reader *)
Lemma reader_step : forall h st S pc, Inv h st -> now h S -> 0 <= remove_count h -> remove_count h + DELETED_LIFE < U64 ->
  rinv h st S pc -> rinv h st S (get_step h k pc).
Proof.
  intros h st S pc I N R0 R1 H. destruct pc as [|w|w p|w n sh|w x|w r|r]; cbn [get_step rinv] in *.
  - lia.
  - split; [exact H|]. intros U. change (root h) with (deref h LRoot).
    refine (at_place h st w S _ _ _ (i_wf _ _ I) N (live_root h) _). change (2 ^ 64) with U64. unfold is_word in Wk. lia.
  - destruct H as (H1 & H2). destruct p as [|x|n]; cbn [rinv].
    + split; [exact H1|]. intros U. exact (load_null _ _ _ _ (H2 U)).
    + destruct (Z.eqb_spec (lkey h x) k) as [E|E]; cbn [rinv]; (split; [exact H1|]); intros U;
        destruct (load_key h st w S x N (H2 U)) as (A & B); auto.
    + split; [exact H1|]. intros U. split; [exact (H2 U)|reflexivity].
  - destruct H as (H1 & H2). split; [exact H1|]. intros U. destruct (H2 U) as (T & ->). exact (load_child h st w S n I N U T).
  - destruct H as (H1 & H2). split; [exact H1|]. intros U. destruct (H2 U) as [Hx|(M & _ & _ & _ & E)]; [|exact E].
    apply (proj1 N). exact Hx.
  - destruct H as (H1 & H2).
    destruct (Z.leb_spec (wrap (w + DELETED_LIFE)) (remove_count h)) as [G|G]; cbn [rinv]; [exact Coq.Init.Logic.I|].
    apply H2. rewrite wrap_id in G; [exact G|]. unfold is_word, DELETED_LIFE in *. lia.
  - exact H.
Qed.

(* a store of the writer *)
Lemma guard_env : forall h st h' st' w p, safe h st h' st' -> w <= remove_count h -> remove_count h' < w + DELETED_LIFE ->
  guard h st w p -> guard h' st' w p /\ same_head h h' p.
Proof.
  intros h st h' st' w p Sf Hw U G. pose proof (s_rc _ _ _ _ Sf) as Rc.
  destruct G as [->|[R|(M & E & HM)]]; [split; [left; reflexivity|exact I]| |].
  - assert (D : p = PNull \/ p <> PNull) by (destruct p; [left; reflexivity|right; discriminate|right; discriminate]).
    destruct D as [->|D]; [split; [left; reflexivity|exact I]|].
    split; [|exact (s_head _ _ _ _ Sf p R)].
    destruct (s_reach _ _ _ _ Sf p D R) as [R'|(E & _)]; [right; left; exact R'|].
    right. right. exists (remove_count h'). split; [exact E|lia].
  - destruct (s_ret _ _ _ _ Sf p M E ltac:(lia)) as (A & B & _). split; [|exact B]. right. right. exists M. auto.
Qed.

Lemma track_env : forall h st h' st' w (S S' : option word -> Prop), safe h st h' st' -> w <= remove_count h ->
  remove_count h' < w + DELETED_LIFE -> now h S -> (forall r, S r -> S' r) -> now h' S' ->
  forall p, on_track h st w S p -> on_track h' st' w S' p.
Proof.
  intros h st h' st' w S S' Sf Hw U N Sub N' p T. pose proof (s_rc _ _ _ _ Sf) as Rc.
  induction T as [p R C|p SN G C|x M E1 E2 E3 E4|n M E1 E2 E3 E4 IH].
  - assert (D : p <> PNull) by (intros ->; destruct C).
    pose proof (s_head _ _ _ _ Sf p R) as Hd.
    destruct (s_reach _ _ _ _ Sf p D R) as [R'|(E & B & K)].
    + apply P_live; [exact R'|]. apply (same_head_covers h h' k p Hd). exact C.
    + destruct p as [|x|n]; [congruence| |].
      * cbn in Hd, B, C. apply (P_leaf _ _ _ _ _ _ E); [lia|congruence|]. rewrite B. apply Sub. apply (proj1 N). split; assumption.
      * assert (C' : covers h' k (PNode n)) by (apply (same_head_covers h h' k _ Hd); exact C).
        apply (P_node _ _ _ _ _ _ E); [lia|exact C'|]. cbn in Hd. destruct Hd as (_ & Es). rewrite Es.
        set (i := slice_index k (nshift h n)). assert (Hi : 0 <= i < 16) by apply slice_range'.
        rewrite (B i Hi). destruct R as (l & lo & S0 & L & El).
        pose proof (i_wf _ _ (s_pre _ _ _ _ Sf) _ _ _ L) as Lc. rewrite El in Lc.
        destruct (cover_slot h S0 n k (proj1 Lc) C) as (_ & Hk).
        pose proof (live_child h l lo S0 n i L El Hi) as Lch.
        destruct (covers_dec h k (child h n i)) as [Cc|Cc].
        -- assert (Dc : child h n i <> PNull) by (intros X; rewrite X in Cc; destruct Cc).
           apply P_live; [exact (K i Hi Dc)|].
           apply (same_head_covers h h' k _ (s_head _ _ _ _ Sf _ ltac:(exists (LChild n i), (npath h n + i * 2 ^ nshift h n), (nshift h n); split; [exact Lch|reflexivity]))). exact Cc.
        -- assert (Rc' : Reach h (child h n i)) by (exists (LChild n i), (npath h n + i * 2 ^ nshift h n), (nshift h n); split; [exact Lch|reflexivity]).
           apply P_avoid.
           ++ apply Sub. apply (proj2 N). exact (walk_absent h (LChild n i) _ _ k (i_wf _ _ (s_pre _ _ _ _ Sf)) Lch Hk Cc).
           ++ assert (Dd : child h n i = PNull \/ child h n i <> PNull) by (destruct (child h n i); [left; reflexivity|right; discriminate|right; discriminate]).
              destruct Dd as [Dd|Dd]; [left; exact Dd|right; left; exact (K i Hi Dd)].
           ++ intros X. apply Cc. apply (same_head_covers h h' k _ (s_head _ _ _ _ Sf _ Rc')). exact X.
  - destruct (guard_env h st h' st' w p Sf Hw U G) as (G' & Hd).
    apply P_avoid; [apply Sub; exact SN|exact G'|]. intros X. apply C. apply (same_head_covers h h' k p Hd). exact X.
  - destruct (s_ret _ _ _ _ Sf _ _ E1 ltac:(lia)) as (A & B & D). cbn in B, D.
    apply (P_leaf _ _ _ _ _ _ A); [exact E2|congruence|]. rewrite D. apply Sub. exact E4.
  - destruct (s_ret _ _ _ _ Sf _ _ E1 ltac:(lia)) as (A & B & D).
    apply (P_node _ _ _ _ _ _ A); [exact E2|apply (same_head_covers h h' k _ B); exact E3|].
    cbn in B, D. destruct B as (_ & B). rewrite B, D by apply slice_range'. exact IH.
Qed.

Lemma value_env : forall h st h' st' w (S S' : option word -> Prop) x, safe h st h' st' -> w <= remove_count h ->
  remove_count h' < w + DELETED_LIFE -> now h S -> (forall r, S r -> S' r) ->
  at_value h st w S x -> at_value h' st' w S' x.
Proof.
  intros h st h' st' w S S' x Sf Hw U N Sub V. pose proof (s_rc _ _ _ _ Sf) as Rc.
  destruct V as [(R & K)|(M & E & HM & K & V)].
  - pose proof (s_head _ _ _ _ Sf _ R) as Hd. cbn in Hd.
    destruct (s_reach _ _ _ _ Sf (PLeaf x) ltac:(discriminate) R) as [R'|(E & B & _)].
    + left. split; [exact R'|congruence].
    + right. exists (remove_count h'). cbn in B. rewrite B. split; [exact E|]. split; [lia|]. split; [congruence|].
      apply Sub. apply (proj1 N). split; assumption.
  - destruct (s_ret _ _ _ _ Sf _ _ E ltac:(lia)) as (A & B & D). cbn in B, D.
    right. exists M. rewrite D. split; [exact A|]. split; [exact HM|]. split; [congruence|]. apply Sub. exact V.
Qed.

Lemma reader_env : forall h st h' st' (S S' : option word -> Prop) pc, safe h st h' st' -> now h S -> (forall r, S r -> S' r) -> now h' S' ->
  rinv h st S pc -> rinv h' st' S' pc.
Proof.
  intros h st h' st' S S' pc Sf N Sub N' H. pose proof (s_rc _ _ _ _ Sf) as Rc.
  destruct pc as [|w|w p|w n sh|w x|w r|r]; cbn [rinv] in *; auto; try lia.
  - destruct H as (H1 & H2). split; [lia|]. intros U. apply (track_env h st h' st' w S S' Sf); try assumption; try lia. apply H2. lia.
  - destruct H as (H1 & H2). split; [lia|]. intros U. destruct (H2 ltac:(lia)) as (T & E).
    pose proof (track_env h st h' st' w S S' Sf ltac:(lia) U N Sub N' _ T) as T'. split; [exact T'|].
    inversion T as [p R C Ep|p SN G C Ep|x M0 E1 E2 E3 E4 Ep|n0 M0 E1 E2 E3 E4 Ep]; subst.
    + symmetry. exact (proj2 (s_head _ _ _ _ Sf _ R)).
    + symmetry. exact (proj2 (proj2 (guard_env h st h' st' w _ Sf ltac:(lia) U G))).
    + symmetry. exact (proj2 (proj1 (proj2 (s_ret _ _ _ _ Sf _ _ E1 ltac:(lia))))).
  - destruct H as (H1 & H2). split; [lia|]. intros U. apply (value_env h st h' st' w S S' x Sf); try assumption; try lia. apply H2. lia.
  - destruct H as (H1 & H2). split; [lia|]. intros U. apply Sub. apply H2. lia.
Qed.
End Reader.
