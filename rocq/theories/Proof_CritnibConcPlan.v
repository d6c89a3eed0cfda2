(* Whole operations of the writer. *)
From Verif Require Import Base Model_Utils Proof_Utils Model_Critnib Proof_Critnib Spec_Map
  Model_CritnibConc Proof_CritnibConc Proof_CritnibConcStep Proof_CritnibConcGet Proof_CritnibConcWrite Proof_CritnibConcOps.

Lemma script_weaken : forall m mf h st ss h' st', contents h m -> script m m h st ss h' st' -> script m mf h st ss h' st'.
Proof.
  intros m mf h st ss h' st' C S. induction S as [|h st s st1 ss h2 st2 A B D S IH]; [apply sc_nil|].
  assert (C' : contents (apply h s) m) by tauto. eapply sc_cons; [eassumption|tauto|exact D|exact (IH C')].
Qed.

Lemma contents_ext : forall h m m', (forall k, m k = m' k) -> contents h m -> contents h m'.
Proof. intros h m m' E (C1 & C2). split; [|exact C2]. intros k v. rewrite <- E. apply C1. Qed.

Lemma still_back : forall h h' m, still h h' -> contents h' m -> contents h m.
Proof.
  intros h h' m St (C1 & C2). pose proof (still_reach h h' St) as R. destruct St as (_ & _ & A3 & A4).
  assert (Hh : forall k x, has h' k x <-> has h k x).
  { intros k x. unfold has. rewrite R. split; intros (X & Y); (split; [exact X|]); pose proof (A3 _ X) as Z; cbn in Z; congruence. }
  split.
  - intros k v. rewrite C1. split; intros (x & X & Y); exists x.
    + apply Hh in X. split; [exact X|]. rewrite <- (A4 x (proj1 X)). exact Y.
    + split; [apply Hh; exact X|]. rewrite (A4 x (proj1 X)). exact Y.
  - intros k x X. destruct (C2 k x (proj2 (Hh k x) X)) as (v & E). exists v. rewrite <- (A4 x (proj1 X)). exact E.
Qed.

(* an operation carried out *)
Definition Done (h : heap) (st : ptr -> status) (m : amap (V := Z)) (o : op Z) (r : out Z) (ss : list store) : Prop :=
  exists st' mf, allowed m o r mf /\ script m mf h st ss (applys h ss) st' /\ Good (applys h ss) st' (-1) (-1) mf.

(* a phase, then one last store *)
Lemma done_last : forall h st m o r ss s st1 e f st' mf, Phase m h st ss st1 e f ->
  safe (applys h ss) st1 (apply (applys h ss) s) st' -> Good (apply (applys h ss) s) st' (-1) (-1) mf -> allowed m o r mf ->
  Done h st m o r (ss ++ [s]).
Proof.
  intros h st m o r ss s st1 e f st' mf (P1 & P2 & P3) Sf G A. exists st', mf. split; [exact A|].
  rewrite applys_app. cbn [applys fold_left]. fold (applys h ss). split; [|exact G].
  eapply script_app; [exact (script_weaken _ _ _ _ _ _ _ (still_back _ _ _ P3 (proj1 (proj2 P2))) P1)|]. apply script_one; [exact Sf|right; apply G|apply two_some; apply G].
Qed.
Lemma done_phase : forall h st m o r ss st1, Phase m h st ss st1 (-1) (-1) -> allowed m o r m -> Done h st m o r ss.
Proof. intros h st m o r ss st1 (P1 & P2 & P3) A. exists st1, m. auto. Qed.
Lemma done_after : forall h st m o r ss ss' st1 e f, Phase m h st ss st1 e f -> Done (applys h ss) st1 m o r ss' -> Done h st m o r (ss ++ ss').
Proof.
  intros h st m o r ss ss' st1 e f (P1 & P2 & P3) (st' & mf & A & S & G). exists st', mf. rewrite applys_app.
  split; [exact A|]. split; [|exact G]. eapply script_app; [exact (script_weaken _ _ _ _ _ _ _ (still_back _ _ _ P3 (proj1 (proj2 P2))) P1)|exact S].
Qed.

Lemma top_interval : forall key, is_word key -> 0 <= key < 0 + 2 ^ 64.
Proof. intros key H. change (2 ^ 64) with U64. unfold is_word in H. lia. Qed.

Lemma match_covers : forall h lo S n key, ival lo S -> local h lo S (PNode n) -> is_word key ->
  (Z.land key (path_mask (nshift h n)) =? npath h n) = true <-> covers h key (PNode n).
Proof.
  intros h lo S n key (A1 & _) ((B1 & B2 & B3 & B4) & B5) Wk. rewrite Z.eqb_eq. cbn [covers]. apply path_match; [exact Wk|lia|exact B4].
Qed.

Lemma descend_spec : forall f h key l lo S prev, WF h -> is_word key -> live h l lo S -> lo <= key < lo + 2 ^ S -> S < 4 * Z.of_nat f ->
  exists parent prev' lo' S', descend f h key l prev = Some (deref h parent, parent, prev') /\
    live h parent lo' S' /\ lo' <= key < lo' + 2 ^ S' /\
    (forall n, deref h parent = PNode n -> ~ covers h key (PNode n)) /\
    ((parent = l /\ prev' = prev) \/ exists q, prev' = Some q /\ parent = LChild q (slice_index key (nshift h q))).
Proof.
  induction f as [|f IH]; intros h key l lo S prev W Wk L Hk Hf.
  - exfalso. pose proof (live_ival h W _ _ _ L) as (A & _). lia.
  - cbn [descend]. destruct (deref h l) as [|x|n] eqn:E.
    + exists l, prev, lo, S. rewrite E. repeat split; try assumption; try lia; try discriminate. left; auto.
    + exists l, prev, lo, S. rewrite E. repeat split; try assumption; try lia; try discriminate. left; auto.
    + pose proof (W _ _ _ L) as Lc. rewrite E in Lc.
      pose proof (match_covers h lo S n key (live_ival h W _ _ _ L) Lc Wk) as MC.
      destruct (Z.land key (path_mask (nshift h n)) =? npath h n) eqn:Em.
      * destruct (cover_slot h S n key (proj1 Lc) (proj1 MC eq_refl)) as (Hi & Hk').
        destruct (IH h key (LChild n (slice_index key (nshift h n))) _ _ (Some n) W Wk (live_child h l lo S n _ L E Hi) Hk') as (pa & pv & lo' & S' & D1 & D2 & D3 & D4 & D5).
        { destruct Lc as ((B1 & B2 & B3 & B4) & B5). lia. }
        exists pa, pv, lo', S'. split; [exact D1|]. split; [exact D2|]. split; [exact D3|]. split; [exact D4|].
        right. destruct D5 as [(-> & ->)|D5]; [|exact D5]. exists n. auto.
      * exists l, prev, lo, S. rewrite E. split; [reflexivity|]. split; [exact L|]. split; [exact Hk|].
        split; [|left; auto]. intros n0 X. injection X as <-. intros C. apply MC in C. congruence.
Qed.

(* our own node is filled in *)
Lemma phase_mine_list : forall m ss h st en el p, Good h st en el m -> p <> PNull -> st p = Mine -> (forall s, In s ss -> touched s = p) ->
  Phase m h st ss st en el.
Proof.
  intros m ss. induction ss as [|s ss IH]; intros h st en el p G Hp Hm Ht; [apply phase_nil; exact G|].
  pose proof (Ht s (or_introl eq_refl)) as Es.
  pose proof (phase_mine m h st s en el G ltac:(congruence) ltac:(congruence)) as P1.
  change (s :: ss) with ([s] ++ ss). eapply phase_app; [exact P1|]. apply (IH _ _ _ _ p); [apply P1|exact Hp|exact Hm|].
  intros s0 H0. apply Ht. right. exact H0.
Qed.

Lemma apply_child : forall h n i q n' i', child (apply h (SChild n i q)) n' i' = if (n' =? n) && (i' =? i) then q else child h n' i'.
Proof. intros [r c p s k v dn dl pn pl rc nn nl] n i q n' i'. reflexivity. Qed.
Lemma fill_nulls : forall l h m n i, child (applys h (map (fun i => SChild m i PNull) l)) n i =
  if (n =? m) && existsb (Z.eqb i) l then PNull else child h n i.
Proof.
  induction l as [|a l IH]; intros h m n i; cbn [map existsb].
  - cbn [applys fold_left]. rewrite andb_false_r. reflexivity.
  - cbn [applys fold_left]. change (fold_left apply (map (fun i0 => SChild m i0 PNull) l) (apply h (SChild m a PNull))) with (applys (apply h (SChild m a PNull)) (map (fun i0 => SChild m i0 PNull) l)).
    rewrite IH, apply_child. destruct (n =? m), (i =? a), (existsb (Z.eqb i) l); reflexivity.
Qed.
Lemma nulls_keep : forall l h m, let h' := applys h (map (fun i => SChild m i PNull) l) in
  root h' = root h /\ npath h' = npath h /\ nshift h' = nshift h /\ lkey h' = lkey h /\ lval h' = lval h.
Proof.
  induction l as [|a l IH]; intros h m h'; [repeat split; reflexivity|]. unfold h'. cbn [map applys fold_left].
  change (fold_left apply (map (fun i0 => SChild m i0 PNull) l) (apply h (SChild m a PNull))) with (applys (apply h (SChild m a PNull)) (map (fun i0 => SChild m i0 PNull) l)).
  destruct (IH (apply h (SChild m a PNull)) m) as (A1 & A2 & A3 & A4 & A5). rewrite A1, A2, A3, A4, A5. destruct h; repeat split; reflexivity.
Qed.

Lemma in_existsb : forall i, 0 <= i < 16 -> existsb (Z.eqb i) slots = true.
Proof. intros i Hi. apply existsb_exists. exists i. split; [apply in_slots; exact Hi|apply Z.eqb_refl]. Qed.

Lemma fill_spec : forall h m kx key path sh n, let h' := applys h (fill m kx key path sh n) in
  slice_index key sh <> slice_index path sh ->
  child h' m (slice_index key sh) = PLeaf kx /\ child h' m (slice_index path sh) = n /\
  (forall i, 0 <= i < 16 -> i <> slice_index key sh -> i <> slice_index path sh -> child h' m i = PNull) /\
  (forall n' i, n' <> m -> child h' n' i = child h n' i) /\ root h' = root h /\
  nshift h' m = sh /\ npath h' m = Z.land key (path_mask sh) /\ (forall n', n' <> m -> npath h' n' = npath h n' /\ nshift h' n' = nshift h n') /\
  lkey h' = lkey h /\ lval h' = lval h.
Proof.
  intros h m kx key path sh n h' Hne. unfold h', fill. rewrite applys_app.
  pose proof (fill_nulls slots h m) as FN. destruct (nulls_keep slots h m) as (E1 & E2 & E3 & E4 & E5).
  set (h0 := applys h (map (fun i => SChild m i PNull) slots)) in *.
  destruct h0 as [r c p s k v dn dl pn pl rc nn nl]. cbn [applys fold_left apply child npath nshift lkey lval root] in *. subst.
  unfold put2, put. repeat split; rewrite ?Z.eqb_refl; cbn [andb]; try reflexivity.
  - rewrite (proj2 (Z.eqb_neq _ _) Hne). reflexivity.
  - intros i Hi N1 N2. rewrite (proj2 (Z.eqb_neq _ _) N1), (proj2 (Z.eqb_neq _ _) N2). rewrite FN, Z.eqb_refl, in_existsb by exact Hi. reflexivity.
  - intros n' i N. rewrite (proj2 (Z.eqb_neq _ _) N). cbn [andb]. rewrite FN, (proj2 (Z.eqb_neq _ _) N). reflexivity.
  - rewrite (proj2 (Z.eqb_neq _ _) H). reflexivity.
  - rewrite (proj2 (Z.eqb_neq _ _) H). reflexivity.
Qed.

Lemma diverge_geometry : forall lo S path w key, ival lo S -> 0 <= w <= S -> w mod 4 = 0 -> path mod 2 ^ w = 0 ->
  lo <= path < lo + 2 ^ S -> lo <= key < lo + 2 ^ S -> key / 2 ^ w <> path / 2 ^ w ->
  let sh := Z.land (utils_msb64 (Z.lxor path key)) (255 - (SLICE - 1)) in let q := Z.land key (path_mask sh) in
  0 <= sh /\ sh mod 4 = 0 /\ sh + 4 <= S /\ w <= sh /\ q mod 2 ^ (sh + 4) = 0 /\ lo <= q < lo + 2 ^ S /\
  slice_index key sh <> slice_index path sh /\
  q + slice_index key sh * 2 ^ sh <= key < q + slice_index key sh * 2 ^ sh + 2 ^ sh /\
  q + slice_index path sh * 2 ^ sh <= path < q + slice_index path sh * 2 ^ sh + 2 ^ sh.
Proof.
  intros lo S path w key HI Hw Hw4 Hpath Hr Hk Hne sh.
  assert (Wp : is_word path) by (eapply ival_word; eauto).
  assert (Wk : is_word key) by (eapply ival_word; eauto).
  assert (Hneq : path <> key) by congruence.
  pose proof (msb_shift path key Wp Wk Hneq) as M. cbv zeta in M. fold sh in M.
  destruct M as (Hsh & Hsh4 & Hsame & Hdiff & Hup & Hlow).
  assert (HshS : sh + 4 <= S).
  { apply Hup; [|apply HI|].
    - destruct HI; lia.
    - eapply div_same; eauto. }
  assert (Hwsh : w <= sh) by (apply Hlow; [lia|exact Hw4|congruence]).
  cbv zeta. rewrite land_path_mask by (try assumption; lia).
  pose proof (pow2_pos (sh + 4) ltac:(lia)) as P4.
  pose proof (pow2_pos sh ltac:(lia)) as P.
  set (q := key - key mod 2 ^ (sh + 4)).
  assert (Hq : q mod 2 ^ (sh + 4) = 0).
  { unfold q. rewrite Zminus_mod_idemp_r, Z.sub_diag. reflexivity. }
  assert (Hkq : q <= key < q + 2 ^ (sh + 4)).
  { unfold q. pose proof (Z.mod_pos_bound key (2 ^ (sh + 4)) P4). lia. }
  assert (Hpq : q <= path < q + 2 ^ (sh + 4)).
  { pose proof (Z.div_mod path (2 ^ (sh + 4)) ltac:(lia)).
    pose proof (Z.div_mod key (2 ^ (sh + 4)) ltac:(lia)).
    pose proof (Z.mod_pos_bound path (2 ^ (sh + 4)) P4).
    unfold q. rewrite Hsame in *. lia. }
  assert (Hqlo : lo <= q < lo + 2 ^ S).
  { split; [|lia].
    destruct HI as (A1 & A2 & A3 & A4 & A5).
    replace S with ((sh + 4) + (S - (sh + 4))) in A3 by lia.
    rewrite Z.pow_add_r in A3 by lia.
    pose proof (pow2_pos (S - (sh + 4)) ltac:(lia)) as PB.
    clear - A3 PB P4 Hq Hkq Hk A4.
    set (a := 2 ^ (sh + 4)) in *. set (b := 2 ^ (S - (sh + 4))) in *.
    pose proof (Z.div_mod lo (a * b) ltac:(nia)) as D. rewrite A3 in D.
    pose proof (Z.div_mod q a ltac:(lia)) as D2. rewrite Hq in D2.
    assert (lo < q + a) by lia.
    set (y := lo / (a * b)) in *. set (x := q / a) in *.
    assert (y * b < x + 1) by nia. nia. }
  pose proof (slice_in q sh key ltac:(lia) Hq Hkq) as (Bk & Ik). cbv zeta in Bk, Ik.
  pose proof (slice_in q sh path ltac:(lia) Hq Hpq) as (Bp & Ip). cbv zeta in Bp, Ip.
  assert (Hik : slice_index key sh <> slice_index path sh).
  { rewrite !slice_index_val by lia. congruence. }
  repeat split; try assumption; lia.
Qed.

Lemma alloc_node_leaves : forall h mem r s, alloc_node h mem = Some (r, s) -> lkey (applys h s) = lkey h /\ lval (applys h s) = lval h.
Proof.
  intros h mem r s E. unfold alloc_node in E. destruct h as [rt c p sf k v dn dl pn pl rc nn nl]. cbn [deleted_node child next_node] in E.
  destruct dn as [|x|n]; [|discriminate|].
  - destruct mem; injection E as <- <-; split; reflexivity.
  - destruct (c n 0); [|discriminate|]; injection E as <- <-; split; reflexivity.
Qed.

Lemma insert_below_ok : forall h st m kx key v ml mn u, Good h st (-1) (-1) m -> is_word key -> st (PLeaf kx) = Mine ->
  lkey h kx = key -> lval h kx = User v -> root h <> PNull ->
  exists c ss, insert_below h kx key v u mn = Some (c, ss) /\ Done h st m (OpInsert ml mn key v u) (OutIns c) ss.
Proof.
  intros h st m kx key v ml mn u G Wk Hm Ek Ev Nr. pose proof G as (B & C & T).
  pose proof (b_inv _ _ _ _ B) as I. pose proof (i_wf _ _ I) as W. unfold insert_below.
  destruct (descend_spec DEPTH h key LRoot 0 64 None W Wk (live_root h) (top_interval key Wk) ltac:(unfold DEPTH; lia)) as (pa & pv & lo & S & -> & L & Hk & Nc & D).
  pose proof (live_ival h W _ _ _ L) as IV. pose proof (W _ _ _ L) as Lc.
  (* leaving the path of what stands there *)
  assert (DIV : forall path w, deref h pa <> PNull -> 0 <= w <= S -> w mod 4 = 0 -> path mod 2 ^ w = 0 -> lo <= path < lo + 2 ^ S ->
     key / 2 ^ w <> path / 2 ^ w -> ~ covers h key (deref h pa) ->
     (forall lo' S', w <= S' -> lo' <= path < lo' + 2 ^ S' -> local h lo' S' (deref h pa)) ->
     exists c ss, (if Z.lxor path key =? 0 then match deref h pa with
          | PLeaf x => if u then Some (INS_OK, free_leaf h (Some kx) ++ [SVal x (User v)]) else Some (INS_EEXIST, free_leaf h (Some kx))
          | _ => None end
        else match alloc_node h mn with
          | None => None
          | Some (None, s2) => Some (INS_ENOMEM, s2 ++ free_leaf h (Some kx))
          | Some (Some m0, s2) => Some (INS_OK, s2 ++ fill m0 kx key path (Z.land (utils_msb64 (Z.lxor path key)) (255 - (SLICE - 1))) (deref h pa) ++ [store_at pa (PNode m0)])
          end) = Some (c, ss) /\ Done h st m (OpInsert ml mn key v u) (OutIns c) ss).
  { intros path w Nn Hw Hw4 Hpw Hr Hne Ncv Lw.
    destruct (diverge_geometry lo S path w key IV Hw Hw4 Hpw Hr Hk Hne) as (Q1 & Q2 & Q3 & Q4 & Q5 & Q6 & Q7 & Q8 & Q9).
    set (sh := Z.land (utils_msb64 (Z.lxor path key)) (255 - (SLICE - 1))) in *.
    destruct (Z.eqb_spec (Z.lxor path key) 0) as [E|E]; [rewrite Z.lxor_eq_0_iff in E; congruence|].
    destruct (phase_alloc_node m h st (-1) (-1) mn G) as (r & s2 & EA & A). rewrite EA. destruct r as [m0|].
    2:{ destruct A as (-> & ->). exists INS_ENOMEM, (free_leaf h (Some kx)). split; [reflexivity|].
        apply (done_phase _ _ _ _ _ _ _ (phase_free_leaf m h st (-1) (-1) kx G Hm)). apply al_nomem. apply andb_false_r. }
    destruct A as (A & P1). eexists _, _. split; [reflexivity|].
    set (st1 := upst st (PNode m0) Mine) in *.
    pose proof (phase_mine_list m (fill m0 kx key path sh (deref h pa)) (applys h s2) st1 (-1) (-1) (PNode m0) (proj1 (proj2 P1)) ltac:(discriminate) (upst_same _ _ _)) as P2.
    assert (FT : forall s, In s (fill m0 kx key path sh (deref h pa)) -> touched s = PNode m0).
    { intros s Hs. unfold fill in Hs. apply in_app_or in Hs. destruct Hs as [Hs|Hs].
      - apply in_map_iff in Hs. destruct Hs as (i & <- & _). reflexivity.
      - destruct Hs as [<-|[<-|[<-|[<-|[]]]]]; reflexivity. }
    specialize (P2 FT). pose proof (phase_app _ _ _ _ _ _ _ _ _ _ _ P1 P2) as P. rewrite app_assoc.
    assert (EH : applys h (s2 ++ fill m0 kx key path sh (deref h pa)) = applys (applys h s2) (fill m0 kx key path sh (deref h pa))) by apply applys_app.
    set (h2 := applys h s2) in *.
    assert (NM : st (PNode m0) <> Live) by (destruct A as [A|A]; congruence).
    assert (NL : forall i, pa <> LChild m0 i).
    { intros i ->. apply NM. exact (live_not_retired h st m0 i _ _ I L). }
    destruct (fill_spec h2 m0 kx key path sh (deref h pa) Q7) as (F1 & F2 & F3 & F4 & F5 & F6 & F7 & F8 & F9 & F10).
    destruct P as (P3 & G3 & St). rewrite EH in G3, St. set (h3 := applys h2 (fill m0 kx key path sh (deref h pa))) in *.
    destruct St as (St1 & St2 & St3 & St4).
    assert (L3 : live h3 pa lo S) by (apply St1; exact L).
    assert (E3 : deref h3 pa = deref h pa) by exact (St2 _ _ _ L).
    assert (RP : Reach h (deref h pa)) by (exists pa, lo, S; auto).
    destruct (alloc_node_leaves _ _ _ _ EA) as (K1 & K2). fold h2 in K1, K2.
    assert (K3 : lkey h3 = lkey h) by congruence. assert (K4 : lval h3 = lval h) by congruence.
    pose proof (St3 _ RP) as Hd.
    pose proof (publish_node h3 st1 (-1) (-1) m pa lo S kx v m0 (slice_index key sh) (slice_index path sh) G3 L3) as PN.
    rewrite E3, F6, F7, K3, K4, Ek in PN.
    specialize (PN Nn). unfold st1 in PN at 1. rewrite upst_other in PN by discriminate.
    specialize (PN Hm (upst_same _ _ _) (slice_range' _ _) (slice_range' _ _) Q7 F1 F2 F3).
    assert (X1 : local h3 lo S (PNode m0)).
    { cbn [local]. unfold node_ok. rewrite F6, F7. repeat split; try assumption; lia. }
    assert (X2 : local h3 (Z.land key (path_mask sh) + slice_index key sh * 2 ^ sh) sh (PLeaf kx)).
    { cbn [local]. rewrite K3, Ek. exact Q8. }
    assert (X3 : local h3 (Z.land key (path_mask sh) + slice_index path sh * 2 ^ sh) sh (deref h pa)).
    { apply (local_same h h3 _ _ _ Hd). apply Lw; [exact Q4|exact Q9]. }
    assert (X4 : ~ covers h3 key (deref h pa)) by (intros X; apply Ncv; apply (same_head_covers h h3 key _ Hd); exact X).
    destruct (PN X1 X2 X3 Hk X4 Ev) as (PN1 & PN2 & PN3).
    eapply done_last; [exact (phase_app _ _ _ _ _ _ _ _ _ _ _ P1 P2)| | |apply al_new; exact PN3]; rewrite EH; [exact PN1|exact PN2]. }
  destruct (deref h pa) as [|x|n] eqn:Ep.
  - (* an empty slot *)
    destruct D as [(-> & _)|(q & -> & ->)]; [cbn [deref] in Ep; congruence|].
    eexists _, _. split; [reflexivity|].
    destruct (publish_leaf h st (-1) (-1) m _ lo S kx v G L Ep Hm ltac:(rewrite Ek; exact Hk) Ev) as (P1 & P2 & P3).
    rewrite Ek in P2, P3. change ([SChild q (slice_index key (nshift h q)) (PLeaf kx)]) with ([] ++ [store_at (LChild q (slice_index key (nshift h q))) (PLeaf kx)]).
    eapply done_last; [apply phase_nil; exact G|exact P1|exact P2|apply al_new; exact P3].
  - cbn [local] in Lc. destruct (Z.eq_dec (lkey h x) key) as [Ex|Nx].
    + (* the key is there *)
      cbv zeta. rewrite Ex, Z.lxor_nilpotent. cbn [Z.eqb].
      assert (Rx : Reach h (PLeaf x)) by (exists pa, lo, S; auto).
      assert (Hx : has h key x) by (split; assumption).
      destruct (proj2 C key x Hx) as (v0 & E0). assert (Em : m key = Some v0) by (apply (proj1 C); eauto).
      pose proof (phase_free_leaf m h st (-1) (-1) kx G Hm) as P1.
      destruct u; (eexists _, _; split; [reflexivity|]).
      * destruct (update_value _ _ (-1) (-1) m x v (proj1 (proj2 P1)) (proj2 (still_reach _ _ (proj2 (proj2 P1)) _) Rx)) as (U1 & U2 & _).
        replace (lkey (applys h (free_leaf h (Some kx))) x) with key in U2 by (destruct h; cbn in *; congruence).
        eapply done_last; [exact P1|exact U1|exact U2|]. eapply al_update. exact Em.
      * eapply done_phase; [exact P1|]. eapply al_exists. exact Em.
    + cbv zeta. apply (DIV (lkey h x) 0); try discriminate; try lia.
      * destruct IV; lia.
      * reflexivity.
      * apply Z.mod_1_r.
      * change (2 ^ 0) with 1. rewrite !Z.div_1_r. congruence.
      * cbn. exact Nx.
      * intros lo' S' _ H'. exact H'.
  - pose proof (Nc n eq_refl) as Ncn. cbv zeta. destruct Lc as ((A1 & A2 & A3 & A4) & A5).
    apply (DIV (npath h n) (nshift h n + 4)); try discriminate; try assumption; try lia.
    + clear - A2. dlia.
    + intros X. apply Ncn. cbn [covers]. pose proof (pow2_pos (nshift h n + 4) ltac:(lia)) as P.
      set (w := 2 ^ (nshift h n + 4)) in *. clear - X A4 P.
      pose proof (Z.div_mod (npath h n) w ltac:(lia)) as D1. rewrite A4 in D1.
      pose proof (Z.div_mod key w ltac:(lia)) as D2. pose proof (Z.mod_pos_bound key w P). rewrite X in D2. lia.
    + intros lo' S' H1 H2. split; [unfold node_ok; repeat split; try assumption; lia|exact H2].
Qed.

Theorem insert_ok : forall h st m key v u ml mn, Good h st (-1) (-1) m -> is_word key ->
  exists c ss, insert h key v u ml mn = Some (c, ss) /\ Done h st m (OpInsert ml mn key v u) (OutIns c) ss.
Proof.
  intros h st m key v u ml mn G Wk. unfold insert.
  destruct (phase_alloc_leaf m h st (-1) (-1) ml G) as (r & s0 & -> & A). destruct r as [kx|].
  2:{ destruct A as (-> & ->). exists INS_ENOMEM, []. split; [reflexivity|].
      eapply done_phase; [apply phase_nil; exact G|]. apply al_nomem. reflexivity. }
  destruct A as (_ & P0). set (st1 := upst st (PLeaf kx) Mine) in *.
  assert (M1 : st1 (PLeaf kx) = Mine) by apply upst_same.
  assert (P1 : Phase m h st (s0 ++ [SKey kx key; SVal kx (User v)]) st1 (-1) (-1)).
  { eapply phase_app; [exact P0|]. apply (phase_mine_list m _ _ _ _ _ (PLeaf kx)); [apply P0|discriminate|exact M1|].
    intros s [<-|[<-|[]]]; reflexivity. }
  assert (E1 : lkey (applys h (s0 ++ [SKey kx key; SVal kx (User v)])) kx = key /\ lval (applys h (s0 ++ [SKey kx key; SVal kx (User v)])) kx = User v).
  { rewrite applys_app. destruct (applys h s0). cbn. unfold put. rewrite Z.eqb_refl. auto. }
  cbv zeta. set (s1 := s0 ++ [SKey kx key; SVal kx (User v)]) in *. set (h1 := applys h s1) in *.
  pose proof (proj1 (proj2 P1)) as G1. fold h1 in G1. destruct E1 as (Ek & Ev).
  assert (BL : root h1 <> PNull -> exists c ss, match insert_below h1 kx key v u mn with Some (c, s2) => Some (c, s1 ++ s2) | None => None end = Some (c, ss) /\
      Done h st m (OpInsert ml mn key v u) (OutIns c) ss).
  { intros Nr. destruct (insert_below_ok h1 st1 m kx key v ml mn u G1 Wk M1 Ek Ev Nr) as (c & ss & -> & D).
    exists c, (s1 ++ ss). split; [reflexivity|]. exact (done_after _ _ _ _ _ _ _ _ _ _ P1 D). }
  destruct (root h1) as [|x|n] eqn:Er; [|apply BL; discriminate|apply BL; discriminate].
  exists INS_OK, (s1 ++ [SRoot (PLeaf kx)]). split; [reflexivity|].
  destruct (publish_leaf h1 st1 (-1) (-1) m LRoot 0 64 kx v G1 (live_root h1) Er M1 ltac:(rewrite Ek; exact (top_interval key Wk)) Ev) as (Q1 & Q2 & Q3).
  rewrite Ek in Q2, Q3. eapply done_last; [exact P1|exact Q1|exact Q2|apply al_new; exact Q3].
Qed.

