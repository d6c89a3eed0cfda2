From Verif Require Import Base Model_Utils Model_OsNuma Spec_OsNuma.

Lemma total_firstn_S : forall ws i w, nth_error ws i = Some w -> total (firstn (S i) ws) = total (firstn i ws) + w.
Proof.
  induction ws as [|a r IH]; intros [|i] w E; cbn [nth_error] in E; try discriminate.
  - injection E as ->. cbn. lia.
  - specialize (IH i w E). cbn [firstn total] in *. destruct r; cbn [firstn total] in *; lia.
Qed.
Lemma total_nonneg : forall ws, (forall w, In w ws -> 0 < w) -> 0 <= total ws.
Proof. induction ws as [|a r IH]; intros H; cbn [total]; [lia|]. pose proof (H a (or_introl eq_refl)). assert (0 <= total r) by (apply IH; intros; apply H; now right). lia. Qed.
Lemma total_le : forall ws w, (forall x, In x ws -> 0 < x) -> In w ws -> w <= total ws.
Proof.
  induction ws as [|a r IH]; intros w H IN; [destruct IN|]. cbn [total].
  assert (R : forall x, In x r -> 0 < x) by (intros; apply H; now right).
  pose proof (total_nonneg r R). pose proof (H a (or_introl eq_refl)).
  destruct IN as [->|IN]; [lia|]. specialize (IH w R IN). lia.
Qed.

Section Split.
Variable u : numa.
Variable P : Z.
Let ps := nu_parts u.
Let ws := map fst ps.
Let W := nu_wsum u.
Hypothesis PP : 0 < P.
Hypothesis WT : W = total ws.
Hypothesis POS : forall w, In w ws -> 0 < w.
Hypothesis NOV : forall w, In w ws -> P * w < U64.
Hypothesis WB : W <= 2 ^ 63.
Hypothesis NE : ps <> [].

Definition start (i : nat) : Z := P * total (firstn i ws).

Lemma start_S : forall i w t, nth_error ps i = Some (w, t) -> start (S i) = start i + P * w.
Proof using PP WT POS NOV WB NE. intros i w t E. unfold start. rewrite (total_firstn_S ws i w); [lia|]. unfold ws. now rewrite nth_error_map, E. Qed.
Lemma start_mono : forall i k, (i <= k)%nat -> start i <= start k.
Proof using PP WT POS NOV WB NE.
  intros i k LE. induction LE as [|k LE IH]; [lia|].
  destruct (nth_error ps k) as [[w t]|] eqn:E.
  - rewrite (start_S _ _ _ E). assert (0 < w). { apply POS. unfold ws. apply in_map_iff. exists (w, t). split; [reflexivity|]. now apply nth_error_In in E. } nia.
  - unfold start in *. assert (L : (length ws <= k)%nat). { unfold ws. rewrite map_length. now apply nth_error_None. }
    rewrite !(firstn_all2 ws (n := S k)) by lia. rewrite (firstn_all2 ws (n := k)) in IH by lia. exact IH.
Qed.
Lemma start_end : start (length ps) = P * W.
Proof using PP WT POS NOV WB NE. unfold start. rewrite firstn_all2 by (unfold ws; rewrite map_length; lia). now rewrite WT. Qed.
Lemma W_pos : 0 < W.
Proof using PP WT POS NOV WB NE.
  rewrite WT. assert (exists x, In x ps) as [[w t] IN] by (destruct ps as [|x r]; [now destruct NE|exists x; now left]).
  assert (Hin : In w ws) by (unfold ws; apply in_map_iff; now exists (w, t)).
  pose proof (POS w Hin). pose proof (total_le ws w POS Hin). lia.
Qed.
Lemma in_ws : forall i w t, nth_error ps i = Some (w, t) -> In w ws.
Proof using PP WT POS NOV WB NE. intros. unfold ws. apply in_map_iff. exists (w, t). split; [reflexivity|]. now apply nth_error_In in H. Qed.

Lemma bind_loop_ok : forall fuel node d rest bm border,
  (length ps - node < fuel)%nat -> (node <= length ps)%nat ->
  start node = d * W + rest -> 0 <= rest < W -> 0 <= d < P ->
  exists j b r bm' border',
    bind_loop fuel ps W P node rest bm border = Some (j, b, r, bm', border') /\
    (node <= j < length ps)%nat /\ 1 <= b /\ 0 <= r < W /\ start (S j) = (d + b) * W + r /\
    d * W <= start j < (d + 1) * W /\ border' = border || negb (Nat.eqb node j) /\
    (forall n, In n bm' <-> In n bm \/ exists k w t, (node <= k <= j)%nat /\ nth_error ps k = Some (w, t) /\ In n t).
Proof using PP WT POS NOV WB NE.
  pose proof W_pos as WP. assert (UU : U64 = 18446744073709551616) by reflexivity.
  induction fuel as [|f IH]; intros node d rest bm border F LE ST R D; [lia|].
  assert (LT : (node < length ps)%nat).
  { destruct (Nat.eq_dec node (length ps)) as [->|]; [|lia]. rewrite start_end in ST. clear - ST R D WP. nia. }
  cbn [bind_loop].
  destruct (nth_error ps node) as [[w t]|] eqn:E; [|apply nth_error_None in E; lia].
  pose proof (in_ws _ _ _ E) as IW. pose proof (POS w IW) as W0. pose proof (NOV w IW) as NW.
  assert (W1 : W =? 0 = false) by lia. rewrite W1.
  assert (PW : wrap (P * w) = P * w) by (unfold wrap; apply Z.mod_small; nia). rewrite PW.
  set (q := P * w / W). set (m := P * w mod W).
  assert (QM : P * w = W * q + m /\ 0 <= m < W) by (unfold q, m; split; [apply Z.div_mod; lia|apply Z.mod_pos_bound; lia]).
  destruct QM as [QM MB].
  assert (Q0 : 0 <= q < U64). { unfold q. split; [apply Z.div_pos; nia|]. apply Z.le_lt_trans with (P * w); [apply Z.div_le_upper_bound; nia|exact NW]. }
  assert (RW : wrap (rest + m) = rest + m) by (unfold wrap; apply Z.mod_small; rewrite UU; clear - R MB WB; lia). rewrite RW.
  set (b := if W <=? rest + m then wrap (q + 1) else q).
  set (r := if W <=? rest + m then rest + m - W else rest + m).
  assert (BR : P * w + rest = b * W + r /\ 0 <= r < W /\ 0 <= b).
  { unfold b, r. destruct (Z.leb_spec W (rest + m)).
    - assert (wrap (q + 1) = q + 1).
      { unfold wrap. apply Z.mod_small. split; [lia|].
        assert (q * W < U64) by (clear - QM MB NW; nia). clear - H0 Q0 UU R MB H WP. destruct (Z.eq_dec W 1) as [e|]; [nia|]. nia. }
      rewrite H0. clear - QM MB R H Q0. split; [nia|lia].
    - clear - QM MB R H Q0. split; [nia|lia]. }
  destruct BR as [BR [RB B0]].
  pose proof (start_S _ _ _ E) as SS.
  destruct (Z.eqb_spec b 0) as [BZ|BZ].
  - destruct (IH (S node) d r (bm ++ t) true) as (j & b' & r' & bm' & border' & EE & JJ & B1 & R1 & SJ & SJ2 & BO & IN).
    + lia.
    + lia.
    + rewrite SS, ST. rewrite BZ in BR. clear - BR. lia.
    + exact RB.
    + exact D.
    + exists j, b', r', bm', border'. split; [exact EE|]. split; [lia|]. split; [exact B1|]. split; [exact R1|]. split; [exact SJ|]. split; [exact SJ2|].
      split. { rewrite BO. cbn [orb]. assert (H : Nat.eqb node j = false) by (apply Nat.eqb_neq; lia). rewrite H. cbn. now rewrite orb_true_r. }
      intros n. rewrite IN, in_app_iff. split.
      * intros [[A|A]|(k & w' & t' & K & EK & IK)]; [now left| |right; exists k, w', t'; split; [lia|auto]].
        right. exists node, w, t. split; [lia|auto].
      * intros [A|(k & w' & t' & K & EK & IK)]; [now left; left|].
        destruct (Nat.eq_dec k node) as [->|]; [left; right; rewrite E in EK; injection EK as -> ->; exact IK|].
        right. exists k, w', t'. split; [lia|auto].
  - exists node, b, r, (bm ++ t), border. split; [reflexivity|]. split; [lia|]. split; [lia|]. split; [exact RB|].
    split. { rewrite SS, ST. clear - BR. nia. }
    split. { rewrite ST. clear - R. nia. }
    split. { rewrite Nat.eqb_refl. cbn. now rewrite orb_false_r. }
    intros n. rewrite in_app_iff. split.
    + intros [A|A]; [now left|]. right. exists node, w, t. split; [lia|auto].
    + intros [A|(k & w' & t' & K & EK & IK)]; [now left|]. right. assert (k = node) by lia. subst k. rewrite E in EK. injection EK as -> ->. exact IK.
Qed.

(* where the iterator stands after d pages *)
Definition inv (d : Z) (m : membind) : Prop :=
  0 <= mb_left m /\ 0 <= mb_rest m < W /\ (mb_node m <= length ps)%nat /\ start (mb_node m) <= d * W /\
  (mb_left m = 0 -> mb_rest m = 0 -> start (mb_node m) = d * W) /\
  (mb_left m <> 0 \/ mb_rest m <> 0 -> (mb_node m < length ps)%nat /\ start (S (mb_node m)) = (d + mb_left m) * W + mb_rest m).
(* what page p is to be bound to *)
Definition in_page (p n : Z) : Prop :=
  exists k w t, nth_error ps k = Some (w, t) /\ In n t /\ start k < (p + 1) * W /\ p * W < start (S k).

Lemma nextBind_ok : forall d m, inv d m -> 0 <= d < P -> mb_pages m = P -> 0 < mb_page m -> P * mb_page m < U64 ->
  exists m' k, nextBind u m = Some m' /\ mb_bind m' = k * mb_page m /\ 1 <= k /\ d + k <= P /\ inv (d + k) m' /\
    mb_addr m' = mb_addr m /\ mb_alloc m' = mb_alloc m /\ mb_page m' = mb_page m /\ mb_pages m' = mb_pages m /\
    (forall p n, d <= p < d + k -> (In n (mb_set m') <-> in_page p n)).
Proof using PP WT POS NOV WB NE.
  intros d m (L0 & R0 & NL & SN & I1 & I2) D PG PZ NO. pose proof W_pos as WP.
  assert (NLT : (mb_node m < length ps)%nat).
  { destruct (Nat.eq_dec (mb_node m) (length ps)) as [e|]; [|lia]. rewrite e, start_end in SN. clear - SN D WP PP. nia. }
  unfold nextBind. fold ps. assert (X : Nat.eqb (mb_node m) (length ps) = false) by (apply Nat.eqb_neq; lia). rewrite X.
  destruct (nth_error ps (mb_node m)) as [[w t]|] eqn:E; [|apply nth_error_None in E; lia].
  fold W. rewrite PG.
  destruct (Z.eqb_spec (mb_left m) 0) as [LZ|LZ]; cbn [negb andb orb].
  2: { (* whole pages left over *)
    destruct (I2 (or_introl LZ)) as [_ S2].
    set (L := mb_left m) in *. set (r := mb_rest m) in *.
    assert (DL : d + L <= P). { pose proof (start_mono (S (mb_node m)) (length ps)) as H. rewrite start_end, S2 in H. specialize (H NLT). clear - H WP R0. nia. }
    assert (WR : wrap (mb_page m * L) = L * mb_page m). { unfold wrap. rewrite Z.mod_small; [lia|]. clear - DL NO PZ L0 D. nia. }
    eexists _, L. split; [reflexivity|]. cbn [mb_bind mb_addr mb_alloc mb_page mb_pages mb_set mb_node mb_rest mb_left].
    split; [exact WR|]. split; [lia|]. split; [exact DL|].
    assert (EX : forall p n, d <= p < d + L -> (In n t <-> in_page p n)).
    { intros p n PP2. split.
      - intros IN. exists (mb_node m), w, t. split; [exact E|]. split; [exact IN|]. rewrite S2. clear - SN PP2 R0 WP. split; nia.
      - intros (k & w' & t' & EK & IK & A & B).
        assert (k = mb_node m).
        { destruct (Nat.lt_trichotomy k (mb_node m)) as [C|[C|C]]; [|exact C|].
          - pose proof (start_mono (S k) (mb_node m) C). clear - H SN B PP2 WP. nia.
          - pose proof (start_mono (S (mb_node m)) k C). rewrite S2 in H. clear - H A PP2 WP R0. nia. }
        subst k. rewrite E in EK. injection EK as -> ->. exact IK. }
    split; [|tauto].
    destruct (Z.eqb_spec r 0) as [RZ|RZ]; cbn [andb Z.eqb].
    - unfold inv; cbn [mb_left mb_rest mb_node]. rewrite S2, RZ. repeat split; try lia.
    - unfold inv; cbn [mb_left mb_rest mb_node]. rewrite S2. repeat split; try lia; clear - SN L0 WP; nia. }
  (* no whole page left over *)
  set (i := mb_node m) in *. set (r0 := mb_rest m) in *.
  set (sp := negb (r0 =? 0)).
  set (node := if sp then S i else i). set (bm := if sp then t else []).
  assert (ND : start node = d * W + r0 /\ (node <= length ps)%nat).
  { unfold node, sp. destruct (Z.eqb_spec r0 0) as [RZ|RZ]; cbn [negb].
    - split; [rewrite (I1 LZ RZ); lia|lia].
    - destruct (I2 (or_intror RZ)) as [_ S2]. split; [rewrite S2, LZ; lia|lia]. }
  destruct ND as [ND1 ND2].
  destruct (bind_loop_ok (S (length ps)) node d r0 bm sp) as (j & b & r & bm' & border & EE & JJ & B1 & R1 & SJ & SJ2 & BO & IN); [lia|exact ND2|exact ND1|exact R0|exact D|].
  rewrite EE.
  assert (DB : d + b <= P). { pose proof (start_mono (S j) (length ps)) as H. rewrite start_end, SJ in H. specialize (H (proj2 JJ)). clear - H WP R1. nia. }
  assert (IN0 : (i <= node)%nat) by (unfold node; destruct sp; lia).
  (* the nodes of the bitmap are i (if it reaches into page d) and node..j *)
  assert (BM : forall n, In n bm' <-> exists k w' t', nth_error ps k = Some (w', t') /\ In n t' /\ (i <= k <= j)%nat).
  { intros n. rewrite IN. unfold bm, node, sp. destruct (Z.eqb_spec r0 0) as [RZ|RZ]; cbn [negb].
    - split; [intros [[]|(k & w' & t' & K & EK & IK)]; exists k, w', t'; split; [exact EK|split; [exact IK|lia]]|].
      intros (k & w' & t' & EK & IK & K). right. exists k, w', t'. auto.
    - split.
      + intros [A|(k & w' & t' & K & EK & IK)].
        * exists i, w, t. split; [exact E|]. split; [exact A|]. clear - JJ IN0. lia.
        * exists k, w', t'. split; [exact EK|]. split; [exact IK|]. lia.
      + intros (k & w' & t' & EK & IK & K). destruct (Nat.eq_dec k i) as [->|]; [left; rewrite E in EK; injection EK as -> ->; exact IK|].
        right. exists k, w', t'. split; [lia|auto]. }
  (* page d: exactly those *)
  assert (PD : forall n, In n bm' <-> in_page d n).
  { intros n. rewrite BM. split.
    - intros (k & w' & t' & EK & IK & K). exists k, w', t'. split; [exact EK|]. split; [exact IK|]. split.
      + apply Z.le_lt_trans with (start j); [apply start_mono; lia|lia].
      + pose proof (start_S _ _ _ EK) as SK. pose proof (POS _ (in_ws _ _ _ EK)) as W0.
        destruct (Nat.eq_dec k i) as [->|].
        * assert (start i = d * W \/ r0 <> 0 /\ start (S i) = d * W + r0) as [A|[A1 A2]].
          { destruct (Z.eq_dec r0 0) as [z|z]; [left; now apply I1|right; destruct (I2 (or_intror z)) as [_ S2]; split; [exact z|rewrite S2, LZ; lia]]. }
          -- rewrite SK, A. clear - W0 PP. nia.
          -- rewrite A2. lia.
        * assert (H : start node <= start k) by (apply start_mono; unfold node; destruct sp; lia).
          rewrite ND1 in H. rewrite SK. clear - H W0 PP R0. nia.
    - intros (k & w' & t' & EK & IK & A & B). exists k, w', t'. split; [exact EK|]. split; [exact IK|].
      split.
      + destruct (Nat.le_gt_cases i k) as [|C]; [assumption|]. pose proof (start_mono (S k) i C). clear - H SN B. lia.
      + destruct (Nat.le_gt_cases k j) as [|C]; [assumption|]. pose proof (start_mono (S j) k C). rewrite SJ in H. clear - H A R1 B1 WP. nia. }
  rewrite BO. destruct (sp || negb (Nat.eqb node j)) eqn:BB.
  - (* a page of several nodes *)
    eexists _, 1. split; [reflexivity|]. cbn [mb_bind mb_addr mb_alloc mb_page mb_pages mb_set mb_node mb_rest mb_left].
    split; [lia|]. split; [lia|]. split; [lia|].
    split.
    + destruct (Z.eqb_spec r 0) as [RZ|RZ]; cbn [andb].
      * destruct (Z.eqb_spec (b - 1) 0) as [BZ|BZ]; unfold inv; cbn [mb_left mb_rest mb_node]; rewrite ?SJ, ?RZ.
        -- assert (b = 1) by lia. subst b. repeat split; try lia.
        -- repeat split; try lia.
      * unfold inv; cbn [mb_left mb_rest mb_node]; rewrite ?SJ. repeat split; try lia.
    + split; [reflexivity|]. split; [reflexivity|]. split; [reflexivity|]. split; [now rewrite ?PG|].
      intros p n Hp. assert (p = d) by lia. subst p. apply PD.
  - (* pages of one node *)
    apply orb_false_elim in BB. destruct BB as [SP NJ]. apply negb_false_iff, Nat.eqb_eq in NJ.
    assert (NI : node = i) by (unfold node; now rewrite SP). rewrite <- NJ, NI in *. clear NJ j.
    assert (RZ0 : r0 = 0) by (unfold sp in SP; lia).
    assert (WR : wrap (mb_page m * b) = b * mb_page m). { unfold wrap. rewrite Z.mod_small; [lia|]. clear - DB NO PZ B1 D. nia. }
    eexists _, b. split; [reflexivity|]. cbn [mb_bind mb_addr mb_alloc mb_page mb_pages mb_set mb_node mb_rest mb_left].
    split; [exact WR|]. split; [lia|]. split; [lia|].
    split.
    + destruct (Z.eqb_spec r 0) as [RZ|RZ]; cbn [andb Z.eqb]; unfold inv; cbn [mb_left mb_rest mb_node]; rewrite ?SJ, ?RZ.
      * repeat split; try lia.
      * repeat split; try lia; clear - SN B1 WP; nia.
    + split; [reflexivity|]. split; [reflexivity|]. split; [reflexivity|]. split; [now rewrite ?PG|].
      intros p n Hp. rewrite PD. split; intros (k & w' & t' & EK & IK & A & B); exists k, w', t'; (split; [exact EK|]); (split; [exact IK|]).
      * assert (k = i).
        { destruct (Nat.lt_trichotomy k i) as [C|[C|C]]; [|exact C|].
          - pose proof (start_mono (S k) i C). clear - H SN B. lia.
          - pose proof (start_mono (S i) k C). rewrite SJ in H. clear - H A R1 B1 WP. nia. }
        subst k. rewrite SJ. clear - SN Hp R1 WP A. split; nia.
      * assert (k = i).
        { destruct (Nat.lt_trichotomy k i) as [C|[C|C]]; [|exact C|].
          - pose proof (start_mono (S k) i C). clear - H SN B Hp WP. nia.
          - pose proof (start_mono (S i) k C). rewrite SJ in H. clear - H A R1 Hp WP. nia. }
        subst k. rewrite SJ. rewrite SJ2 in *|| idtac. clear - SN Hp R1 WP B1 SJ2. split; nia.
Qed.

Variables page addr0 : Z.
Hypothesis PGZ : 0 < page.
Hypothesis PNO : P * page < U64.
Hypothesis MODE : nu_mode u = M_SPLIT.
Hypothesis MANY : forall s, nu_nodeset u <> [s].

Lemma split_calls_ok : forall fuel d m k,
  mb_page m = page -> mb_pages m = P -> mb_bind m = k * page -> 1 <= k -> 0 <= d -> d + k <= P -> inv (d + k) m ->
  mb_addr m = addr0 + d * page -> mb_alloc m = (P - d) * page -> (Z.to_nat (P - d) < fuel)%nat ->
  (forall p n, d <= p < d + k -> (In n (mb_set m) <-> in_page p n)) ->
  exists l, bind_calls fuel u m = Some l /\ tiles (addr0 + d * page) ((P - d) * page) l /\
    (forall c, In c l -> exists a b, d <= a /\ a < b <= P /\ c_addr c = addr0 + a * page /\ c_len c = (b - a) * page /\
       forall p n, a <= p < b -> (In n (c_nodes c) <-> in_page p n)).
Proof using PP WT POS NOV WB NE PGZ PNO MODE MANY.
  assert (UU : U64 = 18446744073709551616) by reflexivity.
  induction fuel as [|f IH]; intros d m k P1 P2 BK K1 D0 DK I AD AL F BM; [lia|].
  cbn [bind_calls].
  set (c := Bind (mb_addr m) (mb_bind m) (mb_set m)).
  assert (CC : exists a b, d <= a /\ a < b <= P /\ c_addr c = addr0 + a * page /\ c_len c = (b - a) * page /\
       forall p n, a <= p < b -> (In n (c_nodes c) <-> in_page p n)).
  { exists d, (d + k). cbn [c c_addr c_len c_nodes]. split; [lia|]. split; [lia|]. split; [exact AD|]. split; [rewrite BK; lia|exact BM]. }
  assert (AW : wrap (mb_alloc m - mb_bind m) = (P - (d + k)) * page).
  { unfold wrap. rewrite Z.mod_small; rewrite AL, BK; [lia|]. clear - DK K1 D0 PGZ PNO PP. nia. }
  unfold membindNext. rewrite AW.
  assert (NS : forall (A : Type) (x y : A), match nu_nodeset u with [_] => x | _ => y end = y).
  { intros. destruct (nu_nodeset u) as [|s [|s2 r]] eqn:E; try reflexivity. exfalso. now apply (MANY s). }
  destruct (Z.eqb_spec ((P - (d + k)) * page) 0) as [Z0|Z0].
  - cbn [mb_alloc]. rewrite Z.ltb_irrefl.
    assert (P = d + k) by (clear - Z0 PGZ; nia).
    exists [c]. split; [reflexivity|]. split.
    + cbn [tiles c c_addr c_len]. split; [exact AD|]. rewrite BK. split; [nia|]. nia.
    + intros c' [<-|[]]. exact CC.
  - rewrite NS, MODE.
    assert (DK2 : d + k < P) by (clear - Z0 DK PGZ; nia).
    destruct (nextBind_ok (d + k) (Membind (mb_set m) (mb_bind m) (mb_addr m + mb_bind m) ((P - (d + k)) * page) (mb_node m) (mb_page m) (mb_rest m) (mb_pages m) (mb_left m))) as (m' & k' & EE & BK' & K1' & DK' & I' & A' & AL' & P1' & P2' & BM').
    + exact I.
    + lia.
    + exact P2.
    + cbn [mb_page]. lia.
    + cbn [mb_page]. rewrite P1. exact PNO.
    + cbn [mb_addr mb_alloc mb_page mb_pages] in *. rewrite EE, AL'.
      assert (0 <? (P - (d + k)) * page = true) by (clear - DK2 PGZ; nia). rewrite H.
      destruct (IH (d + k) m' k') as (l & EL & TL & CL).
      * lia.
      * lia.
      * rewrite BK', P1. reflexivity.
      * lia.
      * lia.
      * lia.
      * exact I'.
      * rewrite A', AD, BK. lia.
      * exact AL'.
      * lia.
      * exact BM'.
      * rewrite EL. exists (c :: l). split; [reflexivity|]. split.
        -- cbn [tiles c c_addr c_len]. split; [exact AD|]. rewrite BK. split; [nia|].
           replace (addr0 + d * page + k * page) with (addr0 + (d + k) * page) by lia.
           replace ((P - d) * page - k * page) with ((P - (d + k)) * page) by lia. exact TL.
        -- intros c' [<-|IN]; [exact CC|]. destruct (CL c' IN) as (a & b & H1 & H2). exists a, b. split; [lia|exact H2].
Qed.

Lemma os_bind_split : exists l, os_bind u addr0 (P * page) page = Some (l, u) /\ tiles addr0 (P * page) l /\
    (forall c, In c l -> exists a b, 0 <= a /\ a < b <= P /\ c_addr c = addr0 + a * page /\ c_len c = (b - a) * page /\
       forall p n, a <= p < b -> (In n (c_nodes c) <-> in_page p n)).
Proof using PP WT POS NOV WB NE PGZ PNO MODE MANY.
  unfold os_bind, membindFirst. rewrite MODE. cbn [policy_default].
  assert (NS : forall (A : Type) (x : list Z -> A) (y : A), match nu_nodeset u with [s] => x s | _ => y end = y).
  { intros. destruct (nu_nodeset u) as [|s [|s2 r]] eqn:E; try reflexivity. exfalso. now apply (MANY s). }
  rewrite NS. rewrite Z.div_mul by lia.
  destruct (nextBind_ok 0 (Membind [] 0 addr0 (P * page) 0 page 0 P 0)) as (m & k & EE & BK & K1 & DK & I & A & AL & P1 & P2 & BM).
  - unfold inv; cbn [mb_left mb_rest mb_node]. pose proof W_pos. unfold start. cbn [firstn total]. repeat split; try lia.
  - lia.
  - reflexivity.
  - cbn [mb_page]. exact PGZ.
  - cbn [mb_page]. exact PNO.
  - rewrite EE. cbn [mb_addr mb_alloc mb_page mb_pages] in *.
    destruct (split_calls_ok (S (Z.to_nat P)) 0 m k) as (l & EL & TL & CL); try assumption; try lia.
    + rewrite EL. exists l. split; [reflexivity|]. rewrite Z.mul_0_l, Z.add_0_r, Z.sub_0_r in TL. split; [exact TL|exact CL].
Qed.
End Split.
