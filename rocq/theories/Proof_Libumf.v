(* Proofs about the initialisation of the library. *)
From Verif Require Import Base Model_Libumf Spec_Libumf Proof_Utils.

Record Inv (g : global) (d : Z) (good : bool * bool) (n : Z) : Prop := Invariant {
  v_refs : refs g = d; v_range : 0 <= d < U64;
  v_tracker : tracker g = (if (0 <? d) && fst good then Some (made g - 1) else None);
  v_ipc : ipc g = (0 <? d) && snd good; v_good : snd good = true -> fst good = true;
  v_slots : slots g = n; v_n : 0 <= n;
  v_made : made g = Z.of_nat (List.length (freed g)) + (if (0 <? d) && fst good then 1 else 0);
  v_freed : forall t, In t (freed g) <-> 0 <= t < Z.of_nat (List.length (freed g)); v_nd : NoDup (freed g) }.

Lemma start_inv : Inv g_start 0 (false, false) 0.
Proof.
  constructor; cbn [refs tracker ipc slots made freed g_start fst snd andb List.length]; try reflexivity; try (split; [lia|reflexivity]); try lia; try discriminate.
  - intros t. cbn. lia.
  - constructor.
Qed.

Lemma init_seq : forall g d good n tok iok, Inv g d good n -> d + 1 < U64 -> (d = 0 -> tok && iok = true -> n < 100) ->
  exists g', call g DoInit tok iok = Some (g', if (d =? 0) && negb (tok && iok) then -1 else 0) /\ Inv g' (d + 1) (if d =? 0 then (tok, tok && iok) else good) (if (d =? 0) && tok && iok then n + 1 else n).
Proof.
  intros g d good n tok iok [A1 A2 A3 A4 A5 A6 A7 A8 A9 A10] L Q. assert (UU : U64 = 2 ^ 64) by reflexivity.
  assert (W : wrap (d + 1) = d + 1) by (apply wrap_id; unfold is_word; lia). unfold call. cbn [move]. rewrite A1, W. destruct (d =? 0) eqn:D0.
  - apply Z.eqb_eq in D0. rewrite D0 in *. clear D0 d. cbn [andb]. change (0 <? 0) with false in *. cbn [andb] in A3, A4, A8. destruct tok; cbn [andb negb finish move refs tracker ipc slots made freed].
    + destruct iok; cbn [andb negb finish move refs tracker ipc slots made freed].
      * rewrite A6. assert (QN : n < 100) by (apply Q; reflexivity). replace (n <? 100) with true by (symmetry; apply Z.ltb_lt; exact QN). cbn [finish]. eexists. split; [reflexivity|]. constructor; cbn [refs tracker ipc slots made freed fst snd]; change (0 <? 0 + 1) with true; cbn [andb]; try reflexivity; try assumption; try (intros ?; discriminate); try (f_equal; clear - A8; lia); try (clear - A8 A7 L; lia).
      * eexists. split; [reflexivity|]. constructor; cbn [refs tracker ipc slots made freed fst snd]; change (0 <? 0 + 1) with true; cbn [andb]; try reflexivity; try assumption; try (intros ?; discriminate); try (f_equal; clear - A8; lia); try (clear - A8 A7 L; lia).
    + eexists. split; [reflexivity|]. constructor; cbn [refs tracker ipc slots made freed fst snd]; change (0 <? 0 + 1) with true; cbn [andb]; try reflexivity; try assumption; try (intros ?; discriminate); try (f_equal; clear - A8; lia); try (clear - A8 A7 L; lia).
  - cbn [andb finish]. eexists. split; [reflexivity|]. apply Z.eqb_neq in D0. assert (DP : (0 <? d) = true) by (apply Z.ltb_lt; lia). assert (DQ : (0 <? d + 1) = true) by (apply Z.ltb_lt; lia). rewrite DP in *.
    constructor; cbn [refs tracker ipc slots made freed]; rewrite ?DQ; try assumption; try reflexivity; try lia.
Qed.
Lemma tear_seq : forall g d good n tok iok, Inv g d good n -> 0 < d -> exists g', call g DoTear tok iok = Some (g', 0) /\ Inv g' (d - 1) good n.
Proof.
  intros g d good n tok iok [A1 A2 A3 A4 A5 A6 A7 A8 A9 A10] L. assert (UU : U64 = 2 ^ 64) by reflexivity.
  assert (W : wrap (d - 1) = d - 1) by (apply wrap_id; unfold is_word; lia). assert (DP : (0 <? d) = true) by (apply Z.ltb_lt; exact L). rewrite DP in *. cbn [andb] in *.
  unfold call. cbn [move]. rewrite A1, W. destruct (d =? 1) eqn:D1.
  - apply Z.eqb_eq in D1. rewrite D1 in *. clear D1 d. cbn [finish move refs tracker ipc slots made freed]. eexists. split; [reflexivity|]. change (0 <? 1 - 1) with false. rewrite A3. destruct good as ([|] & b); cbn [fst snd andb] in *.
    + constructor; cbn [refs tracker ipc slots made freed]; change (0 <? 1 - 1) with false; cbn [andb]; try assumption; try reflexivity; try lia.
      * cbn [List.length]. lia.
      * intros t. cbn [In List.length]. rewrite A9. lia.
      * constructor; [|exact A10]. rewrite A9. lia.
    + constructor; cbn [refs tracker ipc slots made freed]; change (0 <? 1 - 1) with false; cbn [andb]; try assumption; try reflexivity; try lia.
  - apply Z.eqb_neq in D1. cbn [finish]. eexists. split; [reflexivity|]. assert (DQ : (0 <? d - 1) = true) by (apply Z.ltb_lt; lia).
    constructor; cbn [refs tracker ipc slots made freed]; rewrite ?DQ; cbn [andb]; try assumption; try reflexivity; try lia.
Qed.

Lemma init_fuel : forall g d good n tok iok g' r, Inv g d good n -> call g DoInit tok iok = Some (g', r) -> d = 0 -> tok && iok = true -> n < 100.
Proof.
  intros g d good n tok iok g' r [A1 A2 A3 A4 A5 A6 A7 A8 A9 A10] C -> T. apply andb_true_iff in T. destruct T as (-> & ->). unfold call in C. cbn [move] in C. rewrite A1 in C. change (0 =? 0) with true in C.
  cbn [finish move refs tracker ipc slots made freed] in C. rewrite A6 in C. destruct (n <? 100) eqn:L; [apply Z.ltb_lt; exact L|discriminate].
Qed.
Lemma story_inv : forall g d good n, story g d good n -> Inv g d good n.
Proof.
  intros g d good n S. induction S as [|g d good n tok iok g' r S IH L C|g d good n tok iok g' r S IH L C]; [exact start_inv| |].
  - destruct (init_seq g d good n tok iok IH L (init_fuel _ _ _ _ _ _ _ _ IH C)) as (g2 & C2 & I2). rewrite C in C2. injection C2 as <- _. exact I2.
  - destruct (tear_seq g d good n tok iok IH L) as (g2 & C2 & I2). rewrite C in C2. injection C2 as <- _. exact I2.
Qed.

Lemma story_state : forall g d good n, story g d good n ->
  refs g = d /\ (tracker g <> None <-> 0 < d /\ fst good = true) /\ (ipc g = true <-> 0 < d /\ snd good = true) /\
  NoDup (freed g) /\ (forall t, tracker g = Some t -> ~ In t (freed g)) /\
  (forall t, 0 <= t < made g <-> tracker g = Some t \/ In t (freed g)).
Proof.
  intros g d good n S. destruct (story_inv _ _ _ _ S) as [A1 A2 A3 A4 A5 A6 A7 A8 A9 A10]. split; [exact A1|].
  assert (DD : (0 <? d) = true <-> 0 < d) by apply Z.ltb_lt. split; [|split; [|split; [exact A10|split]]].
  - rewrite A3, <- DD. destruct (0 <? d), (fst good); cbn [andb]; split; try (intros (? & ?); discriminate); try (intros W; contradiction); try discriminate; auto.
  - rewrite A4, <- DD, andb_true_iff. reflexivity.
  - intros t T. rewrite A9. rewrite A3 in T. destruct ((0 <? d) && fst good); [|discriminate]. injection T as T. lia.
  - intros t. rewrite A9, A3. destruct ((0 <? d) && fst good); (split; [intros W|intros [W|W]]; try discriminate; try (injection W as W)); try lia.
    + destruct (Z.eq_dec t (made g - 1)) as [->|]; [left; reflexivity|right; lia].
Qed.
Lemma story_init : forall g d good n tok iok, story g d good n -> d + 1 < 2 ^ 64 -> (d = 0 -> tok && iok = true -> n < 100) ->
  exists g', call g DoInit tok iok = Some (g', if (d =? 0) && negb (tok && iok) then -1 else 0).
Proof. intros g d good n tok iok S L Q. destruct (init_seq g d good n tok iok (story_inv _ _ _ _ S) L Q) as (g' & C & _). exists g'. exact C. Qed.
Lemma story_tear : forall g d good n tok iok, story g d good n -> 0 < d -> exists g', call g DoTear tok iok = Some (g', 0).
Proof. intros g d good n tok iok S L. destruct (tear_seq g d good n tok iok (story_inv _ _ _ _ S) L) as (g' & C & _). exists g'. exact C. Qed.

(* ---- concurrent callers ---- *)
Definition fly (p : pc) : Z := match p with IRet _ => 1 | _ => 0 end.
Fixpoint total (ts : list Z) (f : Z -> Z) : Z := match ts with [] => 0 | t :: ts => f t + total ts f end.
Lemma total_one : forall ts f g t, NoDup ts -> In t ts -> (forall u, u <> t -> g u = f u) -> total ts g = total ts f + (g t - f t).
Proof.
  induction ts as [|x ts IH]; intros f g t N X E; [destruct X|]. inversion N as [|a b N1 N2]; subst. cbn [total]. destruct X as [->|X].
  - assert (T : total ts g = total ts f). { clear - N1 E. induction ts as [|y ts IH]; [reflexivity|]. cbn [total]. rewrite (E y); [|intros ->; apply N1; left; reflexivity]. rewrite IH; [reflexivity|]. intros Y. apply N1. right. exact Y. } lia.
  - rewrite (IH f g t N2 X E). rewrite (E x); [lia|]. intros ->. contradiction.
Qed.
Lemma total_pos : forall ts f t, (forall u, In u ts -> 0 <= f u) -> In t ts -> f t <= total ts f.
Proof.
  induction ts as [|x ts IH]; intros f t P X; [destruct X|]. cbn [total]. assert (T : 0 <= total ts f). { clear - P. assert (Q : forall u, In u ts -> 0 <= f u) by (intros u U; apply P; right; exact U). clear P. induction ts as [|y ts IH]; cbn [total]; [lia|]. pose proof (Q y (or_introl eq_refl)). assert (0 <= total ts f) by (apply IH; intros u U; apply Q; right; exact U). lia. }
  destruct X as [->|X]; [lia|]. pose proof (P x (or_introl eq_refl)). assert (f t <= total ts f) by (apply IH; [intros u U; apply P; right; exact U|exact X]). lia.
Qed.
Lemma total_zero : forall ts f, (forall u, In u ts -> f u = 0) -> total ts f = 0.
Proof. induction ts as [|x ts IH]; intros f E; [reflexivity|]. cbn [total]. rewrite (E x (or_introl eq_refl)), IH; [reflexivity|]. intros u U. apply E. right. exact U. Qed.

Record Kept (ts : list Z) (g : global) (ps : Z -> pc) (hold : Z -> Z) : Prop := K {
  q_refs : refs g = 1 + total ts (fun t => hold t + fly (ps t)); q_range : refs g < U64; q_tr : tracker g <> None; q_ipc : ipc g = true;
  q_ps : forall t, ps t = Rest \/ ps t = IRet 0; q_hold : forall t, 0 <= hold t }.
Lemma fly_nonneg : forall p, 0 <= fly p.
Proof. destruct p; cbn; lia. Qed.
Lemma kept_inv : forall ts g ps hold, NoDup ts -> kept ts g ps hold -> Kept ts g ps hold /\ True.
Proof.
  intros ts g ps hold N H. split; [|exact Logic.I]. assert (UU : U64 = 2 ^ 64) by reflexivity.
  induction H as [g ps hold R T IP PS HO|g ps hold t g' ps' H IH X L M|g ps hold t g' ps' H IH X L M|g ps hold t ok g' ps' H IH X M].
  - constructor; try assumption; try (rewrite R; lia).
    + rewrite R, total_zero; [lia|]. intros u _. rewrite HO, PS. reflexivity.
    + intros t. left. apply PS.
    + intros t. rewrite HO. lia.
  - destruct IH as [A1 A2 A3 A4 A5 A6]. unfold mstep in M. destruct (A5 t) as [P|P]; rewrite P in M; cbn [move] in M; [|discriminate].
    assert (GE : 1 <= refs g) by (rewrite A1; pose proof (total_pos ts (fun t => hold t + fly (ps t)) t (fun u _ => Z.add_nonneg_nonneg _ _ (A6 u) (fly_nonneg (ps u))) X); pose proof (A6 t); pose proof (fly_nonneg (ps t)); cbn beta in *; lia).
    replace (refs g =? 0) with false in M by (symmetry; apply Z.eqb_neq; lia). injection M as <- <-. assert (W : wrap (refs g + 1) = refs g + 1) by (apply wrap_id; unfold is_word; lia). constructor; cbn [refs tracker ipc]; rewrite ?W; try assumption; try lia.
    + rewrite (total_one ts (fun t => hold t + fly (ps t)) (fun t0 => hold t0 + fly (upd ps t (IRet 0) t0)) t N X); [|intros u NE; unfold upd; replace (u =? t) with false by (symmetry; apply Z.eqb_neq; exact NE); reflexivity].
      unfold upd at 1. rewrite Z.eqb_refl, P. cbn [fly]. lia.
    + intros u. unfold upd. destruct (u =? t); [right; reflexivity|apply A5].
  - destruct IH as [A1 A2 A3 A4 A5 A6]. unfold mstep in M. destruct (A5 t) as [P|P]; rewrite P in M; cbn [move] in M; [|discriminate].
    assert (GE : 2 <= refs g) by (rewrite A1; pose proof (total_pos ts (fun t => hold t + fly (ps t)) t (fun u _ => Z.add_nonneg_nonneg _ _ (A6 u) (fly_nonneg (ps u))) X); pose proof (fly_nonneg (ps t)); cbn beta in *; lia).
    replace (refs g =? 1) with false in M by (symmetry; apply Z.eqb_neq; lia). injection M as <- <-. assert (W : wrap (refs g - 1) = refs g - 1) by (apply wrap_id; unfold is_word; lia). constructor; cbn [refs tracker ipc]; rewrite ?W; try assumption; try lia.
    + rewrite (total_one ts (fun t => hold t + fly (ps t)) (fun t0 => one hold t (hold t - 1) t0 + fly (upd ps t Rest t0)) t N X); [|intros u NE; unfold upd, one; replace (u =? t) with false by (symmetry; apply Z.eqb_neq; exact NE); reflexivity].
      unfold upd, one. rewrite Z.eqb_refl, P. cbn [fly]. lia.
    + intros u. unfold upd. destruct (u =? t); [left; reflexivity|apply A5].
    + intros u. unfold one. destruct (u =? t); [lia|apply A6].
  - destruct IH as [A1 A2 A3 A4 A5 A6]. unfold mstep in M. destruct (A5 t) as [P|P]; rewrite P in M |- *; cbn [move] in M; [discriminate|]. injection M as <- <-. constructor; try assumption.
    + rewrite (total_one ts (fun t => hold t + fly (ps t)) (fun t0 => one hold t (hold t + 1) t0 + fly (upd ps t Rest t0)) t N X); [|intros u NE; unfold upd, one; replace (u =? t) with false by (symmetry; apply Z.eqb_neq; exact NE); reflexivity].
      unfold upd, one. rewrite Z.eqb_refl, P. cbn [fly]. lia.
    + intros u. unfold upd. destruct (u =? t); [left; reflexivity|apply A5].
    + intros u. unfold one. destruct (u =? t); [pose proof (A6 t); lia|apply A6].
Qed.
Lemma kept_safe : forall ts g ps hold, NoDup ts -> kept ts g ps hold -> tracker g <> None /\ ipc g = true /\ (forall t r, ps t = IRet r -> r = 0) /\
  (forall t, exists a g' ps', mstep g ps t a = Some (g', ps')).
Proof.
  intros ts g ps hold N H. destruct (kept_inv ts g ps hold N H) as ([A1 A2 A3 A4 A5 A6] & _). split; [exact A3|]. split; [exact A4|]. split.
  - intros t r P. destruct (A5 t) as [Q|Q]; rewrite Q in P; [discriminate|]. injection P as <-. reflexivity.
  - intros t. destruct (A5 t) as [Q|Q]; unfold mstep; rewrite Q; [exists DoInit|exists (Go true)]; eexists _, _; reflexivity.
Qed.
Lemma kept_tracker : forall ts g ps hold, NoDup ts -> kept ts g ps hold -> forall t a g' ps', In t ts -> (a = DoTear -> 0 < hold t) -> mstep g ps t a = Some (g', ps') -> tracker g' = tracker g /\ made g' = made g /\ freed g' = freed g.
Proof.
  intros ts g ps hold N H t a g' ps' X W M. destruct (kept_inv ts g ps hold N H) as ([A1 A2 A3 A4 A5 A6] & _). unfold mstep in M. destruct (A5 t) as [Q|Q]; rewrite Q in M; destruct a; try discriminate; cbn [move] in M.
  - destruct (refs g =? 0); injection M as <- <-; auto.
  - destruct (refs g =? 1); injection M as <- <-; auto.
  - injection M as <- <-. auto.
Qed.
