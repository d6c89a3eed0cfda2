(* The limit that pools share, under concurrency. *)
From Verif Require Import Base Model_Utils Spec_Utils Proof_Utils Model_Disjoint Spec_Disjoint.

Definition lsum (f : lbucket -> Z) (l : list lbucket) : Z := fold_right (fun b n => f b + n) 0 l.
Lemma lsum_mid : forall f l1 b l2, lsum f (l1 ++ b :: l2) = f b + lsum f (l1 ++ l2).
Proof. intros. unfold lsum. induction l1 as [|x l IH]; cbn; [reflexivity|]. lia. Qed.
(* what is kept or announced; what is kept or will be kept *)
Definition all1 (b : lbucket) : Z := k_inpool b * k_size b + match k_pending b with Some _ => k_size b | None => 0 end.
Definition good1 (max : Z) (b : lbucket) : Z := k_inpool b * k_size b + match k_pending b with Some prev => if prev + k_size b <=? max then k_size b else 0 | None => 0 end.
Definition bok (b : lbucket) : Prop := 0 < k_size b /\ 0 <= k_inpool b <= k_max b /\ match k_pending b with Some prev => 0 <= prev /\ prev + k_size b < U64 /\ k_inpool b + 1 <= k_max b | None => True end.
Definition linv (max : Z) (st : Z * list lbucket) : Prop := (forall b, In b (snd st) -> bok b) /\ lsum all1 (snd st) <= fst st /\ lsum (good1 max) (snd st) <= max.

Lemma lsum_nonneg : forall f l, (forall b, In b l -> 0 <= f b) -> 0 <= lsum f l.
Proof. induction l as [|b l IH]; intros H; unfold lsum in *; cbn [fold_right]; [lia|]. pose proof (H b (or_introl eq_refl)). specialize (IH (fun c C => H c (or_intror C))). lia. Qed.
Lemma lsum_le : forall f g l, (forall b, In b l -> f b <= g b) -> lsum f l <= lsum g l.
Proof. induction l as [|b l IH]; intros H; unfold lsum in *; cbn [fold_right]; [lia|]. pose proof (H b (or_introl eq_refl)). specialize (IH (fun c C => H c (or_intror C))). lia. Qed.
Lemma bok_sums : forall max b, bok b -> 0 <= k_inpool b * k_size b /\ 0 <= good1 max b <= all1 b.
Proof.
  intros max b (S0 & (N0 & N1) & _). assert (0 <= k_inpool b * k_size b) by nia. split; [assumption|]. unfold good1, all1. destruct (k_pending b) as [prev|]; [destruct (_ <=? _)|]; lia.
Qed.
Lemma in_mid : forall (b : lbucket) l1 l2 c, In c (l1 ++ l2) -> In c (l1 ++ b :: l2).
Proof. intros. rewrite in_app_iff in *. cbn [In]. tauto. Qed.
Lemma put : forall (Q : lbucket -> Prop) l1 l2 b b', (forall c, In c (l1 ++ b :: l2) -> Q c) -> Q b' -> forall c, In c (l1 ++ b' :: l2) -> Q c.
Proof. intros Q l1 l2 b b' H B c C. apply in_app_iff in C. cbn [In] in C. destruct C as [C|[<-|C]]; [|exact B|]; apply H; rewrite in_app_iff; cbn [In]; auto. Qed.

Theorem limit_inv : forall max st, 0 <= max -> lreach max st -> linv max st.
Proof.
  intros max st M0 R. induction R as [|a b R IH STEP SA SB]; [split; [intros b []|split; cbn; lia]|]. destruct IH as (OK & ALL & GOOD).
  destruct STEP as [total l1 b l2 PN FIT|total l1 b l2 prev PS LE|total l1 b l2 prev PS GT|total l1 b l2 PN POS|total l size cap|total l1 b l2 PN]; cbn [fst snd] in *.
  all: try (assert (INB : In b (l1 ++ b :: l2)) by (apply in_or_app; right; left; reflexivity); pose proof (OK b INB) as (S0 & (N0 & N1) & PB); pose proof (bok_sums max b (OK b INB)) as (KB & GB);
    assert (REST : 0 <= lsum all1 (l1 ++ l2)) by (apply lsum_nonneg; intros c C; pose proof (bok_sums max c (OK c (in_mid b l1 l2 c C))); lia);
    assert (GR : lsum (good1 max) (l1 ++ l2) <= lsum all1 (l1 ++ l2)) by (apply lsum_le; intros c C; pose proof (bok_sums max c (OK c (in_mid b l1 l2 c C))); lia);
    destruct (SA b INB) as (_ & _ & FT); rewrite lsum_mid in ALL, GOOD).
  - assert (T0 : 0 <= total) by (unfold all1 at 1 in ALL; rewrite PN in ALL; lia). assert (NI : k_inpool b + 1 < U64). { unfold all1 at 1 in ALL. rewrite PN in ALL. clear - ALL REST FT S0 N0. cbn [fst] in FT. nia. }
    cbn [fst] in FT. rewrite (wrap_id (k_inpool b + 1)) in FIT by (unfold is_word; lia). rewrite wrap_id by (unfold is_word; lia). split; [|split]; cbn [fst snd].
    + apply (put bok l1 l2 b); [exact OK|]. split; [exact S0|]. split; [cbn; lia|]. cbn [k_pending k_size k_inpool k_max]. lia.
    + rewrite lsum_mid. unfold all1 at 1. unfold all1 at 1 in ALL. rewrite PN in ALL. cbn [k_inpool k_size k_pending]. lia.
    + rewrite lsum_mid. unfold good1 at 1. unfold good1 at 1 in GOOD. unfold all1 at 1 in ALL. rewrite PN in GOOD, ALL. cbn [k_inpool k_size k_pending]. destruct (Z.leb_spec (total + k_size b) max); lia.
  - rewrite PS in PB. destruct PB as (P0 & P1 & P2). rewrite wrap_id in LE by (unfold is_word; lia).
    assert (NI : k_inpool b + 1 < U64). { unfold all1 at 1 in ALL. rewrite PS in ALL. clear - ALL REST FT S0 N0. cbn [fst] in FT. nia. }
    rewrite wrap_id by (unfold is_word; lia). split; [|split]; cbn [fst snd].
    + apply (put bok l1 l2 b); [exact OK|]. split; [exact S0|]. split; [cbn; lia|]. cbn. exact Logic.I.
    + rewrite lsum_mid. unfold all1 at 1. unfold all1 at 1 in ALL. rewrite PS in ALL. cbn [k_inpool k_size k_pending]. lia.
    + rewrite lsum_mid. unfold good1 at 1. unfold good1 at 1 in GOOD. rewrite PS, (proj2 (Z.leb_le _ _) LE) in GOOD. cbn [k_inpool k_size k_pending]. lia.
  - rewrite PS in PB. destruct PB as (P0 & P1 & P2). assert (T1 : k_size b <= total) by (unfold all1 at 1 in ALL; rewrite PS in ALL; lia). cbn [fst] in FT. rewrite wrap_id by (unfold is_word; lia). rewrite wrap_id in GT by (unfold is_word; lia). split; [|split]; cbn [fst snd].
    + apply (put bok l1 l2 b); [exact OK|]. split; [exact S0|]. split; [cbn; lia|]. cbn. exact Logic.I.
    + rewrite lsum_mid. unfold all1 at 1. unfold all1 at 1 in ALL. rewrite PS in ALL. cbn [k_inpool k_size k_pending]. lia.
    + rewrite lsum_mid. unfold good1 at 1. unfold good1 at 1 in GOOD. rewrite PS, (proj2 (Z.leb_gt _ _) GT) in GOOD. cbn [k_inpool k_size k_pending]. lia.
  - assert (T1 : k_size b <= k_inpool b * k_size b) by nia. assert (T2 : k_size b <= total) by (unfold all1 at 1 in ALL; rewrite PN in ALL; lia). assert (NI : k_inpool b < U64). { unfold all1 at 1 in ALL. rewrite PN in ALL. clear - ALL REST FT S0 N0. cbn [fst] in FT. nia. }
    cbn [fst] in FT. rewrite !wrap_id by (unfold is_word; lia). split; [|split]; cbn [fst snd].
    + apply (put bok l1 l2 b); [exact OK|]. split; [exact S0|]. split; [cbn; lia|]. cbn. exact Logic.I.
    + rewrite lsum_mid. unfold all1 at 1. unfold all1 at 1 in ALL. rewrite PN in ALL. cbn [k_inpool k_size k_pending]. lia.
    + rewrite lsum_mid. unfold good1 at 1. unfold good1 at 1 in GOOD. rewrite PN in GOOD. cbn [k_inpool k_size k_pending]. lia.
  - destruct (SB (LBucket size cap 0 None) (or_introl eq_refl)) as (S0 & C0 & _). cbn [k_size k_max] in *. split; [|split]; cbn [fst snd].
    + intros c [<-|C]; [|auto]. split; [exact S0|]. cbn. split; [lia|exact Logic.I].
    + cbn [lsum fold_right]. unfold all1 at 1. cbn [k_inpool k_size k_pending]. exact ALL.
    + cbn [lsum fold_right]. unfold good1 at 1. cbn [k_inpool k_size k_pending]. exact GOOD.
  - split; [intros c C; apply OK; apply in_mid; exact C|]. cbn [fst snd]. split; lia.
Qed.
Lemma limit_kept : forall max st, 0 <= max -> lreach max st -> kept_bytes (snd st) <= max /\ forall b, In b (snd st) -> 0 <= k_inpool b <= k_max b.
Proof.
  intros max st M0 R. destruct (limit_inv max st M0 R) as (OK & ALL & GOOD). split.
  - transitivity (lsum (good1 max) (snd st)); [|exact GOOD]. apply (lsum_le (fun b => k_inpool b * k_size b)). intros b B. pose proof (OK b B) as (S0 & _). unfold good1. destruct (k_pending b); [destruct (_ <=? _)|]; lia.
  - intros b B. apply (OK b B).
Qed.

(* ---- where the counter's bytes are ---- *)
Lemma lhist_lreach : forall max st lost, lhist max st lost -> lreach max st.
Proof. intros max st lost H. induction H as [|a b lost H IH ST SA SB]; [constructor|]. exact (lr_step max a b IH ST SA SB). Qed.
Lemma lreach_lhist : forall max st, lreach max st -> exists lost, lhist max st lost.
Proof. intros max st R. induction R as [|a b R (lost & IH) ST SA SB]; [exists 0; constructor|]. eexists. exact (lh_step max a b lost IH ST SA SB). Qed.
Lemma kept_mid : forall l1 b l2, kept_bytes (l1 ++ b :: l2) = k_inpool b * k_size b + kept_bytes (l1 ++ l2).
Proof. intros. exact (lsum_mid (fun b => k_inpool b * k_size b) l1 b l2). Qed.
Lemma announced_mid : forall l1 b l2, announced (l1 ++ b :: l2) = (match k_pending b with Some _ => k_size b | None => 0 end) + announced (l1 ++ l2).
Proof. intros. exact (lsum_mid (fun b => match k_pending b with Some _ => k_size b | None => 0 end) l1 b l2). Qed.
Lemma len_mid : forall (l1 l2 : list lbucket) b b', (length (l1 ++ b' :: l2) <? length (l1 ++ b :: l2))%nat = false.
Proof. intros. apply Nat.ltb_ge. rewrite !app_length. cbn [length]. lia. Qed.
Lemma kept_nonneg : forall l, (forall b, In b l -> bok b) -> 0 <= kept_bytes l.
Proof. intros l H. apply (lsum_nonneg (fun b => k_inpool b * k_size b)). intros b B. apply (bok_sums 0 b (H b B)). Qed.
Lemma announced_nonneg : forall l, (forall b, In b l -> bok b) -> 0 <= announced l.
Proof. intros l H. apply (lsum_nonneg (fun b => match k_pending b with Some _ => k_size b | None => 0 end)). intros b B. pose proof (proj1 (H b B)). destruct (k_pending b); lia. Qed.

Lemma limit_exact : forall max st lost, 0 <= max -> lhist max st lost -> 0 <= lost /\ fst st = kept_bytes (snd st) + announced (snd st) + lost.
Proof.
  intros max st lost M0 H. induction H as [|a b lost H IH ST SA SB]; [split; [lia|reflexivity]|].
  destruct (limit_inv max a M0 (lhist_lreach _ _ _ H)) as (OK & _ & _). destruct IH as (L0 & IH).
  destruct ST as [total l1 b l2 PN FIT|total l1 b l2 prev PS LE|total l1 b l2 prev PS GT|total l1 b l2 PN POS|total l size cap|total l1 b l2 PN]; cbn [fst snd] in *.
  all: try (assert (INB : In b (l1 ++ b :: l2)) by (apply in_or_app; right; left; reflexivity); pose proof (OK b INB) as (S0 & (N0 & N1) & PB);
    pose proof (kept_nonneg (l1 ++ l2) (fun c C => OK c (in_mid b l1 l2 c C))) as K0; pose proof (announced_nonneg (l1 ++ l2) (fun c C => OK c (in_mid b l1 l2 c C))) as A0;
    destruct (SA b INB) as (_ & _ & FT); cbn [fst] in FT; rewrite kept_mid, announced_mid in IH).
  all: try rewrite len_mid.
  - rewrite PN in IH. split; [exact L0|]. rewrite kept_mid, announced_mid. cbn [k_inpool k_size k_pending]. rewrite wrap_id by (unfold is_word; nia). lia.
  - rewrite PS in IH. split; [exact L0|]. rewrite kept_mid, announced_mid. cbn [k_inpool k_size k_pending]. rewrite (wrap_id (k_inpool b + 1)) by (unfold is_word; nia). lia.
  - rewrite PS in IH. split; [exact L0|]. rewrite kept_mid, announced_mid. cbn [k_inpool k_size k_pending]. rewrite wrap_id by (unfold is_word; nia). lia.
  - rewrite PN in IH. split; [exact L0|]. rewrite kept_mid, announced_mid. cbn [k_inpool k_size k_pending]. rewrite (wrap_id (k_inpool b - 1)) by (unfold is_word; nia). rewrite wrap_id by (unfold is_word; nia). lia.
  - rewrite (proj2 (Nat.ltb_ge _ _)) by (cbn [length]; lia). split; [exact L0|]. cbn [kept_bytes announced fold_right k_inpool k_size k_pending]. unfold kept_bytes, announced in IH. lia.
  - rewrite (proj2 (Nat.ltb_lt _ _)) by (rewrite !app_length; cbn [length]; lia). rewrite kept_mid. rewrite PN in IH. split; nia.
Qed.
Lemma announced_none : forall l, (forall b, In b l -> k_pending b = None) -> announced l = 0.
Proof. induction l as [|b l IH]; intros H; [reflexivity|]. cbn [announced fold_right]. rewrite (H b (or_introl eq_refl)). unfold announced in IH. rewrite IH; [reflexivity|]. intros c C. apply H. right. exact C. Qed.
Lemma limit_keep : forall max st lost l1 b l2, 0 <= max -> lhist max st lost -> snd st = l1 ++ b :: l2 -> (forall b', In b' (snd st) -> k_pending b' = None) ->
     k_inpool b + 1 <= k_max b -> k_inpool b + 1 < U64 -> fst st + k_size b < U64 -> kept_bytes (snd st) + lost + k_size b <= max ->
     exists st1, lstep max st st1 /\
       lstep max st1 (fst st + k_size b, l1 ++ LBucket (k_size b) (k_max b) (k_inpool b + 1) None :: l2).
Proof.
  intros max [total l] lost l1 b l2 M0 H E NP CAP W1 W2 FIT. cbn [fst snd] in *. subst l.
  destruct (limit_exact max _ lost M0 H) as (L0 & T). cbn [fst snd] in T. rewrite (announced_none _ NP) in T.
  assert (INB : In b (l1 ++ b :: l2)) by (apply in_or_app; right; left; reflexivity).
  destruct (limit_inv max _ M0 (lhist_lreach _ _ _ H)) as (OK & _ & _). destruct (OK b INB) as (S0 & (N0 & _) & _). pose proof (kept_nonneg _ OK) as K0. cbn [snd] in K0.
  exists (wrap (total + k_size b), l1 ++ LBucket (k_size b) (k_max b) (k_inpool b) (Some total) :: l2). split.
  - apply l_reserve; [apply NP; exact INB|]. rewrite wrap_id by (unfold is_word; lia). exact CAP.
  - rewrite (wrap_id (total + k_size b)) by (unfold is_word; lia). rewrite <- (wrap_id (k_inpool b + 1)) by (unfold is_word; lia).
    apply (l_keep max (total + k_size b) l1 (LBucket (k_size b) (k_max b) (k_inpool b) (Some total)) l2 total); [reflexivity|]. cbn [k_size]. rewrite wrap_id by (unfold is_word; lia). lia.
Qed.
