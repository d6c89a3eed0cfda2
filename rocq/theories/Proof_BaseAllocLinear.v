(* The linear allocator: a list of areas, the first of them active. *)
From Verif Require Import Base Model_Utils Spec_Utils Proof_Utils Model_BaseAlloc Spec_BaseAlloc Proof_BaseAlloc Proof_BaseAllocStep.
From Coq Require FinFun.

Record area := Area { a_base : Z; a_size : Z; a_off : Z; a_count : Z }.
Definition next_area (n : next_pool) : area := Area (n_base n) (n_size n) NEXT_HEADER (n_allocs n).
Definition main_area (c : consts) (l : linear) : area := Area (l_base l) (l_size l) (k_lheader c) (l_allocs l).
Definition areas (c : consts) (l : linear) : list area := map next_area (l_next l) ++ [main_area c l].
Definition here (x : Z) (a : area) : bool := (a_base a + a_off a <=? x) && (x <? a_base a + a_size a).
Definition span (a : area) : Z * Z := (a_base a, a_size a).

Record linv (page : Z) (A : list area) (data left : Z) (mem live : list (Z * Z)) : Prop := LInv {
  i_mem : mem = map span A;
  i_area : forall a, In a A -> 0 < a_base a /\ a_base a + a_size a < U64 /\ a_base a mod 8 = 0 /\ a_off a mod 8 = 0 /\ 24 <= a_off a /\ a_off a <= a_size a /\ page <= a_size a /\
             a_count a = Z.of_nat (length (filter (fun x => here (fst x) a) live));
  i_nodup : NoDup (map a_base A);
  i_apart : forall a b, In a A -> In b A -> a_base a <> a_base b -> apart (a_base a) (a_size a) (a_base b) (a_size b);
  i_live : forall p s, In (p, s) live -> 0 < s /\ p mod 8 = 0 /\ exists a, In a A /\ a_base a + a_off a <= p /\ p + s <= a_base a + a_size a;
  i_fst : NoDup (map fst live);
  i_disj : forall p s q t, In (p, s) live -> In (q, t) live -> p <> q -> apart p s q t;
  i_head : exists a r, A = a :: r /\ a_base a + a_off a <= data /\ data + left = a_base a + a_size a /\ 0 <= left /\ data mod 8 = 0 /\
             (forall p s, In (p, s) live -> here p a = true -> p + s <= data) }.

Lemma pigeon : forall N l, 0 <= N -> NoDup l -> (forall x, In x l -> 0 <= x < N) -> Z.of_nat (length l) <= N.
Proof.
  intros N l N0 ND B. assert (I : incl l (map Z.of_nat (seq 0 (Z.to_nat N)))). { intros x X. apply in_map_iff. exists (Z.to_nat x). specialize (B x X). split; [lia|apply in_seq; lia]. }
  pose proof (NoDup_incl_length ND I) as L. rewrite map_length, seq_length in L. lia.
Qed.
Lemma nodup_map_filter2 : forall {A B} (f : A -> B) p l, NoDup (map f l) -> NoDup (map f (filter p l)).
Proof.
  intros A B f p l. induction l as [|x l IH]; intros N; [constructor|]. cbn in N. inversion N as [|? ? N1 N2]; subst. cbn [filter]. destruct (p x); [|auto]. cbn [map]. constructor; [|auto].
  intros X. apply N1. apply in_map_iff in X. destruct X as (y & E & Y). apply filter_In in Y. apply in_map_iff. exists y. tauto.
Qed.

Section Inv.
Variables (page : Z) (A : list area) (data left : Z) (mem live : list (Z * Z)).
Hypothesis I : linv page A data left mem live.
Hypothesis PG : 4096 <= page.

Lemma area_eq : forall a b, In a A -> In b A -> a_base a = a_base b -> a = b.
Proof.
  intros a b IA IB E. pose proof (i_nodup _ _ _ _ _ _ I) as N. clear - IA IB E N. induction A as [|x r IH]; [destruct IA|]. cbn in N. inversion N as [|? ? N1 N2]; subst.
  destruct IA as [->|IA]; destruct IB as [->|IB]; [reflexivity| | |auto]; exfalso; apply N1; [rewrite E|rewrite <- E]; apply in_map; assumption.
Qed.
Lemma here_unique : forall x a b, In a A -> In b A -> here x a = true -> here x b = true -> a = b.
Proof.
  intros x a b IA IB HA HB. apply area_eq; try assumption. destruct (Z.eq_dec (a_base a) (a_base b)) as [E|N]; [exact E|]. exfalso.
  pose proof (i_apart _ _ _ _ _ _ I a b IA IB N) as AP. pose proof (i_area _ _ _ _ _ _ I a IA). pose proof (i_area _ _ _ _ _ _ I b IB). unfold here, apart in *. lia.
Qed.
Lemma live_here : forall p s, In (p, s) live -> exists a, In a A /\ here p a = true /\ p + s <= a_base a + a_size a.
Proof. intros p s L. destruct (i_live _ _ _ _ _ _ I p s L) as (S0 & _ & a & IA & B1 & B2). exists a. split; [exact IA|]. split; [unfold here; lia|exact B2]. Qed.
Lemma count_word : forall a, In a A -> 0 <= a_count a < U64.
Proof.
  intros a IA. destruct (i_area _ _ _ _ _ _ I a IA) as (A1 & A2 & _ & _ & A3 & _ & _ & ->). split; [lia|].
  assert (L : Z.of_nat (length (map (fun x => fst x - 1) (filter (fun x => here (fst x) a) live))) <= U64 - 1).
  { apply pigeon; [unfold U64; lia| |].
    - rewrite <- (map_map fst (fun x => x - 1)). apply FinFun.Injective_map_NoDup; [intros x y E; lia|]. apply nodup_map_filter2. exact (i_fst _ _ _ _ _ _ I).
    - intros x X. apply in_map_iff in X. destruct X as ((p, s) & <- & X). apply filter_In in X. destruct X as (_ & X). unfold here in X. cbn [fst] in *. lia. }
  rewrite map_length in L. lia.
Qed.
Lemma count_pos : forall a p s, In a A -> In (p, s) live -> here p a = true -> 0 < a_count a.
Proof.
  intros a p s IA L H. destruct (i_area _ _ _ _ _ _ I a IA) as (_ & _ & _ & _ & _ & _ & _ & ->). assert (X : In (p, s) (filter (fun x => here (fst x) a) live)) by (apply filter_In; auto). destruct (filter (fun x => here (fst x) a) live); [destruct X|cbn [length]; lia].
Qed.
(* ---- one more allocation in the active area ---- *)
Lemma take_inv : forall a r size n, A = a :: r -> 0 < size <= n -> n mod 8 = 0 -> n <= left ->
  linv page (Area (a_base a) (a_size a) (a_off a) (a_count a + 1) :: r) (data + n) (left - n) mem ((data, size) :: live) /\ 0 < data.
Proof.
  intros a r size n EA SZ N8 NL. destruct (i_head _ _ _ _ _ _ I) as (a0 & r0 & E0 & H1 & H2 & H3 & H4 & H5). rewrite EA in E0. injection E0 as <- <-.
  assert (IA : In a A) by (rewrite EA; left; reflexivity). pose proof (i_area _ _ _ _ _ _ I a IA) as (A1 & A2 & A3 & A4 & A5 & A6 & A7 & A8).
  assert (HD : here data a = true) by (unfold here; lia). assert (FR : ~ In data (map fst live)). { intros X. apply in_map_iff in X. destruct X as ((p & s) & E & X). cbn in E. subst p. pose proof (H5 data s X HD). destruct (i_live _ _ _ _ _ _ I data s X) as (S0 & _). lia. }
  split; [|lia]. set (a' := Area _ _ _ _). assert (HE : forall x, here x a' = here x a) by reflexivity.
  assert (OLD : forall b, In b r -> In b A) by (intros b B; rewrite EA; right; exact B).
  assert (NB : forall b, In b r -> a_base b <> a_base a). { intros b B E. pose proof (i_nodup _ _ _ _ _ _ I) as N. rewrite EA in N. cbn in N. inversion N as [|? ? N1 N2]; subst. apply N1. rewrite <- E. apply in_map. exact B. }
  assert (NH : forall b, In b r -> here data b = false). { intros b B. destruct (here data b) eqn:HB; [|reflexivity]. exfalso. apply (NB b B). f_equal. apply (here_unique data); auto. }
  split.
  - rewrite (i_mem _ _ _ _ _ _ I), EA. reflexivity.
  - intros b [<-|B].
    + cbn [a_base a_size a_off a_count a' filter fst]. rewrite HE, HD. cbn [length]. rewrite Nat2Z.inj_succ, A8. repeat (split; [assumption|]). reflexivity.
    + pose proof (i_area _ _ _ _ _ _ I b (OLD b B)) as AB. cbn [filter fst]. rewrite (NH b B). exact AB.
  - pose proof (i_nodup _ _ _ _ _ _ I) as N. rewrite EA in N. exact N.
  - intros b b' [<-|B] [<-|B'] D; cbn [a_base a_size a'] in *; [lia| | |].
    + apply (i_apart _ _ _ _ _ _ I a b' IA (OLD b' B') D).
    + apply (i_apart _ _ _ _ _ _ I b a (OLD b B) IA D).
    + apply (i_apart _ _ _ _ _ _ I b b' (OLD b B) (OLD b' B') D).
  - intros p s [E|L].
    + injection E as <- <-. split; [lia|]. split; [exact H4|]. exists a'. split; [left; reflexivity|]. cbn [a_base a_off a_size a']. lia.
    + destruct (i_live _ _ _ _ _ _ I p s L) as (S0 & P8 & b & IB & B1 & B2). split; [exact S0|]. split; [exact P8|]. rewrite EA in IB. destruct IB as [->|IB]; [exists a'; split; [left; reflexivity|exact (conj B1 B2)]|exists b; split; [right; exact IB|auto]].
  - cbn [map fst]. constructor; [exact FR|exact (i_fst _ _ _ _ _ _ I)].
  - assert (K : forall p s, In (p, s) live -> apart data size p s).
    { intros p s L. destruct (live_here p s L) as (b & IB & HB & B2). rewrite EA in IB. destruct IB as [->|IB]; [pose proof (H5 p s L HB); unfold apart; right; lia|].
      pose proof (i_apart _ _ _ _ _ _ I b a (OLD b IB) IA (NB b IB)) as AP. destruct (i_area _ _ _ _ _ _ I b (OLD b IB)) as (B3 & _ & _ & _ & B5 & _). unfold here, apart in *. lia. }
    intros p s q t [E|L] [E'|L'] D; [congruence| | |exact (i_disj _ _ _ _ _ _ I p s q t L L' D)].
    + injection E as <- <-. exact (K q t L').
    + injection E' as <- <-. pose proof (K p s L) as X. unfold apart in *. lia.
  - exists a', r. split; [reflexivity|]. cbn [a_base a_off a_size a']. split; [lia|]. split; [lia|]. split; [lia|]. split; [apply mod8_add; assumption|].
    intros p s [E|L] HP; [injection E as <- <-; lia|]. pose proof (H5 p s L HP). lia.
Qed.
(* ---- a new, empty area becomes active ---- *)
Lemma grow_inv : forall p n, 0 < p -> p + n < U64 -> p mod 8 = 0 -> page <= n -> (forall q m, In (q, m) mem -> apart p n q m) ->
  linv page (Area p n NEXT_HEADER 0 :: A) (p + NEXT_HEADER) (n - NEXT_HEADER) ((p, n) :: mem) live.
Proof.
  intros p n P0 PU P8 PN FR. unfold NEXT_HEADER in *. set (a := Area p n 24 0).
  assert (MM : forall b, In b A -> apart p n (a_base b) (a_size b)). { intros b B. apply FR. rewrite (i_mem _ _ _ _ _ _ I). change (a_base b, a_size b) with (span b). apply in_map. exact B. }
  assert (NB : forall b, In b A -> a_base b <> p). { intros b B E. specialize (MM b B). destruct (i_area _ _ _ _ _ _ I b B) as (_ & _ & _ & _ & B5 & B6 & _). unfold apart in MM. lia. }
  assert (NL : forall q s, In (q, s) live -> here q a = false). { intros q s L. destruct (live_here q s L) as (b & IB & HB & _). specialize (MM b IB). unfold here, apart in *. cbn [a_base a_off a_size a]. destruct (i_area _ _ _ _ _ _ I b IB) as (_ & _ & _ & _ & B5 & _). lia. }
  split.
  - rewrite (i_mem _ _ _ _ _ _ I). reflexivity.
  - intros b [<-|B]; [|exact (i_area _ _ _ _ _ _ I b B)]. cbn [a_base a_off a_size a_count a]. repeat (split; [first [assumption|reflexivity|lia]|]).
    replace (filter (fun x => here (fst x) a) live) with (@nil (Z * Z)); [reflexivity|]. clear - NL. induction live as [|(q, s) r IH]; [reflexivity|]. cbn [filter fst]. rewrite (NL q s (or_introl eq_refl)). apply IH. intros q' s' L. apply (NL q' s'). right. exact L.
  - cbn [map a_base a]. constructor; [|exact (i_nodup _ _ _ _ _ _ I)]. intros X. apply in_map_iff in X. destruct X as (b & E & B). exact (NB b B E).
  - intros b b' [<-|B] [<-|B'] D; [lia| | |exact (i_apart _ _ _ _ _ _ I b b' B B' D)]; cbn [a_base a_size a] in *.
    + apply MM. exact B'.
    + specialize (MM b B). unfold apart in *. lia.
  - intros q s L. destruct (i_live _ _ _ _ _ _ I q s L) as (S0 & Q8 & b & IB & B). split; [exact S0|]. split; [exact Q8|]. exists b. split; [right; exact IB|exact B].
  - exact (i_fst _ _ _ _ _ _ I).
  - exact (i_disj _ _ _ _ _ _ I).
  - exists a, A. split; [reflexivity|]. cbn [a_base a_off a_size a]. split; [lia|]. split; [lia|]. split; [lia|]. split; [apply mod8_add; [exact P8|reflexivity]|]. intros q s L H. rewrite (NL q s L) in H. discriminate.
Qed.

(* ---- free ---- *)
Lemma drop_in : forall p q s, In (q, s) (drop p live) <-> In (q, s) live /\ q <> p.
Proof. intros p q s. unfold drop. rewrite filter_In. cbn [fst]. destruct (Z.eqb_spec q p); cbn; intuition congruence. Qed.
Lemma drop_fst : forall p, NoDup (map fst (drop p live)).
Proof. intros p. apply nodup_map_filter2. exact (i_fst _ _ _ _ _ _ I). Qed.
Lemma filter_drop : forall (f : Z * Z -> bool) p s, In (p, s) live -> f (p, s) = true -> (length (filter f live) = S (length (filter f (drop p live))))%nat.
Proof.
  intros f p s. pose proof (i_fst _ _ _ _ _ _ I) as N. clear - N. intros L F. induction live as [|(q, t) r IH]; [destruct L|]. cbn in N. inversion N as [|? ? N1 N2]; subst. change (drop p ((q, t) :: r)) with (if negb (q =? p) then (q, t) :: drop p r else drop p r).
  destruct (Z.eqb_spec q p) as [->|D]; cbn [negb].
  - assert (t = s) as -> by (destruct L as [L|L]; [congruence|exfalso; apply N1; apply (in_map fst) in L; exact L]). cbn [filter]. rewrite F. cbn [length]. f_equal. f_equal. f_equal.
    symmetry. unfold drop. clear - N1. induction r as [|(q, t) r IH]; [reflexivity|]. cbn [filter fst]. destruct (Z.eqb_spec q p) as [->|D]; cbn [negb]; [exfalso; apply N1; left; reflexivity|]. f_equal. apply IH. intros X. apply N1. right. exact X.
  - destruct L as [L|L]; [congruence|]. cbn [filter]. destruct (f (q, t)); cbn [length]; rewrite (IH N2 L); reflexivity.
Qed.
Lemma filter_drop_not : forall (f : Z * Z -> bool) p, (forall s, In (p, s) live -> f (p, s) = false) -> filter f (drop p live) = filter f live.
Proof.
  intros f p. clear. induction live as [|(q, t) r IH]; intros H; [reflexivity|]. change (drop p ((q, t) :: r)) with (if negb (q =? p) then (q, t) :: drop p r else drop p r). destruct (Z.eqb_spec q p) as [->|D]; cbn [negb filter].
  - rewrite (H t (or_introl eq_refl)). apply IH. intros s S. apply H. right. exact S.
  - rewrite IH by (intros s S; apply H; right; exact S). reflexivity.
Qed.
(* the area of the freed allocation has one live allocation less *)
Definition less (a : area) (size : Z) : area := Area (a_base a) size (a_off a) (a_count a - 1).
Lemma dec_inv : forall A1 a A2 p s, A = A1 ++ a :: A2 -> In (p, s) live -> here p a = true -> linv page (A1 ++ less a (a_size a) :: A2) data left mem (drop p live).
Proof.
  intros A1 a A2 p s EA L H. assert (IA : In a A) by (rewrite EA; apply in_elt). set (a' := less a (a_size a)).
  assert (SPLIT : forall b, In b (A1 ++ a' :: A2) -> b = a' \/ (In b A /\ b <> a)).
  { intros b B. apply in_app_iff in B. cbn in B. pose proof (i_nodup _ _ _ _ _ _ I) as N. rewrite EA, map_app in N. cbn [map] in N. apply NoDup_remove_2 in N. rewrite <- map_app in N.
    assert (Q : In b (A1 ++ A2) -> In b A /\ b <> a). { intros X. split; [rewrite EA; apply in_app_iff; apply in_app_iff in X; cbn; tauto|]. intros ->. apply N. apply in_map. exact X. } rewrite in_app_iff in Q. intuition auto. }
  assert (BACK : forall b, In b A -> b <> a -> In b (A1 ++ a' :: A2)). { intros b B D. rewrite EA in B. apply in_app_iff in B. cbn in B. apply in_app_iff. cbn. intuition congruence. }
  assert (UN : forall b q, In b A -> b <> a -> here q a = true -> here q b = false). { intros b q B D Q. destruct (here q b) eqn:HB; [|reflexivity]. exfalso. apply D. symmetry. apply (here_unique q); assumption. }
  split.
  - rewrite (i_mem _ _ _ _ _ _ I), EA, !map_app. reflexivity.
  - intros b B. destruct (SPLIT b B) as [->|(B' & D)].
    + destruct (i_area _ _ _ _ _ _ I a IA) as (Q1 & Q2 & Q3 & Q4 & Q5 & Q6 & Q7 & Q8). cbn [a_base a_size a_off a_count a' less]. repeat (split; [assumption|]).
      rewrite Q8, (filter_drop (fun x => here (fst x) a) p s L H). change (fun x : Z * Z => here (fst x) a') with (fun x : Z * Z => here (fst x) a). lia.
    + rewrite (filter_drop_not (fun x => here (fst x) b) p); [exact (i_area _ _ _ _ _ _ I b B')|]. intros t T. exact (UN b p B' D H).
  - pose proof (i_nodup _ _ _ _ _ _ I) as N. rewrite EA in N. rewrite map_app in *. exact N.
  - intros b b' B B' D. destruct (SPLIT b B) as [->|(X & _)]; destruct (SPLIT b' B') as [->|(X' & _)]; cbn [a_base a_size a' less] in *; [lia| | |].
    + exact (i_apart _ _ _ _ _ _ I a b' IA X' D).
    + exact (i_apart _ _ _ _ _ _ I b a X IA D).
    + exact (i_apart _ _ _ _ _ _ I b b' X X' D).
  - intros q t Q. apply drop_in in Q. destruct Q as (Q & QP). destruct (i_live _ _ _ _ _ _ I q t Q) as (S0 & P8 & b & IB & B1 & B2). split; [exact S0|]. split; [exact P8|].
    destruct (Z.eq_dec (a_base b) (a_base a)) as [E|E]; [assert (b = a) as -> by (apply area_eq; assumption); exists a'; split; [apply in_elt|exact (conj B1 B2)]|exists b; split; [apply BACK; [exact IB|congruence]|auto]].
  - exact (drop_fst p).
  - intros q t q' t' X X' D. apply drop_in in X. apply drop_in in X'. exact (i_disj _ _ _ _ _ _ I q t q' t' (proj1 X) (proj1 X') D).
  - destruct (i_head _ _ _ _ _ _ I) as (h & r & E & H1 & H2 & H3 & H4 & H5). rewrite EA in E. destruct A1 as [|x A1']; cbn [app] in *; injection E as E1 E2.
    + subst h. exists a', A2. split; [reflexivity|]. cbn [a_base a_off a_size a' less]. repeat (split; [assumption|]). intros q t Q HQ. apply drop_in in Q. exact (H5 q t (proj1 Q) HQ).
    + subst x. exists h, (A1' ++ a' :: A2). split; [reflexivity|]. repeat (split; [assumption|]). intros q t Q HQ. apply drop_in in Q. exact (H5 q t (proj1 Q) HQ).
Qed.
(* an area without live allocations that is not the active one goes away *)
Lemma gone_inv : forall h A1 a A2, A = h :: A1 ++ a :: A2 -> a_count a = 0 -> linv page (h :: A1 ++ A2) data left (release (a_base a) (a_size a) mem) live /\ (forall p s, In (p, s) live -> apart (a_base a) (a_size a) p s).
Proof.
  intros h A1 a A2 EA CZ. assert (IA : In a A) by (rewrite EA; right; apply in_elt). destruct (i_area _ _ _ _ _ _ I a IA) as (Q1 & Q2 & Q3 & Q4 & Q5 & Q6 & Q7 & Q8).
  assert (EMP : forall p s, In (p, s) live -> here p a = false). { intros p s L. destruct (here p a) eqn:E; [|reflexivity]. pose proof (count_pos a p s IA L E). lia. }
  assert (SUB : forall b, In b (h :: A1 ++ A2) -> In b A /\ a_base b <> a_base a).
  { intros b B. pose proof (i_nodup _ _ _ _ _ _ I) as N. rewrite EA in N. change (h :: A1 ++ a :: A2) with ((h :: A1) ++ a :: A2) in N. rewrite map_app in N. cbn [map] in N. apply (NoDup_remove_2 (map a_base (h :: A1))) in N. rewrite <- map_app in N.
    split; [rewrite EA; destruct B as [->|B]; [left; reflexivity|right; apply in_app_iff; apply in_app_iff in B; cbn; tauto]|]. intros E. apply N. rewrite <- E. apply in_map. exact B. }
  assert (BACK : forall b, In b A -> b <> a -> In b (h :: A1 ++ A2)). { intros b B D. rewrite EA in B. destruct B as [->|B]; [left; reflexivity|right]. apply in_app_iff in B. cbn in B. apply in_app_iff. intuition congruence. }
  split.
  - split.
    + rewrite (i_mem _ _ _ _ _ _ I). assert (R : forall B, (forall b, In b B -> In b A /\ a_base b <> a_base a) -> release (a_base a) (a_size a) (map span B) = map span B).
      { induction B as [|b B IH]; intros SB; [reflexivity|]. cbn [map release flat_map span fst snd]. destruct (SB b (or_introl eq_refl)) as (IB & NB). rewrite (proj2 (Z.eqb_neq _ _) NB). cbn [andb].
        pose proof (i_apart _ _ _ _ _ _ I b a IB IA NB) as AP. destruct (i_area _ _ _ _ _ _ I b IB) as (B1 & _ & _ & _ & B5 & B6 & _). unfold apart in AP.
        replace ((a_base b <? a_base a) && (a_base b + a_size b =? a_base a + a_size a)) with false by lia. cbn [app]. f_equal. apply IH. intros b' B'. apply SB. right. exact B'. }
      assert (APP : forall X Y, release (a_base a) (a_size a) (X ++ Y) = release (a_base a) (a_size a) X ++ release (a_base a) (a_size a) Y) by (intros; unfold release; apply flat_map_app).
      rewrite EA. change (h :: A1 ++ a :: A2) with ((h :: A1) ++ a :: A2). change (h :: A1 ++ A2) with ((h :: A1) ++ A2). rewrite !map_app, APP. cbn [map]. change (span a :: map span A2) with ([span a] ++ map span A2). rewrite APP.
      rewrite (R A2) by (intros b B; apply SUB; right; apply in_app_iff; auto). change (span h :: map span A1) with (map span (h :: A1)). rewrite (R (h :: A1)) by (intros b [->|B]; apply SUB; [left; reflexivity|right; apply in_app_iff; auto]).
      f_equal. unfold release, span. cbn [flat_map fst snd]. rewrite !Z.eqb_refl. reflexivity.
    + intros b B. exact (i_area _ _ _ _ _ _ I b (proj1 (SUB b B))).
    + pose proof (i_nodup _ _ _ _ _ _ I) as N. rewrite EA in N. change (h :: A1 ++ a :: A2) with ((h :: A1) ++ a :: A2) in N. change (h :: A1 ++ A2) with ((h :: A1) ++ A2). rewrite map_app in *. apply NoDup_remove_1 in N. exact N.
    + intros b b' B B' D. exact (i_apart _ _ _ _ _ _ I b b' (proj1 (SUB b B)) (proj1 (SUB b' B')) D).
    + intros p s L. destruct (i_live _ _ _ _ _ _ I p s L) as (S0 & P8 & b & IB & B1 & B2). split; [exact S0|]. split; [exact P8|]. exists b. split; [|auto]. apply BACK; [exact IB|]. intros ->. pose proof (EMP p s L) as X. unfold here in X. lia.
    + exact (i_fst _ _ _ _ _ _ I).
    + exact (i_disj _ _ _ _ _ _ I).
    + destruct (i_head _ _ _ _ _ _ I) as (h' & r & E & H). rewrite EA in E. injection E as <- <-. exists h, (A1 ++ A2). split; [reflexivity|exact H].
  - intros p s L. destruct (live_here p s L) as (b & IB & HB & B2). destruct (Z.eq_dec (a_base b) (a_base a)) as [E|N]; [assert (b = a) as -> by (apply area_eq; assumption); rewrite (EMP p s L) in HB; discriminate|].
    pose proof (i_apart _ _ _ _ _ _ I b a IB IA N) as AP. destruct (i_area _ _ _ _ _ _ I b IB) as (_ & _ & _ & _ & B5 & _). unfold apart, here in *. lia.
Qed.
(* the last area shrinks to its first page *)
Lemma shrink_inv : forall h A1 a, A = h :: A1 ++ [a] -> a_count a = 0 -> a_off a <= page -> page < a_size a -> linv page (h :: A1 ++ [Area (a_base a) page (a_off a) 0]) data left (release (a_base a + page) (a_size a - page) mem) live /\ (forall p s, In (p, s) live -> apart (a_base a) (a_size a) p s).
Proof.
  intros h A1 a EA CZ OP LT. assert (IA : In a A) by (rewrite EA; right; apply in_elt). destruct (i_area _ _ _ _ _ _ I a IA) as (Q1 & Q2 & Q3 & Q4 & Q5 & Q6 & Q7 & Q8).
  assert (EMP : forall p s, In (p, s) live -> here p a = false). { intros p s L. destruct (here p a) eqn:E; [|reflexivity]. pose proof (count_pos a p s IA L E). lia. }
  set (a' := Area (a_base a) page (a_off a) 0).
  assert (SPLIT : forall b, In b (h :: A1 ++ [a']) -> b = a' \/ (In b A /\ a_base b <> a_base a)).
  { intros b B. change (h :: A1 ++ [a']) with ((h :: A1) ++ [a']) in B. apply in_app_iff in B. destruct B as [B|[B|[]]]; [|auto]. right. pose proof (i_nodup _ _ _ _ _ _ I) as N. rewrite EA in N. change (h :: A1 ++ [a]) with ((h :: A1) ++ [a]) in N. rewrite map_app in N. cbn [map] in N. apply (NoDup_remove_2 (map a_base (h :: A1))) in N. rewrite app_nil_r in N.
    split; [rewrite EA; change (h :: A1 ++ [a]) with ((h :: A1) ++ [a]); apply in_app_iff; auto|]. intros E. apply N. rewrite <- E. apply in_map. exact B. }
  assert (BACK : forall b, In b A -> b <> a -> In b (h :: A1 ++ [a'])). { intros b B D. rewrite EA in B. destruct B as [->|B]; [left; reflexivity|right]. apply in_app_iff in B. cbn in B. apply in_app_iff. intuition congruence. }
  split.
  - split.
    + rewrite (i_mem _ _ _ _ _ _ I). assert (R : forall B, (forall b, In b B -> In b A /\ a_base b <> a_base a) -> release (a_base a + page) (a_size a - page) (map span B) = map span B).
      { induction B as [|b B IH]; intros SB; [reflexivity|]. cbn [map release flat_map span fst snd]. destruct (SB b (or_introl eq_refl)) as (IB & NB).
        pose proof (i_apart _ _ _ _ _ _ I b a IB IA NB) as AP. destruct (i_area _ _ _ _ _ _ I b IB) as (B1 & _ & _ & _ & B5 & B6 & _). unfold apart in AP.
        replace ((a_base b =? a_base a + page) && (a_size b =? a_size a - page)) with false by lia.
        replace ((a_base b <? a_base a + page) && (a_base b + a_size b =? a_base a + page + (a_size a - page))) with false by lia. cbn [app]. f_equal. apply IH. intros b' B'. apply SB. right. exact B'. }
      assert (APP : forall X Y p n, release p n (X ++ Y) = release p n X ++ release p n Y) by (intros; unfold release; apply flat_map_app).
      rewrite EA. change (h :: A1 ++ [a]) with ((h :: A1) ++ [a]). change (h :: A1 ++ [a']) with ((h :: A1) ++ [a']). rewrite !map_app, APP.
      rewrite (R (h :: A1)) by (intros b B; destruct (SPLIT b) as [->|X]; [change (In b ((h :: A1) ++ [a'])); apply in_app_iff; auto| |exact X]; exfalso; pose proof (i_nodup _ _ _ _ _ _ I) as N; rewrite EA in N; change (h :: A1 ++ [a]) with ((h :: A1) ++ [a]) in N; rewrite map_app in N; cbn [map] in N; apply (NoDup_remove_2 (map a_base (h :: A1))) in N; rewrite app_nil_r in N; apply N; apply (in_map a_base) in B; exact B).
      f_equal. cbn [map]. unfold release, span. cbn [flat_map fst snd a_base a_size a']. replace ((a_base a =? a_base a + page) && (a_size a =? a_size a - page)) with false by lia.
      replace ((a_base a <? a_base a + page) && (a_base a + a_size a =? a_base a + page + (a_size a - page))) with true by lia. cbn [app]. do 2 f_equal. lia.
    + intros b B. destruct (SPLIT b B) as [->|(X & _)]; [|exact (i_area _ _ _ _ _ _ I b X)]. cbn [a_base a_size a_off a_count a']. repeat (split; [first [assumption|lia]|]).
      replace (filter (fun x => here (fst x) a') live) with (@nil (Z * Z)); [reflexivity|]. assert (E2 : forall p s, In (p, s) live -> here p a' = false) by (intros p s L; pose proof (EMP p s L) as X; unfold here in *; cbn [a_base a_off a_size a']; lia).
      clear - E2. induction live as [|(q, s) r IH]; [reflexivity|]. cbn [filter fst]. rewrite (E2 q s (or_introl eq_refl)). apply IH. intros q' s' L. apply (E2 q' s'). right. exact L.
    + pose proof (i_nodup _ _ _ _ _ _ I) as N. rewrite EA in N. change (h :: A1 ++ [a]) with ((h :: A1) ++ [a]) in N. change (h :: A1 ++ [a']) with ((h :: A1) ++ [a']). rewrite map_app in *. exact N.
    + intros b b' B B' D. destruct (SPLIT b B) as [->|(X & NX)]; destruct (SPLIT b' B') as [->|(X' & NX')]; cbn [a_base a_size a'] in *; [lia| | |exact (i_apart _ _ _ _ _ _ I b b' X X' D)].
      * pose proof (i_apart _ _ _ _ _ _ I a b' IA X' D) as AP. destruct (i_area _ _ _ _ _ _ I b' X') as (_ & _ & _ & _ & B5 & B6 & _). unfold apart in *. lia.
      * pose proof (i_apart _ _ _ _ _ _ I b a X IA D) as AP. destruct (i_area _ _ _ _ _ _ I b X) as (_ & _ & _ & _ & B5 & B6 & _). unfold apart in *. lia.
    + intros p s L. destruct (i_live _ _ _ _ _ _ I p s L) as (S0 & P8 & b & IB & B1 & B2). split; [exact S0|]. split; [exact P8|]. exists b. split; [|auto]. apply BACK; [exact IB|]. intros ->. pose proof (EMP p s L) as X. unfold here in X. lia.
    + exact (i_fst _ _ _ _ _ _ I).
    + exact (i_disj _ _ _ _ _ _ I).
    + destruct (i_head _ _ _ _ _ _ I) as (h' & r & E & H). rewrite EA in E. injection E as <- <-. exists h, (A1 ++ [a']). split; [reflexivity|exact H].
  - intros p s L. destruct (live_here p s L) as (b & IB & HB & B2). destruct (Z.eq_dec (a_base b) (a_base a)) as [E|N]; [assert (b = a) as -> by (apply area_eq; assumption); rewrite (EMP p s L) in HB; discriminate|].
    pose proof (i_apart _ _ _ _ _ _ I b a IB IA N) as AP. destruct (i_area _ _ _ _ _ _ I b IB) as (_ & _ & _ & _ & B5 & _). unfold apart, here in *. lia.
Qed.
End Inv.

(* ---- the steps ---- *)
Definition lok (c : consts) (l : linear) (v : lview) : Prop := linv (k_page c) (areas c l) (l_data l) (l_left l) (lv_mem v) (lv_live v) /\ l_npools l = Z.of_nat (S (length (l_next l))).

Lemma page_8 : forall c, machine c -> 4096 <= k_page c <= 2 ^ 40. Proof. intros c M. exact (proj2 (page_pow c M)). Qed.
Lemma head_8 : forall c, machine c -> k_lheader c mod 8 = 0 /\ 24 <= k_lheader c <= 2048.
Proof. intros c M. destruct (lheader_ok c M) as (h & -> & B). split; [|exact B]. rewrite Z.mul_comm. apply Z.mod_mul. lia. Qed.
Lemma checks_lok : forall c l v, lok c l v -> linear_debug_checks l = true.
Proof. intros c l v (_ & E). unfold linear_debug_checks. rewrite E. apply Z.eqb_refl. Qed.
Lemma round8 : forall s, 0 <= s -> s + 7 < U64 -> s <= ALIGN_UP_SAFE s MEMORY_ALIGNMENT < s + 8 /\ ALIGN_UP_SAFE s MEMORY_ALIGNMENT mod 8 = 0.
Proof. intros s S0 S1. destruct (round_up s MEMORY_ALIGNMENT pow2_8 S0 ltac:(unfold MEMORY_ALIGNMENT; lia)) as (r & -> & A & B & _). unfold MEMORY_ALIGNMENT in *. auto. Qed.
Lemma wrap_id : forall x, 0 <= x < U64 -> wrap x = x.
Proof. intros x X. unfold wrap. apply Z.mod_small. exact X. Qed.

Lemma take_lok : forall dbg c l mem live n size ev, machine c -> linv (k_page c) (areas c l) (l_data l) (l_left l) mem live -> l_npools l = Z.of_nat (S (length (l_next l))) ->
  0 < size <= n -> n mod 8 = 0 -> n <= l_left l ->
  exists l', linear_take dbg l n ev = Some (l_data l, ev, l') /\ lok c l' (LView mem ((l_data l, size) :: live)) /\ 0 < l_data l.
Proof.
  intros dbg c l mem live n size ev M I NP SZ N8 NL. pose proof (page_8 c M) as PG. destruct (i_head _ _ _ _ _ _ I) as (h & r & EA & H1 & H2 & H3 & H4 & _).
  assert (IH : In h (areas c l)) by (rewrite EA; left; reflexivity). destruct (i_area _ _ _ _ _ _ I h IH) as (B1 & B2 & _ & _ & B3 & _).
  destruct (take_inv _ _ _ _ _ _ I (proj1 PG) h r size n EA SZ N8 NL) as (I' & D0).
  unfold linear_take. rewrite (proj2 (Z.ltb_ge _ _) NL). rewrite andb_false_r. rewrite !wrap_id by lia.
  destruct (l_next l) as [|m ms] eqn:EN.
  - unfold areas in EA. rewrite EN in EA. cbn [map app] in EA. injection EA as <- <-. unfold linear_debug_checks. cbn [l_next l_npools length]. rewrite NP. cbn [length]. rewrite Z.eqb_refl, andb_false_r. eexists. split; [reflexivity|]. split; [|exact D0].
    split; [|reflexivity]. exact I'.
  - unfold areas in EA. rewrite EN in EA. cbn [map app] in EA. injection EA as <- <-. unfold linear_debug_checks. cbn [l_next l_npools length]. rewrite NP. cbn [length]. rewrite Z.eqb_refl, andb_false_r. eexists. split; [reflexivity|]. split; [|exact D0].
    split; [|reflexivity]. exact I'.
Qed.

(* the size of a new pool *)
Lemma new_size : forall c aligned, machine c -> 0 < aligned -> aligned + NEXT_HEADER + k_page c <= U64 ->
  exists n, (let usable := wrap (k_page c - NEXT_HEADER) in if usable <? aligned then ALIGN_UP_SAFE (wrap (k_page c + (aligned - usable))) (k_page c) else k_page c) = n /\ k_page c <= n /\ aligned + NEXT_HEADER <= n /\ n < U64.
Proof.
  intros c a M A0 A1. pose proof (page_8 c M) as PG. destruct (page_is c M) as (PP & P8). assert (UU : U64 = 18446744073709551616) by reflexivity. unfold NEXT_HEADER in *. cbv zeta. rewrite (wrap_id (k_page c - 24)) by lia. destruct (Z.ltb_spec (k_page c - 24) a) as [L|L].
  - rewrite wrap_id by lia. destruct (round_up (k_page c + (a - (k_page c - 24))) (k_page c) PP ltac:(lia) ltac:(lia)) as (n & E & _ & B & _). exists n. split; [exact E|]. lia.
  - exists (k_page c). split; [reflexivity|]. lia.
Qed.

Lemma alloc_cases : forall dbg c l v size os, machine c -> lok c l v -> 0 < size -> size + 2 * k_page c <= U64 ->
  let aligned := ALIGN_UP_SAFE size MEMORY_ALIGNMENT in
  (aligned <= l_left l /\ exists l', umf_ba_linear_alloc dbg c l size os = Some (l_data l, [], l') /\ lok c l' (LView (lv_mem v) ((l_data l, size) :: lv_live v)) /\ 0 < l_data l) \/
  (l_left l < aligned /\ exists n, k_page c <= n < U64 /\ aligned + NEXT_HEADER <= n /\ (os = None -> umf_ba_linear_alloc dbg c l size os = Some (0, [OsFail n], l)) /\ (forall p, os = Some p -> multiple_of p (k_page c) -> exists l', umf_ba_linear_alloc dbg c l size os = Some (p + NEXT_HEADER, [OsAlloc p n], l') /\ (0 < p -> p + n < U64 -> (forall q m, In (q, m) (lv_mem v) -> apart p n q m) -> lok c l' (LView ((p, n) :: lv_mem v) ((p + NEXT_HEADER, size) :: lv_live v)))) /\ (forall p ptr ev l', os = Some p -> umf_ba_linear_alloc dbg c l size os = Some (ptr, ev, l') -> ev = [OsAlloc p n])).
Proof.
  intros dbg c l v size os M (I & NP) S0 S1. pose proof (page_8 c M) as PG. assert (UU : U64 = 18446744073709551616) by reflexivity.
  destruct (round8 size ltac:(lia) ltac:(lia)) as (B & A8). cbv zeta. set (a := ALIGN_UP_SAFE size MEMORY_ALIGNMENT) in *.
  destruct (Z_le_gt_dec a (l_left l)) as [L|L]; [left|right].
  - split; [exact L|]. unfold umf_ba_linear_alloc. rewrite (proj2 (Z.eqb_neq size 0)) by lia. cbv zeta. fold a. rewrite (proj2 (Z.eqb_neq a 0)) by lia. rewrite (proj2 (Z.ltb_ge _ _) L).
    apply take_lok; auto; lia.
  - split; [lia|]. destruct (new_size c a M ltac:(lia) ltac:(unfold NEXT_HEADER; lia)) as (n & EN & N1 & N2 & N3). exists n. split; [lia|]. split; [exact N2|].
    assert (UNF : umf_ba_linear_alloc dbg c l size os = match os with None => Some (0, [OsFail n], l) | Some p => let (d, left) := utils_align_ptr_up_size_down (p + NEXT_HEADER) (wrap (n - NEXT_HEADER)) MEMORY_ALIGNMENT in
              linear_take dbg (Linear (l_base l) (l_size l) d left (l_allocs l) (NextPool p n 0 :: l_next l) (l_npools l + 1)) a [OsAlloc p n] end).
    { unfold umf_ba_linear_alloc. rewrite (proj2 (Z.eqb_neq size 0)) by lia. cbv zeta in *. fold a. rewrite (proj2 (Z.eqb_neq a 0)) by lia. rewrite (proj2 (Z.ltb_lt (l_left l) a)) by lia. rewrite EN. rewrite (proj2 (Z.eqb_neq n 0)) by lia.
      rewrite wrap_id by (unfold NEXT_HEADER in *; lia). rewrite (proj2 (Z.ltb_ge (n - NEXT_HEADER) a)) by lia. rewrite andb_false_r. reflexivity. }
    rewrite UNF. split; [intros ->; reflexivity|]. split.
    + intros p -> PM. pose proof (mod8_mult c p M PM) as P8. assert (N24 : 0 <= n - NEXT_HEADER < U64) by (unfold NEXT_HEADER in *; lia). rewrite (wrap_id _ N24). rewrite no_shift by (apply mod8_add; [exact P8|reflexivity]).
      set (l1 := Linear _ _ _ _ _ _ _).
      destruct (linear_take dbg l1 a [OsAlloc p n]) as [[[ptr ev] l']|] eqn:TK; unfold linear_take in TK; cbn [l_left l_next l_data l1] in TK; rewrite (proj2 (Z.ltb_ge (n - NEXT_HEADER) a)) in TK by lia; rewrite andb_false_r in TK;
        unfold linear_debug_checks in TK; cbn [l_next l_npools length l1] in TK; rewrite NP in TK; replace (Z.of_nat (S (length (l_next l))) + 1) with (Z.of_nat (S (S (length (l_next l))))) in TK by lia; rewrite Z.eqb_refl, andb_false_r in TK; [|discriminate].
      injection TK as <- <- <-. eexists. split; [reflexivity|]. intros P0 PU FR.
      pose proof (grow_inv _ _ _ _ _ _ I (proj1 PG) p n P0 PU P8 N1 FR) as G. change (Area p n NEXT_HEADER 0 :: areas c l) with (areas c l1) in G.
      destruct (take_lok false c l1 ((p, n) :: lv_mem v) (lv_live v) a size [OsAlloc p n] M) as (l2 & TK & K & _); [exact G| |lia|exact A8|cbn [l_left l1]; lia|].
      { cbn [l_npools l_next length l1]. rewrite NP. lia. }
      unfold linear_take in TK. cbn [andb] in TK. injection TK as <-. rewrite NP in K. replace (Z.of_nat (S (length (l_next l))) + 1) with (Z.of_nat (S (S (length (l_next l))))) in K by lia. exact K.
    + intros p ptr ev l' -> H. destruct (utils_align_ptr_up_size_down _ _ _) as (d, lf). unfold linear_take in H. destruct (dbg && _); [discriminate|]. destruct (dbg && _); [discriminate|]. injection H as _ <- _. reflexivity.
Qed.

Lemma in_next_here : forall n ptr, pool_contains_ptr (n_base n) (n_size n) (n_base n + NEXT_HEADER) ptr = here ptr (next_area n). Proof. reflexivity. Qed.
Lemma in_main_here : forall c l ptr, pool_contains_ptr (l_base l) (l_size l) (l_base l + k_lheader c) ptr = here ptr (main_area c l). Proof. reflexivity. Qed.

Lemma free_next_none : forall ns ptr, free_in_next ns ptr = None <-> forall n, In n ns -> here ptr (next_area n) = false.
Proof.
  induction ns as [|n r IH]; intros ptr; cbn [free_in_next]; [split; [intros _ n []|reflexivity]|]. rewrite in_next_here. destruct (here ptr (next_area n)) eqn:E.
  - split; [destruct (_ =? 0); discriminate|]. intros H. rewrite (H n (or_introl eq_refl)) in E. discriminate.
  - destruct (free_in_next r ptr) as [(ev, r')|] eqn:F; [split; [discriminate|]|split; [|reflexivity]].
    + intros H. assert (X : @None (list event * list next_pool) = Some (ev, r')); [|discriminate]. rewrite <- F. symmetry. apply IH. intros m Hm. apply H. right. exact Hm.
    + intros _ m [<-|Hm]; [exact E|]. apply (proj1 (IH ptr) F). exact Hm.
Qed.
Lemma free_next_some : forall ns ptr ev r', free_in_next ns ptr = Some (ev, r') -> exists a n b, ns = a ++ n :: b /\ here ptr (next_area n) = true /\ ((wrap (n_allocs n - 1) = 0 /\ ev = [OsFree (n_base n) (n_size n)] /\ r' = a ++ b) \/ (wrap (n_allocs n - 1) <> 0 /\ ev = [] /\ r' = a ++ NextPool (n_base n) (n_size n) (wrap (n_allocs n - 1)) :: b)).
Proof.
  induction ns as [|n r IH]; intros ptr ev r' H; cbn [free_in_next] in H; [discriminate|]. rewrite in_next_here in H. destruct (here ptr (next_area n)) eqn:E.
  - exists [], n, r. split; [reflexivity|]. split; [exact E|]. destruct (Z.eqb_spec (wrap (n_allocs n - 1)) 0) as [W|W]; injection H as <- <-; [left|right]; auto.
  - destruct (free_in_next r ptr) as [(ev', r2)|] eqn:F; [|discriminate]. injection H as <- <-. destruct (IH ptr ev' r2 F) as (a & m & b & -> & H1 & H2). exists (n :: a), m, b. split; [reflexivity|]. split; [exact H1|]. destruct H2 as [(W & -> & ->)|(W & -> & ->)]; [left|right]; auto.
Qed.

(* free of a live allocation *)
Lemma free_lok : forall dbg c l v p, machine c -> lok c l v -> In p (map fst (lv_live v)) ->
  exists ev l', umf_ba_linear_free dbg c l p = Some (0, ev, l') /\ lok c l' (LView (held_after (lv_mem v) ev) (drop p (lv_live v))) /\ (ev = [] \/ exists q n, ev = [OsFree q n] /\ (forall x s, In (x, s) (drop p (lv_live v)) -> apart q n x s) /\ exists a m, In (a, m) (lv_mem v) /\ a <= q /\ q + n = a + m /\ a <= p < a + m).
Proof.
  intros dbg c l v p M K LV. pose proof K as (I & NP). pose proof (page_8 c M) as PG. pose proof (checks_lok c l v K) as CK. apply in_map_iff in LV. destruct LV as ((p' & s) & EP & LV). cbn in EP. subst p'.
  destruct (live_here _ _ _ _ _ _ I p s LV) as (a & IA & HA & PS).
  pose proof (count_pos _ _ _ _ _ _ I a p s IA LV HA) as C0. pose proof (count_word _ _ _ _ _ _ I a IA) as C1.
  assert (MEMA : In (span a) (lv_mem v)) by (rewrite (i_mem _ _ _ _ _ _ I); apply in_map; exact IA).
  assert (PB : a_base a <= p < a_base a + a_size a) by (destruct (i_area _ _ _ _ _ _ I a IA) as (_ & _ & _ & _ & Q & _); unfold here in HA; lia).
  unfold umf_ba_linear_free. rewrite CK, andb_false_r. rewrite in_main_here. destruct (here p (main_area c l)) eqn:HM.
  - assert (a = main_area c l) as -> by (apply (here_unique _ _ _ _ _ _ I (proj1 PG) p); [exact IA|unfold areas; apply in_elt|exact HA|exact HM]). cbn [a_count main_area] in C0, C1. rewrite (wrap_id (l_allocs l - 1)) by lia. cbv zeta.
    pose proof (dec_inv _ _ _ _ _ _ I (proj1 PG) (map next_area (l_next l)) (main_area c l) [] p s eq_refl LV HM) as D.
    destruct ((l_allocs l - 1 =? 0) && negb (match l_next l with [] => true | _ => false end) && (k_page c <? l_size l)) eqn:T.
    + apply andb_true_iff in T. destruct T as (T1 & T2). apply andb_true_iff in T1. destruct T1 as (T0 & T1). destruct (l_next l) as [|m ms] eqn:EN; [discriminate|]. eexists _, _. split; [reflexivity|].
      destruct (head_8 c M) as (_ & HD).
      destruct (shrink_inv _ _ _ _ _ _ D (proj1 PG) (next_area m) (map next_area ms) (less (main_area c l) (l_size l)) eq_refl) as (SI & SA); cbn [a_count less a_off a_size main_area]; [lia|lia|lia|].
      split.
      * split; [|exact NP]. unfold areas. cbn [l_next map l_data l_left lv_mem lv_live held_after fold_left os_step]. cbn [less a_base a_off a_size main_area] in SI. unfold main_area at 1. cbn [l_base l_size l_allocs]. replace (l_allocs l - 1) with 0 by lia. exact SI.
      * right. eexists _, _. split; [reflexivity|]. split.
        { intros x t X. specialize (SA x t X). cbn [less a_base a_size main_area] in SA. unfold apart in *. lia. }
        exists (l_base l), (l_size l). split; [exact MEMA|]. cbn [main_area a_base a_size] in PB. lia.
    + eexists _, _. split; [reflexivity|]. split; [|left; reflexivity]. split; [|exact NP]. exact D.
  - assert (IN : exists m, In m (l_next l) /\ a = next_area m). { unfold areas in IA. apply in_app_iff in IA. destruct IA as [IA|[<-|[]]]; [apply in_map_iff in IA; destruct IA as (m & <- & IM); exists m; auto|congruence]. }
    destruct IN as (m & IM & ->). cbn [a_count next_area] in C0, C1. destruct (l_next l) as [|n r] eqn:EN; [destruct IM|].
    assert (INA : forall x, In x (n :: r) -> In (next_area x) (areas c l)) by (intros x X; unfold areas; rewrite EN; apply in_app_iff; left; apply in_map; exact X).
    rewrite in_next_here. destruct (here p (next_area n)) eqn:HN.
    + assert (E : next_area m = next_area n) by (apply (here_unique _ _ _ _ _ _ I (proj1 PG) p); auto; apply INA; left; reflexivity). assert (EC : n_allocs m = n_allocs n) by (injection E; auto). rewrite EC in *. rewrite wrap_id by lia.
      eexists _, _. split; [reflexivity|]. split; [|left; reflexivity]. split; [|exact NP].
      apply (dec_inv _ _ _ _ _ _ I (proj1 PG) [] (next_area n) (map next_area r ++ [main_area c l]) p s); [unfold areas; rewrite EN; reflexivity|exact LV|exact HN].
    + destruct (free_in_next r p) as [(ev, r')|] eqn:F.
      2:{ exfalso. pose proof (proj1 (free_next_none r p) F) as X. destruct IM as [<-|IM]; [rewrite HA in HN; discriminate|]. rewrite (X m IM) in HA. discriminate. }
      destruct (free_next_some r p ev r' F) as (b1 & k & b2 & -> & HK & CS). assert (E : next_area m = next_area k) by (apply (here_unique _ _ _ _ _ _ I (proj1 PG) p); auto; apply INA; right; apply in_elt). rewrite E in *.
      assert (EC : n_allocs m = n_allocs k) by (injection E; auto). rewrite EC in *. rewrite (wrap_id (n_allocs k - 1)) in CS by lia.
      assert (EA : areas c l = (next_area n :: map next_area b1) ++ next_area k :: (map next_area b2 ++ [main_area c l])). { unfold areas. rewrite EN. cbn [map app]. rewrite map_app. cbn [map app]. rewrite <- app_assoc. reflexivity. }
      pose proof (dec_inv _ _ _ _ _ _ I (proj1 PG) _ _ _ p s EA LV HK) as D.
      destruct CS as [(W & -> & ->)|(W & -> & ->)].
      * destruct (gone_inv _ _ _ _ _ _ D (proj1 PG) (next_area n) (map next_area b1) (less (next_area k) (a_size (next_area k))) (map next_area b2 ++ [main_area c l]) eq_refl) as (GI & GA); [cbn [less a_count next_area]; lia|].
        unfold linear_debug_checks. cbn [l_next l_npools length]. rewrite NP. cbn [length]. rewrite !app_length. cbn [length].
        replace (Z.of_nat (S (S (length b1 + S (length b2)))) - 1) with (Z.of_nat (S (S (length b1 + length b2)))) by lia. rewrite Z.eqb_refl, andb_false_r. eexists _, _. split; [reflexivity|]. split.
        { split; [|cbn [l_npools l_next length]; rewrite app_length; lia]. unfold areas. cbn [l_next map l_data l_left lv_mem lv_live held_after fold_left os_step]. rewrite map_app. cbn [app]. rewrite <- app_assoc. exact GI. }
        right. eexists _, _. split; [reflexivity|]. split; [exact GA|]. exists (n_base k), (n_size k). split; [exact MEMA|]. cbn [next_area a_base a_size] in PB. lia.
      * unfold linear_debug_checks. cbn [l_next l_npools length]. rewrite NP. cbn [length]. rewrite !app_length. cbn [length]. rewrite Z.eqb_refl, andb_false_r. eexists _, _. split; [reflexivity|]. split; [|left; reflexivity].
        split; [|cbn [l_npools l_next length]; rewrite app_length; cbn [length]; lia]. unfold areas. cbn [l_next map l_data l_left lv_mem lv_live held_after fold_left os_step]. rewrite map_app. cbn [map app]. rewrite <- app_assoc. exact D.
Qed.

(* ---- all histories ---- *)
Lemma create_lok : forall c size os ev l, machine c -> lfits c size -> umf_ba_linear_create c size os true = (ev, Some l) -> os_ok (k_page c) [] ev ->
  exists p n, os = Some p /\ ev = [OsAlloc p n] /\ size + k_lheader c <= n /\ lok c l (LView [(p, n)] []).
Proof.
  intros c size os ev l M (F0 & F1) H OK. pose proof (page_8 c M) as PG. destruct (page_is c M) as (PP & P8). destruct (head_8 c M) as (H8 & HB). assert (UU : U64 = 18446744073709551616) by reflexivity.
  unfold umf_ba_linear_create in H. cbv zeta in H. rewrite (wrap_id (size + k_lheader c)) in H by lia.
  destruct (round_up (if size + k_lheader c <? k_page c then k_page c else size + k_lheader c) (k_page c) PP) as (n & E & _ & B & _); [destruct (_ <? _); lia|destruct (Z.ltb_spec (size + k_lheader c) (k_page c)) as [L|L]; lia|].
  rewrite E in H. assert (NB : k_page c <= n /\ size + k_lheader c <= n) by (destruct (Z.ltb_spec (size + k_lheader c) (k_page c)) as [L|L]; lia).
  rewrite (proj2 (Z.eqb_neq n 0)) in H by lia. destruct os as [p|]; [|discriminate]. destruct (utils_align_ptr_up_size_down _ _ _) as (d, lf) eqn:AL. cbn [negb] in H. injection H as <- <-.
  cbn [os_ok] in OK. destruct OK as ((P0 & PU & PM & _) & _). pose proof (mod8_mult c p M PM) as PP8. rewrite no_shift in AL by (apply mod8_add; assumption). injection AL as <- <-.
  exists p, n. split; [reflexivity|]. split; [reflexivity|]. split; [lia|]. split; [|reflexivity]. unfold areas. cbn [l_next map app l_data l_left lv_mem lv_live]. unfold main_area. cbn [l_base l_size l_allocs]. split.
  - reflexivity.
  - intros a [<-|[]]. cbn [a_base a_size a_off a_count filter length]. repeat (split; [first [assumption|lia]|]). reflexivity.
  - cbn. constructor; [intros []|constructor].
  - intros a b [<-|[]] [<-|[]] D. cbn in D. lia.
  - intros q s [].
  - constructor.
  - intros q s r t [].
  - eexists _, []. split; [reflexivity|]. cbn [a_base a_off a_size]. split; [lia|]. split; [lia|]. split; [lia|]. split; [apply mod8_add; assumption|]. intros q s [].
Qed.

Lemma lreached_inv : forall dbg c size l v, machine c -> lfits c size -> lreached dbg c size l v -> lok c l v.
Proof.
  intros dbg c size l v M F R. induction R as [os ev l H OK|l v k ptr ev l' R IH EN ST OK].
  - destruct (create_lok c size os ev l M F H OK) as (p & n & -> & -> & _ & K). exact K.
  - destruct k as [sz os|p]; cbn [lstep lobserve lenv] in *.
    + destruct EN as (S0 & S1). destruct (Z.eq_dec sz 0) as [->|SN].
      { unfold umf_ba_linear_alloc in ST. rewrite Z.eqb_refl in ST. injection ST as <- <- <-. destruct v. exact IH. }
      destruct (alloc_cases dbg c l v sz os M IH ltac:(lia) S1) as [(_ & l2 & E & K & D0)|(_ & n & N1 & N2 & C1 & C2 & C3)].
      * rewrite E in ST. injection ST as <- <- <-. rewrite (proj2 (Z.eqb_neq _ _)) by lia. exact K.
      * destruct os as [p|].
        { pose proof (C3 p ptr ev l' eq_refl ST) as EE. rewrite EE in OK. cbn [os_ok] in OK. destruct OK as ((P0 & PU & PM & AP & _) & _). destruct (C2 p eq_refl PM) as (l2 & E & K). rewrite E in ST. injection ST as <- <- <-. unfold NEXT_HEADER in *. rewrite (proj2 (Z.eqb_neq (p + 24) 0)) by lia. exact (K P0 PU AP). }
        rewrite (C1 eq_refl) in ST. injection ST as <- <- <-. destruct v. exact IH.
    + destruct (free_lok dbg c l v p M IH EN) as (ev2 & l2 & E & K & _). rewrite E in ST. injection ST as <- <- <-. exact K.
Qed.

Lemma lmain_live : forall dbg c size l v, machine c -> lfits c size -> lreached dbg c size l v ->
  NoDup (map fst (lv_live v)) /\
  (forall x s, In (x, s) (lv_live v) -> 0 < s /\ multiple_of x 8 /\ exists p n, In (p, n) (lv_mem v) /\ p + 24 <= x /\ x + s <= p + n) /\
  (forall x s y t, In (x, s) (lv_live v) -> In (y, t) (lv_live v) -> x <> y -> apart x s y t).
Proof.
  intros dbg c size l v M F R. destruct (lreached_inv dbg c size l v M F R) as (I & _). split; [exact (i_fst _ _ _ _ _ _ I)|]. split; [|exact (i_disj _ _ _ _ _ _ I)].
  intros x s L. destruct (i_live _ _ _ _ _ _ I x s L) as (S0 & X8 & a & IA & B1 & B2). destruct (i_area _ _ _ _ _ _ I a IA) as (A1 & _ & _ & _ & A5 & _). split; [exact S0|]. split; [apply mod_multiple; [lia|exact X8]|].
  exists (a_base a), (a_size a). split; [rewrite (i_mem _ _ _ _ _ _ I); apply (in_map span); exact IA|]. lia.
Qed.
Lemma lmain_alloc : forall dbg c size l v sz os, machine c -> lfits c size -> lreached dbg c size l v -> 0 <= sz -> sz + 2 * k_page c <= U64 -> (forall p, os = Some p -> multiple_of p (k_page c)) ->
  exists ptr ev l', lstep dbg c l (LAlloc sz os) = Some (ptr, ev, l') /\ (sz = 0 -> ev = [] /\ ptr = 0 /\ l' = l) /\ (os_ok (k_page c) (lv_mem v) ev -> 0 < sz ->
     (ptr = 0 <-> exists n, ev = [OsFail n]) /\ ((exists n, ev = [OsFail n]) -> os = None /\ l' = l) /\ (ptr <> 0 -> ~ In ptr (map fst (lv_live v)))).
Proof.
  intros dbg c size l v sz os M F R S0 S1 PM. pose proof (lreached_inv dbg c size l v M F R) as K. cbn [lstep]. destruct (Z.eq_dec sz 0) as [->|SN].
  { exists 0, [], l. split; [reflexivity|]. split; [auto|]. intros _ X. lia. }
  assert (FR : forall ptr ev l', lstep dbg c l (LAlloc sz os) = Some (ptr, ev, l') -> os_ok (k_page c) (lv_mem v) ev -> ptr <> 0 -> ~ In ptr (map fst (lv_live v))).
  { intros ptr ev l' ST OK PN. pose proof (lreached_step dbg c size l v (LAlloc sz os) ptr ev l' R (conj S0 S1) ST OK) as R'. destruct (lreached_inv dbg c size _ _ M F R') as (I & _). pose proof (i_fst _ _ _ _ _ _ I) as N. cbn [lobserve lv_live] in N. rewrite (proj2 (Z.eqb_neq _ _) PN) in N. cbn in N. inversion N. assumption. }
  cbn [lstep] in FR. destruct (alloc_cases dbg c l v sz os M K ltac:(lia) S1) as [(_ & l2 & E & _ & D0)|(_ & n & N1 & N2 & C1 & C2 & C3)].
  - exists (l_data l), [], l2. split; [exact E|]. split; [lia|]. intros OK _. split; [split; [lia|intros (m & X); discriminate]|]. split; [intros (m & X); discriminate|]. exact (FR _ _ _ E OK).
  - destruct os as [p|].
    + destruct (C2 p eq_refl (PM p eq_refl)) as (l2 & E & _). exists (p + NEXT_HEADER), [OsAlloc p n], l2. split; [exact E|]. split; [lia|]. intros OK _. pose proof (FR _ _ _ E OK) as FRX. cbn [os_ok] in OK. destruct OK as ((P0 & _) & _). split; [split; [unfold NEXT_HEADER; lia|intros (m & X); discriminate]|]. split; [intros (m & X); discriminate|]. exact FRX.
    + exists 0, [OsFail n], l. split; [exact (C1 eq_refl)|]. split; [lia|]. intros _ _. split; [split; [eauto|reflexivity]|]. split; [auto|congruence].
Qed.
Lemma lmain_free : forall dbg c size l v p, machine c -> lfits c size -> lreached dbg c size l v -> In p (map fst (lv_live v)) ->
  exists ev l', lstep dbg c l (LFree p) = Some (0, ev, l') /\
    (ev = [] \/ exists q n, ev = [OsFree q n] /\ (forall x s, In (x, s) (lv_live v) -> x <> p -> apart q n x s) /\ exists a m, In (a, m) (lv_mem v) /\ a <= q /\ q + n = a + m /\ a <= p < a + m).
Proof.
  intros dbg c size l v p M F R L. destruct (free_lok dbg c l v p M (lreached_inv dbg c size l v M F R) L) as (ev & l' & E & _ & D). exists ev, l'. split; [exact E|]. destruct D as [D|(q & n & D1 & D2 & D3)]; [left; exact D|right]. exists q, n. split; [exact D1|]. split; [|exact D3].
  intros x s X N. apply D2. apply drop_in. auto.
Qed.
Lemma lmain_foreign : forall dbg c size l v p, machine c -> lfits c size -> lreached dbg c size l v -> (forall q n, In (q, n) (lv_mem v) -> ~ q <= p < q + n) ->
  lstep dbg c l (LFree p) = Some (-1, [], l) /\ umf_ba_linear_pool_contains_pointer c l p = 0.
Proof.
  intros dbg c size l v p M F R OUT. pose proof (lreached_inv dbg c size l v M F R) as K. pose proof K as (I & NP).
  assert (NO : forall a, In a (areas c l) -> here p a = false). { intros a IA. destruct (i_area _ _ _ _ _ _ I a IA) as (_ & _ & _ & _ & A5 & _). assert (IM : In (a_base a, a_size a) (lv_mem v)) by (rewrite (i_mem _ _ _ _ _ _ I); apply (in_map span); exact IA). pose proof (OUT _ _ IM). unfold here. lia. }
  assert (NM : here p (main_area c l) = false) by (apply NO; unfold areas; apply in_elt). assert (NN : forall n, In n (l_next l) -> here p (next_area n) = false) by (intros n X; apply NO; unfold areas; apply in_app_iff; left; apply in_map; exact X).
  cbn [lstep]. split.
  - unfold umf_ba_linear_free. rewrite (checks_lok c l v K), andb_false_r. rewrite in_main_here, NM. destruct (l_next l) as [|n r]; [reflexivity|]. rewrite in_next_here, (NN n (or_introl eq_refl)). rewrite (proj2 (free_next_none r p)); [reflexivity|]. intros m X. apply NN. right. exact X.
  - unfold umf_ba_linear_pool_contains_pointer. rewrite in_main_here, NM. clear - NN. induction (l_next l) as [|n r IH]; [reflexivity|]. cbn [contains_in_next]. rewrite in_next_here, (NN n (or_introl eq_refl)). apply IH. intros m X. apply NN. right. exact X.
Qed.
Lemma contains_next : forall ns p, contains_in_next ns p <> 0 -> exists n, In n ns /\ here p (next_area n) = true /\ contains_in_next ns p = n_base n + n_size n - p.
Proof.
  induction ns as [|n r IH]; intros p H; cbn [contains_in_next] in *; [congruence|]. rewrite in_next_here in *. destruct (here p (next_area n)) eqn:E; [exists n; split; [left; reflexivity|auto]|]. destruct (IH p H) as (m & A & B). exists m. split; [right; exact A|exact B].
Qed.
Lemma contains_hit : forall ns n p, In n ns -> here p (next_area n) = true -> contains_in_next ns p <> 0.
Proof.
  induction ns as [|m r IH]; intros n p IN H; [destruct IN|]. cbn [contains_in_next]. rewrite in_next_here. destruct (here p (next_area m)) eqn:E; [unfold here in E; cbn [next_area a_base a_size a_off] in E; lia|]. destruct IN as [->|IN]; [congruence|]. exact (IH n p IN H).
Qed.
Lemma lmain_contains : forall dbg c size l v p, machine c -> lfits c size -> lreached dbg c size l v ->
  let r := umf_ba_linear_pool_contains_pointer c l p in
  (r <> 0 -> exists q n, In (q, n) (lv_mem v) /\ q <= p < q + n /\ r = q + n - p) /\ (forall s, In (p, s) (lv_live v) -> s <= r).
Proof.
  intros dbg c size l v p M F R. cbv zeta. destruct (lreached_inv dbg c size l v M F R) as (I & NP).
  assert (POS : umf_ba_linear_pool_contains_pointer c l p <> 0 -> exists a, In a (areas c l) /\ here p a = true /\ umf_ba_linear_pool_contains_pointer c l p = a_base a + a_size a - p).
  { unfold umf_ba_linear_pool_contains_pointer. rewrite in_main_here. destruct (here p (main_area c l)) eqn:HM; intros N.
    - exists (main_area c l). split; [unfold areas; apply in_elt|]. auto.
    - destruct (contains_next _ _ N) as (n & IN & HN & E). exists (next_area n). split; [unfold areas; apply in_app_iff; left; apply in_map; exact IN|]. auto. }
  split.
  - intros N. destruct (POS N) as (a & IA & HA & E). exists (a_base a), (a_size a). split; [rewrite (i_mem _ _ _ _ _ _ I); apply (in_map span); exact IA|]. destruct (i_area _ _ _ _ _ _ I a IA) as (_ & _ & _ & _ & A5 & _). unfold here in HA. split; [lia|exact E].
  - intros s L. destruct (live_here _ _ _ _ _ _ I p s L) as (a & IA & HA & B).
    assert (N : umf_ba_linear_pool_contains_pointer c l p <> 0).
    { unfold umf_ba_linear_pool_contains_pointer. rewrite in_main_here. destruct (here p (main_area c l)) eqn:HM; [unfold here in HM; cbn [main_area a_base a_size a_off] in HM; lia|]. unfold areas in IA. apply in_app_iff in IA. destruct IA as [IA|[<-|[]]]; [|congruence]. apply in_map_iff in IA. destruct IA as (n & <- & IN). exact (contains_hit _ n p IN HA). }
    destruct (POS N) as (b & IB & HB & E). assert (a = b) as -> by (apply (here_unique _ _ _ _ _ _ I (proj1 (page_8 c M)) p); assumption). lia.
Qed.
Lemma lmain_destroy : forall dbg proxy c size l v, machine c -> lfits c size -> lreached dbg c size l v ->
  NoDup (map fst (lv_mem v)) /\ umf_ba_linear_destroy dbg proxy l = Some (if proxy then [] else map (fun x => OsFree (fst x) (snd x)) (lv_mem v)).
Proof.
  intros dbg proxy c size l v M F R. pose proof (lreached_inv dbg c size l v M F R) as K. pose proof K as (I & NP). rewrite (i_mem _ _ _ _ _ _ I). split.
  - rewrite map_map. exact (i_nodup _ _ _ _ _ _ I).
  - unfold umf_ba_linear_destroy. destruct proxy; [reflexivity|]. rewrite (checks_lok c l v K), andb_false_r. f_equal. unfold areas. rewrite !map_app, !map_map. reflexivity.
Qed.
