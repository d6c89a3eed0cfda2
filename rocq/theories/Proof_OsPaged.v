(* Shared OS memory with whole pages only: the file offset stays legal (C62). *)
From Verif Require Import Base Model_Utils Spec_Utils Proof_Utils Model_OsNuma Model_OsProvider Spec_OsProvider Proof_OsProvider Proof_OsHistory.

Lemma alloc_calls : forall page s size al mm be r p ev s', o_fd s = true -> 0 <= o_size s <= o_max s -> o_max s < 2 ^ 63 ->
  0 < page -> 0 < size -> 0 <= al -> size + al + page <= 2 ^ 63 -> os_alloc false page s size al mm be = Some (r, p, ev, s') ->
  (o_size s' = o_size s \/ o_size s' = o_size s + (if page <? al then size + al else size) /\ (al = 0 \/ al mod page = 0 \/ page mod al = 0)) /\
  (forall a, mm = Some a -> forall m, kernel page m [Mmap a (if page <? al then size + al else size) (Some (o_size s))] -> kernel page m ev).
Proof.
  intros page s size al mm be r p ev s' F B1 B2 PP S0 A0 NW H0. unfold os_alloc in H0.
  destruct (negb (al =? 0) && negb (al mod page =? 0) && negb (page mod al =? 0)) eqn:AC.
  { injection H0 as _ _ <- <-. split; [left; reflexivity|]. intros; exact I. }
  assert (AL : al = 0 \/ al mod page = 0 \/ page mod al = 0) by lia.
  destruct (utils_mmap_aligned false page (o_fd s) (o_max s) (o_size s) size al mm) as [[[[out ev1] size'] off]|] eqn:E; [|discriminate].
  assert (Y : (size' = o_size s \/ size' = o_size s + (if page <? al then size + al else size)) /\
    (forall a, mm = Some a -> forall m l, (forall e, In e l -> forall m', mmap_legal page m' e) ->
      kernel page m [Mmap a (if page <? al then size + al else size) (Some (o_size s))] -> kernel page m (ev1 ++ l))).
  { clear H0. unfold utils_mmap_aligned in E. rewrite F in E. cbn [andb] in E. cbv zeta in E.
    assert (EE : (if page <? al then wrap (size + al) else size) = if page <? al then size + al else size).
    { destruct (page <? al); [|reflexivity]. unfold wrap. apply Z.mod_small. change U64 with (2 ^ 64). lia. }
    rewrite EE in E. assert (EB : 0 <= (if page <? al then size + al else size) <= 2 ^ 63) by (destruct (page <? al); lia).
    set (ext := if page <? al then size + al else size) in *.
    assert (W : wrap (o_size s + ext) = o_size s + ext). { unfold wrap. apply Z.mod_small. change U64 with (2 ^ 64). lia. } rewrite W in E.
    assert (KL : forall l m, (forall e, In e l -> forall m', mmap_legal page m' e) -> kernel page m l).
    { induction l as [|e l IH]; intros m L; [exact I|]. split; [apply L; left; reflexivity|apply IH; intros e' I'; apply L; right; exact I']. }
    destruct (o_max s <? o_size s + ext); [injection E as _ <- <- _; split; [left; reflexivity|intros a _ m l L _; apply KL, L]|].
    destruct mm as [a|]; [|injection E as _ <- <- _; split; [right; reflexivity|discriminate]].
    destruct (page <? al); injection E as _ <- <- _; (split; [right; reflexivity|]); intros a' X m l L [K _]; injection X as <-; (split; [exact K|]); apply KL;
      intros e I'; [|exact (L e I')]. cbn [app] in I'. rewrite <- app_assoc in I'. apply in_app_or in I'. destruct I' as [I'|I'].
    - destruct (0 <? _) in I'; [destruct I' as [<-|[]]|destruct I']; intros; exact I.
    - apply in_app_or in I'. destruct I' as [I'|I']; [|exact (L e I')]. destruct (0 <? _) in I'; [destruct I' as [<-|[]]|destruct I']; intros; exact I. }
  destruct Y as [Y1 Y2].
  assert (Z : o_size s' = size' /\ exists l, ev = ev1 ++ l /\ forall e, In e l -> forall m', mmap_legal page m' e).
  { assert (LB : forall l e m', In e (map SBind l) -> mmap_legal page m' e) by (intros l e m' X; apply in_map_iff in X; destruct X as (? & <- & _); exact I).
    destruct out as [addr|]; [|injection H0 as _ _ <- <-; split; [reflexivity|exists []; split; [symmetry; apply app_nil_r|intros e []]]].
    destruct ((0 <? al) && negb (addr mod al =? 0)).
    { injection H0 as _ _ <- <-. split; [reflexivity|]. eexists. split; [reflexivity|]. intros e [<-|[]]; intros; exact I. }
    destruct (policy_default _); [injection H0 as _ _ <- <-; split; [reflexivity|]; eexists; split; [reflexivity|intros e []]|].
    destruct (ALIGN_UP_SAFE size page =? 0).
    { injection H0 as _ _ <- <-. split; [reflexivity|]. eexists. split; [reflexivity|]. intros e [<-|[]]; intros; exact I. }
    destruct (os_bind _ _ _ _) as [[calls u]|]; [|discriminate].
    destruct be as [k|]; [destruct (Nat.ltb _ _)|]; injection H0 as _ _ <- <-; (split; [reflexivity|]); eexists; (split; [reflexivity|]); intros e I' m';
      [|eapply LB, I'..]. apply in_app_or in I'. destruct I' as [I'|[<-|[]]]; [eapply LB, I'|exact I]. }
  destruct Z as (Z1 & l & -> & Z2). rewrite Z1. split; [destruct Y1; auto|]. intros a X m K. apply (Y2 a X m l Z2 K).
Qed.

Lemma alloc_paged : forall dbg page s size al mm be r p ev s', pow2 page -> o_fd s = true -> 0 <= o_size s <= o_max s -> o_max s < 2 ^ 63 ->
  0 < size -> 0 <= al -> size + al + page <= 2 ^ 63 -> size mod page = 0 -> os_alloc dbg page s size al mm be = Some (r, p, ev, s') ->
  o_size s mod page = 0 -> o_size s' mod page = 0.
Proof.
  intros dbg page s size al mm be r p ev s' PG F B1 B2 S0 A0 NW SM H M. pose proof (pow2_range _ PG) as PR. pose proof (os_alloc_dbg _ _ _ _ _ _ _ _ H) as H0.
  destruct (alloc_calls page s size al mm be r p ev s' F B1 B2 ltac:(lia) S0 A0 NW H0) as [[->|[-> AL]] _]; [exact M|].
  rewrite <- Zplus_mod_idemp_l, M, Z.add_0_l. destruct (Z.ltb_spec page al) as [L|L]; [|exact SM]. rewrite <- Zplus_mod_idemp_l, SM, Z.add_0_l.
  destruct AL as [?|[?|Q]]; [lia|assumption|]. rewrite Z.mod_small in Q by lia. lia.
Qed.

Lemma paged_reached dbg page strict w0 w : paged dbg page strict w0 w -> reached dbg page strict w0 w.
Proof. induction 1; [constructor|econstructor; eassumption]. Qed.
Lemma step_fd dbg page strict w w' : pow2 page -> Inv page strict w -> step dbg page strict w w' -> o_fd (w_os w') = o_fd (w_os w).
Proof.
  intros PG V S. destruct S as [s m live size al mm be r p ev s' S0 A0 NW ST H K|s m l1 p size l2 ok r ev s' ST H|s m l1 p size l2 f r s' F0 F1 H|s m l1 p f g l2 r s' F0 ST H| | |]; cbn [w_os]; try reflexivity.
  - destruct (os_alloc_ok dbg page s size al mm be m r p ev s' PG S0 A0 NW (v_fd V) (os_alloc_dbg _ _ _ _ _ _ _ _ H) K) as (_ & F1 & _). exact F1.
  - unfold os_free in H. destruct (p =? 0); [injection H as _ _ <-; reflexivity|]. destruct ok; injection H as _ _ <-; reflexivity.
  - unfold os_allocation_split in H. destruct (negb (o_fd s)); [injection H as _ <-; reflexivity|]. destruct (map_get _ _); [|injection H as _ <-; reflexivity].
    destruct (map_insert _ _ _); injection H as _ <-; reflexivity.
  - unfold os_allocation_merge in H. destruct (negb (o_fd s)); [injection H as _ <-; reflexivity|]. destruct (map_get _ _); injection H as _ <-; reflexivity.
Qed.
Lemma paged_size : forall dbg page strict u m0 w, pow2 page -> paged dbg page strict (fresh true u m0) w -> o_fd (w_os w) = true /\ o_size (w_os w) mod page = 0.
Proof.
  intros dbg page strict u m0 w PG R. pose proof (pow2_range _ PG) as PR. induction R as [|w w' R [F M] S G]; [split; reflexivity|].
  pose proof (inv_reached _ _ _ _ _ PG (inv_start page strict true u m0) (paged_reached _ _ _ _ _ R)) as V.
  split; [rewrite (step_fd _ _ _ _ _ PG V S); exact F|]. destruct G as [->|(size & al & mm & be & r & p & ev & S0 & A0 & NW & SM & H)]; [exact M|].
  destruct (v_fd V F) as [B1 B2]. eapply alloc_paged; eassumption.
Qed.
Lemma paged_alloc : forall dbg page strict u m0 w size al a r p ev s', pow2 page -> paged dbg page strict (fresh true u m0) w ->
  0 < size -> 0 <= al -> size + al + page <= 2 ^ 63 -> (al = 0 \/ al mod page = 0 \/ page mod al = 0) ->
  let ext := if page <? al then size + al else size in o_size (w_os w) + ext <= o_max (w_os w) ->
  0 < a -> a mod page = 0 -> a + up page ext <= 2 ^ 63 -> (forall x, within page a ext x = true -> w_mem w x = None) ->
  os_alloc dbg page (w_os w) size al (Some a) None = Some (r, p, ev, s') -> kernel page (w_mem w) ev /\ r = SUCCESS.
Proof.
  intros dbg page strict u m0 w size al a r p ev s' PG R S0 A0 NW AL ext RO A1 A2 A3 A4 H. pose proof (pow2_range _ PG) as PR.
  destruct (paged_size _ _ _ _ _ _ PG R) as [F M]. pose proof (paged_reached _ _ _ _ _ R) as RR.
  pose proof (inv_reached _ _ _ _ _ PG (inv_start page strict true u m0) RR) as V. destruct (v_fd V F) as [B1 B2].
  destruct (alloc_calls page (w_os w) size al (Some a) None r p ev s' F B1 B2 ltac:(lia) S0 A0 NW (os_alloc_dbg _ _ _ _ _ _ _ _ H)) as [_ K].
  assert (E0 : 0 < ext) by (unfold ext; destruct (page <? al); lia).
  assert (KK : kernel page (w_mem w) ev). { apply (K a eq_refl). split; [|exact I]. cbn [mmap_legal]. fold ext. auto 10. }
  split; [exact KK|]. destruct (alloc_exact dbg page strict true u m0 w size al (Some a) None r p ev s' PG RR S0 A0 NW H KK) as (_ & _ & _ & X).
  apply (X eq_refl). split; [exact AL|]. split; [discriminate|]. intros _. exact RO.
Qed.
