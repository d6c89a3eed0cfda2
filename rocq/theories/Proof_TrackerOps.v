From Verif Require Import Base Model_Critnib Proof_Critnib Spec_Map Proof_CritnibMap Model_Tracker Spec_Tracker Proof_Tracker.

(* ---- lists of regions ---- *)
Lemma ford_app : forall (R : region -> region -> Prop) l1 l2,
  ForallOrdPairs R (l1 ++ l2) <-> ForallOrdPairs R l1 /\ ForallOrdPairs R l2 /\ forall a b, In a l1 -> In b l2 -> R a b.
Proof.
  intros R l1 l2. induction l1 as [|a l1 IH]; cbn [app].
  - split; [intros H; split; [constructor|split; [exact H|intros ? ? []]]|intros (_ & H & _); exact H].
  - split.
    + intros H. inversion H as [|? ? F T]; subst. apply IH in T. destruct T as (T1 & T2 & T3). rewrite Forall_forall in F. split; [|split; [exact T2|]].
      * constructor; [|exact T1]. rewrite Forall_forall. intros x X. apply F, in_or_app. auto.
      * intros x y [<-|X] Y; [apply F, in_or_app; auto|auto].
    + intros (T1 & T2 & T3). inversion T1 as [|? ? F T]; subst. rewrite Forall_forall in F. constructor.
      * rewrite Forall_forall. intros x X. apply in_app_or in X. destruct X as [X|X]; [auto|]. apply T3; [left; reflexivity|exact X].
      * apply IH. split; [exact T|]. split; [exact T2|]. intros x y X Y. apply T3; [right; exact X|exact Y].
Qed.

Lemma owner_split : forall L p g, owner L p = Some g -> exists L1 L2, L = L1 ++ g :: L2 /\ (forall h, In h L1 -> covers p h = false) /\
  covers p g = true /\ forget L p = L1 ++ L2 /\ forall by_, replace L p by_ = L1 ++ by_ ++ L2.
Proof.
  unfold owner. induction L as [|h L IH]; intros p g H; cbn [find] in H; [discriminate|]. cbn [forget replace]. destruct (covers p h) eqn:C.
  - injection H as <-. exists [], L. split; [reflexivity|]. split; [intros ? []|]. auto.
  - destruct (IH p g H) as (L1 & L2 & -> & N & CG & F & RP). exists (h :: L1), L2. split; [reflexivity|]. split; [intros x [<-|X]; auto|].
    split; [exact CG|]. cbn. rewrite F. split; [reflexivity|]. intros by_. rewrite RP. reflexivity.
Qed.
Lemma owner_hd : forall L x, owner L x = hd_error (filter (covers x) L).
Proof. unfold owner. induction L as [|g L IH]; intros x; cbn; [reflexivity|]. destruct (covers x g); [reflexivity|apply IH]. Qed.
Lemma owner_stack : forall L x, owner L x = nth_error (stack L x) (pred (length (stack L x))).
Proof.
  intros L x. rewrite owner_hd. unfold stack. destruct (filter (covers x) L) as [|g l]; [reflexivity|]. cbn [hd_error rev]. rewrite app_length.
  cbn [length]. replace (pred (length (rev l) + 1)) with (length (rev l)) by lia. rewrite nth_error_app2, Nat.sub_diag by lia. reflexivity.
Qed.
Lemma owner_in : forall L x g, owner L x = Some g -> In g L /\ covers x g = true.
Proof. intros L x g H. apply find_some in H. exact H. Qed.

Lemma top_split : forall L1 L2 g p x, (forall h, In h L1 -> covers p h = false) -> covers p g = true -> owner (L1 ++ g :: L2) x = Some g ->
  filter (covers x) L1 = [].
Proof.
  intros L1 L2 g p x N C H. rewrite owner_hd, filter_app in H. destruct (filter (covers x) L1) as [|h l] eqn:E; [reflexivity|]. cbn in H. injection H as ->.
  assert (X : In g (filter (covers x) L1)) by (rewrite E; left; reflexivity). apply filter_In in X. rewrite (N _ (proj1 X)) in C. discriminate.
Qed.

Lemma free_standingb_iff : forall L p, free_standingb L p = true <-> exists g, free_standing L p g.
Proof.
  intros L p. unfold free_standingb, free_standing. destruct (owner L p) as [g|].
  - rewrite andb_true_iff, forallb_forall. split.
    + intros (E & F). exists g. split; [reflexivity|]. split; [lia|]. intros h H X. specialize (F h H). lia.
    + intros (g' & E & B & F). injection E as <-. split; [lia|]. intros h H. specialize (F h H). lia.
  - split; [discriminate|]. intros (g & X & _). discriminate.
Qed.

(* ---- the two halves of the invariant ---- *)
Record Shape (A : levels) (L : list region) : Prop := {
  s_nice : forall g, In g L -> nice g;
  s_pos : forall k q e, A k q = Some e -> 0 < e_size e;
  s_ord : ForallOrdPairs (fun g h => inside g h \/ apart g h) L;
  s_stack : forall x k g, nth_error (stack L x) k = Some g <-> exists q e, item A k x q e /\ g = region_of q e }.
Definition Kids (A : levels) : Prop := forall k q e, A k q = Some e -> kids A k q e (e_children e).
Lemma inv_halves : forall A L, Inv A L <-> Shape A L /\ Kids A.
Proof.
  intros A L. split.
  - intros I. split; [exact (Build_Shape _ _ (i_nice _ _ I) (i_pos _ _ I) (i_ord _ _ I) (i_stack _ _ I))|exact (i_kids _ _ I)].
  - intros (S & K). exact (Build_Inv _ _ (s_nice _ _ S) (s_pos _ _ S) (s_ord _ _ S) (s_stack _ _ S) K).
Qed.
Definition same_view (A A' : levels) : Prop :=
  forall k q, option_map (fun e => (e_size e, e_pool e)) (A k q) = option_map (fun e => (e_size e, e_pool e)) (A' k q).
Lemma view_some : forall A A' k q e, same_view A A' -> A k q = Some e -> exists e', A' k q = Some e' /\ e_size e' = e_size e /\ e_pool e' = e_pool e.
Proof. intros A A' k q e V E. specialize (V k q). rewrite E in V. destruct (A' k q) as [e'|]; [|discriminate]. cbn in V. injection V as X Y. eauto. Qed.
Lemma view_sym : forall A A', same_view A A' -> same_view A' A.
Proof. intros A A' V k q. symmetry. apply V. Qed.
Lemma shape_view : forall A A' L, same_view A A' -> Shape A L -> Shape A' L.
Proof.
  intros A A' L V S. constructor; [apply (s_nice _ _ S)| |apply (s_ord _ _ S)|].
  - intros k q e E. destruct (view_some _ _ _ _ _ (view_sym _ _ V) E) as (e' & E' & <- & _). exact (s_pos _ _ S _ _ _ E').
  - intros x k g. rewrite (s_stack _ _ S). split; intros (q & e & (E & B) & ->).
    + destruct (view_some _ _ _ _ _ V E) as (e' & E' & X & Y). exists q, e'. split; [split; [exact E'|lia]|]. unfold region_of. congruence.
    + destruct (view_some _ _ _ _ _ (view_sym _ _ V) E) as (e' & E' & X & Y). exists q, e'. split; [split; [exact E'|lia]|]. unfold region_of. congruence.
Qed.

(* the effect of poke on a parent's counter *)
Definition bump (A : levels) (d : nat) (par : option Z) (n : Z) : levels :=
  match par with
  | None => A
  | Some q => match A (pred d) q with Some e => put A (pred d) q (Some (add_children n e)) | None => A end
  end.
Lemma put_same : forall A k q o, put A k q o k q = o.
Proof. intros. unfold put. rewrite Nat.eqb_refl, Z.eqb_refl. reflexivity. Qed.
Lemma put_other : forall A k q o k' q', k' <> k \/ q' <> q -> put A k q o k' q' = A k' q'.
Proof.
  intros A k q o k' q' H. unfold put. destruct (Nat.eqb_spec k' k) as [->|N]; [|reflexivity]. cbn [andb].
  destruct (Z.eqb_spec q' q) as [->|N]; [|reflexivity]. destruct H; congruence.
Qed.
Lemma put_cases : forall A k q o k' q', (k' = k /\ q' = q /\ put A k q o k' q' = o) \/ ((k' <> k \/ q' <> q) /\ put A k q o k' q' = A k' q').
Proof.
  intros A k q o k' q'. destruct (Nat.eq_dec k' k) as [->|N]; [destruct (Z.eq_dec q' q) as [->|M]|].
  - left. repeat split. apply put_same.
  - right. split; [auto|apply put_other; auto].
  - right. split; [auto|apply put_other; auto].
Qed.
Lemma bump_view : forall A d par n, same_view A (bump A d par n).
Proof.
  intros A d par n k q. unfold bump. destruct par as [p|]; [|reflexivity]. destruct (A (pred d) p) as [e|] eqn:E; [|reflexivity].
  destruct (put_cases A (pred d) p (Some (add_children n e)) k q) as [(-> & -> & ->)|(_ & ->)]; [rewrite E|]; reflexivity.
Qed.
Lemma bump_RT : forall t A d par n, RT t A -> RT (match par with Some k => poke t (pred d) k (add_children n) | None => t end) (bump A d par n).
Proof.
  intros t A d [p|] n R; [|exact R]. cbn [bump]. destruct (A (pred d) p) as [e|] eqn:E.
  - exact (poke_RT _ _ _ _ _ _ R E).
  - unfold poke. rewrite (get_RT _ _ _ _ R), E. exact R.
Qed.
Lemma view_pres : forall A A' k q, same_view A A' -> (A k q <> None <-> A' k q <> None).
Proof. intros A A' k q V. specialize (V k q). destruct (A k q), (A' k q); try discriminate; split; congruence. Qed.

(* ---- reading the specification off the levels ---- *)
Section Owner.
Variables (t : tracker) (A : levels) (L : list region).
Hypothesis (R : RT t A) (I : Inv A L).
Lemma owner_item : forall x g, owner L x = Some g -> exists j q e, length (stack L x) = S j /\ item A j x q e /\ g = region_of q e.
Proof.
  intros x g H. rewrite owner_stack in H. assert (LN : (pred (length (stack L x)) < length (stack L x))%nat) by (apply nth_error_Some; congruence).
  apply (i_stack _ _ I) in H. destruct H as (q & e & IT & ->). exists (pred (length (stack L x))), q, e. split; [lia|]. auto.
Qed.
Lemma item_owner : forall x j q e, length (stack L x) = S j -> item A j x q e -> owner L x = Some (region_of q e).
Proof. intros x j q e D IT. rewrite owner_stack, D. cbn [pred]. exact (item_at _ _ I _ _ _ _ IT). Qed.

Lemma leaf_free : forall p j e, length (stack L p) = S j -> item A j p p e -> e_children e = 0 -> free_standing L p (region_of p e).
Proof.
  intros p j e D IT CZ. split; [exact (item_owner _ _ _ _ D IT)|]. split; [reflexivity|]. intros h H B. cbn [region_of g_size] in B.
  set (c := g_base h) in *. pose proof (i_nice _ _ I _ H) as (_ & P & _).
  assert (HS : In h (stack L c)) by (unfold stack; rewrite <- in_rev; apply filter_In; split; [exact H|apply covers_iff; unfold c; lia]).
  apply In_nth_error in HS. destruct HS as (i & HI). pose proof HI as HI'. apply (i_stack _ _ I) in HI. destruct HI as (q' & e' & IT' & ->). cbn in c. subst c.
  assert (ITc : item A j q' p e) by (destruct IT as (E & X); split; [exact E|lia]).
  pose proof (item_at _ _ I _ _ _ _ ITc) as AT.
  destruct (Nat.lt_trichotomy i j) as [LT|[->|GT]].
  - destruct (ford_rev _ _ i j _ _ (ford_filter _ _ (covers q') (i_ord _ _ I)) LT HI' AT) as [X|X]; unfold inside, apart in X; cbn in X; [lia|].
    destruct IT'; lia.
  - destruct (item_uniq _ _ I _ _ _ _ _ _ ITc IT'). lia.
  - assert (SJ : (S j < length (stack L q'))%nat) by (apply (Nat.le_lt_trans _ i); [lia|apply nth_error_Some; congruence]).
    apply (item_iff _ _ I) in SJ. destruct SJ as (q2 & e2 & IT2). destruct (item_up _ _ I _ _ _ _ IT2) as (q3 & e3 & IT3 & IN).
    destruct (item_uniq _ _ I _ _ _ _ _ _ ITc IT3) as (<- & <-). destruct IN as (N1 & N2). cbn in N1, N2. destruct IT2 as (E2 & B2).
    rewrite (no_kids _ _ I _ _ _ (proj1 IT) CZ q2) in E2; [discriminate|]. lia.
Qed.
Lemma free_leaf : forall p g, free_standing L p g -> exists j e, length (stack L p) = S j /\ item A j p p e /\ e_children e = 0 /\ g = region_of p e.
Proof.
  intros p g (O & B & F). destruct (owner_item _ _ O) as (j & q & e & D & IT & ->). cbn in B. subst q. exists j, e. split; [exact D|]. split; [exact IT|].
  split; [|reflexivity]. destruct (Z.eq_dec (e_children e) 0) as [Z|N]; [exact Z|]. exfalso.
  destruct (some_kids _ _ I _ _ _ (proj1 IT) N) as (c & e' & C & E'). pose proof (i_pos _ _ I _ _ _ E') as P.
  assert (IT' : item A (S j) c c e') by (split; [exact E'|lia]). destruct (Z.eq_dec c p) as [->|NE].
  - pose proof (proj1 (item_iff _ _ I p (S j)) (ex_intro _ _ (ex_intro _ _ IT'))). lia.
  - pose proof (item_at _ _ I _ _ _ _ IT') as AT. apply stack_in in AT. apply (F _ (proj1 AT)). cbn. lia.
Qed.

(* everything covered by a leaf has the same stack height as its start *)
Lemma leaf_stack : forall p j e x, length (stack L p) = S j -> item A j p p e -> e_children e = 0 -> p <= x < p + e_size e ->
  length (stack L x) = S j /\ owner L x = Some (region_of p e).
Proof.
  intros p j e x D IT CZ B. assert (ITx : item A j x p e) by (destruct IT as (E & _); split; assumption).
  assert (DX : length (stack L x) = S j).
  { pose proof (proj1 (item_iff _ _ I x j) (ex_intro _ _ (ex_intro _ _ ITx))) as LO. assert (length (stack L x) <= S j)%nat; [|lia].
    apply (no_item _ _ I). intros q2 e2 IT2. destruct (item_up _ _ I _ _ _ _ IT2) as (q3 & e3 & IT3 & (N1 & N2)).
    destruct (item_uniq _ _ I _ _ _ _ _ _ ITx IT3) as (<- & <-). cbn in N1, N2. destruct IT2 as (E2 & B2).
    rewrite (no_kids _ _ I _ _ _ (proj1 IT) CZ q2) in E2; [discriminate|]. lia. }
  split; [exact DX|]. exact (item_owner _ _ _ _ DX ITx).
Qed.

Lemma lookup_ok : forall x, is_word x ->
  umfMemoryTrackerGetAllocInfo t x = match owner L x with
    | Some g => (SUCCESS, Some (g_base g, g_size g, g_pool g)) | None => (ERR_INVALID_ARGUMENT, None) end.
Proof.
  intros x W. unfold umfMemoryTrackerGetAllocInfo. destruct (Z.eqb_spec x 0) as [->|N].
  - destruct (owner L 0) as [g|] eqn:E; [|reflexivity]. apply owner_in in E. destruct E as (G & C). apply (i_nice _ _ I) in G. destruct G.
    apply covers_iff in C. lia.
  - destruct (info_ok _ _ _ R I 8 0 x None W eq_refl (Nat.le_0_l _) eq_refl) as [(D & E)|(j & q & e & D & E & IT)]; cbn [skipn] in E; rewrite E.
    + rewrite owner_stack, D. cbn [pred]. apply length_zero_iff_nil in D. rewrite D. reflexivity.
    + rewrite (item_owner _ _ _ _ D IT). reflexivity.
Qed.
End Owner.
