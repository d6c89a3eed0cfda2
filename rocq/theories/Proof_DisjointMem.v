(* Preservation of the invariant when memory is obtained or given back. *)
From Verif Require Import Base Model_Utils Spec_Utils Proof_Utils Model_Disjoint Spec_Disjoint Proof_DisjointClass Proof_DisjointBits Proof_Disjoint Proof_DisjointStep.
From Coq Require Import Permutation.
Local Opaque bucket_table new_chunks.

Definition regions_ok (L : list region) : Prop :=
  (forall g, In g L -> 0 < g_base g /\ 0 < g_size g /\ g_base g + g_size g < U64) /\ NoDup (map g_base L) /\
  (forall g h, In g L -> In h L -> g_base g <> g_base h -> apart (g_base g) (g_size g) (g_base h) (g_size h)).
Lemma core_regions : forall P s v G, Core P s v G -> regions_ok (v_regions v ++ v_lost v).
Proof. intros P s v G I. split; [exact (c_regs _ _ _ _ I)|]. split; [exact (c_nodup _ _ _ _ I)|exact (c_apart _ _ _ _ I)]. Qed.
Lemma regions_perm : forall A B, Permutation A B -> regions_ok B -> regions_ok A.
Proof.
  intros A B PM (R1 & R2 & R3). assert (IN : forall g, In g A -> In g B) by (intros; eapply Permutation_in; eassumption). split; [auto|]. split; [|auto].
  eapply Permutation_NoDup; [apply Permutation_map; apply Permutation_sym; exact PM|exact R2].
Qed.
Lemma regions_cut : forall A B C, regions_ok (A ++ B ++ C) -> regions_ok (A ++ C).
Proof.
  intros A B C (R1 & R2 & R3). assert (IN : forall g, In g (A ++ C) -> In g (A ++ B ++ C)) by (intros g; rewrite !in_app_iff; tauto). split; [auto|]. split; [|auto].
  rewrite !map_app in *. rewrite app_assoc in R2. revert R2. generalize (map g_base A), (map g_base B), (map g_base C). clear. intros a b c N.
  induction b as [|y b IH]; [rewrite app_nil_r in N; exact N|]. apply IH. rewrite <- app_assoc in N. cbn in N. apply NoDup_remove_1 in N. rewrite <- app_assoc. exact N.
Qed.
Lemma split_perm : forall p n L, Permutation (give_back p n L ++ named p n L) L.
Proof.
  induction L as [|g L IH]; [constructor|]. unfold give_back, named in *. cbn [filter]. destruct (_ && _); cbn [negb]; [|constructor; exact IH].
  apply Permutation_sym. apply Permutation_cons_app. apply Permutation_sym. exact IH.
Qed.
Lemma regions_add : forall L p n cl, regions_ok L -> 0 < p -> 0 < n -> p + n < U64 -> (forall g, In g L -> apart p n (g_base g) (g_size g)) ->
  regions_ok (Region p n cl :: L) /\ (forall g, In g L -> g_base g <> p).
Proof.
  intros L p n cl (R1 & R2 & R3) P0 N0 PN AP. assert (NE : forall g, In g L -> g_base g <> p).
  { intros g IN E. pose proof (AP g IN) as A. destruct (R1 g IN) as (_ & S0 & _). unfold apart in A. rewrite E in A. lia. }
  split; [|exact NE]. split; [intros g [<-|IN]; [auto|auto]|]. split.
  - cbn. constructor; [|exact R2]. intros IN. apply in_map_iff in IN. destruct IN as (g & E & IN). exact (NE g IN E).
  - intros g h [<-|A] [<-|B] D; cbn [g_base g_size] in *; [congruence|auto| |auto]. pose proof (AP g A) as X. unfold apart in *. tauto.
Qed.

Section One.
Variables (P : params) (s : pool) (v : view) (G : list (live * place)).
Hypothesis (V : valid P) (I : Core P s v G).

Lemma in_spans : forall x n, In (x, n) (spans v) <-> exists cl, In (Region x n cl) (v_regions v ++ v_lost v).
Proof.
  intros x n. unfold spans. rewrite in_map_iff. split; [intros (g & E & IN); injection E as <- <-; exists (g_class g); destruct g; exact IN|intros (cl & IN); exists (Region x n cl); auto].
Qed.
Lemma lost_base : forall x n cl g, In (Region x n cl) (v_regions v) -> In g (v_lost v) -> g_base g <> x.
Proof.
  intros x n cl g A B E. pose proof (c_nodup _ _ _ _ I) as N. rewrite map_app in N. apply in_split in B. destruct B as (l1 & l2 & B). rewrite B, map_app in N. cbn [map] in N. rewrite app_assoc in N.
  apply NoDup_remove_2 in N. apply N. rewrite E, !in_app_iff. left. left. change x with (g_base (Region x n cl)). apply in_map. exact A.
Qed.
Lemma gb_in : forall x n cl g, In (Region x n cl) (v_regions v) -> (In g (give_back x n (v_regions v)) <-> In g (v_regions v) /\ g_base g <> x).
Proof.
  intros x n cl g R. unfold give_back. rewrite filter_In. split; intros (IN & C); (split; [exact IN|]).
  - intros E. pose proof (reg_inj P s v G I g _ IN R E) as ->. cbn in C. rewrite !Z.eqb_refl in C. discriminate.
  - rewrite (proj2 (Z.eqb_neq _ _) C). reflexivity.
Qed.
Lemma named_in : forall x n cl g, In (Region x n cl) (v_regions v) -> (In g (named x n (v_regions v)) <-> g = Region x n cl).
Proof.
  intros x n cl g R. unfold named. rewrite filter_In. split.
  - intros (IN & C). apply andb_prop in C. destruct C as (C & _). apply Z.eqb_eq in C. exact (reg_inj P s v G I g _ IN R C).
  - intros ->. split; [exact R|]. cbn. rewrite !Z.eqb_refl. reflexivity.
Qed.
Lemma untracked : forall x n cl y, In (Region x n cl) (v_regions v) -> (In y (untrack x (p_regions s)) <-> In y (map (fun g => (g_base g, g_size g)) (give_back x n (v_regions v) ++ v_lost v))).
Proof.
  intros x n cl (q, m) R. unfold untrack. rewrite filter_In, (c_track _ _ _ _ I). rewrite in_spans. rewrite in_map_iff. cbn [fst]. split.
  - intros ((c' & IN) & NE). exists (Region q m c'). split; [reflexivity|]. rewrite in_app_iff in *. rewrite (gb_in x n cl _ R). cbn [g_base]. destruct (Z.eqb_spec q x); [discriminate|tauto].
  - intros (g & E & IN). injection E as <- <-. rewrite in_app_iff in IN. rewrite (gb_in x n cl _ R) in IN. split.
    + exists (g_class g). rewrite in_app_iff. destruct g as [gb gs gc]; cbn [g_base g_size g_class]. tauto.
    + destruct IN as [(_ & NE)|IN]; [|pose proof (lost_base x n cl g R IN) as NE]; rewrite (proj2 (Z.eqb_neq _ _) NE); reflexivity.
Qed.

(* ---- new memory ---- *)
Variables (p n : Z).
Hypothesis (P0 : 0 < p) (N0 : 0 < n) (PN : p + n < U64) (AP : forall q m, In (q, m) (spans v) -> apart p n q m) (PG : page_size P <> 0 -> multiple_of p (page_size P)).
Lemma new_ok : forall cl, regions_ok ((Region p n cl :: v_regions v) ++ v_lost v) /\ (forall g, In g (v_regions v ++ v_lost v) -> g_base g <> p).
Proof.
  intros cl. apply regions_add; auto; [exact (core_regions _ _ _ _ I)|]. intros g IN. apply AP. rewrite in_spans. exists (g_class g). destruct g. exact IN.
Qed.
Lemma new_slab : lk (p_slabs s) p = None.
Proof.
  destruct (lk (p_slabs s) p) as [sl|] eqn:H; [|reflexivity]. destruct (c_slab _ _ _ _ I p sl H) as (c & O). destruct (lk_mem _ _ _ H) as (E & _). pose proof (so_region _ _ _ _ _ O) as R.
  exfalso. apply (proj2 (new_ok None) (Region (s_mem sl) (s_size sl) (Some c))); [apply in_or_app; auto|exact E].
Qed.
Lemma new_place : forall l i, ~ In (l, (p, i)) G.
Proof.
  intros l i IN. destruct (c_place _ _ _ _ I l p i IN) as (_ & [(_ & _ & R)|(_ & sl & c & H & _)]).
  - apply (proj2 (new_ok None) (Region p (l_size l) None)); [apply in_or_app; auto|reflexivity].
  - rewrite new_slab in H. discriminate.
Qed.

Lemma create_core : forall i b c inp, nth_error (p_buckets s) i = Some b -> b_size b = c -> n = slab_bytes P c ->
  Core P (Pool (Slab p n (slab_chunks P c) 0 i (new_chunks (slab_chunks P c)) :: p_slabs s)
               (set_nth i (p_buckets s) (Bucket c (p :: b_avail b) (b_unavail b) inp)) (p_total s) ((p, n) :: p_regions s))
         (View (Region p n (Some c) :: v_regions v) (v_lost v) (v_live v) (v_others v)) G.
Proof.
  intros i b c inp NB EC EN. set (sl := Slab p n (slab_chunks P c) 0 i (new_chunks (slab_chunks P c))).
  pose proof (bucket_size_of P s v G I i b NB) as TB. rewrite EC in TB. destruct (table_class P V i c TB) as (_ & C8). destruct (slab_bytes_pos P V c C8) as (SB & SM & SC).
  destruct (new_ok (Some c)) as ((R1 & R2 & R3) & NE). pose proof new_slab as NS.
  assert (LK : forall y, lk (sl :: p_slabs s) y = if p =? y then Some sl else lk (p_slabs s) y) by reflexivity.
  destruct (new_chunks_spec (slab_chunks P c) SC) as (NC1 & NC2 & NC3).
  constructor; cbn [p_slabs p_buckets p_regions p_total v_regions v_lost v_live v_others]; try assumption.
  - cbn. constructor; [exact (lk_none _ _ NS)|exact (c_keys _ _ _ _ I)].
  - intros x z. rewrite LK. destruct (Z.eqb_spec p x) as [<-|NX]; intros Z.
    + injection Z as <-. exists c. constructor; cbn [s_mem s_size s_total s_alloc s_bucket s_chunks sl]; try assumption; auto; try lia.
      * left. reflexivity.
      * intros j J. rewrite NC3 by exact J. rewrite Z.ltb_lt. split; [|tauto]. intros L. split; [exact L|]. intros IN. apply in_map_iff in IN. destruct IN as ((l, q) & E & IN). cbn in E. subst q. exact (new_place l j IN).
      * unfold count. replace (filter (in_slab p) (map snd G)) with (@nil place); [reflexivity|]. symmetry.
        destruct (filter (in_slab p) (map snd G)) as [|(q, j) r] eqn:F; [reflexivity|]. exfalso. assert (IN : In (q, j) (filter (in_slab p) (map snd G))) by (rewrite F; left; reflexivity).
        apply filter_In in IN. destruct IN as (IN & T). unfold in_slab in T. cbn in T. apply andb_prop in T. destruct T as (T & _). apply Z.eqb_eq in T. subst q. apply in_map_iff in IN. destruct IN as ((l, q) & E & IN). cbn in E. subst q. exact (new_place l j IN).
    + destruct (c_slab _ _ _ _ I x z Z) as (c' & O). exists c'. apply (slab_ok_other P (v_regions v) _ (map snd G)); [exact O|reflexivity|reflexivity|]. intros. right. assumption.
  - rewrite <- (c_tab _ _ _ _ I). eapply set_nth_map; [exact NB|]. cbn. congruence.
  - intros j b' B'. rewrite set_nth_get in B' by (apply nth_error_Some; congruence). destruct (Nat.eqb_spec j i) as [->|NJ].
    + injection B' as <-. destruct (c_lists _ _ _ _ I i b NB) as (N1 & N2 & A & U). split; [|split; [exact N2|]]; cbn [b_avail b_unavail].
      * constructor; [|exact N1]. rewrite A, NS. intros (z & Z & _). discriminate.
      * split; intros y; rewrite ?LK; cbn [In]; rewrite ?A, ?U; destruct (Z.eqb_spec p y) as [<-|NY].
        -- split; [intros _|auto]. exists sl. split; [reflexivity|]. split; [reflexivity|]. cbn. lia.
        -- split; [intros [X|X]; [congruence|exact X]|auto].
        -- rewrite NS. split; intros (z & Z & _ & F); [discriminate|]. injection Z as <-. cbn in F. lia.
        -- reflexivity.
    + destruct (c_lists _ _ _ _ I j b' B') as (N1 & N2 & A & U). split; [exact N1|]. split; [exact N2|]. split; intros y; rewrite LK, ?A, ?U; (destruct (Z.eqb_spec p y) as [<-|NY]; [|reflexivity]); rewrite NS;
      (split; intros (z & Z & E & F); [discriminate|]; injection Z as <-; cbn in E; congruence).
  - intros g [<-|IN] PZ; [exact (PG PZ)|exact (c_page _ _ _ _ I g IN PZ)].
  - intros g [<-|IN]; cbn [g_class g_base]; [rewrite LK, Z.eqb_refl; eauto|]. pose proof (c_own _ _ _ _ I g IN) as OW. destruct (g_class g); [|exact OW]. rewrite LK. destruct (p =? g_base g); [eauto|exact OW].
  - intros y. cbn [spans]. unfold spans. cbn [v_regions v_lost app map g_base g_size In]. rewrite (c_track _ _ _ _ I). unfold spans. reflexivity.
  - exact (c_live _ _ _ _ I).
  - exact (c_places _ _ _ _ I).
  - intros l m j IN. apply (placed_mono P (p_slabs s) _ (v_regions v)); [|right; assumption|exact (c_place _ _ _ _ I _ _ _ IN)]. intros z Z. rewrite LK. destruct (Z.eqb_spec p m) as [<-|]; [rewrite NS in Z; discriminate|eauto].
Qed.

(* memory that is given back at once *)
Lemma gb_new : forall cl, give_back p n (Region p n cl :: v_regions v) = v_regions v /\ named p n (Region p n cl :: v_regions v) = [Region p n cl].
Proof.
  intros cl. pose proof (proj2 (new_ok cl)) as NE. unfold give_back, named. cbn [filter g_base g_size]. rewrite !Z.eqb_refl. cbn [andb negb].
  assert (NE' : forall g, In g (v_regions v) -> g_base g <> p) by (intros; apply NE; apply in_or_app; auto). revert NE'. clear. induction (v_regions v) as [|g L IH]; intros NE; [auto|].
  destruct IH as (A & B); [intros; apply NE; right; assumption|]. injection B as B. cbn [filter]. rewrite (proj2 (Z.eqb_neq _ _) (NE g (or_introl eq_refl))). cbn [andb negb]. rewrite A, B. auto.
Qed.
Lemma undo_core : forall t, Core P (Pool (p_slabs s) (p_buckets s) t (untrack p ((p, n) :: p_regions s))) v G.
Proof.
  intros t. pose proof (proj2 (new_ok None)) as NE. destruct I. constructor; cbn [p_slabs p_buckets p_regions p_total]; try assumption.
  intros (q, m). unfold untrack. cbn [filter fst]. rewrite Z.eqb_refl. cbn [negb]. rewrite filter_In, c_track. split; [tauto|]. intros IN. split; [exact IN|]. cbn.
  apply in_spans in IN. destruct IN as (cl & IN). pose proof (NE _ IN) as NX. cbn [g_base] in NX. rewrite (proj2 (Z.eqb_neq _ _) NX). reflexivity.
Qed.
Lemma lose_core : forall t cl, Core P (Pool (p_slabs s) (p_buckets s) t ((p, n) :: p_regions s)) (View (v_regions v) (Region p n cl :: v_lost v) (v_live v) (v_others v)) G.
Proof.
  intros t cl. destruct (new_ok cl) as (RO & _). assert (PM : Permutation (v_regions v ++ Region p n cl :: v_lost v) ((Region p n cl :: v_regions v) ++ v_lost v)) by (apply Permutation_sym; apply Permutation_middle).
  destruct (regions_perm _ _ PM RO) as (R1 & R2 & R3). destruct I. constructor; cbn [p_slabs p_buckets p_regions p_total v_regions v_lost v_live v_others]; try assumption.
  intros (q, m). cbn [In]. rewrite c_track. unfold spans. cbn [v_regions v_lost]. rewrite !in_map_iff. split.
  - intros [E|(g & E & IN)]; [exists (Region p n cl); split; [exact E|apply in_or_app; right; left; reflexivity]|]. exists g. split; [exact E|]. rewrite in_app_iff in *. cbn [In]. tauto.
  - intros (g & E & IN). apply in_app_iff in IN. cbn [In] in IN. destruct IN as [IN|[<-|IN]]; [right|left; exact E|right]; exists g; (split; [exact E|apply in_or_app; auto]).
Qed.
(* a large allocation *)
Lemma direct_core : forall t, Core P (Pool (p_slabs s) (p_buckets s) t ((p, n) :: p_regions s)) (View (Region p n None :: v_regions v) (v_lost v) (Live p n :: v_live v) (v_others v)) ((Live p n, (p, -1)) :: G).
Proof.
  intros t. destruct (new_ok None) as ((R1 & R2 & R3) & NE). pose proof new_place as NP. constructor; cbn [p_slabs p_buckets p_regions p_total v_regions v_lost v_live v_others map fst snd]; try assumption.
  - exact (c_keys _ _ _ _ I).
  - intros x sl H. destruct (c_slab _ _ _ _ I x sl H) as (c & O). exists c. apply (slab_ok_other P (v_regions v) _ (map snd G)); [exact O| | |right; assumption].
    + intros i I0. cbn [In]. split; [intros [E|X]; [injection E; lia|exact X]|auto].
    + rewrite count_cons. unfold in_slab. cbn [fst snd]. rewrite andb_false_r. lia.
  - exact (c_tab _ _ _ _ I).
  - exact (c_lists _ _ _ _ I).
  - intros g [<-|IN] PZ; [exact (PG PZ)|exact (c_page _ _ _ _ I g IN PZ)].
  - intros g [<-|IN]; cbn [g_class g_base]; [exists (Live p n); left; reflexivity|]. pose proof (c_own _ _ _ _ I g IN) as OW. destruct (g_class g); [exact OW|]. destruct OW as (l & L). exists l. right. exact L.
  - intros y. unfold spans. cbn [v_regions v_lost app map g_base g_size In]. rewrite (c_track _ _ _ _ I). reflexivity.
  - f_equal. exact (c_live _ _ _ _ I).
  - constructor; [|exact (c_places _ _ _ _ I)]. intros IN. apply in_map_iff in IN. destruct IN as ((l, q) & E & IN). cbn in E. subst q. exact (NP l (-1) IN).
  - intros l m i [E|IN]; [injection E as <- <- <-; split; [exact N0|]; left; cbn; auto|]. apply (placed_mono P (p_slabs s) _ (v_regions v)); [eauto|right; assumption|exact (c_place _ _ _ _ I _ _ _ IN)].
Qed.
End One.

(* ---- memory given back ---- *)
Definition back (v : view) (x n : Z) (up : result) : view :=
  match up with
  | SUCCESS => View (give_back x n (v_regions v)) (v_lost v) (v_live v) (v_others v)
  | _ => View (give_back x n (v_regions v)) (named x n (v_regions v) ++ v_lost v) (v_live v) (v_others v)
  end.
Lemma back_ok : forall P s v G x n cl up, Core P s v G -> In (Region x n cl) (v_regions v) ->
  v_regions (back v x n up) = give_back x n (v_regions v) /\ v_live (back v x n up) = v_live v /\ v_others (back v x n up) = v_others v /\
  regions_ok (v_regions (back v x n up) ++ v_lost (back v x n up)) /\
  (forall y, In y (match up with SUCCESS => untrack x (p_regions s) | _ => p_regions s end) <-> In y (spans (back v x n up))).
Proof.
  intros P s v G x n cl up I R.
  assert (FAIL : regions_ok (give_back x n (v_regions v) ++ named x n (v_regions v) ++ v_lost v) /\
    forall y, In y (p_regions s) <-> In y (map (fun g => (g_base g, g_size g)) (give_back x n (v_regions v) ++ named x n (v_regions v) ++ v_lost v))).
  { assert (PM : Permutation (give_back x n (v_regions v) ++ named x n (v_regions v) ++ v_lost v) (v_regions v ++ v_lost v)) by (rewrite app_assoc; apply Permutation_app_tail; apply split_perm).
    split; [eapply regions_perm; [exact PM|exact (core_regions _ _ _ _ I)]|]. intros y. rewrite (c_track _ _ _ _ I). unfold spans. split; apply Permutation_in; apply Permutation_map; [apply Permutation_sym|]; exact PM. }
  destruct up; cbn [back v_regions v_lost v_live v_others]; (split; [reflexivity|]); (split; [reflexivity|]); (split; [reflexivity|]); unfold spans; cbn [v_regions v_lost]; try exact FAIL.
  split; [eapply regions_cut; apply (proj1 FAIL)|]. intros y. apply (untracked P s v G I x n cl). exact R.
Qed.

Lemma remove_core : forall P s v G x sl b inp t up, valid P -> Core P s v G -> lk (p_slabs s) x = Some sl -> s_alloc sl = 0 -> nth_error (p_buckets s) (s_bucket sl) = Some b ->
  Core P (Pool (filter (fun y => negb (s_mem y =? x)) (p_slabs s))
               (set_nth (s_bucket sl) (p_buckets s) (Bucket (b_size b) (dl_delete x (b_avail b)) (b_unavail b) inp)) t
               (match up with SUCCESS => untrack x (p_regions s) | _ => p_regions s end)) (back v x (s_size sl) up) G.
Proof.
  intros P s v G x sl b inp t up V I H A0 NB. destruct (slab_facts P s v G V I x sl H) as (c & O & C8 & E & X0 & X1 & X2 & T0).
  pose proof (so_region _ _ _ _ _ O) as R. rewrite E in R. destruct (back_ok P s v G x _ _ up I R) as (BR & BL & BO & (R1 & R2 & R3) & TR).
  assert (NP : forall l i, ~ In (l, (x, i)) G).
  { intros l i IN. destruct (c_place _ _ _ _ I l x i IN) as (_ & [(_ & _ & RR)|(I0 & _)]).
    - assert (EQ : Region x (l_size l) None = Region x (s_size sl) (Some c)) by (apply (reg_inj P s v G I); auto). discriminate.
    - apply (count_zero x (map snd G) i); [rewrite <- E, <- (so_alloc _ _ _ _ _ O); exact A0|exact I0|]. change (x, i) with (snd (l, (x, i))). apply in_map. exact IN. }
  assert (LK : forall y, lk (filter (fun y => negb (s_mem y =? x)) (p_slabs s)) y = if y =? x then None else lk (p_slabs s) y) by (intros; apply lk_filter).
  constructor; cbn [p_slabs p_buckets p_regions p_total]; try assumption.
  - apply filter_keys. exact (c_keys _ _ _ _ I).
  - intros y z. rewrite LK, BR. destruct (Z.eqb_spec y x) as [|NE]; [discriminate|]. intros Z. destruct (c_slab _ _ _ _ I y z Z) as (c' & OZ). exists c'. destruct (lk_mem _ _ _ Z) as (MZ & _).
    apply (slab_ok_other P (v_regions v) _ (map snd G)); [exact OZ|reflexivity|reflexivity|]. intros RR. rewrite (gb_in P s v G I x _ _ _ R). cbn [g_base]. split; [exact RR|congruence].
  - rewrite <- (c_tab _ _ _ _ I). eapply set_nth_map; [exact NB|reflexivity].
  - intros j b' B'. rewrite set_nth_get in B' by (apply nth_error_Some; congruence). destruct (Nat.eqb_spec j (s_bucket sl)) as [->|NJ].
    + injection B' as <-. pose proof (lists_gone _ x sl b H _ (c_lists _ _ _ _ I _ b NB) ltac:(lia)) as L. rewrite Nat.eqb_refl in L. eapply lists_inpool; [exact L|reflexivity|reflexivity].
    + pose proof (lists_gone _ x sl b' H j (c_lists _ _ _ _ I _ b' B') ltac:(lia)) as L. rewrite (proj2 (Nat.eqb_neq _ _) NJ) in L. exact L.
  - intros g IN. rewrite BR in IN. apply (gb_in P s v G I x _ _ _ R) in IN. apply (c_page _ _ _ _ I). apply IN.
  - intros g IN. rewrite BR in IN. apply (gb_in P s v G I x _ _ _ R) in IN. destruct IN as (IN & NE). pose proof (c_own _ _ _ _ I g IN) as OW. destruct (g_class g); [|exact OW]. rewrite LK, (proj2 (Z.eqb_neq _ _) NE). exact OW.
  - rewrite BL. exact (c_live _ _ _ _ I).
  - exact (c_places _ _ _ _ I).
  - intros l m j IN. rewrite BR. assert (NE : m <> x) by (intros ->; exact (NP l j IN)). apply (placed_mono P (p_slabs s) _ (v_regions v)); [| |exact (c_place _ _ _ _ I _ _ _ IN)].
    + intros z Z. rewrite LK, (proj2 (Z.eqb_neq _ _) NE). eauto.
    + intros RR. rewrite (gb_in P s v G I x _ _ _ R). auto.
Qed.

Lemma direct_free_core : forall P s v G1 G2 l x t, valid P -> Core P s v (G1 ++ (l, (x, -1)) :: G2) ->
  Core P (Pool (p_slabs s) (p_buckets s) t (untrack x (p_regions s)))
         (View (give_back x (l_size l) (v_regions v)) (v_lost v) (map fst (G1 ++ G2)) (v_others v)) (G1 ++ G2).
Proof.
  intros P s v G1 G2 l x t V I. assert (IN0 : In (l, (x, -1)) (G1 ++ (l, (x, -1)) :: G2)) by (apply in_or_app; right; left; reflexivity).
  destruct (live_direct P s v _ V I l x IN0) as (EP & X0 & L0 & R & _). destruct (back_ok P s v _ x _ _ SUCCESS I R) as (_ & _ & _ & (R1 & R2 & R3) & TR). cbn [back v_regions v_lost v_live v_others] in *.
  pose proof (c_places _ _ _ _ I) as ND. rewrite map_app in ND. cbn [map snd] in ND. pose proof (NoDup_remove_2 _ _ _ ND) as NIN. pose proof (NoDup_remove_1 _ _ _ ND) as ND'. rewrite <- map_app in NIN, ND'.
  assert (SUB : forall q, In q (G1 ++ G2) -> In q (G1 ++ (l, (x, -1)) :: G2)) by (intros q; rewrite !in_app_iff; cbn [In]; tauto).
  assert (NS : lk (p_slabs s) x = None).
  { destruct (lk (p_slabs s) x) as [sl|] eqn:H; [|reflexivity]. destruct (slab_facts P s v _ V I x sl H) as (c & O & _ & E & _). pose proof (so_region _ _ _ _ _ O) as RR. rewrite E in RR.
    assert (EQ : Region x (l_size l) None = Region x (s_size sl) (Some c)) by (apply (reg_inj P s v _ I); auto). discriminate. }
  constructor; cbn [p_slabs p_buckets p_regions p_total v_regions v_lost v_live v_others]; try assumption.
  - exact (c_keys _ _ _ _ I).
  - intros y z Z. destruct (c_slab _ _ _ _ I y z Z) as (c' & OZ). exists c'. destruct (lk_mem _ _ _ Z) as (MZ & _).
    apply (slab_ok_other P (v_regions v) _ (map snd (G1 ++ (l, (x, -1)) :: G2))); [exact OZ| | |].
    + intros i I0. rewrite !map_app. cbn [map snd]. rewrite !in_app_iff. cbn [In]. split; [tauto|]. intros [Y|[Y|Y]]; [auto|injection Y; lia|auto].
    + rewrite !map_app. cbn [map snd]. rewrite count_mid. replace (in_slab (s_mem z) (x, -1)) with false by (unfold in_slab; cbn [fst snd]; rewrite andb_false_r; reflexivity). lia.
    + intros RR. rewrite (gb_in P s v _ I x _ _ _ R). cbn [g_base]. split; [exact RR|congruence].
  - exact (c_tab _ _ _ _ I).
  - exact (c_lists _ _ _ _ I).
  - intros g IN. apply (gb_in P s v _ I x _ _ _ R) in IN. apply (c_page _ _ _ _ I). apply IN.
  - intros g IN. apply (gb_in P s v _ I x _ _ _ R) in IN. destruct IN as (IN & NE). pose proof (c_own _ _ _ _ I g IN) as OW. destruct (g_class g); [exact OW|]. destruct OW as (l' & OW). exists l'. rewrite in_app_iff in *. cbn [In] in OW. destruct OW as [Y|[Y|Y]]; [auto|injection Y; congruence|auto].
  - reflexivity.
  - intros l' m j IN. apply (placed_mono P (p_slabs s) _ (v_regions v)); [eauto| |exact (c_place _ _ _ _ I _ _ _ (SUB _ IN))].
    intros RR. rewrite (gb_in P s v _ I x _ _ _ R). split; [exact RR|]. cbn [g_base]. intros ->.
    destruct (c_place _ _ _ _ I _ _ _ (SUB _ IN)) as (_ & [(E & _ & _)|(_ & z & c & Z & _)]); [|rewrite NS in Z; discriminate].
    apply NIN. rewrite E in IN. change (x, -1) with (snd (l', (x, -1))). apply in_map. exact IN.
Qed.
