(* Proofs about the life of pools and providers. *)
From Verif Require Import Base Model_PoolApi Spec_PoolApi.
From Coq Require Import Permutation.

Lemma pick : forall T (key : T -> Z) l x, NoDup (map key l) -> In x l -> Permutation l (x :: filter (fun y => negb (key y =? key x)) l).
Proof.
  intros T key l x. induction l as [|y l IH]; cbn [map]; intros N X; [destruct X|]. inversion N as [|a b N1 N2]; subst. cbn [filter]. destruct X as [->|X].
  - rewrite Z.eqb_refl. cbn [negb]. apply perm_skip. replace (filter (fun y => negb (key y =? key x)) l) with l; [apply Permutation_refl|].
    clear - N1. induction l as [|z l IH]; [reflexivity|]. cbn [filter map] in *. replace (key z =? key x) with false by (symmetry; apply Z.eqb_neq; intros E; apply N1; left; exact E).
    cbn [negb]. f_equal. apply IH. intros Y. apply N1. right. exact Y.
  - replace (key y =? key x) with false by (symmetry; apply Z.eqb_neq; intros E; apply N1; rewrite E; apply in_map; exact X). cbn [negb].
    eapply Permutation_trans; [apply perm_skip, (IH N2 X)|apply perm_swap].
Qed.
Lemma found : forall T (key : T -> Z) l x, NoDup (map key l) -> In x l -> List.find (fun y => key y =? key x) l = Some x.
Proof.
  intros T key l x. induction l as [|y l IH]; cbn [map]; intros N X; [destruct X|]. inversion N as [|a b N1 N2]; subst. cbn [List.find]. destruct X as [->|X]; [rewrite Z.eqb_refl; reflexivity|].
  replace (key y =? key x) with false by (symmetry; apply Z.eqb_neq; intros E; apply N1; rewrite E; apply in_map; exact X). exact (IH N2 X).
Qed.

(* a table of entries below address n *)
Definition tab {T} (l : list (Z * T)) (R : list (Z * T)) (n : Z) : Prop := NoDup (map fst l) /\ Permutation l R /\ forall x, In x l -> 0 < fst x < n.
Lemma tab_perm : forall T (l R R' : list (Z * T)) n, tab l R n -> Permutation R R' -> tab l R' n.
Proof. intros T l R R' n (A & B & C) P. split; [exact A|]. split; [eapply Permutation_trans; [exact B|exact P]|exact C]. Qed.
Lemma tab_more : forall T (l R : list (Z * T)) n n', tab l R n -> n <= n' -> tab l R n'.
Proof. intros T l R n n' (A & B & C) L. split; [exact A|]. split; [exact B|]. intros x X. specialize (C x X). lia. Qed.
Lemma tab_add : forall T (l R : list (Z * T)) n x, tab l R n -> 0 < n -> tab ((n, x) :: l) ((n, x) :: R) (n + 1).
Proof.
  intros T l R n x (A & B & C) P. split; [|split].
  - cbn [map fst]. constructor; [|exact A]. intros X. apply in_map_iff in X. destruct X as (y & Y1 & Y2). specialize (C y Y2). lia.
  - apply perm_skip. exact B.
  - intros y [<-|Y]; [cbn [fst]; lia|]. specialize (C y Y). lia.
Qed.
Lemma tab_drop : forall T (l R : list (Z * T)) n i x, tab l ((i, x) :: R) n ->
  In (i, x) l /\ tab (filter (fun y => negb (fst y =? i)) l) R n.
Proof.
  intros T l R n i x (A & B & C). assert (X : In (i, x) l) by (apply (Permutation_in _ (Permutation_sym B)); left; reflexivity). split; [exact X|].
  pose proof (pick _ fst l (i, x) A X) as P. cbn [fst] in P. split; [|split].
  - assert (N : NoDup (map fst ((i, x) :: filter (fun y => negb (fst y =? i)) l))) by (eapply Permutation_NoDup; [apply Permutation_map, P|exact A]). cbn [map] in N. inversion N; assumption.
  - apply Permutation_cons_inv with (a := (i, x)). eapply Permutation_trans; [apply Permutation_sym; exact P|exact B].
  - intros y Y. apply filter_In in Y. apply C. tauto.
Qed.
Lemma tab_find : forall T (l R : list (Z * T)) n i x, tab l ((i, x) :: R) n -> find l i = Some x.
Proof. intros T l R n i x H. destruct (tab_drop _ _ _ _ _ _ H) as (X & _). destruct H as (A & _). unfold find. pose proof (found _ fst l (i, x) A X) as F. cbn [fst] in F. rewrite F. reflexivity. Qed.

Definition holds (h : heap) (R : list (Z * kind)) : Prop := tab (h_objs h) R (h_next h) /\ 0 < h_next h.
Lemma holds_perm : forall h R R', holds h R -> Permutation R R' -> holds h R'.
Proof. intros h R R' (A & B) P. split; [exact (tab_perm _ _ _ _ _ A P)|exact B]. Qed.
Lemma take_ok : forall h k R, holds h R -> holds (snd (take h k)) ((h_next h, k) :: R).
Proof. intros h k R (A & B). unfold take. cbn [snd]. split; cbn [h_objs h_next]; [apply tab_add; assumption|lia]. Qed.
Lemma give_ok : forall h i k R, holds h ((i, k) :: R) -> exists h', give h i k = Some h' /\ holds h' R /\ h_next h' = h_next h.
Proof.
  intros h i k R (A & B). destruct (tab_drop _ _ _ _ _ _ A) as (X & D). unfold give.
  assert (E : existsb (is_obj i k) (h_objs h) = true) by (apply existsb_exists; exists (i, k); split; [exact X|unfold is_obj; cbn [fst snd]; rewrite Z.eqb_refl; destruct (kind_eq_dec k k); [reflexivity|contradiction]]).
  rewrite E. eexists. split; [reflexivity|]. split; [split; [exact D|exact B]|reflexivity].
Qed.

(* moving things around in permutations *)
Ltac flat := cbn [app]; repeat rewrite <- app_assoc; cbn [app].
Definition obj_dec (a b : Z * kind) : {a = b} + {a <> b}.
Proof. decide equality; [apply kind_eq_dec|apply Z.eq_dec]. Defined.
Definition prov_dec (a b : Z * priv) : {a = b} + {a <> b}.
Proof. decide equality; [decide equality; try apply Z.eq_dec; decide equality; apply Z.eq_dec|apply Z.eq_dec]. Defined.
Ltac spread := repeat match goal with |- context [?a :: ?l] => lazymatch l with nil => fail | _ => change (a :: l) with ([a] ++ l) end end.
Ltac shuffle dec := apply (Permutation_count_occ dec); intros ?z; spread; repeat rewrite count_occ_app; lia.

Lemma destroy_up : forall l h o R P n, holds (l_heap l) ((h, KProvider) :: (o, KProvPriv) :: R) -> tab (l_provs l) ((h, Upstream o) :: P) n ->
  exists l', provider_destroy l h = Some l' /\ holds (l_heap l') R /\ tab (l_provs l') P n /\ l_pools l' = l_pools l /\ l_tracker l' = l_tracker l /\ l_final l' = h :: l_final l /\ h_next (l_heap l') = h_next (l_heap l).
Proof.
  intros l h o R P n H T. unfold provider_destroy. destruct (tab_drop _ _ _ _ _ _ T) as (X & D). assert (HZ : 0 < h < n) by (apply (proj2 (proj2 T) (h, Upstream o)); exact X).
  replace (h =? 0) with false by (symmetry; apply Z.eqb_neq; lia). rewrite (tab_find _ _ _ _ _ _ T).
  destruct (give_ok (l_heap l) o KProvPriv ((h, KProvider) :: R)) as (h1 & -> & H1 & N1); [eapply holds_perm; [exact H|apply perm_swap]|].
  destruct (give_ok h1 h KProvider R H1) as (h2 & -> & H2 & N2). eexists. split; [reflexivity|]. cbn [l_heap l_provs l_pools l_tracker l_final]. split; [exact H2|]. split; [exact D|]. rewrite N2, N1. auto.
Qed.
Lemma destroy_track : forall l h o c i up R P n, holds (l_heap l) ((h, KProvider) :: (o, KTracking) :: (c, KCritnib) :: (i, KIpcCache) :: R) -> tab (l_provs l) ((h, Track o c (Some i) up) :: P) n ->
  exists l', provider_destroy l h = Some l' /\ holds (l_heap l') R /\ tab (l_provs l') P n /\ l_pools l' = l_pools l /\ l_tracker l' = l_tracker l /\ l_final l' = l_final l /\ h_next (l_heap l') = h_next (l_heap l).
Proof.
  intros l h o c i up R P n H T. unfold provider_destroy. destruct (tab_drop _ _ _ _ _ _ T) as (X & D). assert (HZ : 0 < h < n) by (apply (proj2 (proj2 T) _ X)).
  replace (h =? 0) with false by (symmetry; apply Z.eqb_neq; lia). rewrite (tab_find _ _ _ _ _ _ T).
  destruct (give_ok (l_heap l) i KIpcCache ((c, KCritnib) :: (o, KTracking) :: (h, KProvider) :: R)) as (h1 & -> & H1 & N1); [eapply holds_perm; [exact H|shuffle obj_dec]|].
  destruct (give_ok h1 c KCritnib _ H1) as (h2 & -> & H2 & N2). destruct (give_ok h2 o KTracking _ H2) as (h3 & -> & H3 & N3). destruct (give_ok h3 h KProvider _ H3) as (h4 & -> & H4 & N4).
  eexists. split; [reflexivity|]. cbn [l_heap l_provs l_pools l_tracker l_final]. split; [exact H4|]. split; [exact D|]. rewrite N4, N3, N2, N1. auto.
Qed.

(* ---- the invariant ---- *)
Record ent := Ent { e_p : Z; e_m : Z; e_o : Z; e_up : Z; e_own : option Z; e_tr : option (Z * Z * Z * Z) }.
Definition some {T} (o : option T) : bool := match o with Some _ => true | None => false end.
Definition e_view (e : ent) : Z * (Z * bool * bool) := (e_p e, (e_up e, some (e_own e), some (e_tr e))).
Definition e_prov (e : ent) : Z := match e_tr e with Some (t, _, _, _) => t | None => e_up e end.
Definition e_pool (e : ent) : Z * pool := (e_p e, Pool (e_prov e) (some (e_own e)) (negb (some (e_tr e))) (e_m e) (e_o e)).
Definition e_own_objs (e : ent) : list (Z * kind) := match e_own e with Some o => [(e_up e, KProvider); (o, KProvPriv)] | None => [] end.
Definition e_tr_objs (e : ent) : list (Z * kind) := match e_tr e with Some (t, o, c, i) => [(t, KProvider); (o, KTracking); (c, KCritnib); (i, KIpcCache)] | None => [] end.
Definition e_objs (e : ent) : list (Z * kind) := [(e_p e, KPool); (e_m e, KMutex); (e_o e, KPoolPriv)] ++ e_own_objs e ++ e_tr_objs e.
Definition e_own_prov (e : ent) : list (Z * priv) := match e_own e with Some o => [(e_up e, Upstream o)] | None => [] end.
Definition e_tr_prov (e : ent) : list (Z * priv) := match e_tr e with Some (t, o, c, i) => [(t, Track o c (Some i) (e_up e))] | None => [] end.
Definition e_provs (e : ent) : list (Z * priv) := e_own_prov e ++ e_tr_prov e.
Definition a_objs (a : Z * Z) : list (Z * kind) := [(fst a, KProvider); (snd a, KProvPriv)].
Definition a_prov (a : Z * Z) : Z * priv := (fst a, Upstream (snd a)).

Record Inv (lucky : bool) (l : lib) (v : ledger) (A : list (Z * Z)) (E : list ent) (X : list (Z * kind)) : Prop := Invariant {
  i_mine : mine v = map fst A; i_pools : pools v = map e_view E; i_lpools : l_pools l = map e_pool E; i_final : l_final l = gone v;
  i_heap : holds (l_heap l) (flat_map a_objs A ++ flat_map e_objs E ++ X);
  i_provs : tab (l_provs l) (map a_prov A ++ flat_map e_provs E) (h_next (l_heap l));
  i_np : NoDup (map e_p E); i_bp : forall e, In e E -> 0 < e_p e < h_next (l_heap l);
  i_leak : lucky = true -> X = [];
  i_gone : NoDup (gone v) /\ (forall h, In h (gone v) -> 0 < h < h_next (l_heap l) /\ ~ In h (mine v) /\ forall e o, In e E -> e_own e = Some o -> e_up e <> h) }.

Lemma flat_map_perm : forall S T (f : S -> list T) l l', Permutation l l' -> Permutation (flat_map f l) (flat_map f l').
Proof. intros. apply Permutation_flat_map. assumption. Qed.

Lemma nodup_left : forall T (a b : list T), NoDup (a ++ b) -> NoDup a.
Proof. intros T a b. induction a as [|x a IH]; cbn [app]; intros N; [constructor|]. inversion N as [|p q N1 N2]; subst. constructor; [|exact (IH N2)]. intros X. apply N1. apply in_or_app. left. exact X. Qed.

Lemma mine_nodup : forall lucky l v A E X, Inv lucky l v A E X -> NoDup (map fst A).
Proof.
  intros lucky l v A E X I. destruct (i_provs _ _ _ _ _ _ I) as (N & P & _).
  assert (N2 : NoDup (map fst (map a_prov A ++ flat_map e_provs E))) by (eapply Permutation_NoDup; [apply Permutation_map, P|exact N]).
  rewrite map_app in N2. apply nodup_left in N2. rewrite map_map in N2. exact N2.
Qed.
Lemma mine_owned : forall lucky l v A E X h o e, Inv lucky l v A E X -> In h (map fst A) -> In e E -> e_own e = Some o -> e_up e <> h.
Proof.
  intros lucky l v A E X h o e I H1 H2 H3 EQ. destruct (i_provs _ _ _ _ _ _ I) as (N & P & _).
  assert (N2 : NoDup (map fst (map a_prov A ++ flat_map e_provs E))) by (eapply Permutation_NoDup; [apply Permutation_map, P|exact N]).
  rewrite map_app, map_map in N2. apply in_split in H1. destruct H1 as (l1 & l2 & H1). change (map (fun x => fst (a_prov x)) A) with (map fst A) in N2. rewrite H1 in N2.
  rewrite <- app_assoc in N2. cbn [app] in N2. apply NoDup_remove_2 in N2. apply N2. apply in_or_app. right. apply in_or_app. right.
  apply in_map_iff. exists (h, Upstream o). split; [reflexivity|]. apply in_flat_map. exists e. split; [exact H2|]. unfold e_provs, e_own_prov. rewrite H3, EQ. left. reflexivity.
Qed.

Lemma without_map : forall T (A : list (Z * T)) h, without (map fst A) h = map fst (filter (fun y => negb (fst y =? h)) A).
Proof. intros T A h. induction A as [|a A IH]; [reflexivity|]. cbn [map without filter]. unfold without in *. destruct (negb (fst a =? h)); cbn [map]; rewrite IH; reflexivity. Qed.
Lemma closed_map : forall E p, closed (map e_view E) p = map e_view (filter (fun e => negb (e_p e =? p)) E).
Proof. intros E p. induction E as [|e E IH]; [reflexivity|]. cbn [map closed filter]. unfold closed in *. unfold e_view at 1. cbn [fst]. destruct (negb (e_p e =? p)); cbn [map]; rewrite IH; reflexivity. Qed.
Lemma drop_map : forall E p, drop (map e_pool E) p = map e_pool (filter (fun e => negb (e_p e =? p)) E).
Proof. intros E p. induction E as [|e E IH]; [reflexivity|]. cbn [map drop filter]. unfold drop in *. unfold e_pool at 1. cbn [fst]. destruct (negb (e_p e =? p)); cbn [map]; rewrite IH; reflexivity. Qed.
Lemma find_map_pool : forall E e, NoDup (map e_p E) -> In e E -> find (map e_pool E) (e_p e) = Some (snd (e_pool e)).
Proof.
  intros E e N X. unfold find. assert (N2 : NoDup (map fst (map e_pool E))) by (rewrite map_map; exact N). pose proof (found _ fst (map e_pool E) (e_pool e) N2 (in_map _ _ _ X)) as F. 
  change (fst (e_pool e)) with (e_p e) in F. rewrite F. reflexivity.
Qed.
Lemma find_map_view : forall E e, NoDup (map e_p E) -> In e E -> find (map e_view E) (e_p e) = Some (snd (e_view e)).
Proof.
  intros E e N X. unfold find. assert (N2 : NoDup (map fst (map e_view E))) by (rewrite map_map; exact N). pose proof (found _ fst (map e_view E) (e_view e) N2 (in_map _ _ _ X)) as F.
  change (fst (e_view e)) with (e_p e) in F. rewrite F. reflexivity.
Qed.
Lemma filter_nodup : forall T (key : T -> Z) f l, NoDup (map key l) -> NoDup (map key (filter f l)).
Proof.
  intros T key f l. induction l as [|x l IH]; cbn [map filter]; intros N; [constructor|]. inversion N as [|a b N1 N2]; subst. destruct (f x); cbn [map]; [|exact (IH N2)].
  constructor; [|exact (IH N2)]. intros Y. apply N1. apply in_map_iff in Y. destruct Y as (z & <- & Z). apply filter_In in Z. apply in_map. tauto.
Qed.

Lemma new_ok : forall lucky t, Inv lucky (Lib (Heap 1 []) [] [] t []) (Ledger [] [] []) [] [] [].
Proof.
  intros lucky t. constructor; cbn [mine pools gone l_heap l_provs l_pools l_final map flat_map app h_next h_objs]; try reflexivity.
  - split; [|cbn; lia]. split; [constructor|]. split; [constructor|]. intros x [].
  - split; [constructor|]. split; [constructor|]. intros x [].
  - constructor.
  - intros e [].
  - split; [constructor|]. intros h [].
Qed.

Definition next (l : lib) : Z := h_next (l_heap l).

Lemma inv_mine : forall lucky l v A E X h, Inv lucky l v A E X -> In h (mine v) -> exists o A', In (h, o) A /\ A' = filter (fun y => negb (fst y =? h)) A /\ Permutation A ((h, o) :: A') /\ 0 < h < next l.
Proof.
  intros lucky l v A E X h I H. rewrite (i_mine _ _ _ _ _ _ I) in H. apply in_map_iff in H. destruct H as ((h' & o) & EQ & H). cbn [fst] in EQ. subst h'.
  exists o, (filter (fun y => negb (fst y =? h)) A). split; [exact H|]. split; [reflexivity|]. split; [exact (pick _ fst A (h, o) (mine_nodup _ _ _ _ _ _ I) H)|].
  apply (proj2 (proj2 (i_provs _ _ _ _ _ _ I)) (h, Upstream o)). apply (Permutation_in _ (Permutation_sym (proj1 (proj2 (i_provs _ _ _ _ _ _ I))))).
  apply in_or_app. left. apply in_map_iff. exists (h, o). auto.
Qed.
Lemma gone_step : forall lucky l v A E X n h, Inv lucky l v A E X -> 0 < h < n -> next l <= n -> In h (mine v) \/ (exists e o, In e E /\ e_own e = Some o /\ e_up e = h) ->
  NoDup (h :: gone v) /\ forall g, In g (h :: gone v) -> 0 < g < n.
Proof.
  intros lucky l v A E X n h I H N W. destruct (i_gone _ _ _ _ _ _ I) as (G1 & G2). split.
  - constructor; [|exact G1]. intros G. destruct (G2 h G) as (_ & P & Q). destruct W as [W|(e & o & W1 & W2 & W3)]; [exact (P W)|exact (Q e o W1 W2 W3)].
  - intros g [<-|G]; [exact H|]. destruct (G2 g G) as (P & _). unfold next in N. lia.
Qed.

Lemma provider_create_ok : forall lucky l v A E X mem ini, Inv lucky l v A E X -> exists r h l', provider_create l mem ini = Some (r, h, l') /\
  (exists A' E' X', Inv lucky l' (noted v (MProvider mem ini) h) A' E' X') /\ (h = None -> forall k, count l' k = count l k) /\ (r = SUCCESS <-> h <> None).
Proof.
  intros lucky l v A E X mem ini I. unfold provider_create. destruct mem; cbn [negb]; [|exists ERR_OUT_OF_HOST_MEMORY, None, l; split; [reflexivity|]; split; [exists A, E, X; exact I|]; split; [auto|split; [discriminate|intros W; contradiction]]].
  pose proof (take_ok (l_heap l) KProvider _ (i_heap _ _ _ _ _ _ I)) as T1. remember (take (l_heap l) KProvider) as t1 eqn:E1. pose proof E1 as E1b. unfold take in E1b. destruct t1 as (h & hp). injection E1b as Hh Hp. cbn [snd] in T1.
  assert (FAIL : forall e, e <> SUCCESS -> exists r h0 l', match give hp h KProvider with None => None | Some hp0 => Some (e, @None Z, Lib hp0 (l_provs l) (l_pools l) (l_tracker l) (l_final l)) end = Some (r, h0, l') /\
    (exists A' E' X', Inv lucky l' (noted v (MProvider true e) h0) A' E' X') /\ (h0 = None -> forall k, count l' k = count l k) /\ (r = SUCCESS <-> h0 <> None)).
  { intros e NE. rewrite <- Hh in T1. destruct (give_ok hp h KProvider _ T1) as (h1 & G & H1 & N1). rewrite G. exists e, None, (Lib h1 (l_provs l) (l_pools l) (l_tracker l) (l_final l)). split; [reflexivity|].
    assert (LE : h_next (l_heap l) <= h_next h1) by (rewrite N1, Hp; cbn [h_next]; lia). split; [|split; [|split; [intros W; contradiction|intros W; contradiction]]].
    - exists A, E, X. cbn [noted]. destruct I as [I1 I2 I3 I4 I5 I6 I7 I8 I9 I10]. constructor; cbn [l_heap l_provs l_pools l_final]; try assumption.
      + exact (tab_more _ _ _ _ _ I6 LE).
      + intros e0 Q. specialize (I8 e0 Q). clear - I8 LE. lia.
      + split; [exact (proj1 I10)|]. intros g Q. destruct (proj2 I10 g Q) as (P1 & P2). split; [clear - P1 LE; lia|exact P2].
    - intros _ k. unfold give in G. destruct (existsb (is_obj h KProvider) (h_objs hp)); [|discriminate]. injection G as G. rewrite <- G. unfold count. cbn [l_heap h_objs]. f_equal. f_equal.
      rewrite Hp. cbn [h_objs filter fst]. rewrite Hh, Z.eqb_refl. cbn [negb]. destruct (i_heap _ _ _ _ _ _ I) as ((_ & _ & B) & _). clear - B.
      remember (h_next (l_heap l)) as n eqn:EN. clear EN. induction (h_objs (l_heap l)) as [|x xs IH]; [reflexivity|]. cbn [filter].
      replace (fst x =? n) with false by (symmetry; apply Z.eqb_neq; specialize (B x (or_introl eq_refl)); lia). cbn [negb]. f_equal. apply IH. intros y Y. apply B. right. exact Y. }
  destruct ini; try (apply FAIL; discriminate).
  pose proof (take_ok hp KProvPriv _ T1) as T2. remember (take hp KProvPriv) as t2 eqn:E2. pose proof E2 as E2b. unfold take in E2b. destruct t2 as (o & hp2). injection E2b as Ho Hp2. cbn [snd] in T2.
  eexists _, _, _. split; [reflexivity|]. split; [|split; [discriminate|split; [discriminate|reflexivity]]]. exists ((h, o) :: A), E, X. cbn [noted].
  assert (NX : h_next hp2 = h_next (l_heap l) + 2) by (rewrite Hp2, Hp; cbn [h_next]; lia). assert (N0 : 0 < h_next (l_heap l)) by (exact (proj2 (i_heap _ _ _ _ _ _ I))).
  destruct I as [I1 I2 I3 I4 I5 I6 I7 I8 I9 I10]. constructor; cbn [l_heap l_provs l_pools l_final mine pools gone map fst flat_map]; try assumption.
  - rewrite I1. reflexivity.
  - eapply holds_perm; [exact T2|]. unfold a_objs at 2. cbn [fst snd]. rewrite Ho, <- Hh. shuffle obj_dec.
  - change (a_prov (h, o)) with (h, Upstream o). cbn [app]. rewrite Hh. apply tab_more with (n := h_next (l_heap l) + 1); [|clear - NX; lia]. apply tab_add; assumption.
  - intros e Q. specialize (I8 e Q). clear - I8 NX. lia.
  - split; [exact (proj1 I10)|]. intros g Q. destruct (proj2 I10 g Q) as (P1 & P2 & P3). split; [clear - P1 NX; lia|]. split; [|exact P3]. intros [Y|Y]; [clear - P1 Y Hh; lia|exact (P2 Y)].
Qed.

Lemma provider_destroy_ok : forall lucky l v A E X h, Inv lucky l v A E X -> In h (mine v) -> exists l', provider_destroy l h = Some l' /\
  exists A' E' X', Inv lucky l' (noted v (MDestroy h) None) A' E' X'.
Proof.
  intros lucky l v A E X h I H. destruct (inv_mine _ _ _ _ _ _ _ I H) as (o & A' & H1 & H2 & H3 & H4).
  destruct (destroy_up l h o (flat_map a_objs A' ++ flat_map e_objs E ++ X) (map a_prov A' ++ flat_map e_provs E) (next l)) as (l' & D & K1 & K2 & K3 & K4 & K5 & K6).
  { eapply holds_perm; [exact (i_heap _ _ _ _ _ _ I)|]. eapply Permutation_trans; [apply Permutation_app_tail, (flat_map_perm _ _ a_objs _ _ H3)|]. cbn [flat_map a_objs fst snd app]. apply Permutation_refl. }
  { eapply tab_perm; [exact (i_provs _ _ _ _ _ _ I)|]. eapply Permutation_trans; [apply Permutation_app_tail, (Permutation_map a_prov H3)|]. cbn [map a_prov fst snd app]. apply Permutation_refl. }
  exists l'. split; [exact D|]. exists A', E, X. cbn [noted].
  assert (GS := gone_step lucky l v A E X (next l') h I). unfold next in GS, H4. rewrite K6 in GS. specialize (GS H4 (Z.le_refl _) (or_introl H)).
  assert (OW := fun e oo => mine_owned lucky l v A E X h oo e I). rewrite (i_mine _ _ _ _ _ _ I) in H.
  destruct I as [I1 I2 I3 I4 I5 I6 I7 I8 I9 I10]. constructor; cbn [mine pools gone]; rewrite ?K3, ?K5, ?K6; try assumption.
  - rewrite I1, without_map, H2. reflexivity.
  - rewrite I4. reflexivity.
  - split; [exact (proj1 GS)|]. intros g Q. split; [exact (proj2 GS g Q)|]. destruct Q as [<-|Q].
    + split; [|intros e oo Q1 Q2; exact (OW e oo H Q1 Q2)]. intros Y. apply filter_In in Y. destruct Y as (_ & Y). rewrite Z.eqb_refl in Y. discriminate.
    + destruct (proj2 I10 g Q) as (P1 & P2 & P3). split; [|exact P3]. intros Y. apply filter_In in Y. exact (P2 (proj1 Y)).
Qed.

Lemma pool_destroy_ok : forall lucky l v A E X p, Inv lucky l v A E X -> (exists x, In (p, x) (pools v)) -> exists l', pool_destroy l p = Some l' /\
  exists A' E' X', Inv lucky l' (noted v (MPoolDestroy p) None) A' E' X'.
Proof.
  intros lucky l v A E X p I (x & H). rewrite (i_pools _ _ _ _ _ _ I) in H. apply in_map_iff in H. destruct H as (e & EQ & H). injection EQ as EP _. subst p. clear x.
  pose proof (pick _ e_p E e (i_np _ _ _ _ _ _ I) H) as PE. remember (filter (fun y => negb (e_p y =? e_p e)) E) as E' eqn:EE.
  assert (FP := find_map_pool E e (i_np _ _ _ _ _ _ I) H). rewrite <- (i_lpools _ _ _ _ _ _ I) in FP. unfold pool_destroy. rewrite FP. unfold e_pool. cbn [snd pl_priv pl_untracked pl_provider pl_own pl_mutex].
  remember (flat_map a_objs A ++ flat_map e_objs E' ++ X) as R eqn:ER.
  assert (HH : holds (l_heap l) ((e_o e, KPoolPriv) :: e_tr_objs e ++ e_own_objs e ++ (e_m e, KMutex) :: (e_p e, KPool) :: R)).
  { eapply holds_perm; [exact (i_heap _ _ _ _ _ _ I)|]. eapply Permutation_trans; [apply Permutation_app_head, Permutation_app_tail, (flat_map_perm _ _ e_objs _ _ PE)|]. rewrite ER. cbn [flat_map]. unfold e_objs at 1. shuffle obj_dec. }
  assert (TT : tab (l_provs l) (e_tr_prov e ++ e_own_prov e ++ map a_prov A ++ flat_map e_provs E') (next l)).
  { eapply tab_perm; [exact (i_provs _ _ _ _ _ _ I)|]. eapply Permutation_trans; [apply Permutation_app_head, (flat_map_perm _ _ e_provs _ _ PE)|]. cbn [flat_map]. unfold e_provs at 1. shuffle prov_dec. }
  destruct (give_ok _ _ _ _ HH) as (h1 & -> & H1 & N1). remember (Lib h1 (l_provs l) (l_pools l) (l_tracker l) (l_final l)) as l1 eqn:EL1.
  assert (UP : pool_upstream l1 (Pool (e_prov e) (some (e_own e)) (negb (some (e_tr e))) (e_m e) (e_o e)) = Some (e_up e)).
  { unfold pool_upstream, e_prov. cbn [pl_untracked pl_provider]. unfold e_tr_prov in TT. destruct (e_tr e) as [(((t & o) & c) & i)|]; cbn [some negb]; [|reflexivity].
    rewrite EL1. cbn [l_provs]. cbn [app] in TT. rewrite (tab_find _ _ _ _ _ _ TT). reflexivity. }
  rewrite <- ?EL1. cbv zeta. rewrite UP.
  assert (S1 : exists l2, (if negb (some (e_tr e)) then Some l1 else provider_destroy l1 (e_prov e)) = Some l2 /\ holds (l_heap l2) (e_own_objs e ++ (e_m e, KMutex) :: (e_p e, KPool) :: R) /\
    tab (l_provs l2) (e_own_prov e ++ map a_prov A ++ flat_map e_provs E') (next l) /\ l_pools l2 = l_pools l /\ l_final l2 = l_final l /\ h_next (l_heap l2) = h_next (l_heap l)).
  { unfold e_prov. unfold e_tr_objs in H1. unfold e_tr_prov in TT. destruct (e_tr e) as [(((t & o) & c) & i)|]; cbn [some negb].
    - destruct (destroy_track l1 t o c i (e_up e) (e_own_objs e ++ (e_m e, KMutex) :: (e_p e, KPool) :: R) (e_own_prov e ++ map a_prov A ++ flat_map e_provs E') (next l)) as (l2 & D & K1 & K2 & K3 & K4 & K5 & K6);
        [rewrite EL1; exact H1|rewrite EL1; exact TT|]. exists l2. split; [exact D|]. split; [exact K1|]. split; [exact K2|]. rewrite K3, K5, K6, EL1. cbn [l_pools l_final l_heap]. auto.
    - exists l1. split; [reflexivity|]. rewrite EL1. cbn [l_heap l_provs l_pools l_final]. split; [exact H1|]. split; [exact TT|]. auto. }
  destruct S1 as (l2 & -> & H2 & T2 & Q1 & Q2 & Q3).
  assert (S2 : exists l3, (if some (e_own e) then provider_destroy l2 (e_up e) else Some l2) = Some l3 /\ holds (l_heap l3) ((e_m e, KMutex) :: (e_p e, KPool) :: R) /\
    tab (l_provs l3) (map a_prov A ++ flat_map e_provs E') (next l) /\ l_pools l3 = l_pools l /\ l_final l3 = (if some (e_own e) then e_up e :: l_final l else l_final l) /\ h_next (l_heap l3) = h_next (l_heap l)).
  { unfold e_own_objs in H2. unfold e_own_prov in T2. destruct (e_own e) as [o|]; cbn [some].
    - destruct (destroy_up l2 (e_up e) o ((e_m e, KMutex) :: (e_p e, KPool) :: R) (map a_prov A ++ flat_map e_provs E') (next l) H2 T2) as (l3 & D & K1 & K2 & K3 & K4 & K5 & K6).
      exists l3. split; [exact D|]. split; [exact K1|]. split; [exact K2|]. rewrite K3, K5, K6, Q1, Q2, Q3. auto.
    - exists l2. split; [reflexivity|]. split; [exact H2|]. split; [exact T2|]. auto. }
  destruct S2 as (l3 & -> & H3 & T3 & Q4 & Q5 & Q6).
  destruct (give_ok _ _ _ _ H3) as (h4 & -> & H4 & N4). destruct (give_ok _ _ _ _ H4) as (h5 & -> & H5 & N5). eexists. split; [reflexivity|]. exists A, E', X. cbn [noted].
  assert (NN : h_next h5 = h_next (l_heap l)) by (rewrite N5, N4; exact Q6).
  assert (VF : find (pools v) (e_p e) = Some (snd (e_view e))) by (rewrite (i_pools _ _ _ _ _ _ I); exact (find_map_view E e (i_np _ _ _ _ _ _ I) H)).
  rewrite VF. cbn [snd e_view].
  assert (SUB : forall y, In y E' -> In y E /\ e_p y <> e_p e) by (intros y Y; rewrite EE in Y; apply filter_In in Y; destruct Y as (Y1 & Y2); split; [exact Y1|apply negb_true_iff, Z.eqb_neq in Y2; exact Y2]).
  assert (UB : forall oo, e_own e = Some oo -> 0 < e_up e < next l).
  { intros oo OO. apply (proj2 (proj2 (i_provs _ _ _ _ _ _ I)) (e_up e, Upstream oo)). apply (Permutation_in _ (Permutation_sym (proj1 (proj2 (i_provs _ _ _ _ _ _ I))))). apply in_or_app. right. apply in_flat_map. exists e. split; [exact H|]. unfold e_provs, e_own_prov. rewrite OO. left. reflexivity. }
  assert (GS := fun oo (OO : e_own e = Some oo) => gone_step lucky l v A E X (next l) (e_up e) I (UB oo OO) (Z.le_refl _) (or_intror (ex_intro _ e (ex_intro _ oo (conj H (conj OO eq_refl)))))).
  assert (ONE : forall oo y o2, e_own e = Some oo -> In y E' -> e_own y = Some o2 -> e_up y <> e_up e).
  { intros oo y o2 OO Y1 Y2 Y3. unfold e_own_prov in T2. rewrite OO in T2. destruct T2 as (N & P & _).
    assert (N2 : NoDup (map fst ([(e_up e, Upstream oo)] ++ map a_prov A ++ flat_map e_provs E'))) by (eapply Permutation_NoDup; [apply Permutation_map, P|exact N]). cbn [app map fst] in N2. inversion N2 as [|a b N3 N4']; subst a b.
    apply N3. apply in_map_iff. exists (e_up y, Upstream o2). split; [cbn [fst]; exact Y3|]. apply in_or_app. right. apply in_flat_map. exists y. split; [exact Y1|]. unfold e_provs, e_own_prov. rewrite Y2. left. reflexivity. }
  assert (MO := fun oo (OO : e_own e = Some oo) (Y : In (e_up e) (map fst A)) => mine_owned lucky l v A E X (e_up e) oo e I Y H OO eq_refl).
  destruct I as [I1 I2 I3 I4 I5 I6 I7 I8 I9 I10]. constructor; cbn [mine pools gone l_heap l_provs l_pools l_final]; rewrite ?NN; try assumption.
  - rewrite I2, closed_map, EE. reflexivity.
  - rewrite Q4, I3, drop_map, EE. reflexivity.
  - rewrite Q5, I4. destruct (e_own e); reflexivity.
  - rewrite <- ER. exact H5.
  - rewrite EE. apply filter_nodup. exact I7.
  - intros y Y. apply I8. exact (proj1 (SUB y Y)).
  - destruct (e_own e) as [oo|] eqn:OO; cbn [some].
    + destruct (GS oo eq_refl) as (G1 & G2). split; [exact G1|]. intros g Q. split; [exact (G2 g Q)|]. destruct Q as [<-|Q].
      * split; [rewrite I1; exact (MO oo eq_refl)|]. intros y o2 Y1 Y2. exact (ONE oo y o2 eq_refl Y1 Y2).
      * destruct (proj2 I10 g Q) as (P1 & P2 & P3). split; [exact P2|]. intros y o2 Y1 Y2. exact (P3 y o2 (proj1 (SUB y Y1)) Y2).
    + split; [exact (proj1 I10)|]. intros g Q. destruct (proj2 I10 g Q) as (P1 & P2 & P3). split; [exact P1|]. split; [exact P2|]. intros y o2 Y1 Y2. exact (P3 y o2 (proj1 (SUB y Y1)) Y2).
Qed.

(* ---- creation of a pool ---- *)
Definition St (l0 l : lib) (R : list (Z * kind)) (P : list (Z * priv)) : Prop :=
  holds (l_heap l) R /\ tab (l_provs l) P (next l) /\ l_pools l = l_pools l0 /\ l_tracker l = l_tracker l0 /\ l_final l = l_final l0 /\ next l0 <= next l.
Lemma st_perm : forall l0 l R R' P, St l0 l R P -> Permutation R R' -> St l0 l R' P.
Proof. intros l0 l R R' P (A & B) Q. split; [exact (holds_perm _ _ _ A Q)|exact B]. Qed.
Lemma st_take : forall l0 l R P k, St l0 l R P -> St l0 (Lib (snd (take (l_heap l) k)) (l_provs l) (l_pools l) (l_tracker l) (l_final l)) ((fst (take (l_heap l) k), k) :: R) P.
Proof.
  intros l0 l R P k (A & B & C & D & F & G). unfold St, next in *. split; [exact (take_ok _ k _ A)|]. cbn [l_heap l_provs l_pools l_tracker l_final take snd h_next].
  split; [apply tab_more with (1 := B); lia|]. split; [exact C|]. split; [exact D|]. split; [exact F|]. lia.
Qed.
Lemma st_give : forall l0 l i k R P, St l0 l ((i, k) :: R) P -> exists hp, give (l_heap l) i k = Some hp /\ St l0 (Lib hp (l_provs l) (l_pools l) (l_tracker l) (l_final l)) R P.
Proof.
  intros l0 l i k R P (A & B & C). destruct (give_ok _ _ _ _ A) as (hp & G & H & N). exists hp. split; [exact G|]. unfold St, next in *. cbn [l_heap l_provs l_pools l_tracker l_final]. rewrite N. split; [exact H|]. split; [exact B|exact C].
Qed.
Lemma st_id : forall l R P, holds (l_heap l) R -> tab (l_provs l) P (next l) -> St l l R P.
Proof. intros l R P A B. repeat (split; [assumption || reflexivity|]). apply Z.le_refl. Qed.
Lemma st_prov : forall l0 l hp R P x, St l0 (Lib hp (l_provs l) (l_pools l) (l_tracker l) (l_final l)) R P ->
  St l0 (Lib (snd (take hp KProvider)) ((fst (take hp KProvider), x) :: l_provs l) (l_pools l) (l_tracker l) (l_final l)) ((fst (take hp KProvider), KProvider) :: R) ((fst (take hp KProvider), x) :: P).
Proof.
  intros l0 l hp R P x (A & B & C & D & F & G). unfold St, next in *. cbn [l_heap l_provs l_pools l_tracker l_final] in *. split; [exact (take_ok _ KProvider _ A)|]. cbn [take snd fst h_next].
  split; [apply tab_add; [exact B|exact (proj2 A)]|]. split; [exact C|]. split; [exact D|]. split; [exact F|]. lia.
Qed.

Lemma tracking_create_ok : forall l0 l up k R P, St l0 l R P -> k_cache k = true -> exists r h l', tracking_create l up k = Some (r, h, l') /\
  ((r = SUCCESS /\ exists t o c i, h = Some t /\ St l0 l' ((t, KProvider) :: (o, KTracking) :: (c, KCritnib) :: (i, KIpcCache) :: R) ((t, Track o c (Some i) up) :: P)) \/
   (r <> SUCCESS /\ h = None /\ exists L, St l0 l' (L ++ R) P /\ (k_handle k = true /\ k_track k = true -> L = []))).
Proof.
  intros l0 l up k R P S C. unfold tracking_create.
  destruct (l_tracker l) eqn:ET; cbn [negb]; [|eexists _, _, _; split; [reflexivity|]; right; split; [discriminate|]; split; [reflexivity|]; exists []; split; [exact S|reflexivity]].
  destruct (k_crit k); cbn [negb]; [|eexists _, _, _; split; [reflexivity|]; right; split; [discriminate|]; split; [reflexivity|]; exists []; split; [exact S|reflexivity]].
  rewrite C. pose proof (st_take _ _ _ _ KCritnib S) as S1. destruct (take (l_heap l) KCritnib) as (c & h1). cbn [fst snd] in S1.
  pose proof (st_take _ _ _ _ KIpcCache S1) as S2. cbn [l_heap l_provs l_pools l_tracker l_final] in S2. destruct (take h1 KIpcCache) as (i & h2). cbn [fst snd] in S2.
  cbn [l_heap l_provs l_pools l_tracker l_final] in *. rewrite ?ET in *.
  destruct (k_handle k) eqn:KH; cbn [negb]; [|eexists _, _, _; split; [reflexivity|]; right; split; [discriminate|]; split; [reflexivity|]; exists [(i, KIpcCache); (c, KCritnib)]; split; [exact S2|intros (Q & _); discriminate]].
  pose proof (st_take _ _ _ _ KProvider S2) as S3. cbn [l_heap l_provs l_pools l_tracker l_final] in S3. 
  destruct (k_track k) eqn:KT; cbn [negb].
  - destruct (take h2 KProvider) as (t & h3) eqn:T3. cbn [fst snd] in S3. pose proof (st_take _ _ _ _ KTracking S3) as S4. cbn [l_heap l_provs l_pools l_tracker l_final] in S4.
    destruct (take h3 KTracking) as (o & h4) eqn:T4. cbn [fst snd] in S4. eexists _, _, _. split; [reflexivity|]. left. split; [reflexivity|]. exists t, o, c, i. split; [reflexivity|].
    eapply st_perm with (R := (o, KTracking) :: (t, KProvider) :: (i, KIpcCache) :: (c, KCritnib) :: R); [|shuffle obj_dec].
    destruct S4 as (A4 & B4 & C4). split; [exact A4|]. cbn [l_heap l_provs l_pools l_tracker l_final] in *. unfold next in *. cbn [l_heap] in *. split; [|exact C4].
    destruct S2 as (A2 & B2 & _). cbn [l_heap l_provs] in *. unfold next in B2. cbn [l_heap] in B2. unfold take in T3, T4. injection T3 as T3a T3b. injection T4 as T4a T4b. rewrite <- T4b, <- T3b. cbn [h_next]. rewrite <- T3a.
    apply tab_more with (n := h_next h2 + 1); [apply tab_add; [exact B2|exact (proj2 A2)]|lia].
  - destruct (take h2 KProvider) as (t & h3). cbn [fst snd] in S3. destruct (st_give _ _ _ _ _ _ S3) as (h4 & G & S4). cbn [l_heap l_provs l_pools l_tracker l_final] in G, S4. rewrite G.
    eexists _, _, _. split; [reflexivity|]. right. split; [discriminate|]. split; [reflexivity|]. exists [(i, KIpcCache); (c, KCritnib)]. split; [exact S4|intros (_ & Q); discriminate].
Qed.

Lemma inv_fail : forall lucky l l' v A E X L, Inv lucky l v A E X -> St l l' (L ++ flat_map a_objs A ++ flat_map e_objs E ++ X) (map a_prov A ++ flat_map e_provs E) -> (lucky = true -> L = []) -> Inv lucky l' v A E (L ++ X).
Proof.
  intros lucky l l' v A E X L I (S1 & S2 & S3 & S4 & S5 & S6) Q. unfold next in *. destruct I as [I1 I2 I3 I4 I5 I6 I7 I8 I9 I10]. constructor; rewrite ?S3, ?S5; try assumption.
  - eapply holds_perm; [exact S1|]. shuffle obj_dec.
  - intros e Y. specialize (I8 e Y). clear - I8 S6. lia.
  - intros Y. rewrite (Q Y), (I9 Y). reflexivity.
  - split; [exact (proj1 I10)|]. intros g Y. destruct (proj2 I10 g Y) as (P1 & P2). split; [clear - P1 S6; lia|exact P2].
Qed.

Definition of_kind (k : kind) (x : Z * kind) : bool := if kind_eq_dec (snd x) k then true else false.
Lemma count_perm : forall k (a b : list (Z * kind)), Permutation a b -> List.length (filter (of_kind k) a) = List.length (filter (of_kind k) b).
Proof. intros k a b P. induction P; cbn [filter]; [reflexivity| | |congruence]; try (destruct (of_kind k x); [cbn [List.length]; f_equal|]; assumption). destruct (of_kind k x), (of_kind k y); reflexivity. Qed.
Lemma count_holds : forall l R k, holds (l_heap l) R -> count l k = List.length (filter (of_kind k) R).
Proof. intros l R k ((_ & P & _) & _). unfold count. apply count_perm. exact P. Qed.

Lemma pool_create_ok : forall lucky l v A E X up own untracked out k, Inv lucky l v A E X -> allowed lucky v (MPool up own untracked out k) -> exists r h l', pool_create l up own untracked out k = Some (r, h, l') /\
  (exists A' E' X', Inv lucky l' (noted v (MPool up own untracked out k) h) A' E' X') /\ (h = None -> lucky = true -> forall kd, count l' kd = count l kd) /\ (r = SUCCESS <-> h <> None).
Proof.
  intros lucky l v A E X up own untracked out k I (M & U & KC & KL).
  remember (flat_map a_objs A ++ flat_map e_objs E ++ X) as R0 eqn:ER. remember (map a_prov A ++ flat_map e_provs E) as P0 eqn:EP.
  assert (FAIL : forall l' e L, e <> SUCCESS -> St l l' (L ++ R0) P0 -> (lucky = true -> L = []) -> exists r h l'', Some (e, @None Z, l') = Some (r, h, l'') /\
    (exists A' E' X', Inv lucky l'' (noted v (MPool up own untracked out k) h) A' E' X') /\ (h = None -> lucky = true -> forall kd, count l'' kd = count l kd) /\ (r = SUCCESS <-> h <> None)).
  { intros l' e L NE S Q. exists e, None, l'. split; [reflexivity|]. split; [exists A, E, (L ++ X); cbn [noted]; apply inv_fail with (l := l); [exact I|rewrite <- ER, <- EP; exact S|exact Q]|].
    split; [|split; [contradiction|intros W; contradiction]]. intros _ Y kd. rewrite (Q Y) in S. rewrite (count_holds l' R0 kd (proj1 S)). symmetry. apply count_holds. rewrite ER. exact (i_heap _ _ _ _ _ _ I). }
  assert (S0 : St l l R0 P0) by (apply st_id; [rewrite ER; exact (i_heap _ _ _ _ _ _ I)|rewrite EP; exact (i_provs _ _ _ _ _ _ I)]).
  destruct (inv_mine _ _ _ _ _ _ _ I M) as (uo & A' & U1 & U2 & U3 & U4). unfold pool_create. replace (up =? 0) with false by (symmetry; apply Z.eqb_neq; clear - U4; lia). cbn [orb].
  destruct out; cbn [negb]; [|apply (FAIL l ERR_INVALID_ARGUMENT []); [discriminate|exact S0|reflexivity]].
  destruct (k_mem k); cbn [negb]; [|apply (FAIL l ERR_OUT_OF_HOST_MEMORY []); [discriminate|exact S0|reflexivity]].
  pose proof (st_take _ _ _ _ KPool S0) as S1. destruct (take (l_heap l) KPool) as (p & h1) eqn:T1. cbn [fst snd] in S1. remember (Lib h1 (l_provs l) (l_pools l) (l_tracker l) (l_final l)) as l1 eqn:L1. cbv zeta.
  assert (PN : p = next l /\ next l1 = next l + 1) by (rewrite L1; unfold take in T1; injection T1 as <- <-; split; reflexivity).
  (* giving the pool back *)
  assert (EPC : forall l' e L, e <> SUCCESS -> St l l' (L ++ (p, KPool) :: R0) P0 -> (lucky = true -> L = []) -> exists r h l'',
    match give (l_heap l') p KPool with None => None | Some hp => Some (e, None, Lib hp (l_provs l') (l_pools l') (l_tracker l') (l_final l')) end = Some (r, h, l'') /\
    (exists A' E' X', Inv lucky l'' (noted v (MPool up own untracked true k) h) A' E' X') /\ (h = None -> lucky = true -> forall kd, count l'' kd = count l kd) /\ (r = SUCCESS <-> h <> None)).
  { intros l' e L NE S Q. assert (S' : St l l' ((p, KPool) :: L ++ R0) P0) by (eapply st_perm; [exact S|shuffle obj_dec]). destruct (st_give _ _ _ _ _ _ S') as (hp & G & S2). rewrite G. exact (FAIL _ e L NE S2 Q). }
  (* what is created for tracking *)
  assert (TR : (exists prov l2 tr, (if untracked then Some (SUCCESS, Some up, l1) else tracking_create l1 up k) = Some (SUCCESS, Some prov, l2) /\ some tr = negb untracked /\
      (let e := Ent p 0 0 up None tr in prov = e_prov e /\ St l l2 (e_tr_objs e ++ (p, KPool) :: R0) (e_tr_prov e ++ P0))) \/
    (exists e l2 L, untracked = false /\ tracking_create l1 up k = Some (e, None, l2) /\ e <> SUCCESS /\ St l l2 (L ++ (p, KPool) :: R0) P0 /\ (lucky = true -> L = []))).
  { destruct untracked.
    - left. exists up, l1, None. split; [reflexivity|]. split; [reflexivity|]. cbv zeta. split; [reflexivity|exact S1].
    - destruct (tracking_create_ok l l1 up k _ _ S1 KC) as (r & h & l2 & TC & [(-> & t & o & c & i & -> & S2)|(NE & -> & L & S2 & Q)]).
      + left. exists t, l2, (Some (t, o, c, i)). split; [exact TC|]. split; [reflexivity|]. cbv zeta. split; [reflexivity|exact S2].
      + right. exists r, l2, L. split; [reflexivity|]. split; [exact TC|]. split; [exact NE|]. split; [exact S2|]. intros Y. exact (Q (KL Y)). }
  destruct TR as [(prov & l2 & tr & -> & TR & TE & S2)|(e & l2 & L & -> & -> & NE & S2 & Q)]; [|destruct e; try contradiction; exact (EPC l2 _ L NE S2 Q)].
  (* undoing it *)
  assert (ELI : forall l' e, e <> SUCCESS -> St l l' (e_tr_objs (Ent p 0 0 up None tr) ++ (p, KPool) :: R0) (e_tr_prov (Ent p 0 0 up None tr) ++ P0) -> exists r h l'',
    match (if untracked then Some l' else provider_destroy l' prov) with None => None | Some l'0 =>
      match give (l_heap l'0) p KPool with None => None | Some hp => Some (e, None, Lib hp (l_provs l'0) (l_pools l'0) (l_tracker l'0) (l_final l'0)) end end = Some (r, h, l'') /\
    (exists A' E' X', Inv lucky l'' (noted v (MPool up own untracked true k) h) A' E' X') /\ (h = None -> lucky = true -> forall kd, count l'' kd = count l kd) /\ (r = SUCCESS <-> h <> None)).
  { intros l' e NE (S3 & S4 & S5 & S6 & S7 & S8). unfold e_tr_objs, e_tr_prov, e_prov in *. cbn [e_tr e_up] in *. destruct tr as [(((t & o) & c) & i)|]; destruct untracked; try discriminate TR.
    - destruct (destroy_track l' t o c i up ((p, KPool) :: R0) P0 (next l') S3 S4) as (l3 & D & K1 & K2 & K3 & K4 & K5 & K6). rewrite TE, D. apply (EPC l3 e [] NE); [|reflexivity].
      unfold St, next in *. rewrite K3, K4, K5, K6. cbn [app]. split; [exact K1|]. split; [exact K2|]. auto.
    - apply (EPC l' e [] NE); [|reflexivity]. split; [exact S3|]. split; [exact S4|]. auto. }
  destruct (k_mutex k); cbn [negb]; [|apply (ELI l2 ERR_UNKNOWN); [discriminate|exact S2]].
  pose proof (st_take _ _ _ _ KMutex S2) as S3. destruct (take (l_heap l2) KMutex) as (m & h3) eqn:T3. cbn [fst snd] in S3.
  remember (Lib h3 (l_provs l2) (l_pools l2) (l_tracker l2) (l_final l2)) as l3 eqn:L3.
  assert (BAD : forall e, e <> SUCCESS -> exists r h l'',
    match give (l_heap l3) m KMutex with None => None | Some hp => 
      match (if untracked then Some (Lib hp (l_provs l3) (l_pools l3) (l_tracker l3) (l_final l3)) else provider_destroy (Lib hp (l_provs l3) (l_pools l3) (l_tracker l3) (l_final l3)) prov) with None => None | Some l'0 =>
      match give (l_heap l'0) p KPool with None => None | Some hp => Some (e, None, Lib hp (l_provs l'0) (l_pools l'0) (l_tracker l'0) (l_final l'0)) end end end = Some (r, h, l'') /\
    (exists A' E' X', Inv lucky l'' (noted v (MPool up own untracked true k) h) A' E' X') /\ (h = None -> lucky = true -> forall kd, count l'' kd = count l kd) /\ (r = SUCCESS <-> h <> None)).
  { intros e NE. destruct (st_give _ _ _ _ _ _ S3) as (h4 & G & S4). rewrite G. exact (ELI _ e NE S4). }
  destruct (k_init k); try (apply BAD; discriminate).
  pose proof (st_take _ _ _ _ KPoolPriv S3) as S4. destruct (take (l_heap l3) KPoolPriv) as (o & h4) eqn:T4. cbn [fst snd] in S4.
  remember (Lib h4 (l_provs l3) (l_pools l3) (l_tracker l3) (l_final l3)) as l4 eqn:L4. destruct S4 as (Q1 & Q2 & Q3 & Q4 & Q5 & Q6).
  eexists _, _, _. split; [reflexivity|]. split; [|split; [discriminate|split; [discriminate|reflexivity]]].
  assert (NXT : next l < next l4).
  { clear - L4 T4 L3 T3 S2. unfold take in T3, T4. injection T4 as T4a T4b. injection T3 as T3a T3b. destruct S2 as (_ & _ & _ & _ & _ & S2). unfold next in *. rewrite L4. cbn [l_heap]. rewrite <- T4b. cbn [h_next]. rewrite L3. cbn [l_heap]. rewrite <- T3b. cbn [h_next]. lia. }
  assert (LP : l_provs l4 = l_provs l3 /\ l_pools l4 = l_pools l3 /\ l_tracker l4 = l_tracker l3 /\ l_final l4 = l_final l3) by (rewrite L4; auto). destruct LP as (LP1 & LP2 & LP3 & LP4).
  cbn [noted]. exists (if own then A' else A), (Ent p m o up (if own then Some uo else None) tr :: E), X.
  assert (PF : forall e, In e E -> e_p e <> p) by (intros e Y; pose proof (i_bp _ _ _ _ _ _ I e Y) as B; unfold next in PN; clear - B PN; lia).
  assert (OWNED := fun e oo => mine_owned lucky l v A E X up oo e I).
  assert (M' := M). rewrite (i_mine _ _ _ _ _ _ I) in M'.
  destruct I as [I1 I2 I3 I4 I5 I6 I7 I8 I9 I10]. constructor; cbn [mine pools gone l_heap l_provs l_pools l_final map flat_map].
  - destruct own; [rewrite I1, without_map, U2; reflexivity|exact I1].
  - rewrite I2. f_equal. unfold e_view. cbn [e_p e_up e_own e_tr]. rewrite TR. destruct own; reflexivity.
  - rewrite <- LP2, Q3, I3. f_equal. unfold e_pool. cbn [e_p e_m e_o e_own e_tr]. rewrite TR, negb_involutive, TE. destruct own; reflexivity.
  - rewrite <- LP4, Q5. exact I4.
  - replace h4 with (l_heap l4) by (rewrite L4; reflexivity). eapply holds_perm; [exact Q1|]. rewrite ER. unfold e_objs at 2. unfold e_own_objs, e_tr_objs. cbn [e_p e_m e_o e_up e_own e_tr]. destruct own.
    + eapply Permutation_trans; [do 2 apply perm_skip; apply Permutation_app_head, perm_skip, Permutation_app_tail, (flat_map_perm _ _ a_objs _ _ U3)|]. cbn [flat_map a_objs fst snd app].
      destruct tr as [(((t & o') & c) & i)|]; cbn [app]; shuffle obj_dec.
    + destruct tr as [(((t & o') & c) & i)|]; cbn [app]; shuffle obj_dec.
  - rewrite <- LP1. unfold next in Q2. replace (h_next h4) with (h_next (l_heap l4)) by (rewrite L4; reflexivity). eapply tab_perm; [exact Q2|]. rewrite EP. unfold e_provs at 2. unfold e_own_prov, e_tr_prov. cbn [e_up e_own e_tr]. destruct own.
    + eapply Permutation_trans; [apply Permutation_app_head, Permutation_app_tail, (Permutation_map a_prov U3)|]. change (map a_prov ((up, uo) :: A')) with ((up, Upstream uo) :: map a_prov A'). destruct tr as [(((t & o') & c) & i)|]; cbn [app]; shuffle prov_dec.
    + destruct tr as [(((t & o') & c) & i)|]; cbn [app]; shuffle prov_dec.
  - cbn [e_p]. constructor; [|exact I7]. intros Y. apply in_map_iff in Y. destruct Y as (e & Y1 & Y2). exact (PF e Y2 Y1).
  - intros e [<-|Y]; replace (h_next h4) with (next l4) by (rewrite L4; reflexivity); [cbn [e_p]|specialize (I8 e Y); unfold next in *; clear - I8 NXT; lia].
    rewrite (proj1 PN). split; [exact (proj2 I5)|exact NXT].
  - exact I9.
  - split; [exact (proj1 I10)|]. intros g Y. destruct (proj2 I10 g Y) as (P1 & P2 & P3). split; [replace (h_next h4) with (next l4) by (rewrite L4; reflexivity); unfold next in *; clear - P1 NXT; lia|].
    split; [destruct own; [|exact P2]; intros W; apply filter_In in W; exact (P2 (proj1 W))|]. intros e oo [<-|W] W2; [|exact (P3 e oo W W2)]. cbn [e_up]. intros W3. apply P2. rewrite <- W3. exact M.
Qed.

(* ---- histories ---- *)
Lemma step_ok : forall lucky l v A E X m, Inv lucky l v A E X -> allowed lucky v m -> exists r h l', perform l m = Some (r, h, l') /\
  (exists A' E' X', Inv lucky l' (noted v m h) A' E' X').
Proof.
  intros lucky l v A E X m I W. destruct m as [mem ini|h|up own untracked out k|p]; cbn [perform].
  - destruct (provider_create_ok lucky l v A E X mem ini I) as (r & h & l' & Q1 & Q2 & _). exists r, h, l'. auto.
  - destruct (provider_destroy_ok lucky l v A E X h I (proj1 W)) as (l' & -> & Q2). exists SUCCESS, None, l'. auto.
  - destruct (pool_create_ok lucky l v A E X up own untracked out k I W) as (r & h & l' & Q1 & Q2 & _). exists r, h, l'. auto.
  - destruct (pool_destroy_ok lucky l v A E X p I W) as (l' & -> & Q2). exists SUCCESS, None, l'. auto.
Qed.
Lemma history_inv : forall lucky l v, history lucky l v -> exists A E X, Inv lucky l v A E X.
Proof.
  intros lucky l v H. induction H as [t|l v m r h l' H IH W P]; [exists [], [], []; apply new_ok|]. destruct IH as (A & E & X & I).
  destruct (step_ok lucky l v A E X m I W) as (r' & h' & l'' & Q1 & Q2). rewrite P in Q1. injection Q1 as <- <- <-. exact Q2.
Qed.

Lemma filter_app_len : forall T (f : T -> bool) a b, List.length (filter f (a ++ b)) = (List.length (filter f a) + List.length (filter f b))%nat.
Proof. intros. rewrite filter_app, app_length. reflexivity. Qed.
Lemma count_inv : forall l v A E k, Inv true l v A E [] -> count l k = due v k.
Proof.
  intros l v A E k I. rewrite (count_holds l _ k (i_heap _ _ _ _ _ _ I)). unfold due. rewrite (i_mine _ _ _ _ _ _ I). unfold owning, tracked. rewrite (i_pools _ _ _ _ _ _ I). clear I. rewrite app_nil_r, filter_app_len, !map_length.
  assert (HA : List.length (filter (of_kind k) (flat_map a_objs A)) = match k with KProvider | KProvPriv => List.length A | _ => 0%nat end).
  { induction A as [|a A IH]; [destruct k; reflexivity|]. cbn [flat_map]. rewrite filter_app_len, IH. destruct k; reflexivity. }
  rewrite HA. clear HA.
  assert (HE : forall e, List.length (filter (of_kind k) (e_objs e)) =
    match k with KProvPriv => (if some (e_own e) then 1 else 0)%nat | KProvider => ((if some (e_own e) then 1 else 0) + (if some (e_tr e) then 1 else 0))%nat
    | KPool | KPoolPriv | KMutex => 1%nat | _ => (if some (e_tr e) then 1 else 0)%nat end).
  { intros e. unfold e_objs, e_own_objs, e_tr_objs. destruct (e_own e) as [oo|], (e_tr e) as [(((t & o) & c) & i)|]; destruct k; reflexivity. }
  induction E as [|e E IH]; [destruct k; cbn; lia|]. cbn [flat_map map]. rewrite filter_app_len, HE. change (e_view e) with (e_p e, (e_up e, some (e_own e), some (e_tr e))). cbn [filter List.length].
  destruct k; destruct (some (e_own e)), (some (e_tr e)); cbn [List.length]; lia.
Qed.

Lemma history_safe : forall lucky l v m, history lucky l v -> allowed lucky v m -> exists r h l', perform l m = Some (r, h, l').
Proof. intros lucky l v m H W. destruct (history_inv _ _ _ H) as (A & E & X & I). destruct (step_ok _ _ _ _ _ _ _ I W) as (r & h & l' & Q & _). exists r, h, l'. exact Q. Qed.
Lemma history_counts : forall l v, history true l v -> forall k, count l k = due v k.
Proof. intros l v H k. destruct (history_inv _ _ _ H) as (A & E & X & I). pose proof (i_leak _ _ _ _ _ _ I eq_refl) as ->. exact (count_inv _ _ _ _ k I). Qed.
Lemma history_final : forall lucky l v, history lucky l v -> l_final l = gone v /\ NoDup (l_final l) /\ forall h, In h (mine v) -> ~ In h (l_final l).
Proof.
  intros lucky l v H. destruct (history_inv _ _ _ H) as (A & E & X & I). rewrite (i_final _ _ _ _ _ _ I). split; [reflexivity|]. split; [exact (proj1 (i_gone _ _ _ _ _ _ I))|].
  intros h M G. exact (proj1 (proj2 (proj2 (i_gone _ _ _ _ _ _ I) h G)) M).
Qed.
Lemma failed_create : forall l v m r h l', history true l v -> allowed true v m -> (match m with MProvider _ _ | MPool _ _ _ _ _ => True | _ => False end) -> perform l m = Some (r, h, l') -> r <> SUCCESS ->
  h = None /\ (forall k, count l' k = count l k) /\ l_final l' = l_final l /\ noted v m h = v.
Proof.
  intros l v m r h l' H W C P NE. destruct (history_inv _ _ _ H) as (A & E & X & I).
  assert (HN : h = None /\ forall k, count l' k = count l k).
  { destruct m as [mem ini|h0|up own untracked out k|p]; try contradiction; cbn [perform] in P.
    - destruct (provider_create_ok true l v A E X mem ini I) as (r' & h' & l'' & Q1 & _ & Q2 & Q3). rewrite P in Q1. injection Q1 as <- <- <-. destruct h as [h|]; [exfalso; apply NE, Q3; discriminate|]. split; [reflexivity|exact (Q2 eq_refl)].
    - destruct (pool_create_ok true l v A E X up own untracked out k I W) as (r' & h' & l'' & Q1 & _ & Q2 & Q3). rewrite P in Q1. injection Q1 as <- <- <-. destruct h as [h|]; [exfalso; apply NE, Q3; discriminate|]. split; [reflexivity|exact (Q2 eq_refl eq_refl)]. }
  destruct HN as (-> & HC). split; [reflexivity|]. split; [exact HC|].
  assert (NV : noted v m None = v) by (destruct m; try contradiction; reflexivity).
  split; [|exact NV]. rewrite (proj1 (history_final _ _ _ H)). pose proof (h_move true l v m r None l' H W P) as H'. rewrite NV in H'. exact (proj1 (history_final _ _ _ H')).
Qed.
