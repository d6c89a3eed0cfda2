(* Proofs about memory spaces. *)
From Verif Require Import Base Model_Memspace Spec_Memspace.

(* ---- the heap ---- *)
Definition keys (m : mem) : list Z := map fst (heap m).
Record held (m : mem) (R : list Z) (b : Z) : Prop := Held { h_once : NoDup (keys m); h_perm : Permutation (keys m) R; h_fresh : forall h, In h R -> h < fresh m; h_blocks : blocks m = b }.
Definition same (m m' : mem) : Prop := heap m' = heap m /\ fresh m' = fresh m.

Lemma find_key : forall (hp : list (Z * target)) h, NoDup (map fst hp) -> forall t, In (h, t) hp -> find (fun p => fst p =? h) hp = Some (h, t).
Proof.
  induction hp as [|(k & u) hp IH]; intros h N t I; [destruct I|]. cbn [map fst] in N. inversion N as [|? ? N1 N2]; subst. cbn [find fst]. destruct I as [E|I].
  - injection E as -> ->. rewrite Z.eqb_refl. reflexivity.
  - destruct (Z.eqb_spec k h) as [->|]; [exfalso; apply N1; apply (in_map fst) in I; exact I|]. apply IH; assumption.
Qed.
Lemma lookup_iff : forall m h t, NoDup (keys m) -> lookup h m = Some t <-> In (h, t) (heap m).
Proof.
  intros m h t N. unfold lookup. split.
  - destruct (find _ (heap m)) as [(k & u)|] eqn:F; [|discriminate]. intros E. injection E as <-. apply find_some in F. destruct F as (F & K). cbn in K. apply Z.eqb_eq in K. subst. exact F.
  - intros I. rewrite (find_key _ _ N _ I). reflexivity.
Qed.
Lemma lookup_key : forall m h, In h (keys m) <-> exists t, lookup h m = Some t.
Proof.
  intros m h. unfold lookup, keys. split.
  - intros I. apply in_map_iff in I. destruct I as ((k & t) & E & I). cbn in E. subst k. destruct (find (fun p => fst p =? h) (heap m)) as [p|] eqn:F; [eauto|]. pose proof (find_none _ _ F _ I) as W. cbn in W. rewrite Z.eqb_refl in W. discriminate.
  - intros (t & E). destruct (find _ (heap m)) as [(k & u)|] eqn:F; [|discriminate]. apply find_some in F. destruct F as (F & K). cbn in K. apply Z.eqb_eq in K. subst. apply (in_map fst) in F. exact F.
Qed.
Lemma held_live : forall m R b h, held m R b -> In h R <-> exists t, lookup h m = Some t.
Proof. intros m R b h [N P F B]. rewrite <- lookup_key. split; intros I; [eapply Permutation_in; [apply Permutation_sym|]; eassumption|eapply Permutation_in; eassumption]. Qed.
Lemma held_perm : forall m R R' b, held m R b -> Permutation R R' -> held m R' b.
Proof. intros m R R' b [N P F B] Q. constructor; [exact N|exact (Permutation_trans P Q)| |exact B]. intros h I. apply F. eapply Permutation_in; [apply Permutation_sym; exact Q|exact I]. Qed.
Lemma held_nodup : forall m R b, held m R b -> NoDup R.
Proof. intros m R b [N P F B]. exact (Permutation_NoDup P N). Qed.
Lemma held_same : forall m m' R b, held m R b -> same m m' -> held m' R (blocks m').
Proof. intros m m' R b [N P F B] (S1 & S2). unfold keys in *. constructor; unfold keys; rewrite ?S1, ?S2; auto. Qed.
Lemma same_lookup : forall m m' h, same m m' -> lookup h m' = lookup h m.
Proof. intros m m' h (S & _). unfold lookup. rewrite S. reflexivity. Qed.
Lemma same_trans : forall a b c, same a b -> same b c -> same a c.
Proof. intros a b c (A1 & A2) (B1 & B2). split; congruence. Qed.

Lemma galloc_spec : forall size m o m', galloc size m = (o, m') -> same m m' /\ blocks m' = blocks m + (if o then 1 else 0) /\ (size = 0 -> o = false) /\ (answers m = [] -> answers m' = [] /\ (size <> 0 -> o = true)).
Proof.
  intros size m o m' E. unfold galloc in E. destruct (Z.eqb_spec size 0) as [Z0|NZ].
  - injection E as <- <-. split; [split; reflexivity|]. split; [lia|]. split; [auto|]. intros A. split; [exact A|contradiction].
  - destruct (answers m) as [|[] r] eqn:A; injection E as <- <-; (split; [split; reflexivity|]); cbn [blocks answers tl]; (split; [lia|]); (split; [contradiction|]); intros W; try discriminate. auto.
Qed.
Lemma gfree_same : forall n m, same m (gfree n m).
Proof. intros n m. split; reflexivity. Qed.

Lemma make_spec : forall t m R b r h m', held m R b -> target_make t m = (r, h, m') ->
  (answers m = [] -> r = SUCCESS /\ answers m' = []) /\
  ((r = SUCCESS /\ h = fresh m /\ ~ In h R /\ held m' (h :: R) (b + 2) /\ lookup h m' = Some t /\ untouched m m' R) \/
   (r = ERR_OUT_OF_HOST_MEMORY /\ same m m' /\ held m' R b)).
Proof.
  intros t m R b r h m' H E. unfold target_make in E. destruct (galloc 16 m) as (o1 & m1) eqn:G1. destruct (galloc_spec _ _ _ _ G1) as (S1 & B1 & _ & A1). destruct o1.
  - destruct (galloc 4 m1) as (o2 & m2) eqn:G2. destruct (galloc_spec _ _ _ _ G2) as (S2 & B2 & _ & A2). pose proof (same_trans _ _ _ S1 S2) as S. destruct o2; injection E as <- <- <-.
    + split; [intros A; split; [reflexivity|]; cbn [answers]; apply A2; apply A1; exact A|]. left. destruct S as (SH & SF). destruct H as [N P F B].
      assert (NI : ~ In (fresh m2) R) by (intros W; specialize (F _ W); rewrite SF in F; lia). split; [reflexivity|]. split; [exact SF|]. split; [exact NI|].
      assert (NK : ~ In (fresh m2) (keys m)) by (intros W; apply NI; eapply Permutation_in; eassumption). split; [|split].
      * constructor; unfold keys; cbn [heap fresh blocks map fst]; rewrite ?SH.
        -- constructor; assumption.
        -- apply perm_skip. exact P.
        -- intros h [<-|I]; [lia|]. specialize (F _ I). lia.
        -- lia.
      * unfold lookup. cbn [heap find fst]. rewrite Z.eqb_refl. reflexivity.
      * intros h I. unfold lookup. cbn [heap find fst]. destruct (Z.eqb_spec (fresh m2) h) as [EQ|]; [exfalso; apply NI; rewrite EQ; exact I|]. rewrite SH. reflexivity.
    + split; [intros A; destruct (A1 A) as (A' & _); destruct (A2 A') as (_ & W); specialize (W ltac:(lia)); discriminate|]. right. split; [reflexivity|]. assert (S' : same m (gfree 1 m2)) by (exact S). split; [exact S'|].
      pose proof (held_same _ _ _ _ H S') as H'. cbn [gfree blocks] in H'. replace (blocks m2 - 1) with b in H' by (destruct H; lia). exact H'.
  - injection E as <- <- <-. split; [intros A; destruct (A1 A) as (_ & W); specialize (W ltac:(lia)); discriminate|]. right. split; [reflexivity|]. split; [exact S1|]. pose proof (held_same _ _ _ _ H S1) as H'. replace (blocks m1) with b in H' by (destruct H; lia). exact H'.
Qed.
Lemma filter_none : forall (hp : list (Z * target)) h, ~ In h (map fst hp) -> filter (fun p => negb (fst p =? h)) hp = hp.
Proof. induction hp as [|(k & u) hp IH]; intros h N; [reflexivity|]. cbn [filter fst map] in *. destruct (Z.eqb_spec k h) as [->|]; [exfalso; apply N; left; reflexivity|]. cbn [negb]. f_equal. apply IH. intros W. apply N. right. exact W. Qed.
Lemma filter_keys : forall (hp : list (Z * target)) h, NoDup (map fst hp) -> In h (map fst hp) -> Permutation (map fst hp) (h :: map fst (filter (fun p => negb (fst p =? h)) hp)).
Proof.
  induction hp as [|(k & u) hp IH]; intros h N I; [destruct I|]. cbn [map fst filter] in *. inversion N as [|? ? N1 N2]; subst. destruct (Z.eqb_spec k h) as [->|NE]; cbn [negb].
  - rewrite filter_none; auto.
  - destruct I as [E|I]; [contradiction|]. cbn [map fst]. eapply Permutation_trans; [apply perm_skip; exact (IH h N2 I)|]. apply perm_swap.
Qed.
Lemma destroy_spec : forall m R b h, held m (h :: R) b -> exists m', target_destroy h m = Some m' /\ held m' R (b - 2) /\ untouched m m' R /\ answers m' = answers m /\ lookup h m' = None.
Proof.
  intros m R b h H. pose proof (held_nodup _ _ _ H) as ND. inversion ND as [|? ? ND1 ND2]; subst. unfold target_destroy. destruct (proj1 (held_live _ _ _ h H) (or_introl eq_refl)) as (t & L). rewrite L.
  destruct H as [N P F B]. assert (K : In h (keys m)) by (eapply Permutation_in; [apply Permutation_sym; exact P|left; reflexivity]).
  assert (P' : Permutation (map fst (filter (fun p => negb (fst p =? h)) (heap m))) R) by (apply Permutation_cons_inv with h; eapply Permutation_trans; [apply Permutation_sym; apply filter_keys; assumption|exact P]).
  eexists. split; [reflexivity|]. split; [|split; [|split]].
  - constructor; unfold keys; cbn [heap fresh blocks].
    + eapply Permutation_NoDup; [apply Permutation_sym; exact P'|exact ND2].
    + exact P'.
    + intros x I. apply F. right. exact I.
    + lia.
  - intros x I. unfold lookup. cbn [heap]. assert (NE : x <> h) by congruence. clear - NE. induction (heap m) as [|(k & u) hp IH]; [reflexivity|]. cbn [filter fst find]. destruct (Z.eqb_spec k h) as [->|]; cbn [negb].
    + destruct (Z.eqb_spec h x) as [->|]; [contradiction|]. exact IH.
    + cbn [find fst]. destruct (k =? x); [reflexivity|exact IH].
  - reflexivity.
  - set (m' := Mem _ _ _ _). destruct (lookup h m') as [u|] eqn:E; [|reflexivity]. exfalso. apply ND1. eapply Permutation_in; [exact P'|]. exact (proj2 (lookup_key m' h) (ex_intro _ u E)).
Qed.
Lemma destroy_all_spec : forall hs m R b, held m (hs ++ R) b -> exists m', destroy_all hs m = Some m' /\ held m' R (b - 2 * len hs) /\ untouched m m' R /\ answers m' = answers m.
Proof.
  induction hs as [|h hs IH]; intros m R b H; cbn [destroy_all app] in *.
  - exists m. split; [reflexivity|]. split; [replace (b - 2 * len []) with b by (unfold len; cbn; lia); exact H|]. split; [intros x _; reflexivity|reflexivity].
  - destruct (destroy_spec _ _ _ _ H) as (m1 & -> & H1 & U1 & A1 & _). destruct (IH _ _ _ H1) as (m2 & -> & H2 & U2 & A2). exists m2. split; [reflexivity|]. split; [|split].
    + replace (b - 2 * len (h :: hs)) with (b - 2 - 2 * len hs) by (unfold len; cbn [List.length]; lia). exact H2.
    + intros x I. rewrite (U2 x I). apply U1. apply in_app_iff. right. exact I.
    + congruence.
Qed.
Lemma clone_loop_spec : forall hs dn n m R b, held m (dn ++ R) b -> (forall h, In h hs -> In h R) ->
  exists r l m', clone_loop hs dn n m = Some (r, l, m') /\ (answers m = [] -> r = SUCCESS) /\
    ((r = SUCCESS /\ exists new, l = List.rev dn ++ new /\ held m' (new ++ dn ++ R) (b + 2 * len hs) /\ map (fun h => lookup h m') new = map (fun h => lookup h m) hs /\ untouched m m' (dn ++ R)) \/
     (r = ERR_OUT_OF_HOST_MEMORY /\ held m' R (b - 2 * len dn - n) /\ untouched m m' R)).
Proof.
  induction hs as [|h hs IH]; intros dn n m R b H L; cbn [clone_loop].
  - exists SUCCESS, (List.rev dn), m. split; [reflexivity|]. split; [reflexivity|]. left. split; [reflexivity|]. exists []. rewrite app_nil_r. split; [reflexivity|]. cbn [app map]. split; [replace (b + 2 * len []) with b by (unfold len; cbn; lia); exact H|]. split; [reflexivity|intros x _; reflexivity].
  - unfold target_clone. assert (IR : In h (dn ++ R)) by (apply in_app_iff; right; apply L; left; reflexivity). destruct (proj1 (held_live _ _ _ h H) IR) as (t & LT). rewrite LT. destruct (target_make t m) as ((r1 & h') & m1) eqn:TM. destruct (make_spec _ _ _ _ _ _ _ H TM) as (AA & [(-> & E1 & E2 & E3 & E4 & E5)|(-> & E1 & E2)]).
    + destruct (IH (h' :: dn) n m1 R (b + 2) E3) as (r & l & m' & C & AC & S); [intros x I; apply L; right; exact I|]. exists r, l, m'. rewrite C. split; [reflexivity|]. split; [intros A; apply AC; apply AA; exact A|]. destruct S as [(-> & new & -> & S2 & S3 & S4)|(-> & S2 & S3)].
      * left. split; [reflexivity|]. exists (h' :: new). cbn [List.rev]. rewrite <- app_assoc. split; [reflexivity|]. split; [|split].
        -- replace (b + 2 * len (h :: hs)) with (b + 2 + 2 * len hs) by (unfold len; cbn [List.length]; lia). eapply held_perm; [exact S2|]. cbn [app]. apply Permutation_sym. apply Permutation_middle.
        -- cbn [map]. f_equal.
           ++ rewrite (S4 h' (or_introl eq_refl)). rewrite E4. symmetry. exact LT.
           ++ rewrite S3. apply map_ext_in. intros x I. apply E5. apply in_app_iff. right. apply L. right. exact I.
        -- intros x I. rewrite (S4 x (or_intror I)). apply E5. exact I.
      * right. split; [reflexivity|]. split; [replace (b - 2 * len dn - n) with (b + 2 - 2 * len (h' :: dn) - n) by (unfold len; cbn [List.length]; lia); exact S2|]. intros x I. rewrite (S3 x I). apply E5. apply in_app_iff. right. exact I.
    + destruct (destroy_all_spec dn m1 R b E2) as (m2 & -> & D1 & D2 & D3). exists ERR_OUT_OF_HOST_MEMORY, [], (gfree n m2). split; [reflexivity|]. split; [intros A; destruct (AA A); discriminate|]. right. split; [reflexivity|]. split.
      * pose proof (held_same _ _ _ _ D1 (gfree_same n m2)) as W. cbn [gfree blocks] in W. destruct D1 as [D11 D12 D13 D14]. rewrite D14 in W. exact W.
      * intros x I. rewrite (same_lookup m2 (gfree n m2) x (gfree_same n m2)). rewrite (D2 x I). apply same_lookup. exact E1.
Qed.
Lemma numa_loop_spec : forall ids dn m R b, held m (dn ++ R) b ->
  match numa_loop ids dn m with
  | None => answers m <> []
  | Some (r, l, m') => (answers m = [] -> r = SUCCESS) /\
    ((r = SUCCESS /\ exists new, l = List.rev dn ++ new /\ held m' (new ++ dn ++ R) (b + 2 * len ids) /\ map (fun h => lookup h m') new = map (fun i => Some (0, i)) ids /\ untouched m m' (dn ++ R)) \/
     (r = ERR_OUT_OF_HOST_MEMORY /\ dn = [] /\ held m' R (b - 2) /\ untouched m m' R))
  end.
Proof.
  induction ids as [|i ids IH]; intros dn m R b H; cbn [numa_loop].
  - split; [reflexivity|]. left. split; [reflexivity|]. exists []. rewrite app_nil_r. split; [reflexivity|]. cbn [app map]. split; [replace (b + 2 * len []) with b by (unfold len; cbn; lia); exact H|]. split; [reflexivity|intros x _; reflexivity].
  - destruct (target_make (0, i) m) as ((r1 & h') & m1) eqn:TM. destruct (make_spec _ _ _ _ _ _ _ H TM) as (AA & [(-> & E1 & E2 & E3 & E4 & E5)|(-> & E1 & E2)]).
    + specialize (IH (h' :: dn) m1 R (b + 2) E3). destruct (numa_loop ids (h' :: dn) m1) as [((r & l) & m')|]; [|intros A; apply IH; apply AA; exact A]. destruct IH as (AC & S). split; [intros A; apply AC; apply AA; exact A|]. destruct S as [(-> & new & -> & S2 & S3 & S4)|(-> & W & _)].
      * left. split; [reflexivity|]. exists (h' :: new). cbn [List.rev]. rewrite <- app_assoc. split; [reflexivity|]. split; [|split].
        -- replace (b + 2 * len (i :: ids)) with (b + 2 + 2 * len ids) by (unfold len; cbn [List.length]; lia). eapply held_perm; [exact S2|]. cbn [app]. apply Permutation_sym. apply Permutation_middle.
        -- cbn [map]. f_equal; [|exact S3]. rewrite (S4 h' (or_introl eq_refl)). exact E4.
        -- intros x I. rewrite (S4 x (or_intror I)). apply E5. exact I.
      * discriminate.
    + destruct dn as [|d dn]; [|intros A; destruct (AA A); discriminate]. split; [intros A; destruct (AA A); discriminate|]. right. split; [reflexivity|]. split; [reflexivity|]. cbn [app] in *. split.
      * pose proof (held_same _ _ _ _ E2 (gfree_same 2 m1)) as W. cbn [gfree blocks] in W. destruct E2 as [D11 D12 D13 D14]. rewrite D14 in W. exact W.
      * intros x I. rewrite (same_lookup m1 (gfree 2 m1) x (gfree_same 2 m1)). apply same_lookup. exact E1.
Qed.

(* ---- operations on one space, among other handles R and blocks c ---- *)
Definition framed (s : space) (R : list Z) (c : Z) (m : mem) : Prop := held m (nodes s ++ R) (weight s + c) /\ (nodes s <> [] -> array s = true).
Lemma held_eq : forall m R b b', held m R b -> b = b' -> held m R b'.
Proof. intros m R b b' H <-. exact H. Qed.
Lemma held_free : forall m R b n, held m R b -> held (gfree n m) R (b - n).
Proof. intros m R b n H. pose proof (held_same _ _ _ _ H (gfree_same n m)) as W. destruct H as [H1 H2 H3 H4]. cbn [gfree blocks] in W. rewrite H4 in W. exact W. Qed.
Lemma held_alloc : forall size m R b o m', held m R b -> galloc size m = (o, m') -> held m' R (b + if o then 1 else 0).
Proof. intros size m R b o m' H G. destruct (galloc_spec _ _ _ _ G) as (S & B & _). pose proof (held_same _ _ _ _ H S) as W. destruct H as [H1 H2 H3 H4]. rewrite B, H4 in W. exact W. Qed.
Lemma members_ext : forall m m' s, untouched m m' (nodes s) -> forall ts, members m s ts <-> members m' s ts.
Proof. intros m m' s U ts. unfold members. rewrite (map_ext_in (fun h => lookup h m') (fun h => lookup h m) (nodes s) U). reflexivity. Qed.

Lemma compare_spec : forall a b m, (exists t u, lookup a m = Some t /\ lookup b m = Some u /\ exists c, compare a b m = Some c /\ (c <= 0 <-> conflict t u) /\ (c = 0 <-> t = u)) \/ compare a b m = None /\ (lookup a m = None \/ lookup b m = None).
Proof.
  intros a b m. unfold compare. destruct (lookup a m) as [(ta & ia)|]; [|right; auto]. destruct (lookup b m) as [(tb & ib)|]; [|right; auto]. left. exists (ta, ia), (tb, ib). split; [reflexivity|]. split; [reflexivity|]. eexists. split; [reflexivity|]. unfold conflict. cbn [fst].
  destruct (Z.eqb_spec ta tb) as [->|T]; cbn [negb].
  - destruct (Z.eqb_spec ia ib) as [->|I]; cbn [negb].
    + split; split; intros _; auto; lia.
    + split; split; [lia|intros [W|W]; [contradiction|congruence]|lia|congruence].
  - split; split; [auto|lia|lia|congruence].
Qed.
Lemma add_check_spec : forall hs h m u, lookup h m = Some u -> (forall x, In x hs -> exists t, lookup x m = Some t) ->
  (add_check hs h m = Some true /\ forall x t, In x hs -> lookup x m = Some t -> ~ conflict t u) \/ (add_check hs h m = Some false /\ exists x t, In x hs /\ lookup x m = Some t /\ conflict t u).
Proof.
  induction hs as [|x hs IH]; intros h m u H L; cbn [add_check].
  - left. split; [reflexivity|intros x t []].
  - destruct (compare_spec x h m) as [(t & u' & LX & LH & c & -> & C1 & C2)|(_ & [W|W])]; [|destruct (L x (or_introl eq_refl)); congruence|congruence].
    assert (u' = u) as -> by congruence. destruct (Z.leb_spec c 0) as [LE|GT].
    + right. split; [reflexivity|]. exists x, t. split; [left; reflexivity|]. split; [exact LX|]. apply C1. exact LE.
    + destruct (IH h m u H ltac:(intros y I; apply L; right; exact I)) as [(-> & N)|(-> & y & t' & I & LY & C)].
      * left. split; [reflexivity|]. intros y t' [<-|I] LY; [|exact (N y t' I LY)]. rewrite LX in LY. injection LY as <-. intros W. apply C1 in W. lia.
      * right. split; [reflexivity|]. exists y, t'. split; [right; exact I|]. auto.
Qed.
Lemma split_equal_spec : forall hs pre h m u, lookup h m = Some u -> (forall x, In x hs -> exists t, lookup x m = Some t) ->
  (split_equal pre hs h m = Some None /\ forall x, In x hs -> lookup x m <> Some u) \/
  (exists a x b, split_equal pre hs h m = Some (Some (pre ++ a, x, b)) /\ hs = a ++ x :: b /\ lookup x m = Some u /\ forall y, In y a -> lookup y m <> Some u).
Proof.
  induction hs as [|x hs IH]; intros pre h m u H L; cbn [split_equal].
  - left. split; [reflexivity|intros x []].
  - destruct (compare_spec x h m) as [(t & u' & LX & LH & c & -> & C1 & C2)|(_ & [W|W])]; [|destruct (L x (or_introl eq_refl)); congruence|congruence].
    assert (u' = u) as -> by congruence. destruct (Z.eqb_spec c 0) as [EQ|NE].
    + right. exists [], x, hs. rewrite app_nil_r. split; [reflexivity|]. split; [reflexivity|]. split; [rewrite LX; f_equal; apply C2; exact EQ|intros y []].
    + assert (XN : lookup x m <> Some u) by (intros W; apply NE; apply C2; congruence). destruct (IH (pre ++ [x]) h m u H ltac:(intros y I; apply L; right; exact I)) as [(-> & N)|(a & y & b & -> & -> & LY & N)].
      * left. split; [reflexivity|]. intros y [<-|I]; [exact XN|exact (N y I)].
      * right. exists (x :: a), y, b. rewrite <- app_assoc. split; [reflexivity|]. split; [reflexivity|]. split; [exact LY|]. intros z [<-|I]; [exact XN|exact (N z I)].
Qed.
Lemma len_pos : forall l, 0 <= len l.
Proof. intros l. unfold len. lia. Qed.
Lemma len_app : forall a b, len (a ++ b) = len a + len b.
Proof. intros a b. unfold len. rewrite app_length. lia. Qed.
Lemma len_cons : forall x l, len (x :: l) = len l + 1.
Proof. intros x l. unfold len. cbn [List.length]. lia. Qed.
Lemma weight_eq : forall s, weight s = 1 + (if array s then 1 else 0) + 2 * len (nodes s).
Proof. reflexivity. Qed.

Lemma new_spec : forall m R c, held m R c -> exists r o m', space_new m = (r, o, m') /\ untouched m m' R /\ (answers m = [] -> r = SUCCESS) /\
  ((r = SUCCESS /\ exists s, o = Some s /\ framed s R c m' /\ nodes s = []) \/ (r = ERR_OUT_OF_HOST_MEMORY /\ o = None /\ held m' R c)).
Proof.
  intros m R c H. unfold space_new. destruct (galloc 16 m) as (o & m1) eqn:G. pose proof (held_alloc _ _ _ _ _ _ H G) as H1. destruct (galloc_spec _ _ _ _ G) as (S & _ & _ & A). destruct o; eexists _, _, _; (split; [reflexivity|]); (split; [intros x _; apply same_lookup; exact S|]).
  - split; [reflexivity|]. left. split; [reflexivity|]. eexists. split; [reflexivity|]. split; [|reflexivity]. split; [|intros W; exfalso; apply W; reflexivity]. cbn [nodes app]. eapply held_eq; [exact H1|]. rewrite weight_eq. cbn [array nodes]. change (len []) with 0. lia.
  - split; [intros W; destruct (A W) as (_ & Q); specialize (Q ltac:(lia)); discriminate|]. right. split; [reflexivity|]. split; [reflexivity|]. eapply held_eq; [exact H1|]. lia.
Qed.
Lemma destroy_space_spec : forall s R c m, framed s R c m -> exists m', space_destroy s m = Some m' /\ held m' R c /\ untouched m m' R /\ answers m' = answers m.
Proof.
  intros s R c m (H & AR). unfold space_destroy. destruct (destroy_all_spec _ _ _ _ H) as (m1 & -> & H1 & U & A). eexists. split; [reflexivity|]. split; [|split].
  - eapply held_eq; [apply held_free; exact H1|]. rewrite weight_eq. destruct (array s); lia.
  - intros x I. rewrite (same_lookup m1 _ x (gfree_same _ m1)). exact (U x I).
  - exact A.
Qed.
Lemma untouched_same : forall m m1 m' R, same m m1 -> untouched m1 m' R -> untouched m m' R.
Proof. intros m m1 m' R S U x I. rewrite (U x I). apply same_lookup. exact S. Qed.
Lemma same_untouched : forall m m1 R, same m m1 -> untouched m m1 R.
Proof. intros m m1 R S x _. apply same_lookup. exact S. Qed.
(* results of an operation that makes a space *)
Definition makes (m : mem) (R : list Z) (c : Z) (views : list (option target)) (x : option (result * option space * mem)) : Prop :=
  exists r o m', x = Some (r, o, m') /\ untouched m m' R /\
  ((r = SUCCESS /\ exists s, o = Some s /\ framed s R c m' /\ map (fun h => lookup h m') (nodes s) = views) \/ (r <> SUCCESS /\ o = None /\ held m' R c)).
Lemma clone_spec : forall s m R c, held m R c -> (forall h, In h (nodes s) -> In h R) -> makes m R c (map (fun h => lookup h m) (nodes s)) (space_clone s m) /\
  (answers m = [] -> nodes s <> [] -> exists s' m', space_clone s m = Some (SUCCESS, Some s', m')).
Proof.
  intros s m R c H L. unfold space_clone, makes. destruct (galloc 16 m) as (o1 & m1) eqn:G1. pose proof (held_alloc _ _ _ _ _ _ H G1) as H1. destruct (galloc_spec _ _ _ _ G1) as (S1 & _ & _ & A1). destruct o1; cbn [negb].
  - destruct (galloc (8 * len (nodes s)) m1) as (o2 & m2) eqn:G2. pose proof (held_alloc _ _ _ _ _ _ H1 G2) as H2. destruct (galloc_spec _ _ _ _ G2) as (S2 & _ & Z2 & A2). pose proof (same_trans _ _ _ S1 S2) as S12. destruct o2; cbn [negb].
    + destruct (clone_loop_spec (nodes s) [] 2 m2 R (c + 1 + 1) H2 L) as (r & l & m3 & -> & AC & [(-> & new & -> & C2 & C3 & C4)|(-> & C2 & C3)]).
      * cbn [List.rev app] in *. split.
        -- eexists _, _, _. split; [reflexivity|]. split; [eapply untouched_same; eassumption|]. left. split; [reflexivity|]. eexists. split; [reflexivity|]. split; [split; [|reflexivity]|].
           ++ cbn [nodes]. eapply held_eq; [exact C2|]. rewrite weight_eq. cbn [array nodes]. assert (LE : len new = len (nodes s)) by (unfold len; f_equal; rewrite <- (map_length (fun h => lookup h m3) new), C3, map_length; reflexivity). lia.
           ++ cbn [nodes]. rewrite C3. apply map_ext. intros x. apply same_lookup. exact S12.
        -- intros _ _. eexists _, _. reflexivity.
      * split.
        -- eexists _, _, _. split; [reflexivity|]. split; [eapply untouched_same; eassumption|]. right. split; [discriminate|]. split; [reflexivity|]. eapply held_eq; [exact C2|]. change (len []) with 0. lia.
        -- intros A NE. specialize (AC ltac:(apply A2; apply A1; exact A)). discriminate.
    + split.
      * eexists _, _, _. split; [reflexivity|]. split; [apply same_untouched; exact S12|]. right. split; [discriminate|]. split; [reflexivity|]. eapply held_eq; [apply held_free; exact H2|]. lia.
      * intros A NE. destruct (A1 A) as (A' & _). destruct (A2 A') as (_ & W). assert (8 * len (nodes s) <> 0) by (destruct (nodes s) as [|x l]; [contradiction|]; rewrite len_cons; pose proof (len_pos l); lia). specialize (W H0). discriminate.
  - split.
    + eexists _, _, _. split; [reflexivity|]. split; [apply same_untouched; exact S1|]. right. split; [discriminate|]. split; [reflexivity|]. eapply held_eq; [exact H1|]. lia.
    + intros A NE. destruct (A1 A) as (_ & W). specialize (W ltac:(lia)). discriminate.
Qed.
Lemma from_numa_spec : forall ids m R c, held m R c -> (space_from_numa ids m = None /\ answers m <> []) \/
  (makes m R c (map (fun i => Some (0, i)) ids) (space_from_numa ids m) /\ (answers m = [] -> ids <> [] -> exists s' m', space_from_numa ids m = Some (SUCCESS, Some s', m'))).
Proof.
  intros ids m R c H. unfold space_from_numa, makes. destruct ids as [|i ids].
  { right. split; [|intros _ W; contradiction]. eexists _, _, _. split; [reflexivity|]. split; [intros x _; reflexivity|]. right. split; [discriminate|]. auto. }
  destruct (galloc 16 m) as (o1 & m1) eqn:G1. pose proof (held_alloc _ _ _ _ _ _ H G1) as H1. destruct (galloc_spec _ _ _ _ G1) as (S1 & _ & _ & A1). destruct o1; cbn [negb].
  - destruct (galloc (8 * len (i :: ids)) m1) as (o2 & m2) eqn:G2. pose proof (held_alloc _ _ _ _ _ _ H1 G2) as H2. destruct (galloc_spec _ _ _ _ G2) as (S2 & _ & Z2 & A2). pose proof (same_trans _ _ _ S1 S2) as S12. destruct o2; cbn [negb].
    + pose proof (numa_loop_spec (i :: ids) [] m2 R (c + 1 + 1) H2) as NL. destruct (numa_loop (i :: ids) [] m2) as [((r & l) & m3)|]; [|left; split; [reflexivity|]; intros A; apply NL; apply A2; apply A1; exact A].
      right. destruct NL as (AC & [(-> & new & -> & C2 & C3 & C4)|(-> & _ & C2 & C3)]).
      * cbn [List.rev app] in *. split.
        -- eexists _, _, _. split; [reflexivity|]. split; [eapply untouched_same; eassumption|]. left. split; [reflexivity|]. eexists. split; [reflexivity|]. split; [split; [|reflexivity]|].
           ++ cbn [nodes]. eapply held_eq; [exact C2|]. rewrite weight_eq. cbn [array nodes]. assert (LE : len new = len (i :: ids)) by (unfold len; f_equal; rewrite <- (map_length (fun h => lookup h m3) new), C3, map_length; reflexivity). lia.
           ++ exact C3.
        -- intros _ _. eexists _, _. reflexivity.
      * split.
        -- eexists _, _, _. split; [reflexivity|]. split; [eapply untouched_same; eassumption|]. right. split; [discriminate|]. split; [reflexivity|]. eapply held_eq; [exact C2|]. lia.
        -- intros A NE. specialize (AC ltac:(apply A2; apply A1; exact A)). discriminate.
    + right. split.
      * eexists _, _, _. split; [reflexivity|]. split; [apply same_untouched; exact S12|]. right. split; [discriminate|]. split; [reflexivity|]. eapply held_eq; [apply held_free; exact H2|]. lia.
      * intros A NE. destruct (A1 A) as (A' & _). destruct (A2 A') as (_ & W). assert (NZ : 8 * len (i :: ids) <> 0) by (rewrite len_cons; pose proof (len_pos ids); lia). specialize (W NZ). discriminate.
  - right. split.
    + eexists _, _, _. split; [reflexivity|]. split; [apply same_untouched; exact S1|]. right. split; [discriminate|]. split; [reflexivity|]. eapply held_eq; [exact H1|]. lia.
    + intros A NE. destruct (A1 A) as (_ & W). specialize (W ltac:(lia)). discriminate.
Qed.
Lemma framed_live : forall s R c m x, framed s R c m -> In x (nodes s ++ R) -> exists t, lookup x m = Some t.
Proof. intros s R c m x (H & _) I. exact (proj1 (held_live _ _ _ x H) I). Qed.
Lemma add_spec : forall s R c m h u, framed s R c m -> lookup h m = Some u ->
  exists r s' m', space_add s h m = Some (r, s', m') /\ framed s' R c m' /\ untouched m m' (nodes s ++ R) /\
   ((r = SUCCESS /\ (exists h', nodes s' = nodes s ++ [h'] /\ lookup h' m' = Some u) /\ (forall x t, In x (nodes s) -> lookup x m = Some t -> ~ conflict t u)) \/
    (r = ERR_INVALID_ARGUMENT /\ unchanged s s' m m' /\ exists x t, In x (nodes s) /\ lookup x m = Some t /\ conflict t u) \/
    (r = ERR_OUT_OF_HOST_MEMORY /\ unchanged s s' m m' /\ answers m <> [])).
Proof.
  intros s R c m h u (H & AR) LU. unfold space_add. destruct (add_check_spec (nodes s) h m u LU) as [(-> & N)|(-> & EX)].
  { intros x I. apply (proj1 (held_live _ _ _ x H)). apply in_app_iff. left. exact I. }
  - destruct (galloc (8 * (len (nodes s) + 1)) m) as (o & m1) eqn:G. pose proof (held_alloc _ _ _ _ _ _ H G) as H1. destruct (galloc_spec _ _ _ _ G) as (S1 & B1 & _ & A1). destruct o; cbn [negb].
    + unfold target_clone. rewrite (same_lookup m m1 h S1), LU. destruct (target_make u m1) as ((r1 & h') & m2) eqn:TM. destruct (make_spec _ _ _ _ _ _ _ H1 TM) as (AA & [(-> & E1 & E2 & E3 & E4 & E5)|(-> & E1 & E2)]).
      * eexists _, _, _. split; [reflexivity|]. split; [|split].
        -- split; [|reflexivity]. cbn [nodes]. eapply held_eq; [apply held_free; eapply held_perm; [exact E3|]|].
           ++ rewrite <- app_assoc. cbn [app]. apply Permutation_middle.
           ++ rewrite !weight_eq. cbn [nodes array]. rewrite len_app. change (len [h']) with 1. destruct (array s); lia.
        -- intros x I. rewrite (same_lookup m2 _ x (gfree_same _ m2)). rewrite (E5 x I). apply same_lookup. exact S1.
        -- left. split; [reflexivity|]. split; [|exact N]. exists h'. split; [reflexivity|]. rewrite (same_lookup m2 _ h' (gfree_same _ m2)). exact E4.
      * eexists _, _, _. split; [reflexivity|]. split; [|split].
        -- split; [|exact AR]. eapply held_eq; [apply held_free; exact E2|]. lia.
        -- intros x I. rewrite (same_lookup m2 _ x (gfree_same _ m2)). rewrite (same_lookup m1 m2 x E1). apply same_lookup. exact S1.
        -- right. right. split; [reflexivity|]. split; [|intros A; destruct (AA (proj1 (A1 A))); discriminate]. split; [reflexivity|]. split; [cbn [gfree heap]; destruct E1 as (E1 & _), S1 as (S1 & _); congruence|]. cbn [gfree blocks]. destruct E2 as [_ _ _ E2], H as [_ _ _ H]. lia.
    + eexists _, _, _. split; [reflexivity|]. split; [|split].
      * split; [|exact AR]. eapply held_eq; [exact H1|]. lia.
      * apply same_untouched. exact S1.
      * right. right. split; [reflexivity|]. split; [|intros A; destruct (A1 A) as (_ & W); pose proof (len_pos (nodes s)); specialize (W ltac:(lia)); discriminate]. split; [reflexivity|]. split; [exact (proj1 S1)|lia].
  - eexists _, _, _. split; [reflexivity|]. split; [split; assumption|]. split; [intros x _; reflexivity|]. right. left. split; [reflexivity|]. split; [|exact EX]. split; [reflexivity|]. split; reflexivity.
Qed.
Lemma remove_spec : forall s R c m h u, framed s R c m -> lookup h m = Some u ->
  exists r s' m', space_remove s h m = Some (r, s', m') /\ framed s' R c m' /\ untouched m m' R /\
   ((r = SUCCESS /\ 1 < len (nodes s) /\ (answers m = [] -> answers m' = []) /\ exists pre x post, nodes s = pre ++ x :: post /\ nodes s' = pre ++ post /\ lookup x m = Some u /\ lookup x m' = None /\ (forall y, In y pre -> lookup y m <> Some u) /\ untouched m m' (pre ++ post)) \/
    (r = ERR_INVALID_ARGUMENT /\ unchanged s s' m m' /\ forall x, In x (nodes s) -> lookup x m <> Some u) \/
    (r = ERR_OUT_OF_HOST_MEMORY /\ unchanged s s' m m' /\ nodes s <> [] /\ (answers m <> [] \/ len (nodes s) = 1))).
Proof.
  intros s R c m h u (H & AR) LU. unfold space_remove. destruct (split_equal_spec (nodes s) [] h m u LU) as [(-> & N)|(pre & x & post & -> & NS & LX & N)].
  { intros x I. apply (proj1 (held_live _ _ _ x H)). apply in_app_iff. left. exact I. }
  - eexists _, _, _. split; [reflexivity|]. split; [split; assumption|]. split; [intros x _; reflexivity|]. right. left. split; [reflexivity|]. split; [|exact N]. split; [reflexivity|]. split; reflexivity.
  - cbn [app]. destruct (galloc (8 * (len (nodes s) - 1)) m) as (o & m1) eqn:G. pose proof (held_alloc _ _ _ _ _ _ H G) as H1. destruct (galloc_spec _ _ _ _ G) as (S1 & B1 & Z1 & A1). assert (LN : len (nodes s) = len pre + len post + 1) by (rewrite NS, len_app, len_cons; lia). pose proof (len_pos pre) as LP. pose proof (len_pos post) as LQ. destruct o; cbn [negb].
    + assert (HX : held m1 (x :: (pre ++ post) ++ R) (weight s + c + 1)) by (eapply held_perm; [exact H1|]; rewrite NS, <- !app_assoc; cbn [app]; apply Permutation_sym; apply Permutation_middle).
      destruct (destroy_spec _ _ _ _ HX) as (m2 & -> & D1 & D2 & D3 & D4). eexists _, _, _. split; [reflexivity|]. split; [|split].
      * split; [|reflexivity]. cbn [nodes]. eapply held_eq; [apply held_free; exact D1|]. rewrite !weight_eq. cbn [nodes array]. rewrite len_app. rewrite AR by (rewrite NS; destruct pre; discriminate). lia.
      * intros y I. rewrite (same_lookup m2 _ y (gfree_same _ m2)). rewrite (D2 y ltac:(apply in_app_iff; right; exact I)). apply same_lookup. exact S1.
      * left. split; [reflexivity|]. split; [destruct (Z.eq_dec (8 * (len (nodes s) - 1)) 0) as [W|W]; [specialize (Z1 W); discriminate|lia]|]. split; [intros A; cbn [gfree answers]; rewrite D3; apply A1; exact A|]. exists pre, x, post. split; [exact NS|]. split; [reflexivity|]. split; [exact LX|]. split; [rewrite (same_lookup m2 _ x (gfree_same _ m2)); exact D4|]. split; [exact N|].
        intros y I. rewrite (same_lookup m2 _ y (gfree_same _ m2)). rewrite (D2 y ltac:(apply in_app_iff; left; exact I)). apply same_lookup. exact S1.
    + eexists _, _, _. split; [reflexivity|]. split; [|split].
      * split; [|exact AR]. eapply held_eq; [exact H1|]. lia.
      * apply same_untouched. exact S1.
      * right. right. split; [reflexivity|]. split; [split; [reflexivity|]; split; [exact (proj1 S1)|lia]|]. split; [rewrite NS; destruct pre; discriminate|]. destruct (answers m) as [|a l] eqn:A; [|left; discriminate]. right. destruct (A1 eq_refl) as (_ & W). destruct (Z.eq_dec (8 * (len (nodes s) - 1)) 0) as [Q|Q]; [lia|specialize (W Q); discriminate].
Qed.

(* ---- sorting ---- *)
Lemma properties_spec : forall prop hs, match properties prop hs with
  | (SUCCESS, es) => map snd es = hs /\ forall v h, In (v, h) es -> prop h = (SUCCESS, v)
  | (r, _) => exists h v, In h hs /\ prop h = (r, v) end.
Proof.
  intros prop hs. induction hs as [|h hs IH]; cbn [properties]; [split; [reflexivity|intros v h []]|].
  destruct (prop h) as (r & v) eqn:P. destruct r; try (exists h, v; split; [left; reflexivity|exact P]).
  destruct (properties prop hs) as (r & es). destruct r; try (destruct IH as (h' & v' & I & E); exists h', v'; split; [right; exact I|exact E]).
  destruct IH as (IH1 & IH2). split; [cbn [map snd]; f_equal; exact IH1|]. intros v' h' [E|I]; [injection E as <- <-; exact P|exact (IH2 _ _ I)].
Qed.
Lemma sort_spec : forall srt prop s R c m r s' m', sorts srt -> framed s R c m -> space_sort srt prop s m = (r, s', m') ->
  framed s' R c m' /\ same m m' /\
  ((r = SUCCESS /\ Permutation (nodes s) (nodes s') /\ (forall h, In h (nodes s) -> fst (prop h) = SUCCESS) /\ forall i j a b, (i < j)%nat -> nth_error (nodes s') i = Some a -> nth_error (nodes s') j = Some b -> snd (prop b) <= snd (prop a)) \/
   (r <> SUCCESS /\ unchanged s s' m m' /\ ((r = ERR_OUT_OF_HOST_MEMORY /\ (answers m <> [] \/ nodes s = [])) \/ exists h v, In h (nodes s) /\ prop h = (r, v)))).
Proof.
  intros srt prop s R c m r s' m' ST (H & AR) E. unfold space_sort in E. destruct (galloc (16 * len (nodes s)) m) as (o & m1) eqn:G. pose proof (held_alloc _ _ _ _ _ _ H G) as H1. destruct (galloc_spec _ _ _ _ G) as (S1 & B1 & Z1 & A1). destruct o; cbn [negb] in E.
  - assert (S2 : same m (gfree 1 m1)) by exact S1. assert (H2 : held (gfree 1 m1) (nodes s ++ R) (weight s + c)) by (eapply held_eq; [apply held_free; exact H1|lia]).
    assert (BAD : forall r0, r0 <> SUCCESS -> (exists h v, In h (nodes s) /\ prop h = (r0, v)) -> (r0, s, gfree 1 m1) = (r, s', m') -> framed s' R c m' /\ same m m' /\
      ((r = SUCCESS /\ Permutation (nodes s) (nodes s') /\ (forall h, In h (nodes s) -> fst (prop h) = SUCCESS) /\ forall i j a b, (i < j)%nat -> nth_error (nodes s') i = Some a -> nth_error (nodes s') j = Some b -> snd (prop b) <= snd (prop a)) \/
       (r <> SUCCESS /\ unchanged s s' m m' /\ ((r = ERR_OUT_OF_HOST_MEMORY /\ (answers m <> [] \/ nodes s = [])) \/ exists h v, In h (nodes s) /\ prop h = (r, v))))).
    { intros r0 NS EX W. injection W as <- <- <-. split; [split; assumption|]. split; [exact S2|]. right. split; [exact NS|]. split; [|right; exact EX]. split; [reflexivity|]. split; [exact (proj1 S2)|]. cbn [gfree blocks]. lia. }
    pose proof (properties_spec prop (nodes s)) as PS. destruct (properties prop (nodes s)) as (r0 & es). destruct r0; try (refine (BAD _ _ PS E); discriminate).
    injection E as <- <- <-. destruct PS as (P1 & P2). destruct (ST es) as (PM & SD). assert (PN : Permutation (nodes s) (map snd (srt es))) by (rewrite <- P1; apply Permutation_map; exact PM).
    split; [split|].
    + cbn [nodes]. eapply held_eq; [eapply held_perm; [exact H2|apply Permutation_app_tail; exact PN]|]. rewrite !weight_eq. cbn [nodes array]. unfold len. rewrite (Permutation_length PN). reflexivity.
    + cbn [nodes array]. intros NE. apply AR. intros W. apply NE. rewrite W in PN. apply Permutation_nil in PN. exact PN.
    + split; [exact S2|]. left. split; [reflexivity|]. split; [exact PN|]. split.
      * intros h I. rewrite <- P1 in I. apply in_map_iff in I. destruct I as ((v & h') & <- & I). cbn [snd]. rewrite (P2 _ _ I). reflexivity.
      * cbn [nodes]. intros i j a b L NA NB. rewrite nth_error_map in NA, NB. destruct (nth_error (srt es) i) as [(va & ha)|] eqn:EA; [|discriminate]. destruct (nth_error (srt es) j) as [(vb & hb)|] eqn:EB; [|discriminate]. cbn in NA, NB. injection NA as <-. injection NB as <-.
        pose proof (SD i j _ _ L EA EB) as W. cbn [fst] in W. apply nth_error_In in EA, EB. rewrite (P2 va ha) by (eapply Permutation_in; [apply Permutation_sym; exact PM|exact EA]). rewrite (P2 vb hb) by (eapply Permutation_in; [apply Permutation_sym; exact PM|exact EB]). exact W.
  - injection E as <- <- <-. split; [split; [eapply held_eq; [exact H1|lia]|exact AR]|]. split; [exact S1|]. right. split; [discriminate|]. split; [split; [reflexivity|]; split; [exact (proj1 S1)|lia]|]. left. split; [reflexivity|]. destruct (answers m) as [|a l]; [|left; discriminate]. right. destruct (A1 eq_refl) as (_ & W).
    destruct (nodes s) as [|x l]; [reflexivity|]. rewrite len_cons in W. pose proof (len_pos l). specialize (W ltac:(lia)). discriminate.
Qed.

(* ---- filtering ---- *)
Definition drops (f : Z -> verdict) (h : Z) : bool := match f h with Drop => true | _ => false end.
Lemma collect_spec : forall f hs, match collect f hs with
  | (None, d) => d = filter (drops f) hs /\ forall h r, In h hs -> f h <> Fail r
  | (Some r, _) => exists h, In h hs /\ f h = Fail r end.
Proof.
  intros f hs. induction hs as [|h hs IH]; cbn [collect]; [split; [reflexivity|intros h r []]|]. cbn [filter]. unfold drops at 1. destruct (f h) as [| |r] eqn:F.
  - destruct (collect f hs) as ([r|] & d); [destruct IH as (h' & I & E); exists h'; split; [right; exact I|exact E]|]. destruct IH as (-> & N). split; [reflexivity|]. intros h' r [<-|I]; [congruence|exact (N h' r I)].
  - destruct (collect f hs) as ([r|] & d); [destruct IH as (h' & I & E); exists h'; split; [right; exact I|exact E]|]. destruct IH as (-> & N). split; [reflexivity|]. intros h' r [<-|I]; [congruence|exact (N h' r I)].
  - exists h. split; [left; reflexivity|exact F].
Qed.
Inductive sub : list Z -> list Z -> Prop := sub_nil : forall b, sub [] b | sub_cons : forall h hs b1 b2, sub hs b2 -> sub (h :: hs) (b1 ++ h :: b2).
Lemma sub_skip : forall hs x b, sub hs b -> sub hs (x :: b).
Proof. intros hs x b S. destruct S as [b|h hs b1 b2 S]; [apply sub_nil|]. change (x :: b1 ++ h :: b2) with ((x :: b1) ++ h :: b2). apply sub_cons. exact S. Qed.
Lemma sub_filter : forall p b, sub (filter p b) b.
Proof. intros p b. induction b as [|x b IH]; cbn [filter]; [apply sub_nil|]. destruct (p x); [apply (sub_cons x (filter p b) [] b IH)|apply sub_skip; exact IH]. Qed.
Lemma sub_len : forall hs b, sub hs b -> len hs <= len b.
Proof. intros hs b S. induction S as [b|h hs b1 b2 S IH]; [apply len_pos|]. rewrite len_app, !len_cons. pose proof (len_pos b1). lia. Qed.
Lemma split_first : forall (m : mem) (u : target) (l1 : list Z) h l2 pre x post, l1 ++ h :: l2 = pre ++ x :: post -> lookup h m = Some u -> (forall y, In y pre -> lookup y m <> Some u) -> exists mid, l1 ++ [h] = pre ++ x :: mid /\ post = mid ++ l2.
Proof.
  intros m u. induction l1 as [|a l1 IH]; intros h l2 pre x post E L N; cbn [app] in E.
  - destruct pre as [|p pre]; [|exfalso; cbn in E; injection E as -> E; exact (N p (or_introl eq_refl) L)]. cbn in E. injection E as -> ->. exists []. auto.
  - destruct pre as [|p pre]; cbn in E; injection E as -> E.
    + exists (l1 ++ [h]). subst post. split; [reflexivity|]. rewrite <- app_assoc. reflexivity.
    + destruct (IH h l2 pre x post E L ltac:(intros y I; apply N; right; exact I)) as (mid & E1 & E2). exists mid. split; [cbn [app]; f_equal; exact E1|exact E2].
Qed.
Lemma re_add_stuck : forall d dn s R c m r, framed s R c m -> nodes s <> [] -> (lookup d m = None \/ In d (nodes s)) ->
  re_add s (d :: dn) r m = None \/ re_add s (d :: dn) r m = Some (ERR_UNKNOWN, s, m).
Proof.
  intros d dn s R c m r FR NE D. cbn [re_add]. destruct D as [D|D].
  - left. unfold space_add. destruct (nodes s) as [|x l]; [contradiction|]. cbn [add_check]. unfold compare. rewrite D. destruct (lookup x m) as [(a & b)|]; reflexivity.
  - right. destruct (framed_live _ _ _ _ d FR ltac:(apply in_app_iff; left; exact D)) as (u & LU). unfold space_add. destruct (add_check_spec (nodes s) d m u LU) as [(_ & N)|(-> & _)]; [intros x I; apply (framed_live _ _ _ _ x FR); apply in_app_iff; left; exact I| |reflexivity].
    exfalso. exact (N d u D LU (or_intror eq_refl)).
Qed.
Lemma remove_all_gen : forall hs s dn R c m a b, framed s R c m -> (forall d, In d dn -> lookup d m = None \/ In d (nodes s)) -> nodes s = a ++ b -> sub hs b ->
  match remove_all s hs dn m with
  | None => answers m <> [] \/ len (nodes s) <= len hs
  | Some (r, s', m') => framed s' R c m' /\ untouched m m' R /\ untouched m m' (nodes s') /\ incl (nodes s') (nodes s) /\ (r = SUCCESS \/ r = ERR_UNKNOWN \/ (r = ERR_OUT_OF_HOST_MEMORY /\ dn = [] /\ unchanged s s' m m')) /\
      (r = ERR_UNKNOWN \/ r = ERR_OUT_OF_HOST_MEMORY -> answers m <> [] \/ len (nodes s) <= len hs)
  end.
Proof.
  induction hs as [|h hs IH]; intros s dn R c m a b FR DD NS SB; cbn [remove_all].
  - split; [exact FR|]. split; [intros x _; reflexivity|]. split; [intros x _; reflexivity|]. split; [apply incl_refl|]. split; [left; reflexivity|]. intros [W|W]; discriminate.
  - inversion SB as [|h0 hs0 b1 b2 SB2 E1 E2]; subst h0 hs0 b. assert (IN : In h (nodes s)) by (rewrite NS; apply in_app_iff; right; apply in_app_iff; right; left; reflexivity).
    destruct (framed_live _ _ _ _ h FR ltac:(apply in_app_iff; left; exact IN)) as (u & LU). destruct (remove_spec s R c m h u FR LU) as (r & s1 & m1 & -> & F1 & U1 & [(-> & LN & AN & pre & x & post & P1 & P2 & P3 & PD & P4 & P5)|[(-> & UC & N)|(-> & UC & NE & WHY)]]).
    + pose proof NS as P0. rewrite P1 in P0. rewrite app_assoc in P0. symmetry in P0. destruct (split_first m u (a ++ b1) h b2 pre x post P0 LU P4) as (mid & M1 & M2). clear NS. rename P1 into NS.
      assert (NX : forall y, In y (nodes s) -> y = x \/ In y (nodes s1)) by (intros y I; rewrite NS in I; rewrite P2; apply in_app_iff in I; destruct I as [I|[->|I]]; [right; apply in_app_iff; auto|left; reflexivity|right; apply in_app_iff; auto]).
      assert (XD : lookup x m1 = None) by exact PD.
      assert (DN : forall d, In d (dn ++ [h]) -> lookup d m1 = None \/ In d (nodes s1)).
      { intros d I. assert (Q : lookup d m = None \/ In d (nodes s)) by (apply in_app_iff in I; destruct I as [I|[<-|[]]]; [exact (DD d I)|right; exact IN]).
          destruct Q as [Q|Q]; [|destruct (NX d Q) as [->|W]; [left; exact XD|right; exact W]]. left. destruct (lookup d m1) as [u'|] eqn:E; [|reflexivity]. exfalso. destruct F1 as (F1 & _). assert (W : In d (nodes s1 ++ R)) by (apply (held_live _ _ _ d F1); eauto).
          assert (W2 : In d (nodes s ++ R)) by (apply in_app_iff in W; apply in_app_iff; destruct W as [W|W]; [left; rewrite NS; rewrite P2 in W; apply in_app_iff in W; apply in_app_iff; destruct W; [left|right; right]; assumption|right; exact W]).
          destruct FR as (FR & _). apply (held_live _ _ _ d FR) in W2. destruct W2 as (t & W2). congruence. }
      assert (NB : nodes s1 = (pre ++ mid) ++ b2) by (rewrite P2, M2, app_assoc; reflexivity).
      specialize (IH s1 (dn ++ [h]) R c m1 (pre ++ mid) b2 F1 DN NB SB2). destruct (remove_all s1 hs (dn ++ [h]) m1) as [((r & s') & m')|].
      * destruct IH as (K1 & K2 & K3 & K4 & K5 & K6).
        assert (I1 : incl (nodes s') (nodes s)) by (intros y I; specialize (K4 y I); rewrite NS; rewrite P2 in K4; apply in_app_iff in K4; apply in_app_iff; destruct K4; [left|right; right]; assumption).
        split; [exact K1|]. split; [intros y I; rewrite (K2 y I); exact (U1 y I)|]. split; [intros y I; rewrite (K3 y I); apply P5; rewrite <- P2; exact (K4 y I)|]. split; [exact I1|].
        assert (LL : len (nodes s1) = len (nodes s) - 1) by (rewrite NS, P2, !len_app, len_cons; lia). split.
        -- destruct K5 as [K5|[K5|(K5 & K7 & _)]]; [left; exact K5|right; left; exact K5|]. exfalso. destruct dn; discriminate.
        -- intros W. destruct (K6 W) as [Q|Q]; [left; intros A; apply Q; exact (AN A)|right; rewrite len_cons; lia].
      * destruct IH as [Q|Q].
        { left. intros A. apply Q. exact (AN A). }
        { right. rewrite len_cons. assert (LL : len (nodes s1) = len (nodes s) - 1) by (rewrite NS, P2, !len_app, len_cons; lia). lia. }
    + exfalso. exact (N h IN LU).
    + destruct UC as (-> & UH & UB). assert (S1 : forall y, lookup y m1 = lookup y m) by (intros y; unfold lookup; rewrite UH; reflexivity). assert (WW : answers m <> [] \/ len (nodes s) <= len (h :: hs)) by (destruct WHY as [W|W]; [left; exact W|right; rewrite len_cons; pose proof (len_pos hs); lia]). destruct dn as [|d dn].
      * cbn [re_add]. split; [exact F1|]. split; [intros y _; apply S1|]. split; [intros y _; apply S1|]. split; [apply incl_refl|]. split; [|intros _; exact WW]. right. right. split; [reflexivity|]. split; [reflexivity|]. split; [reflexivity|]. auto.
      * destruct (re_add_stuck d dn s R c m1 ERR_OUT_OF_HOST_MEMORY F1 NE) as [-> | ->]; [rewrite S1; apply DD; left; reflexivity|exact WW|].
        split; [exact F1|]. split; [intros y _; apply S1|]. split; [intros y _; apply S1|]. split; [apply incl_refl|]. split; [right; left; reflexivity|intros _; exact WW].
Qed.

Definition distinct (m : mem) (s : space) : Prop := forall x y, In x (nodes s) -> In y (nodes s) -> lookup x m = lookup y m -> x = y.
Definition gone (hs : list Z) (x : Z) : bool := negb (existsb (Z.eqb x) hs).
Lemma gone_true : forall hs x, gone hs x = true <-> ~ In x hs.
Proof. intros hs x. unfold gone. rewrite negb_true_iff, <- not_true_iff_false. apply not_iff_compat. rewrite existsb_exists. split; [intros (y & I & E); apply Z.eqb_eq in E; subst; exact I|intros I; exists x; split; [exact I|apply Z.eqb_refl]]. Qed.
Lemma filter_gone : forall h hs pre post, NoDup (pre ++ h :: post) -> filter (gone (h :: hs)) (pre ++ h :: post) = filter (gone hs) (pre ++ post).
Proof.
  intros h hs pre post N. rewrite !filter_app. cbn [filter]. assert (GH : gone (h :: hs) h = false) by (unfold gone; cbn [existsb]; rewrite Z.eqb_refl; reflexivity). rewrite GH.
  assert (W : forall l, ~ In h l -> filter (gone (h :: hs)) l = filter (gone hs) l) by (intros l NI; apply filter_ext_in; intros a I; unfold gone; cbn [existsb]; destruct (Z.eqb_spec a h) as [->|]; [contradiction|reflexivity]).
  apply NoDup_remove_2 in N. rewrite !W; [reflexivity| |]; intros I; apply N; apply in_app_iff; auto.
Qed.
Lemma framed_nodup : forall s R c m, framed s R c m -> NoDup (nodes s).
Proof. intros s R c m (H & _). pose proof (held_nodup _ _ _ H) as N. clear - N. induction (nodes s) as [|x l IH]; [constructor|]. cbn [app] in N. inversion N as [|? ? N1 N2]; subst. constructor; [intros I; apply N1; apply in_app_iff; left; exact I|exact (IH N2)]. Qed.
Lemma remove_all_exact : forall hs s dn R c m s' m', framed s R c m -> distinct m s -> NoDup hs -> incl hs (nodes s) -> remove_all s hs dn m = Some (SUCCESS, s', m') -> nodes s' = filter (gone hs) (nodes s).
Proof.
  induction hs as [|h hs IH]; intros s dn R c m s' m' FR D NH IC E; cbn [remove_all] in E.
  - injection E as <- <-. clear. induction (nodes s) as [|x l IH]; [reflexivity|]. cbn [filter]. change (gone [] x) with true. cbn iota. f_equal. exact IH.
  - assert (IN : In h (nodes s)) by (apply IC; left; reflexivity). destruct (framed_live _ _ _ _ h FR ltac:(apply in_app_iff; left; exact IN)) as (u & LU). inversion NH as [|? ? NI NH2]; subst. pose proof (framed_nodup _ _ _ _ FR) as ND.
    destruct (remove_spec s R c m h u FR LU) as (r & s1 & m1 & W & F1 & U1 & [(-> & LN & AN & pre & x & post & P1 & P2 & P3 & PD & P4 & P5)|[(-> & UC & N)|(-> & UC & NE & WHY)]]); rewrite W in E.
    + assert (XH : x = h) by (apply D; [rewrite P1; apply in_app_iff; right; left; reflexivity|exact IN|congruence]). subst x.
      assert (D1 : distinct m1 s1) by (intros a b A B Q; apply D; [| |rewrite !P5 in Q by (rewrite <- P2; assumption); exact Q]; rewrite P1; (rewrite P2 in A, B; apply in_app_iff in A, B; apply in_app_iff); [destruct A|destruct B]; auto using in_cons).
      assert (I1 : incl hs (nodes s1)) by (intros a A; pose proof (IC a (or_intror A)) as Q; rewrite P1 in Q; rewrite P2; apply in_app_iff in Q; apply in_app_iff; destruct Q as [Q|[<-|Q]]; [left; exact Q|contradiction|right; exact Q]).
      rewrite (IH s1 _ R c m1 s' m' F1 D1 NH2 I1 E).
      rewrite P2, P1. symmetry. apply filter_gone. rewrite <- P1. exact ND.
    + exfalso. exact (N h IN LU).
    + exfalso. destruct UC as (-> & UH & UB). assert (G : forall l s0 m0 , re_add s0 l ERR_OUT_OF_HOST_MEMORY m0 <> Some (SUCCESS, s', m')) by (clear; induction l as [|a l IH]; intros s0 m0; cbn [re_add]; [discriminate|]; destruct (space_add s0 a m0) as [(([] & s1) & m1)|]; try discriminate; apply IH). exact (G _ _ _ E).
Qed.
Lemma sub_NoDup : forall (p : Z -> bool) l, NoDup l -> NoDup (filter p l).
Proof. intros p l N. apply NoDup_filter. exact N. Qed.
Lemma framed_same : forall s R c m m', framed s R c m -> same m m' -> blocks m' = blocks m -> framed s R c m'.
Proof. intros s R c m m' (H & A) S B. split; [|exact A]. pose proof (held_same _ _ _ _ H S) as W. destruct H. rewrite B in W. eapply held_eq; [exact W|assumption]. Qed.
Lemma framed_bump : forall s R c c' m, framed s R c m -> c = c' -> framed s R c' m.
Proof. intros s R c c' m F <-. exact F. Qed.
Lemma filter_gone_drops : forall f l, NoDup l -> filter (gone (filter (drops f) l)) l = filter (fun h => negb (drops f h)) l.
Proof. intros f l N. apply filter_ext_in. intros a I. destruct (drops f a) eqn:D; cbn [negb]; [|apply gone_true; rewrite filter_In; intros (_ & W); congruence]. destruct (gone (filter (drops f) l) a) eqn:G; [|reflexivity]. apply gone_true in G. exfalso. apply G. apply filter_In. auto. Qed.
Lemma filter_spec : forall fail f s R c m, framed s R c m -> (forall r, fail r <> SUCCESS) ->
  match space_filter fail f s m with
  | None => (forall h r, In h (nodes s) -> f h <> Fail r) /\ (answers m <> [] \/ forall h, In h (nodes s) -> f h = Drop)
  | Some (r, s', m') => framed s' R c m' /\ untouched m m' R /\ untouched m m' (nodes s') /\ incl (nodes s') (nodes s) /\
      (r = SUCCESS \/ r = ERR_UNKNOWN \/ unchanged s s' m m') /\
      (r = SUCCESS -> (forall h r, In h (nodes s) -> f h <> Fail r) /\ (distinct m s -> nodes s' = filter (fun h => negb (drops f h)) (nodes s))) /\
      (r <> SUCCESS -> answers m = [] -> (exists h r0, In h (nodes s) /\ f h = Fail r0 /\ r = fail r0) \/ forall h, In h (nodes s) -> f h = Drop)
  end.
Proof.
  intros fail f s R c m (H & AR) FN. unfold space_filter. destruct (galloc (8 * len (nodes s)) m) as (o & m1) eqn:G. pose proof (held_alloc _ _ _ _ _ _ H G) as H1. destruct (galloc_spec _ _ _ _ G) as (S1 & B1 & Z1 & A1). destruct o; cbn [negb].
  - assert (F1 : framed s R (c + 1) m1) by (split; [eapply held_eq; [exact H1|lia]|exact AR]).
    assert (ALL : len (nodes s) <= len (filter (drops f) (nodes s)) -> forall h, In h (nodes s) -> f h = Drop).
    { intros LE. clear - LE. assert (W : forall l, len (filter (drops f) l) <= len l /\ (len l <= len (filter (drops f) l) -> forall h, In h l -> f h = Drop)).
      { induction l as [|x l (I1 & I2)]; [split; [unfold len; cbn; lia|intros _ h []]|]. cbn [filter]. rewrite len_cons. destruct (drops f x) eqn:DX; rewrite ?len_cons; (split; [lia|]); intros L; try (exfalso; lia). intros h [<-|I]; [unfold drops in DX; destruct (f x); congruence|]. apply I2; [lia|exact I]. }
      apply (proj2 (W (nodes s))). exact LE. }
    pose proof (collect_spec f (nodes s)) as CS. destruct (collect f (nodes s)) as ([r|] & d).
    + destruct CS as (h & I & FH). split; [split; [eapply held_eq; [apply held_free; exact H1|lia]|exact AR]|]. assert (LK : forall y, lookup y (gfree 1 m1) = lookup y m) by (intros y; apply (same_lookup m m1 y S1)). split; [intros y _; apply LK|]. split; [intros y _; apply LK|]. split; [apply incl_refl|]. split; [right; right; split; [reflexivity|]; split; [exact (proj1 S1)|cbn [gfree blocks]; lia]|]. split; [intros W; exfalso; exact (FN r W)|]. intros _ _. left. exists h, r. auto.
    + destruct CS as (-> & NF). pose proof (remove_all_gen (filter (drops f) (nodes s)) s [] R (c + 1) m1 [] (nodes s) F1 ltac:(intros d []) eq_refl (sub_filter _ _)) as RA. pose proof (remove_all_exact (filter (drops f) (nodes s)) s [] R (c + 1) m1) as RE. destruct (remove_all s (filter (drops f) (nodes s)) [] m1) as [((r & s') & m2)|].
      * destruct RA as ((K1 & K1') & K2 & K3 & K4 & K5 & K6). assert (LK : forall y, lookup y m1 = lookup y m) by (intros y; apply (same_lookup m m1 y S1)).
        split; [split; [eapply held_eq; [apply held_free; exact K1|lia]|exact K1']|]. split; [intros y I; rewrite <- LK; exact (K2 y I)|]. split; [intros y I; rewrite <- LK; exact (K3 y I)|]. split; [exact K4|]. split; [destruct K5 as [K5|[K5|(K5 & _ & U1 & U2 & U3)]]; [left; exact K5|right; left; exact K5|right; right; split; [exact U1|]; split; [cbn [gfree heap]; rewrite U2; exact (proj1 S1)|cbn [gfree blocks]; lia]]|]. split.
        -- intros ->. split; [exact NF|]. intros D. rewrite (RE s' m2 F1); [apply filter_gone_drops; exact (framed_nodup _ _ _ _ F1)| |apply NoDup_filter; exact (framed_nodup _ _ _ _ F1)|intros x I; apply filter_In in I; exact (proj1 I)|reflexivity].
           intros x y I J Q. apply D; [exact I|exact J|]. rewrite <- !LK. exact Q.
        -- intros NS A. right. destruct K5 as [K5|K5]; [contradiction|]. assert (Q : r = ERR_UNKNOWN \/ r = ERR_OUT_OF_HOST_MEMORY) by (destruct K5 as [K5|(K5 & _)]; auto). destruct (K6 Q) as [W|W]; [exfalso; apply W; apply A1; exact A|]. exact (ALL W).
      * split; [exact NF|]. destruct RA as [W|W]; [left; intros A; apply W; apply A1; exact A|right; exact (ALL W)].
  - split; [split; [eapply held_eq; [exact H1|lia]|exact AR]|]. assert (LK : forall y, lookup y m1 = lookup y m) by (intros y; apply (same_lookup m m1 y S1)). split; [intros y _; apply LK|]. split; [intros y _; apply LK|]. split; [apply incl_refl|]. split; [right; right; split; [reflexivity|]; split; [exact (proj1 S1)|lia]|]. split; [discriminate|]. intros _ A. right. destruct (A1 A) as (_ & W). intros h I. exfalso. destruct (nodes s) as [|x l]; [destruct I|]. rewrite len_cons in W. pose proof (len_pos l). specialize (W ltac:(lia)). discriminate.
Qed.

(* ---- selecting the best targets ---- *)
Lemma best_targets_spec : forall g hs acc, NoDup acc -> match best_targets g hs acc with
  | (SUCCESS, l) => NoDup l /\ (forall h, In h hs -> fst (g h) = SUCCESS) /\ forall t, In t l <-> In t acc \/ exists h, In h hs /\ g h = (SUCCESS, t)
  | (r, _) => exists h v, In h hs /\ g h = (r, v) end.
Proof.
  intros g hs. induction hs as [|h hs IH]; intros acc N; cbn [best_targets].
  { split; [exact N|]. split; [intros h []|]. intros t. split; [auto|]. intros [I|(h & [] & _)]. exact I. }
  destruct (g h) as (r & t) eqn:G. destruct r; try (exists h, t; split; [left; reflexivity|exact G]).
  assert (N2 : NoDup (if existsb (Z.eqb t) acc then acc else acc ++ [t]) /\ forall x, In x (if existsb (Z.eqb t) acc then acc else acc ++ [t]) <-> In x acc \/ x = t).
  { destruct (existsb (Z.eqb t) acc) eqn:EX.
    - split; [exact N|]. apply existsb_exists in EX. destruct EX as (y & I & E). apply Z.eqb_eq in E. subst y. intros x. split; [auto|]. intros [Q|Q]; [exact Q|rewrite Q; exact I].
    - split; [|intros x; rewrite in_app_iff; cbn [In]; intuition congruence]. apply (Permutation_NoDup (l := t :: acc)); [apply Permutation_cons_append|]. constructor; [|exact N]. intros I. assert (existsb (Z.eqb t) acc = true) by (apply existsb_exists; exists t; split; [exact I|apply Z.eqb_refl]). congruence. }
  destruct N2 as (N2 & M2). specialize (IH _ N2). destruct (best_targets g hs (if existsb (Z.eqb t) acc then acc else acc ++ [t])) as (r & l). destruct r; try (destruct IH as (h' & v' & I & E); exists h', v'; split; [right; exact I|exact E]).
  destruct IH as (I1 & I2 & I3). split; [exact I1|]. split; [intros x [<-|I]; [rewrite G; reflexivity|exact (I2 x I)]|]. intros x. rewrite I3, M2. split.
  - intros [[Q|Q]|(h' & I & E)]; [left; exact Q|right; exists h; rewrite Q; split; [left; reflexivity|exact G]|right; exists h'; split; [right; exact I|exact E]].
  - intros [Q|(h' & [<-|I] & E)]; [left; left; exact Q|left; right; congruence|right; exists h'; auto].
Qed.
Lemma select_spec : forall g s m R c, held m R c -> (forall h t, In h (nodes s) -> g h = (SUCCESS, t) -> In t R) ->
  exists r o m', space_select g s m = Some (r, o, m') /\ untouched m m' R /\
  ((r = SUCCESS /\ exists s' best, o = Some s' /\ framed s' R c m' /\ NoDup best /\ (forall t, In t best <-> exists h, In h (nodes s) /\ g h = (SUCCESS, t)) /\ (forall h, In h (nodes s) -> fst (g h) = SUCCESS) /\ map (fun h => lookup h m') (nodes s') = map (fun h => lookup h m) best) \/
   (r <> SUCCESS /\ o = None /\ held m' R c /\ (answers m <> [] \/ nodes s = [] \/ exists h v, In h (nodes s) /\ g h = (r, v)))).
Proof.
  intros g s m R c H L. unfold space_select. destruct (galloc (8 * len (nodes s)) m) as (o1 & m1) eqn:G1. pose proof (held_alloc _ _ _ _ _ _ H G1) as H1. destruct (galloc_spec _ _ _ _ G1) as (S1 & _ & _ & A1). destruct o1; cbn [negb].
  2: { eexists _, _, _. split; [reflexivity|]. split; [apply same_untouched; exact S1|]. right. split; [discriminate|]. split; [reflexivity|]. split; [eapply held_eq; [exact H1|lia]|]. destruct (answers m) eqn:A; [|left; discriminate]. right. left. destruct (A1 eq_refl) as (_ & W). destruct (nodes s) as [|x l]; [reflexivity|]. rewrite len_cons in W. pose proof (len_pos l). specialize (W ltac:(lia)). discriminate. }
  pose proof (best_targets_spec g (nodes s) [] (NoDup_nil _)) as BT. destruct (best_targets g (nodes s) []) as (r & best).
  assert (BAD : r <> SUCCESS -> (exists h v, In h (nodes s) /\ g h = (r, v)) -> exists r0 o m', Some (r, @None space, gfree 1 m1) = Some (r0, o, m') /\ untouched m m' R /\
    ((r0 = SUCCESS /\ exists s' best, o = Some s' /\ framed s' R c m' /\ NoDup best /\ (forall t, In t best <-> exists h, In h (nodes s) /\ g h = (SUCCESS, t)) /\ (forall h, In h (nodes s) -> fst (g h) = SUCCESS) /\ map (fun h => lookup h m') (nodes s') = map (fun h => lookup h m) best) \/
     (r0 <> SUCCESS /\ o = None /\ held m' R c /\ (answers m <> [] \/ nodes s = [] \/ exists h v, In h (nodes s) /\ g h = (r0, v))))).
  { intros NS EX. eexists _, _, _. split; [reflexivity|]. split; [apply same_untouched; exact S1|]. right. split; [exact NS|]. split; [reflexivity|]. split; [eapply held_eq; [apply held_free; exact H1|lia]|]. auto. }
  destruct r; try (apply BAD; [discriminate|exact BT]). clear BAD. destruct BT as (B1 & B2 & B3). assert (LB : forall t, In t best -> In t R) by (intros t I; apply B3 in I; destruct I as [[]|(h & I & E)]; exact (L h t I E)).
  assert (B4 : forall t, In t best <-> exists h, In h (nodes s) /\ g h = (SUCCESS, t)) by (intros t; rewrite B3; split; [intros [[]|Q]; exact Q|auto]).
  assert (NE : nodes s <> [] -> best <> []).
  { intros NE. destruct (nodes s) as [|x l]; [contradiction|]. destruct (g x) as (r & t) eqn:GX. specialize (B2 x (or_introl eq_refl)). rewrite GX in B2. cbn in B2. subst r. intros W. assert (I : In t best) by (apply B4; exists x; split; [left; reflexivity|exact GX]). rewrite W in I. destruct I. }
  destruct (galloc 16 m1) as (o2 & m2) eqn:G2. pose proof (held_alloc _ _ _ _ _ _ H1 G2) as H2. destruct (galloc_spec _ _ _ _ G2) as (S2 & _ & _ & A2). pose proof (same_trans _ _ _ S1 S2) as S12. destruct o2; cbn [negb].
  2: { eexists _, _, _. split; [reflexivity|]. split; [apply same_untouched; exact S12|]. right. split; [discriminate|]. split; [reflexivity|]. split; [eapply held_eq; [apply held_free; exact H2|lia]|]. left. intros A. destruct (A2 (proj1 (A1 A))) as (_ & W). specialize (W ltac:(lia)). discriminate. }
  destruct (galloc (8 * len best) m2) as (o3 & m3) eqn:G3. pose proof (held_alloc _ _ _ _ _ _ H2 G3) as H3. destruct (galloc_spec _ _ _ _ G3) as (S3 & _ & _ & A3). pose proof (same_trans _ _ _ S12 S3) as S13. destruct o3; cbn [negb].
  2: { eexists _, _, _. split; [reflexivity|]. split; [apply same_untouched; exact S13|]. right. split; [discriminate|]. split; [reflexivity|]. split; [eapply held_eq; [apply held_free; exact H3|lia]|]. destruct (nodes s) as [|x l]; [auto|]. left. intros A. destruct (A3 (proj1 (A2 (proj1 (A1 A))))) as (_ & W). destruct best as [|y k]; [exact (NE ltac:(discriminate) eq_refl)|]. rewrite len_cons in W. pose proof (len_pos k). specialize (W ltac:(lia)). discriminate. }
  destruct (clone_loop_spec best [] 3 m3 R (c + 1 + 1 + 1) H3 LB) as (r & l & m4 & -> & AC & [(-> & new & -> & C2 & C3 & C4)|(-> & C2 & C3)]).
  - cbn [List.rev app] in *. eexists _, _, _. split; [reflexivity|]. split; [intros y I; rewrite (same_lookup m4 _ y (gfree_same _ m4)), (C4 y I); apply same_lookup; exact S13|]. left. split; [reflexivity|]. eexists _, best. split; [reflexivity|]. split; [split; [|reflexivity]|].
    + cbn [nodes]. eapply held_eq; [apply held_free; exact C2|]. rewrite weight_eq. cbn [array nodes]. assert (LE : len new = len best) by (unfold len; f_equal; rewrite <- (map_length (fun h => lookup h m4) new), C3, map_length; reflexivity). lia.
    + split; [exact B1|]. split; [exact B4|]. split; [exact B2|]. cbn [nodes]. erewrite map_ext; [rewrite C3; apply map_ext; intros x; apply same_lookup; exact S13|]. intros x. apply same_lookup. apply gfree_same.
  - eexists _, _, _. split; [reflexivity|]. split; [eapply untouched_same; eassumption|]. right. split; [discriminate|]. split; [reflexivity|]. split; [eapply held_eq; [exact C2|]; change (len []) with 0; lia|]. left. intros A. specialize (AC (proj1 (A3 (proj1 (A2 (proj1 (A1 A))))))). discriminate.
Qed.
Lemma best_loop_spec : forall bw hs best top t, best_loop bw hs best top = (SUCCESS, t) ->
  (forall h, In h hs -> fst (bw h) = SUCCESS) /\
  ((t = best /\ forall h, In h hs -> snd (bw h) <= top) \/
   (exists pre post, hs = pre ++ t :: post /\ top < snd (bw t) /\ (forall h, In h pre -> snd (bw h) < snd (bw t)) /\ forall h, In h post -> snd (bw h) <= snd (bw t))).
Proof.
  intros bw hs. induction hs as [|h hs IH]; intros best top t E; cbn [best_loop] in E.
  - injection E as <-. split; [intros h []|]. left. split; [reflexivity|intros h []].
  - destruct (bw h) as (r & v) eqn:B. destruct r; try discriminate. assert (BV : snd (bw h) = v) by (rewrite B; reflexivity). destruct (Z.ltb_spec top v) as [L|L]; destruct (IH _ _ _ E) as (I1 & I2); (split; [intros x [<-|I]; [rewrite B; reflexivity|exact (I1 x I)]|]).
    + right. destruct I2 as [(-> & I2)|(pre & post & -> & P1 & P2 & P3)].
      * exists [], hs. split; [reflexivity|]. rewrite BV. split; [exact L|]. split; [intros x []|exact I2].
      * exists (h :: pre), post. split; [reflexivity|]. split; [clear - L P1; lia|]. split; [|exact P3]. intros x [<-|I]; [rewrite BV; exact P1|exact (P2 x I)].
    + destruct I2 as [(-> & I2)|(pre & post & -> & P1 & P2 & P3)].
      * left. split; [reflexivity|]. intros x [<-|I]; [rewrite BV; exact L|exact (I2 x I)].
      * right. exists (h :: pre), post. split; [reflexivity|]. split; [exact P1|]. split; [|exact P3]. intros x [<-|I]; [rewrite BV; clear - L P1; lia|exact (P2 x I)].
Qed.
Lemma least_loop_spec : forall bw hs best top t, least_loop bw hs best top = (SUCCESS, t) ->
  (forall h, In h hs -> fst (bw h) = SUCCESS) /\
  ((t = best /\ forall h, In h hs -> top <= snd (bw h)) \/
   (exists pre post, hs = pre ++ t :: post /\ snd (bw t) < top /\ (forall h, In h pre -> snd (bw t) < snd (bw h)) /\ forall h, In h post -> snd (bw t) <= snd (bw h))).
Proof.
  intros bw hs. induction hs as [|h hs IH]; intros best top t E; cbn [least_loop] in E.
  - injection E as <-. split; [intros h []|]. left. split; [reflexivity|intros h []].
  - destruct (bw h) as (r & v) eqn:B. destruct r; try discriminate. assert (BV : snd (bw h) = v) by (rewrite B; reflexivity). destruct (Z.ltb_spec v top) as [L|L]; destruct (IH _ _ _ E) as (I1 & I2); (split; [intros x [<-|I]; [rewrite B; reflexivity|exact (I1 x I)]|]).
    + right. destruct I2 as [(-> & I2)|(pre & post & -> & P1 & P2 & P3)].
      * exists [], hs. split; [reflexivity|]. rewrite BV. split; [exact L|]. split; [intros x []|exact I2].
      * exists (h :: pre), post. split; [reflexivity|]. split; [clear - L P1; lia|]. split; [|exact P3]. intros x [<-|I]; [rewrite BV; exact P1|exact (P2 x I)].
    + destruct I2 as [(-> & I2)|(pre & post & -> & P1 & P2 & P3)].
      * left. split; [reflexivity|]. intros x [<-|I]; [rewrite BV; exact L|exact (I2 x I)].
      * right. exists (h :: pre), post. split; [reflexivity|]. split; [exact P1|]. split; [|exact P3]. intros x [<-|I]; [rewrite BV; clear - L P1; lia|exact (P2 x I)].
Qed.
Lemma best_in : forall bw hs i t, hs <> [] -> best_bandwidth bw hs i = (SUCCESS, t) -> In t hs.
Proof. intros bw hs i t N E. unfold best_bandwidth in E. destruct (best_loop_spec _ _ _ _ _ E) as (_ & [(-> & _)|(pre & post & -> & _)]); [destruct hs; [contradiction|left; reflexivity]|apply in_app_iff; right; left; reflexivity]. Qed.

(* ---- histories ---- *)
Definition good (ss : list space) (m : mem) : Prop := held m (owned ss) (total ss) /\ forall s, In s ss -> nodes s <> [] -> array s = true.
Lemma good_tidy : forall ss m, good ss m <-> tidy ss m.
Proof.
  intros ss m. split.
  - intros (H & A). pose proof H as [H1 H2 H3 H4]. constructor; try assumption.
    + exact (Permutation_NoDup H2 H1).
    + intros h. exact (held_live _ _ _ h H).
    + unfold keys in H2. apply Permutation_length in H2. rewrite map_length in H2. exact H2.
  - intros [T1 T2 T3 T4 T5 T6]. split; [|exact T5]. assert (I : incl (owned ss) (keys m)).
    { intros h I. apply T2 in I. apply lookup_key. exact I. }
    assert (P : Permutation (owned ss) (keys m)) by (apply NoDup_Permutation_bis; [exact T1|unfold keys; rewrite map_length; lia|exact I]).
    constructor; [exact (Permutation_NoDup P T1)|apply Permutation_sym; exact P|exact T6|exact T4].
Qed.
Lemma owned_app : forall a b, owned (a ++ b) = owned a ++ owned b.
Proof. intros a b. unfold owned. apply flat_map_app. Qed.
Lemma total_app : forall a b, total (a ++ b) = total a + total b.
Proof. intros a b. unfold total. induction a as [|x a IH]; [reflexivity|]. cbn [app fold_right]. rewrite IH. lia. Qed.
Lemma total_cons : forall s l, total (s :: l) = weight s + total l.
Proof. reflexivity. Qed.
Lemma good_framed : forall l1 s l2 m, good (l1 ++ s :: l2) m <-> framed s (owned (l1 ++ l2)) (total (l1 ++ l2)) m /\ forall x, In x (l1 ++ l2) -> nodes x <> [] -> array x = true.
Proof.
  intros l1 s l2 m. assert (P : Permutation (owned (l1 ++ s :: l2)) (nodes s ++ owned (l1 ++ l2))).
  { rewrite !owned_app. change (owned (s :: l2)) with (nodes s ++ owned l2). rewrite !app_assoc. apply Permutation_app_tail. apply Permutation_app_comm. }
  assert (T : total (l1 ++ s :: l2) = weight s + total (l1 ++ l2)) by (rewrite !total_app, total_cons; lia).
  unfold good, framed. rewrite T. split.
  - intros (H & A). split; [split; [eapply held_perm; eassumption|apply A; apply in_app_iff; right; left; reflexivity]|]. intros x I. apply A. apply in_app_iff in I. apply in_app_iff. destruct I; [left|right; right]; assumption.
  - intros ((H & A) & B). split; [eapply held_perm; [exact H|apply Permutation_sym; exact P]|]. intros x I. apply in_app_iff in I. destruct I as [I|[<-|I]]; [apply B; apply in_app_iff; left; exact I|exact A|apply B; apply in_app_iff; right; exact I].
Qed.
Lemma good_push : forall s ss m, framed s (owned ss) (total ss) m -> (forall x, In x ss -> nodes x <> [] -> array x = true) -> good (ss ++ [s]) m.
Proof. intros s ss m F A. apply good_framed. rewrite app_nil_r. split; assumption. Qed.
Lemma replace_at : forall i ss s, nth_error ss i = Some s -> exists l1 l2, ss = l1 ++ s :: l2 /\ (forall s', replace i s' ss = l1 ++ s' :: l2) /\ firstn i ss ++ skipn (S i) ss = l1 ++ l2.
Proof.
  intros i ss s N. destruct (nth_error_split ss i N) as (l1 & l2 & -> & L). exists l1, l2. split; [reflexivity|]. unfold replace.
  assert (F : firstn i (l1 ++ s :: l2) = l1) by (rewrite <- L, firstn_app, Nat.sub_diag, firstn_all; cbn; apply app_nil_r).
  assert (K : skipn (S i) (l1 ++ s :: l2) = l2) by (change (s :: l2) with ([s] ++ l2); rewrite app_assoc; replace (S i) with (List.length (l1 ++ [s])) by (rewrite app_length; cbn; lia); rewrite skipn_app, Nat.sub_diag, skipn_all; reflexivity).
  rewrite F, K. auto.
Qed.
Definition views (m : mem) (l : list Z) : list (option target) := map (fun h => lookup h m) l.
Definition uniq (m : mem) (s : space) : Prop := NoDup (views m (nodes s)).
Lemma NoDup_map_on : forall (A B : Type) (f : A -> B) l, NoDup l -> (forall x y, In x l -> In y l -> f x = f y -> x = y) -> NoDup (map f l).
Proof. intros A B f l. induction l as [|a l IH]; intros N D; cbn [map]; [constructor|]. inversion N as [|? ? N1 N2]; subst. constructor; [|apply IH; [exact N2|intros x y I J; apply D; right; assumption]]. intros I. apply in_map_iff in I. destruct I as (y & E & I). apply N1. rewrite <- (D y a); [exact I|right; exact I|left; reflexivity|exact E]. Qed.
Lemma NoDup_map_injective : forall (A B : Type) (f : A -> B) l x y, NoDup (map f l) -> In x l -> In y l -> f x = f y -> x = y.
Proof. intros A B f l x y. induction l as [|a l IH]; intros N I J E; [destruct I|]. cbn [map] in N. inversion N as [|? ? N1 N2]; subst. destruct I as [<-|I], J as [<-|J]; [reflexivity|exfalso; apply N1; rewrite E; apply in_map; exact J|exfalso; apply N1; rewrite <- E; apply in_map; exact I|exact (IH N2 I J E)]. Qed.
Lemma uniq_distinct : forall m s, uniq m s -> distinct m s.
Proof. intros m s U x y I J E. exact (NoDup_map_injective _ _ (fun h => lookup h m) (nodes s) x y U I J E). Qed.
Lemma uniq_ext : forall m m' s, untouched m m' (nodes s) -> uniq m s -> uniq m' s.
Proof. intros m m' s U N. unfold uniq, views. erewrite map_ext_in; [exact N|]. intros x I. exact (U x I). Qed.
Lemma uniq_sub : forall m m' s l, uniq m s -> incl l (nodes s) -> NoDup l -> untouched m m' l -> NoDup (views m' l).
Proof. intros m m' s l U IC N UT. unfold views. erewrite map_ext_in; [|intros x I; exact (UT x I)]. apply NoDup_map_on; [exact N|]. intros x y I J. apply (uniq_distinct _ _ U); apply IC; assumption. Qed.
Lemma untouched_sub : forall m m' ss s, untouched m m' (owned ss) -> In s ss -> untouched m m' (nodes s).
Proof. intros m m' ss s U I h J. apply U. unfold owned. apply in_flat_map. exists s. auto. Qed.
Lemma in_two : forall (A : Type) (l1 l2 : list A) s x, In x (l1 ++ s :: l2) -> x = s \/ In x (l1 ++ l2).
Proof. intros A l1 l2 s x I. apply in_app_iff in I. destruct I as [I|[<-|I]]; [right; apply in_app_iff; auto|left; reflexivity|right; apply in_app_iff; auto]. Qed.
Lemma in_rest : forall (A : Type) (l1 l2 : list A) s x, In x (l1 ++ l2) -> In x (l1 ++ s :: l2).
Proof. intros A l1 l2 s x I. apply in_app_iff in I. apply in_app_iff. destruct I; [left|right; right]; assumption. Qed.
Lemma uniq_perm : forall m s s', Permutation (nodes s) (nodes s') -> uniq m s -> uniq m s'.
Proof. intros m s s' P U. unfold uniq, views. eapply Permutation_NoDup; [apply Permutation_map; exact P|exact U]. Qed.
Lemma owned_node : forall ss m j k s h, good ss m -> nth_error ss j = Some s -> nth_error (nodes s) k = Some h -> exists u, lookup h m = Some u.
Proof. intros ss m j k s h (H & _) N K. apply (held_live _ _ _ h H). unfold owned. apply in_flat_map. exists s. split; [exact (nth_error_In _ _ N)|exact (nth_error_In _ _ K)]. Qed.
Definition plain (o : op) : Prop := match o with ONuma ids => NoDup ids | _ => True end.
Lemma step_good : forall srt ss m o, sorts srt -> good ss m ->
  match step srt (ss, m) o with
  | Crashed => answers m <> [] \/ exists i f s, o = OFilter i f /\ nth_error ss i = Some s /\ forall h, In h (nodes s) -> f h = Drop
  | World ss' m' => good ss' m' /\ (plain o -> (forall s, In s ss -> uniq m s) -> forall s, In s ss' -> uniq m' s)
  end.
Proof.
  intros srt ss m o ST GD. pose proof GD as (H & A).
  assert (ID : good ss m /\ (plain o -> (forall s, In s ss -> uniq m s) -> forall s, In s ss -> uniq m s)) by (split; [exact GD|intros _ U; exact U]).
  assert (NO : forall m', held m' (owned ss) (total ss) -> untouched m m' (owned ss) -> good ss m' /\ (plain o -> (forall s, In s ss -> uniq m s) -> forall s, In s ss -> uniq m' s)).
  { intros m' H' U'. split; [split; assumption|]. intros _ U s I. eapply uniq_ext; [eapply untouched_sub; eassumption|exact (U s I)]. }
  assert (YES : forall s m', framed s (owned ss) (total ss) m' -> untouched m m' (owned ss) -> (plain o -> (forall s, In s ss -> uniq m s) -> uniq m' s) -> good (ss ++ [s]) m' /\ (plain o -> (forall s, In s ss -> uniq m s) -> forall x, In x (ss ++ [s]) -> uniq m' x)).
  { intros s m' F' U' Q. split; [apply good_push; assumption|]. intros P U x I. apply in_app_iff in I. destruct I as [I|[<-|[]]]; [eapply uniq_ext; [eapply untouched_sub; eassumption|exact (U x I)]|exact (Q P U)]. }
  assert (CH : forall l1 s l2 s' m', ss = l1 ++ s :: l2 -> framed s' (owned (l1 ++ l2)) (total (l1 ++ l2)) m' -> untouched m m' (owned (l1 ++ l2)) -> (uniq m s -> uniq m' s') -> good (l1 ++ s' :: l2) m' /\ (plain o -> (forall s, In s ss -> uniq m s) -> forall x, In x (l1 ++ s' :: l2) -> uniq m' x)).
  { intros l1 s l2 s' m' -> F' U' Q. apply good_framed in GD. split; [apply good_framed; split; [exact F'|exact (proj2 GD)]|]. intros _ U x I. destruct (in_two _ _ _ _ _ I) as [->|J]; [apply Q; apply U; apply in_app_iff; right; left; reflexivity|]. eapply uniq_ext; [eapply untouched_sub; eassumption|apply U; apply in_rest; exact J]. }
  destruct o as [|ids|i|i|i j k|i j k|i prop|i f|i bw]; cbn [step].
  - destruct (new_spec m _ _ H) as (r & o & m' & E & U & _ & [(-> & s & -> & F & N)|(-> & -> & F)]); rewrite E; cbn [push]; [|exact (NO m' F U)]. apply YES; [exact F|exact U|]. intros _ _. unfold uniq. rewrite N. constructor.
  - destruct (from_numa_spec ids m _ _ H) as [(E & W)|((r & o & m' & E & U & [(-> & s & -> & F & V)|(NS & -> & F)]) & _)]; rewrite E; [left; exact W| |cbn [push]; exact (NO m' F U)]. cbn [push]. apply YES; [exact F|exact U|]. intros P _. cbn [plain] in P. unfold uniq, views. rewrite V. apply NoDup_map_on; [exact P|]. intros x y _ _ E'. congruence.
  - destruct (nth_error ss i) as [s|] eqn:N; [|exact ID]. destruct (clone_spec s m _ _ H) as ((r & o & m' & E & U & [(-> & s' & -> & F & V)|(NS & -> & F)]) & _); [intros h I; unfold owned; apply in_flat_map; exists s; split; [exact (nth_error_In _ _ N)|exact I]| |]; rewrite E; cbn [push]; [|exact (NO m' F U)]. apply YES; [exact F|exact U|]. intros _ Q. unfold uniq, views. rewrite V. exact (Q s (nth_error_In _ _ N)).
  - destruct (nth_error ss i) as [s|] eqn:N; [|exact ID]. destruct (replace_at i ss s N) as (l1 & l2 & E1 & E2 & E3). rewrite E3. pose proof GD as GF. rewrite E1 in GF. apply good_framed in GF. destruct GF as (F & A2). destruct (destroy_space_spec _ _ _ _ F) as (m' & -> & H' & U' & _). split; [split; assumption|]. intros _ Q x I. eapply uniq_ext; [eapply untouched_sub; eassumption|]. apply Q. rewrite E1. apply in_rest. exact I.
  - destruct (nth_error ss i) as [s|] eqn:N; [|exact ID]. destruct (nth_error ss j) as [s2|] eqn:N2; [|exact ID]. destruct (nth_error (nodes s2) k) as [h|] eqn:K; [|exact ID]. destruct (owned_node _ _ _ _ _ _ GD N2 K) as (u & LU). destruct (replace_at i ss s N) as (l1 & l2 & E1 & E2 & E3). pose proof GD as GF. rewrite E1 in GF. apply good_framed in GF. destruct GF as (F & A2).
    destruct (add_spec _ _ _ _ h u F LU) as (r & s' & m' & -> & F' & U' & Q). rewrite E2. apply (CH l1 s l2 s' m' E1 F').
    + intros x I. apply U'. apply in_app_iff. right. exact I.
    + intros UQ. destruct Q as [(-> & (h' & NH & LH) & NC)|[(-> & (-> & _ & _) & _)|(-> & (-> & _ & _) & _)]]; try (eapply uniq_ext; [|exact UQ]; intros x I; apply U'; apply in_app_iff; left; exact I).
      unfold uniq, views. rewrite NH, map_app. cbn [map]. apply (Permutation_NoDup (l := lookup h' m' :: map (fun h => lookup h m') (nodes s))); [apply Permutation_cons_append|]. constructor; [|eapply uniq_ext in UQ; [exact UQ|]; intros x I; apply U'; apply in_app_iff; left; exact I].
      intros I. apply in_map_iff in I. destruct I as (x & E & I). rewrite U' in E by (apply in_app_iff; left; exact I). rewrite LH in E. exact (NC x u I E (or_intror eq_refl)).
  - destruct (nth_error ss i) as [s|] eqn:N; [|exact ID]. destruct (nth_error ss j) as [s2|] eqn:N2; [|exact ID]. destruct (nth_error (nodes s2) k) as [h|] eqn:K; [|exact ID]. destruct (owned_node _ _ _ _ _ _ GD N2 K) as (u & LU). destruct (replace_at i ss s N) as (l1 & l2 & E1 & E2 & E3). pose proof GD as GF. rewrite E1 in GF. apply good_framed in GF. destruct GF as (F & A2).
    destruct (remove_spec _ _ _ _ h u F LU) as (r & s' & m' & -> & F' & U' & Q). rewrite E2. apply (CH l1 s l2 s' m' E1 F' U'). intros UQ.
    destruct Q as [(-> & _ & _ & pre & x & post & P1 & P2 & _ & _ & _ & P5)|[(-> & (-> & UH & _) & _)|(-> & (-> & UH & _) & _)]]; try (eapply uniq_ext; [|exact UQ]; intros x I; unfold lookup; rewrite UH; reflexivity).
    unfold uniq. rewrite P2. apply (uniq_sub m m' s _ UQ); [intros y I; rewrite P1; apply in_rest; exact I| |exact P5]. rewrite <- P2. exact (framed_nodup _ _ _ _ F').
  - destruct (nth_error ss i) as [s|] eqn:N; [|exact ID]. destruct (replace_at i ss s N) as (l1 & l2 & E1 & E2 & E3). pose proof GD as GF. rewrite E1 in GF. apply good_framed in GF. destruct GF as (F & A2). destruct (space_sort srt prop s m) as ((r & s') & m') eqn:SS. destruct (sort_spec _ _ _ _ _ _ _ _ _ ST F SS) as (F' & S' & Q). rewrite E2. apply (CH l1 s l2 s' m' E1 F'); [apply same_untouched; exact S'|]. intros UQ.
    assert (UM : uniq m s') by (destruct Q as [(_ & P & _)|(_ & (-> & _) & _)]; [eapply uniq_perm; eassumption|exact UQ]). eapply uniq_ext; [apply same_untouched; exact S'|exact UM].
  - destruct (nth_error ss i) as [s|] eqn:N; [|exact ID]. destruct (replace_at i ss s N) as (l1 & l2 & E1 & E2 & E3). pose proof GD as GF. rewrite E1 in GF. apply good_framed in GF. destruct GF as (F & A2). pose proof (filter_spec user_fail f s _ _ m F ltac:(discriminate)) as FS. destruct (space_filter user_fail f s m) as [((r & s') & m')|].
    + destruct FS as (F' & U1 & U2 & IC & _). rewrite E2. apply (CH l1 s l2 s' m' E1 F' U1). intros UQ. apply (uniq_sub m m' s _ UQ IC); [exact (framed_nodup _ _ _ _ F')|exact U2].
    + destruct FS as (_ & [W|W]); [left; exact W|right]. exists i, f, s. auto.
  - destruct (nth_error ss i) as [s|] eqn:N; [|exact ID]. assert (IO : forall h, In h (nodes s) -> In h (owned ss)) by (intros h I; unfold owned; apply in_flat_map; exists s; split; [exact (nth_error_In _ _ N)|exact I]).
    assert (GI : forall h t, In h (nodes s) -> best_bandwidth bw (nodes s) h = (SUCCESS, t) -> In t (nodes s)) by (intros h t I E; eapply best_in; [intros W; rewrite W in I; destruct I|exact E]).
    destruct (select_spec (best_bandwidth bw (nodes s)) s m _ _ H) as (r & o & m' & E & U & [(-> & s' & best & -> & F & NB & IB & _ & V)|(NS & -> & F & _)]); [intros h t I E; apply IO; exact (GI h t I E)| |]; rewrite E; cbn [push]; [|exact (NO m' F U)]. apply YES; [exact F|exact U|]. intros _ Q. unfold uniq, views. rewrite V. apply NoDup_map_on; [exact NB|]. intros x y I J. apply (uniq_distinct m s (Q s (nth_error_In _ _ N))); [apply IB in I; destruct I as (h & IH & E')|apply IB in J; destruct J as (h & IH & E')]; exact (GI h _ IH E').
Qed.
Definition no_mem : mem := Mem [] 1 [] 0.
Lemma run_good : forall srt os ss m, sorts srt -> good ss m -> match run srt (ss, m) os with Crashed => True | World ss' m' => good ss' m' /\ (Forall plain os -> (forall s, In s ss -> uniq m s) -> forall s, In s ss' -> uniq m' s) end.
Proof.
  intros srt os. induction os as [|o os IH]; intros ss m ST GD; cbn [run fst snd]; [split; [exact GD|intros _ U; exact U]|]. pose proof (step_good srt ss m o ST GD) as W. destruct (step srt (ss, m) o) as [|ss1 m1]; [exact I|]. destruct W as (G1 & U1). specialize (IH ss1 m1 ST G1). destruct (run srt (ss1, m1) os) as [|ss2 m2]; [exact I|]. destruct IH as (G2 & U2). split; [exact G2|]. intros F U. inversion F; subst. apply U2; [assumption|]. apply U1; assumption.
Qed.
Lemma good_empty : forall ans, good [] (Mem [] 1 ans 0).
Proof. intros ans. split; [|intros s []]. constructor; cbn; [constructor|constructor|intros h []|reflexivity]. Qed.
Lemma uniq_set : forall m s, uniq m s -> is_set m s.
Proof. intros m s U ts E. unfold uniq, views in U. unfold members in E. rewrite E in U. exact (NoDup_map_inv _ _ U). Qed.
Lemma set_uniq : forall m s, (forall h, In h (nodes s) -> exists t, lookup h m = Some t) -> is_set m s -> uniq m s.
Proof.
  intros m s L S. assert (T : exists ts, members m s ts).
  { unfold members. induction (nodes s) as [|x l IH]; [exists []; reflexivity|]. destruct (L x (or_introl eq_refl)) as (t & E). destruct IH as (ts & W); [intros h I; apply L; right; exact I|]. exists (t :: ts). cbn [map]. rewrite E, W. reflexivity. }
  destruct T as (ts & T). pose proof (S ts T) as N. unfold uniq, views. unfold members in T. rewrite T. apply NoDup_map_on; [exact N|]. intros x y _ _ E. congruence.
Qed.

(* ---- a filter that rejects everything ---- *)
Lemma re_add_dead : forall d dn s R c m r, framed s R c m -> nodes s <> [] -> lookup d m = None -> re_add s (d :: dn) r m = None.
Proof. intros d dn s R c m r FR NE D. cbn [re_add]. unfold space_add. destruct (nodes s) as [|x l]; [contradiction|]. cbn [add_check]. unfold compare. rewrite D. destruct (lookup x m) as [(a & b)|]; reflexivity. Qed.
Lemma remove_everything : forall hs s d dn R c m, framed s R c m -> distinct m s -> answers m = [] -> nodes s = hs -> hs <> [] -> lookup d m = None -> remove_all s hs (d :: dn) m = None.
Proof.
  induction hs as [|h hs IH]; intros s d dn R c m FR D A NS NE LD; [contradiction|]. cbn [remove_all]. assert (IN : In h (nodes s)) by (rewrite NS; left; reflexivity). destruct (framed_live _ _ _ _ h FR ltac:(apply in_app_iff; left; exact IN)) as (u & LU).
  destruct (remove_spec s R c m h u FR LU) as (r & s1 & m1 & -> & F1 & U1 & [(-> & LN & AN & pre & x & post & P1 & P2 & P3 & PD & P4 & P5)|[(-> & UC & N)|(-> & UC & NE1 & WHY)]]).
  - assert (XH : x = h) by (apply D; [rewrite P1; apply in_app_iff; right; left; reflexivity|exact IN|congruence]). subst x. pose proof (framed_nodup _ _ _ _ FR) as ND.
    assert (PE : pre = []) by (destruct pre as [|p pre]; [reflexivity|]; exfalso; rewrite P1 in NS; cbn in NS; injection NS as -> NS; apply (P4 h); [left; reflexivity|exact LU]). subst pre. rewrite P1 in NS. cbn in NS. injection NS as ->.
    apply (IH s1 d (dn ++ [h]) R c m1 F1).
    + intros a b I J E. rewrite P2 in I, J. cbn in I, J. rewrite !P5 in E by assumption. apply D; rewrite ?P1; [right; exact I|right; exact J|exact E].
    + exact (AN A).
    + exact P2.
    + intros ->. rewrite P1 in LN. cbn in LN. unfold len in LN. cbn in LN. lia.
    + destruct (lookup d m1) as [t|] eqn:E; [|reflexivity]. exfalso. destruct F1 as (F1 & _). assert (W : In d (nodes s1 ++ R)) by (apply (held_live _ _ _ d F1); eauto). destruct FR as (FR & _). assert (W2 : In d (nodes s ++ R)) by (rewrite P1; rewrite P2 in W; cbn in *; auto). apply (held_live _ _ _ d FR) in W2. destruct W2; congruence.
  - exfalso. exact (N h IN LU).
  - destruct UC as (-> & UH & UB). apply (re_add_dead _ _ _ R c); [exact F1|exact NE1|]. unfold lookup. rewrite UH. exact LD.
Qed.
Lemma filter_everything : forall fail f s R c m, framed s R c m -> distinct m s -> answers m = [] -> 1 < len (nodes s) -> (forall h, In h (nodes s) -> f h = Drop) -> space_filter fail f s m = None.
Proof.
  intros fail f s R c m FR D A LN AL. pose proof FR as (H & AR). unfold space_filter. destruct (galloc (8 * len (nodes s)) m) as (o & m1) eqn:G. pose proof (held_alloc _ _ _ _ _ _ H G) as H1. destruct (galloc_spec _ _ _ _ G) as (S1 & B1 & Z1 & A1). destruct (A1 A) as (A2 & O). specialize (O ltac:(lia)). subst o. cbn [negb].
  pose proof (collect_spec f (nodes s)) as CS. destruct (collect f (nodes s)) as ([r|] & dl); [destruct CS as (h & I & W); rewrite (AL h I) in W; discriminate|]. destruct CS as (-> & _). replace (filter (drops f) (nodes s)) with (nodes s).
  2: { clear - AL. induction (nodes s) as [|x l IH]; [reflexivity|]. cbn [filter]. unfold drops at 1. rewrite (AL x (or_introl eq_refl)). f_equal. apply IH. intros h I. apply AL. right. exact I. }
  assert (F1 : framed s R (c + 1) m1) by (split; [eapply held_eq; [exact H1|lia]|exact AR]). assert (D1 : distinct m1 s) by (intros x y I J; rewrite !(same_lookup m m1) by exact S1; exact (D x y I J)).
  assert (W : remove_all s (nodes s) [] m1 = None); [|rewrite W; reflexivity].
  destruct (nodes s) as [|h hs] eqn:NS; [unfold len in LN; cbn in LN; lia|]. cbn [remove_all]. assert (IN : In h (nodes s)) by (rewrite NS; left; reflexivity). destruct (framed_live _ _ _ _ h F1 ltac:(apply in_app_iff; left; exact IN)) as (u & LU).
  destruct (remove_spec s R (c + 1) m1 h u F1 LU) as (r & s1 & m2 & -> & F2 & U1 & [(-> & LN2 & AN & pre & x & post & P1 & P2 & P3 & PD & P4 & P5)|[(-> & UC & N)|(-> & UC & NE1 & WHY)]]).
  - assert (XH : x = h) by (apply D1; [rewrite P1; apply in_app_iff; right; left; reflexivity|exact IN|congruence]). subst x.
    assert (PE : pre = []) by (destruct pre as [|p pre]; [reflexivity|]; exfalso; rewrite P1 in NS; cbn in NS; injection NS as -> NS; apply (P4 h); [left; reflexivity|exact LU]). subst pre. rewrite P1 in NS. cbn in NS. injection NS as ->. cbn [app].
    apply (remove_everything hs s1 h [] R (c + 1) m2 F2).
    + intros a b I J E. rewrite P2 in I, J. cbn in I, J. rewrite !P5 in E by assumption. apply D1; rewrite ?P1; [right; exact I|right; exact J|exact E].
    + exact (AN A2).
    + exact P2.
    + intros ->. unfold len in LN. cbn in LN. lia.
    + exact PD.
  - exfalso. exact (N h IN LU).
  - exfalso. destruct WHY as [W|W]; [exact (W A2)|]. rewrite NS in W. lia.
Qed.
