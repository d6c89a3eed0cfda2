(* The executions of the tracker under concurrent splits and merges: the
   invariant holds, somebody can always go on, and an executable run. *)
From Verif Require Import Base Model_TrackerConc Spec_TrackerConc Proof_TrackerConc Model_TrackerSplit Spec_TrackerSplit.
From Verif Require Import Proof_TrackerSplit Proof_TrackerSplitInv Proof_TrackerSplitStep Proof_TrackerSplitMain.
From Coq Require Import Permutation.

Lemma perm_mid {A} (l r : list A) t : Permutation (l ++ t :: r) (t :: l ++ r).
Proof. symmetry. apply Permutation_middle. Qed.
Lemma smove_inv x y : smove sunread x y -> sinv (w_tr (fst x)) (w_mtx (fst x)) (held (fst x)) (snd x) ->
  sinv (w_tr (fst y)) (w_mtx (fst y)) (held (fst y)) (snd y).
Proof.
  intros M. destruct M; cbn [fst snd w_tr w_mtx held]; intros I.
  - (* alloc *) destruct I as [A B C D E]. constructor; auto.
    + eapply AR_perm; [apply (Permutation_middle (held w) (flat_map sregion ts) r)|]. destruct B as [B1 B2 B3].
      assert (DJ : forall q, In q (held w ++ flat_map sregion ts) -> disjoint r q) by (intros q Q; destruct (H0 q Q); cbn in *; unfold disjoint; lia).
      constructor.
      * constructor; [|exact B1]. intros X. generalize (DJ r X). unfold disjoint. lia.
      * intros p q [<-|P] [<-|Q] N; try contradiction; auto. generalize (DJ p P). unfold disjoint. lia.
      * intros p [<-|P]; auto.
    + intros t [<-|J]; auto. split; [discriminate|]. split; [reflexivity|]. cbn. auto.
  - (* dealloc *) destruct I as [A B C D E].
    assert (SR : 0 < r_size r) by (apply (ar_size _ B); apply in_or_app; left; apply in_or_app; right; left; reflexivity).
    constructor; auto.
    + eapply AR_perm; [|exact B]. cbn. rewrite <- !app_assoc. apply Permutation_app_head. cbn. apply Permutation_middle.
    + eapply MI_iff; [exact C|]. intros x. unfold tr. cbn. rewrite !in_app_iff. cbn. tauto.
    + intros t [<-|J]; [split; [discriminate|]; split; [reflexivity|cbn; auto]|]. pose proof (E t J) as L. revert L. apply loc_frame; auto.
      * intros p a n Z0 CV z Z1. destruct (CV z Z1) as (q & Q & W & P). exists q. split; [|auto]. apply within_eq in W.
        apply in_app_or in Q. apply in_or_app. destruct Q as [Q|[<-|Q]]; auto. exfalso.
        assert (AP : apart r (a, n)) by (apply H; apply in_flat_map; exists t; auto). unfold apart in AP. cbn in AP. lia.
      * intros _ q z Z0 Z1. rewrite !in_app_iff. cbn. split; [|tauto]. intros [Q|[<-|Q]]; auto. exfalso.
        assert (AP : apart r z) by (apply H; apply in_flat_map; exists t; auto). unfold apart, inz in *. lia.
  - (* look *) destruct I as [A B C D E]. constructor; auto. intros t [<-|J]; auto. cbn. auto.
  - (* split *) destruct I as [A B C D E]. constructor; auto. intros t [<-|J]; auto. split; auto.
  - (* merge *) destruct I as [A B C D E]. constructor; auto. intros t [<-|J]; auto. split; auto.
  - (* step *) apply (sinv_perm _ _ _ _ _ (perm_mid l r t)) in I.
    assert (P : Permutation (q ++ l ++ r) (l ++ q ++ r)) by (rewrite !app_assoc; apply Permutation_app_tail, Permutation_app_comm).
    eapply sinv_perm; [exact P|]. destruct w as [s m H2]. cbn [w_tr w_mtx held] in *. eapply sstep_inv; eauto.
Qed.
Lemma sreach_inv x : sreach sunread x -> sinv (w_tr (fst x)) (w_mtx (fst x)) (held (fst x)) (snd x).
Proof.
  induction 1 as [|x y R IH M]; [|eapply smove_inv; eauto]. constructor; cbn.
  - constructor; cbn; try apply NoDup_nil; intros; try contradiction; lia.
  - constructor; cbn; try apply NoDup_nil; intros; try contradiction.
  - split; cbn; [intros k c []|]. intros r [(X & _)|X]; destruct X.
  - reflexivity.
  - intros t [].
Qed.

(* ---- the results ---- *)
Lemma look_ok w ts p g b r a ans : sreach sunread (w, ts) -> In (Look p g b (LDone r a ans)) ts -> good_answer g p a ans \/ (ans = None /\ b = true).
Proof.
  intros R J. pose proof (i_loc _ _ _ _ (sreach_inv _ R) _ J) as L. cbn in L. destruct ans as [[[k n] p']|]; [left|right; auto].
  destruct L as (-> & X & Y). exists k, n. auto.
Qed.
Lemma never_lost w ts r : sreach sunread (w, ts) -> ~ In (Old (Lost r)) ts.
Proof. intros R J. pose proof (i_loc _ _ _ _ (sreach_inv _ R) _ J) as (_ & _ & L). exact L. Qed.
Lemma held_apart w ts p q : sreach sunread (w, ts) -> In p (held w) -> In q (held w) -> p <> q -> apart p (r_ptr q, r_size q).
Proof.
  intros R P Q N. pose proof (i_ar _ _ _ _ (sreach_inv _ R)) as A. cbn in A.
  generalize (ar_dis _ A p q (in_or_app _ _ _ (or_introl P)) (in_or_app _ _ _ (or_introl Q)) N). unfold apart, disjoint. cbn. tauto.
Qed.
Lemma rest_exact w ts k n p : sreach sunread (w, ts) -> s_rest ts -> entry_of (w_tr w) k n p <-> In (Reg k n p) (held w).
Proof.
  intros R Q. pose proof (i_mi _ _ _ _ (sreach_inv _ R)) as (FW & BW). cbn in FW, BW.
  assert (N : forall (f : spc -> list reg), (forall t, returned t = true -> f t = []) -> flat_map f ts = []) by (intros f F; apply fm_nil; intros o J; apply F, Q, J).
  assert (T : forall x, tr (held w) ts x <-> In x (held w)).
  { intros x. unfold tr. rewrite (N otracked), (N minus), (N plus), app_nil_r by (intros t; destruct t; cbn; auto; discriminate). cbn. tauto. }
  split.
  - intros (c & M & E). destruct (FW k c M) as (r & -> & E' & X). apply T in X. rewrite E in E'. unfold rinfo in E'. injection E' as -> ->. destruct r. exact X.
  - intros X. apply T in X. destruct (BW _ X) as (c & M & E). exists c. auto.
Qed.
Lemma one_entry w ts : sreach sunread (w, ts) -> NoDup (map fst (t_map (w_tr w) 0)).
Proof. intros R. exact (ri_keys _ _ _ (i_ri _ _ _ _ (sreach_inv _ R))). Qed.
Lemma rest_records w ts : sreach sunread (w, ts) -> s_rest ts ->
  NoDup (map snd (t_map (w_tr w) 0) ++ t_free (w_tr w)) /\
  forall c, 0 <= c < t_next (w_tr w) -> In c (map snd (t_map (w_tr w) 0) ++ t_free (w_tr w)).
Proof.
  intros R Q. pose proof (i_ri _ _ _ _ (sreach_inv _ R)) as A. cbn in A.
  assert (N : flat_map own ts = []) by (apply fm_nil; intros t J; generalize (Q t J); destruct t; cbn; auto; discriminate).
  rewrite N in A. split; [exact (ri_slots _ _ _ A)|exact (ri_all _ _ _ A)].
Qed.
Lemma split_asked w ts x v l par c : sreach sunread (w, ts) -> In (SUp x v l par c) ts -> In (whole x) (held w).
Proof. intros R J. pose proof (i_loc _ _ _ _ (sreach_inv _ R) _ J) as L. cbn in L. tauto. Qed.
Lemma split_failed w ts x v e : sreach sunread (w, ts) -> In (SErr x v e) ts -> (In (whole x) (held w) <-> e <> NotThere).
Proof.
  intros R J. pose proof (i_loc _ _ _ _ (sreach_inv _ R) _ J) as (_ & L & L'). cbn in L, L'. split; [|exact L']. intros X E. exact (L E X).
Qed.
Lemma merge_asked w ts y v l lc hc : sreach sunread (w, ts) -> In (MUp y v l lc hc) ts ->
  exists a b, In (Reg (ma_lo y) a (ma_pool y)) (held w) /\ In (Reg (ma_hi y) b (ma_pool y)) (held w) /\ a + b = ma_size y.
Proof. intros R J. pose proof (i_loc _ _ _ _ (sreach_inv _ R) _ J) as L. cbn in L. tauto. Qed.
Lemma merge_refused w ts y v : sreach sunread (w, ts) -> In (MErr y v NotThere) ts -> ~ (In (lower y) (held w) /\ In (upper y) (held w)).
Proof. intros R J. pose proof (i_loc _ _ _ _ (sreach_inv _ R) _ J) as (_ & L). auto. Qed.

Lemma old_nd w ok t w' q : sstep w ok (Old t) = Some (w', [q]) -> exists o, q = Old o.
Proof.
  cbn [sstep]. destruct (tstep (w_tr w) ok t) as [s' l]. destruct l as [|o [|o' l]]; cbn; [discriminate| |destruct o; discriminate].
  destruct o; intros E; try discriminate; injection E as _ <-; eauto.
Qed.
Lemma look_nd w ok hd ts p g b t w' q : sstep w ok (note hd ts (Look p g b t)) = Some (w', [q]) -> exists g' b' o, q = Look p g' b' o.
Proof.
  assert (N : exists g' b', note hd ts (Look p g b t) = Look p g' b' t) by (destruct t; cbn; eauto).
  destruct N as (g' & b' & ->). cbn [sstep]. destruct (tstep (w_tr w) ok t) as [s' l]. destruct l as [|o [|o' l]]; cbn; intros E; try discriminate.
  injection E as _ <-. eauto.
Qed.
Ltac nodone S := cbn [note sstep] in S;
  repeat match type of S with
  | context [rec_new ?a ?b] => destruct (rec_new a b)
  | context [match ?v with _ => _ end] => is_var v; destruct v; cbn [sstep] in S
  | context [if ?v then _ else _] => destruct v
  | context [match tget ?a ?b with _ => _ end] => destruct (tget a b)
  end; try discriminate.
Lemma split_done w l t r ok w' x : sreach sunread (w, l ++ t :: r) -> returned t = false ->
  sstep w ok (note (held w) (l ++ r) t) = Some (w', [SDone x None]) -> In (first x) (held w') /\ In (second x) (held w').
Proof.
  intros R D S. assert (E : t = SUnl x /\ w' = SWorld (w_tr w) false (held w)).
  { destruct t; [destruct (old_nd _ _ _ _ _ S); discriminate|destruct (look_nd _ _ _ _ _ _ _ _ _ _ S) as (? & ? & ? & ?); discriminate|..];
    try discriminate; nodone S. injection S as <- <-. auto. }
  destruct E as (-> & ->). pose proof (i_loc _ _ _ _ (sreach_inv _ R) (SUnl x) (in_elt _ l r)) as (_ & L). exact L.
Qed.
Lemma merge_done w l t r ok w' y : sreach sunread (w, l ++ t :: r) -> returned t = false ->
  sstep w ok (note (held w) (l ++ r) t) = Some (w', [MDone y None]) -> In (union y) (held w').
Proof.
  intros R D S. assert (E : t = MUnl y /\ w' = SWorld (w_tr w) false (held w)).
  { destruct t; [destruct (old_nd _ _ _ _ _ S); discriminate|destruct (look_nd _ _ _ _ _ _ _ _ _ _ S) as (? & ? & ? & ?); discriminate|..];
    try discriminate; nodone S. injection S as <- <-. auto. }
  destruct E as (-> & ->). pose proof (i_loc _ _ _ _ (sreach_inv _ R) (MUnl y) (in_elt _ l r)) as (_ & L). exact L.
Qed.

(* ---- somebody can go on ---- *)
Lemma step_some w ts t : locked t <> [] \/ w_mtx w = false \/ (forall x v, t <> SLock x v) /\ (forall y v, t <> MLock y v) ->
  exists w' q, sstep w false (note (held w) ts t) = Some (w', q).
Proof.
  intros C. assert (G : forall o : tpc, exists s' q, tstep (w_tr w) false o = (s', q)) by (intros o; exists (fst (tstep (w_tr w) false o)), (snd (tstep (w_tr w) false o)); apply surjective_pairing).
  destruct t; cbn [note sstep].
  - destruct (G t) as (s' & q & ->). destruct q as [|[] [|? ?]]; eauto.
  - destruct t; cbn [sstep]; match goal with |- context [tstep ?s false ?o] => destruct (tstep s false o) as [s' q] end; eauto.
  - eauto.
  - destruct (w_mtx w); eauto. exfalso. destruct C as [C|[C|(C & _)]]; [apply C; reflexivity|discriminate|eapply C; reflexivity].
  - destruct g as [| | | | |[[[? ?] ?]|]]; eauto.
  - destruct (_ =? _); eauto.
  - eauto.
  - eauto.
  - eauto.
  - cbn. eauto.
  - eauto.
  - eauto.
  - eauto.
  - eauto.
  - eauto.
  - eauto.
  - eauto.
  - eauto.
  - eauto.
  - eauto.
  - destruct (w_mtx w); eauto. exfalso. destruct C as [C|[C|(_ & C)]]; [apply C; reflexivity|discriminate|eapply C; reflexivity].
  - destruct g as [| | | | |[[[? ?] ?]|]]; eauto.
  - destruct g as [| | | | |[[[? ?] ?]|]]; eauto.
  - match goal with |- context [if ?b then _ else _] => destruct b end; eauto.
  - eauto.
  - eauto.
  - eauto.
  - destruct (tget _ _); eauto.
  - eauto.
  - eauto.
  - eauto.
  - eauto.
  - eauto.
Qed.
Lemma refers_free t : srefers t <> [] -> gives t = [] /\ returned t = false /\ (forall x v, t <> SLock x v) /\ (forall y v, t <> MLock y v).
Proof.
  intros R. destruct t; cbn in R; try (exfalso; apply R; reflexivity); (split; [|split]); try reflexivity; try (split; discriminate);
    destruct t; cbn in R |- *; try reflexivity; exfalso; apply R; reflexivity.
Qed.
Lemma somebody w ts t0 : sreach sunread (w, ts) -> In t0 ts -> returned t0 = false ->
  exists l t r w' q, ts = l ++ t :: r /\ returned t = false /\ smove sunread (w, l ++ t :: r) (w', l ++ q ++ r) /\ sstep w false (note (held w) (l ++ r) t) = Some (w', q).
Proof.
  intros R J0 D0. pose proof (sreach_inv _ R) as I. cbn in I.
  assert (GO : forall t, In t ts -> returned t = false -> (locked t <> [] \/ w_mtx w = false \/ (forall x v, t <> SLock x v) /\ (forall y v, t <> MLock y v)) ->
    (gives t = [] \/ flat_map srefers ts = []) ->
    exists l t r w' q, ts = l ++ t :: r /\ returned t = false /\ smove sunread (w, l ++ t :: r) (w', l ++ q ++ r) /\ sstep w false (note (held w) (l ++ r) t) = Some (w', q)).
  { intros t J D C G. destruct (in_split _ _ J) as (l & r & E). destruct (step_some w (l ++ r) t C) as (w' & q & S).
    exists l, t, r, w', q. split; [exact E|]. split; [exact D|]. split; [|exact S]. eapply m_step; [exact S| |discriminate].
    intros c X. destruct G as [G|G]; [rewrite G in X; destruct X|]. intros Y. subst ts. rewrite flat_map_app in G. cbn in G.
    apply app_eq_nil in G. destruct G as (G1 & G2). apply app_eq_nil in G2. destruct G2 as (_ & G2). rewrite flat_map_app, G1, G2 in Y. destruct Y. }
  destruct (flat_map srefers ts) as [|c f] eqn:RF.
  - destruct (w_mtx w) eqn:MT; [|apply (GO t0); auto].
    pose proof (i_cnt _ _ _ _ I) as C. assert (X : exists o, In o ts /\ locked o <> []).
    { destruct (flat_map locked ts) as [|u us] eqn:FL; [discriminate|]. assert (IU : In u (flat_map locked ts)) by (rewrite FL; left; reflexivity).
      apply in_flat_map in IU. destruct IU as (o & A & B). exists o. split; [exact A|]. intros E. rewrite E in B. destruct B. }
    destruct X as (o & A & B). apply (GO o); auto. destruct o; cbn in B |- *; try reflexivity; exfalso; apply B; reflexivity.
  - assert (IU : In c (flat_map srefers ts)) by (rewrite RF; left; reflexivity). apply in_flat_map in IU. destruct IU as (o & A & B).
    destruct (refers_free o) as (G & D & L); [intros E; rewrite E in B; destruct B|]. apply (GO o); auto.
Qed.

(* ---- an executable run ---- *)
Inductive act := XAlloc (r : reg) | XFree (n : nat) | XLook (p a : Z) | XSplit (x : sargs) | XMerge (y : margs) | XStep (n : nat) (ok : bool).
Definition apartb (r : reg) (z : Z * Z) : bool := (r_ptr r + r_size r <=? fst z) || (fst z + snd z <=? r_ptr r).
Lemma apartb_ok r z : apartb r z = true -> apart r z.
Proof. unfold apartb, apart. rewrite orb_true_iff, !Z.leb_le. auto. Qed.
Definition covb (hd : list reg) (p a n : Z) : bool :=
  existsb (fun q => (r_ptr q <=? a) && (a + n <=? r_ptr q + r_size q) && (r_pool q =? p)) hd.
Lemma covb_ok hd p a n : covb hd p a n = true -> covered hd p a n.
Proof.
  unfold covb. rewrite existsb_exists. intros (q & Q & E) x X. rewrite !andb_true_iff, !Z.leb_le, Z.eqb_eq in E. exists q. rewrite within_eq. repeat split; auto; lia.
Qed.
Definition xact (gate : bool) (x : sworld * list spc) (a : act) : option (sworld * list spc) :=
  let '(w, ts) := x in
  match a with
  | XAlloc r => if (0 <? r_size r) && forallb (fun q => apartb r (r_ptr q, r_size q)) (held w ++ flat_map sregion ts) then Some (w, Old (AFind r 0 None) :: ts) else None
  | XFree n => match nth_error (held w) n with
               | Some r => if forallb (apartb r) (flat_map about ts)
                           then Some (SWorld (w_tr w) (w_mtx w) (firstn n (held w) ++ skipn (S n) (held w)), Old (RFind r 0 None None) :: ts) else None
               | None => None
               end
  | XLook p b => if covb (held w) p b 1 then Some (w, Look p [] false (LFind (Reg b 1 p) b 0 None) :: ts) else None
  | XSplit y => if (0 <? sa_first y) && (sa_first y <? sa_size y) && covb (held w) (sa_pool y) (sa_ptr y) (sa_size y) then Some (w, SNew y :: ts) else None
  | XMerge y => if (ma_lo y <? ma_hi y) && (ma_hi y <? ma_lo y + ma_size y) &&
                   covb (held w) (ma_pool y) (ma_lo y) (ma_hi y - ma_lo y) && covb (held w) (ma_pool y) (ma_hi y) (ma_lo y + ma_size y - ma_hi y)
                then Some (w, MNew y :: ts) else None
  | XStep n ok =>
      match nth_error ts n with
      | Some t =>
          let o := firstn n ts ++ skipn (S n) ts in
          if (negb gate || forallb (fun c => negb (existsb (Z.eqb c) (flat_map srefers o))) (gives t)) &&
             match t with MUp y _ _ _ _ => negb ok || existsb (fun q => (r_ptr q =? ma_lo y) && (r_size q =? ma_hi y - ma_lo y)) (held w) | _ => true end
          then match sstep w ok (note (held w) o t) with Some (w', q) => Some (w', firstn n ts ++ q ++ skipn (S n) ts) | None => None end
          else None
      | None => None
      end
  end.
Fixpoint xrun (gate : bool) (x : sworld * list spc) (l : list act) : option (sworld * list spc) :=
  match l with [] => Some x | a :: m => match xact gate x a with Some y => xrun gate y m | None => None end end.
Definition policy (gate : bool) : list spc -> Z -> Prop := if gate then sunread else sat_once.
Lemma nth_cut {A} (l : list A) n x : nth_error l n = Some x -> l = firstn n l ++ x :: skipn (S n) l.
Proof.
  revert n. induction l as [|y l IH]; intros [|n]; cbn; intros H; try discriminate; [injection H as ->; reflexivity|]. f_equal. apply IH, H.
Qed.
Lemma xact_ok gate x a y : xact gate x a = Some y -> smove (policy gate) x y.
Proof.
  destruct x as [w ts]. destruct a; cbn [xact].
  - destruct (_ && _) eqn:E; [|discriminate]. intros X. injection X as <-. apply andb_true_iff in E. destruct E as (E1 & E2). rewrite forallb_forall in E2.
    apply m_alloc; [apply Z.ltb_lt, E1|]. intros q Q. apply apartb_ok, E2, Q.
  - destruct (nth_error (held w) n) as [r|] eqn:N; [|discriminate]. destruct (forallb _ _) eqn:E; [|discriminate]. intros X. injection X as <-.
    rewrite forallb_forall in E. destruct w as [s m h]. cbn [w_tr w_mtx held] in *. rewrite (nth_cut _ _ _ N) at 1. apply m_dealloc. intros z Z0. apply apartb_ok, E, Z0.
  - destruct (covb _ _ _ _) eqn:E; [|discriminate]. intros X. injection X as <-. apply m_look, covb_ok, E.
  - destruct (_ && _) eqn:E; [|discriminate]. intros X. injection X as <-. rewrite !andb_true_iff, !Z.ltb_lt in E. apply m_split; [lia|apply covb_ok; tauto].
  - destruct (_ && _) eqn:E; [|discriminate]. intros X. injection X as <-. rewrite !andb_true_iff, !Z.ltb_lt in E. apply m_merge; [lia|].
    destruct E as ((E & C1) & C2). apply covb_ok in C1, C2. intros z Z0. destruct (Z_lt_ge_dec z (ma_hi y0)); [apply C1; lia|apply C2; lia].
  - destruct (nth_error ts n) as [t|] eqn:N; [|discriminate]. destruct (_ && _) eqn:E; [|discriminate].
    destruct (sstep _ _ _) as [[w' q]|] eqn:SS; [|discriminate]. intros X. injection X as <-. rewrite (nth_cut _ _ _ N) at 1. apply andb_true_iff in E. destruct E as (E1 & E2).
    eapply m_step; [exact SS| |].
    + intros c C. destruct gate; cbn; [|exact Logic.I]. cbn [negb orb] in E1. rewrite forallb_forall in E1. specialize (E1 c C). apply negb_true_iff in E1.
      intros Y. assert (existsb (Z.eqb c) (flat_map srefers (firstn n ts ++ skipn (S n) ts)) = true) by (apply existsb_exists; exists c; split; [exact Y|apply Z.eqb_refl]). congruence.
    + intros y0 v lv lc hc -> ->. cbn in E2. apply existsb_exists in E2. destruct E2 as (r & R & E2). rewrite andb_true_iff, !Z.eqb_eq in E2. destruct E2 as (A & B).
      exists (r_pool r). rewrite <- B, <- A. destruct r; exact R.
Qed.
Lemma xrun_ok gate l x y : sreach (policy gate) x -> xrun gate x l = Some y -> sreach (policy gate) y.
Proof.
  revert x. induction l as [|a l IH]; cbn; intros x R E; [injection E as <-; exact R|]. destruct (xact gate x a) as [z|] eqn:X; [|discriminate].
  apply (IH z); [|exact E]. eapply sr_move; [exact R|exact (xact_ok _ _ _ _ X)].
Qed.
