(* Invariant of the concurrent IPC cache and its preservation. *)
From Verif Require Import Base Model_IpcConc Spec_IpcConc.
From Coq Require Import Permutation.

Fixpoint tot (f : pc -> Z) (ps : list pc) : Z := match ps with [] => 0 | p :: r => f p + tot f r end.

Definition ent (p : pc) : option Z :=
  match p with
  | OUntrack _ _ e _ | OUnmap _ _ e _ | OLoad _ _ e | OLock _ _ e | OLoad2 _ _ e | OOpen _ _ e | OTrack _ _ e _
  | OUndo _ _ e _ | OStore _ _ e _ | OUnlock _ _ e _ | Held _ _ e _ | CGet _ _ e _ | CDec _ _ e _ _ => Some e
  | _ => None
  end.
Definition uses (e : Z) (p : pc) : Z := match ent p with Some x => if x =? e then 1 else 0 | None => 0 end.
Definition locks (e : Z) (p : pc) : Z :=
  match p with
  | OLoad2 _ _ x | OOpen _ _ x | OTrack _ _ x _ | OUndo _ _ x _ | OStore _ _ x _ | OUnlock _ _ x _ => if x =? e then 1 else 0
  | _ => 0
  end.
Definition glocks (p : pc) : Z := match p with OFind _ _ | OScan _ _ _ | OAlloc _ _ => 1 | _ => 0 end.
Definition nz (a : Z) : list Z := if a =? 0 then [] else [a].
Definition own (p : pc) : list Z :=
  match p with
  | OUntrack _ _ _ a | OUnmap _ _ _ a => nz a
  | OTrack _ _ _ a | OUndo _ _ _ a | OStore _ _ _ a => [a]
  | _ => []
  end.
Definition bases (b : Z -> Z) (l : list Z) : list Z := flat_map (fun e => nz (b e)) l.

Definition loc (s : cstate) (p : pc) : Prop :=
  match p with
  | OScan k _ cs => s_hash s k = None /\ incl cs (s_lru s)
  | OAlloc k _ => s_hash s k = None
  | OUnmap _ _ _ a => s_segs s a = None \/ a = 0
  | OOpen _ _ e => s_base s e = 0
  | OTrack _ _ e a | OUndo _ _ e a => s_base s e = 0 /\ a <> 0 /\ s_segs s a = None
  | OStore _ _ e a => s_base s e = 0 /\ a <> 0 /\ s_segs s a = Some e
  | OUnlock _ _ e true => s_base s e <> 0
  | Held _ _ e a | CGet _ _ e a => s_base s e = a /\ a <> 0
  | CDec _ _ e a e' => e' = e /\ s_base s e = a /\ a <> 0
  | Bad _ => False
  | _ => True
  end.

Record inv (s : cstate) (ps : list pc) : Prop := Inv {
  i_nd : NoDup (s_lru s);
  i_hash : forall k e, s_hash s k = Some e <-> In e (s_lru s) /\ s_key s e = k;
  i_next : forall e, In e (s_lru s) -> e < s_next s;
  i_ent : forall p e, In p ps -> ent p = Some e -> In e (s_lru s) /\ s_key s e = pc_key p /\ s_hid s e = pc_hid p;
  i_ref : forall e, In e (s_lru s) -> tot (uses e) ps <= s_ref s e;
  i_ml : forall e, tot (locks e) ps = if s_mlock s e then 1 else 0;
  i_gl : tot glocks ps = if s_glock s then 1 else 0;
  i_loc : forall p, In p ps -> loc s p;
  i_segs : forall e, In e (s_lru s) -> s_base s e <> 0 -> s_segs s (s_base s e) = Some e;
  i_segm : forall a e, s_segs s a = Some e -> In a (s_mapped s);
  i_map : Permutation (s_mapped s) (bases (s_base s) (s_lru s) ++ flat_map own ps);
  i_mnd : NoDup (s_mapped s);
  i_one : forall p q, In p ps -> In q ps -> pc_key p = pc_key q -> pc_hid p = pc_hid q }.

(* ---- sums ---- *)
Lemma tot_perm f a b : Permutation a b -> tot f a = tot f b.
Proof. induction 1; cbn; lia. Qed.
Lemma tot_app f a b : tot f (a ++ b) = tot f a + tot f b.
Proof. induction a; cbn; lia. Qed.
Lemma tot_nonneg f ps : (forall p, 0 <= f p) -> 0 <= tot f ps.
Proof. intros H. induction ps as [|p ps IH]; cbn; [lia|]. specialize (H p). lia. Qed.
Lemma uses_nn e p : 0 <= uses e p.
Proof. unfold uses. destruct (ent p) as [x|]; [destruct (x =? e)|]; lia. Qed.
Lemma locks_nn e p : 0 <= locks e p.
Proof. destruct p; cbn; try lia; destruct (_ =? e); lia. Qed.
Lemma glocks_nn p : 0 <= glocks p.
Proof. destruct p; cbn; lia. Qed.
Lemma tot_in f p ps : (forall q, 0 <= f q) -> In p ps -> f p <= tot f ps.
Proof.
  intros H. induction ps as [|q ps IH]; [intros []|]. intros [->|I]; cbn.
  - generalize (tot_nonneg f ps H). lia.
  - specialize (IH I). specialize (H q). lia.
Qed.
Lemma tot_zero f ps : (forall q, 0 <= f q) -> tot f ps = 0 -> forall p, In p ps -> f p = 0.
Proof. intros H Z0 p I. generalize (tot_in f p ps H I) (H p). lia. Qed.
Lemma uses_ent e p : ent p = Some e -> uses e p = 1.
Proof. unfold uses. intros ->. rewrite Z.eqb_refl. reflexivity. Qed.
Lemma locks_uses e p : locks e p <= uses e p.
Proof. destruct p; unfold uses; cbn; try lia; destruct (_ =? e); lia. Qed.
Lemma tot_le f g ps : (forall p, f p <= g p) -> tot f ps <= tot g ps.
Proof. intros H. induction ps as [|p ps IH]; cbn; [lia|]. specialize (H p). lia. Qed.

Lemma inv_perm s a b : Permutation a b -> inv s a -> inv s b.
Proof.
  intros P I. assert (IN : forall p, In p b -> In p a) by (intros p; apply Permutation_in; symmetry; exact P).
  destruct I; constructor; auto.
  - intros e H. rewrite <- (tot_perm _ _ _ P). auto.
  - intros e. rewrite <- (tot_perm _ _ _ P). auto.
  - rewrite <- (tot_perm _ _ _ P). auto.
  - rewrite i_map0. apply Permutation_app_head, Permutation_flat_map, P.
Qed.

(* ---- lists ---- *)
Lemma without_in x y l : In x (without y l) <-> In x l /\ x <> y.
Proof. unfold without. rewrite filter_In. rewrite negb_true_iff, Z.eqb_neq. tauto. Qed.
Lemma without_nd y l : NoDup l -> NoDup (without y l).
Proof. apply NoDup_filter. Qed.
Lemma without_out y l : ~ In y l -> without y l = l.
Proof.
  intros H. unfold without. induction l as [|x l IH]; [reflexivity|]. cbn.
  destruct (Z.eqb_spec x y) as [->|N]; [exfalso; apply H; left; reflexivity|]. cbn. f_equal. apply IH. intros I. apply H. right. exact I.
Qed.
Lemma without_perm y l : NoDup l -> In y l -> Permutation l (y :: without y l).
Proof.
  induction l as [|x l IH]; intros ND I; [destruct I|]. inversion ND; subst. unfold without. cbn.
  destruct (Z.eqb_spec x y) as [->|N].
  - cbn. fold (without y l). rewrite without_out by assumption. reflexivity.
  - cbn. destruct I as [->|I]; [congruence|]. fold (without y l). rewrite (IH H2 I) at 1. apply perm_swap.
Qed.
Lemma set_eq {A} (f : Z -> A) k v : set f k v k = v.
Proof. unfold set. rewrite Z.eqb_refl. reflexivity. Qed.
Lemma set_ne {A} (f : Z -> A) k v x : x <> k -> set f k v x = f x.
Proof. unfold set. intros H. destruct (Z.eqb_spec x k); [contradiction|reflexivity]. Qed.
Lemma bases_ext f g l : (forall e, In e l -> f e = g e) -> bases f l = bases g l.
Proof.
  intros H. unfold bases. induction l as [|x l IH]; [reflexivity|]. cbn. rewrite H by (left; reflexivity). f_equal. apply IH.
  intros e I. apply H. right. exact I.
Qed.
Lemma bases_in b l a : In a (bases b l) <-> exists e, In e l /\ b e = a /\ a <> 0.
Proof.
  unfold bases. rewrite in_flat_map. split; intros (e & I & H); exists e; split; auto; unfold nz in *; destruct (Z.eqb_spec (b e) 0) as [Z0|N].
  - destruct H.
  - destruct H as [<-|[]]. auto.
  - destruct H; congruence.
  - destruct H as (<- & _). left. reflexivity.
Qed.
Lemma mem_in x l : mem x l = true <-> In x l.
Proof. unfold mem. rewrite existsb_exists. split; [intros (y & I & E); apply Z.eqb_eq in E; subst; exact I|intros I; exists x; rewrite Z.eqb_refl; auto]. Qed.

Lemma nodup_app_not (x : Z) a b : NoDup (a ++ b) -> In x a -> ~ In x b.
Proof.
  induction a as [|y a IH]; intros ND I; [destruct I|]. cbn in ND. inversion ND; subst. destruct I as [->|I].
  - intros J. apply H1. apply in_or_app. right. exact J.
  - apply IH; assumption.
Qed.

Lemma nodup_app_r (a b : list Z) : NoDup (a ++ b) -> NoDup b.
Proof. induction a as [|x a IH]; cbn; [auto|]. intros H. inversion H; auto. Qed.

Section Facts.
  Variable s : cstate.
  Variable p : pc.
  Variable r : list pc.
  Hypothesis I : inv s (p :: r).

  Lemma nd_all : NoDup (bases (s_base s) (s_lru s) ++ own p ++ flat_map own r).
  Proof. eapply Permutation_NoDup; [exact (i_map _ _ I)|exact (i_mnd _ _ I)]. Qed.

  (* what this thread owns is no mapping of an entry and not owned by another *)
  Lemma own_fresh a : In a (own p) -> (forall e, In e (s_lru s) -> s_base s e <> a) /\ (forall q, In q r -> ~ In a (own q)).
  Proof.
    intros O. generalize nd_all. intros ND. split.
    - intros e L E. assert (A0 : a <> 0).
      { generalize (i_loc _ _ I p (or_introl eq_refl)). clear - O.
        destruct p; cbn in O |- *; try contradiction; unfold nz in O; try (destruct (Z.eqb_spec a0 0); [contradiction|]; destruct O as [<-|[]]; intros _; assumption).
        all: destruct O as [<-|[]]; tauto. }
      apply (nodup_app_not a _ _ ND); [apply bases_in; exists e; auto|apply in_or_app; left; exact O].
    - intros q J K. apply nodup_app_r in ND. apply (nodup_app_not a _ _ ND O). apply in_flat_map. exists q. auto.
  Qed.
End Facts.

Definition b2z (b : bool) : Z := if b then 1 else 0.

(* a step that leaves the tables alone *)
Lemma inv_frame s s' p q r : inv s (p :: r) ->
  s_lru s' = s_lru s -> s_hash s' = s_hash s -> s_key s' = s_key s -> s_hid s' = s_hid s -> s_next s' = s_next s ->
  (forall o, In o q -> ent o = ent p /\ pc_key o = pc_key p /\ pc_hid o = pc_hid p /\ loc s' o) -> (length q <= 1)%nat ->
  (forall e, In e (s_lru s) -> tot (uses e) q + s_ref s e - uses e p <= s_ref s' e) ->
  (forall e, tot (locks e) q - locks e p = b2z (s_mlock s' e) - b2z (s_mlock s e)) ->
  (tot glocks q - glocks p = b2z (s_glock s') - b2z (s_glock s)) ->
  (forall o, In o r -> loc s' o) ->
  (forall e, In e (s_lru s) -> s_base s' e <> 0 -> s_segs s' (s_base s' e) = Some e) ->
  (forall a e, s_segs s' a = Some e -> In a (s_mapped s')) ->
  Permutation (s_mapped s') (bases (s_base s') (s_lru s) ++ flat_map own q ++ flat_map own r) -> NoDup (s_mapped s') ->
  inv s' (q ++ r).
Proof.
  intros I E1 E2 E3 E4 E5 Q QL R ML GL LO SE SM PM ND. destruct I. constructor; rewrite ?E1, ?E2, ?E3, ?E4, ?E5; auto.
  - intros o e J H. apply in_app_or in J. destruct J as [J|J].
    + destruct (Q o J) as (A & B & C & _). rewrite A in H. rewrite B, C. apply i_ent0; [left; reflexivity|exact H].
    + apply i_ent0; [right; exact J|exact H].
  - intros e H. rewrite tot_app. specialize (R e H). specialize (i_ref0 e H). cbn in i_ref0. clear - R i_ref0. lia.
  - intros e. rewrite tot_app. specialize (ML e). specialize (i_ml0 e). cbn in i_ml0. unfold b2z in ML. clear - ML i_ml0. lia.
  - rewrite tot_app. cbn in i_gl0. unfold b2z in GL. clear - GL i_gl0. lia.
  - intros o J. apply in_app_or in J. destruct J as [J|J]; [apply Q, J|apply LO, J].
  - rewrite flat_map_app. exact PM.
  - intros o o' J J' K. assert (A : forall x, In x (q ++ r) -> exists y, In y (p :: r) /\ pc_key y = pc_key x /\ pc_hid y = pc_hid x).
    { intros x X. apply in_app_or in X. destruct X as [X|X]; [exists p; destruct (Q x X) as (_ & B & C & _); repeat split; auto; left; reflexivity|exists x; repeat split; right; exact X]. }
    destruct (A o J) as (y & Y1 & Y2 & Y3). destruct (A o' J') as (y' & Y1' & Y2' & Y3'). rewrite <- Y3, <- Y3'. apply i_one0; congruence.
Qed.

(* a step that changes nothing shared *)
Lemma inv_local s p q r : inv s (p :: r) -> ent q = ent p -> (forall e, locks e q = locks e p) -> glocks q = glocks p -> own q = own p ->
  pc_key q = pc_key p -> pc_hid q = pc_hid p -> loc s q -> inv s (q :: r).
Proof.
  intros I E L G O K H C. apply (inv_frame s s p [q] r); auto.
  - intros o [<-|[]]. auto.
  - intros e _. cbn. unfold uses. rewrite E. lia.
  - intros e. cbn. rewrite L. lia.
  - cbn. rewrite G. lia.
  - intros o J. apply (i_loc _ _ I). right. exact J.
  - apply (i_segs _ _ I).
  - apply (i_segm _ _ I).
  - cbn. rewrite app_nil_r, O. exact (i_map _ _ I).
  - apply (i_mnd _ _ I).
Qed.

(* a thread outside cache_lock is indifferent to the tables *)
Lemma loc_ext s s' o : glocks o = 0 -> (forall e, ent o = Some e -> s_base s' e = s_base s e) ->
  (forall a, In a (own o) -> s_segs s' a = s_segs s a) -> loc s o -> loc s' o.
Proof.
  intros G B S. destruct o; cbn in *; try discriminate; auto;
    try (destruct ok; rewrite ?(B e eq_refl); auto; fail); rewrite ?(B e eq_refl); auto.
  - unfold nz in S. destruct (Z.eqb_spec a 0); [auto|]. rewrite S by (left; reflexivity). auto.
  - rewrite S by (left; reflexivity). auto.
  - rewrite S by (left; reflexivity). auto.
  - rewrite S by (left; reflexivity). auto.
Qed.

Lemma lock_alone s p r : inv s (p :: r) -> glocks p = 1 -> s_glock s = true /\ forall o, In o r -> glocks o = 0.
Proof.
  intros I G. generalize (i_gl _ _ I). cbn [tot]. rewrite G. generalize (tot_nonneg glocks r glocks_nn). intros N H.
  destruct (s_glock s); [|lia]. split; [reflexivity|]. apply tot_zero; [apply glocks_nn|lia].
Qed.

Lemma hit_inv s k h r e : inv s (OFind k h :: r) -> s_hash s k = Some e -> s_hid s e = h ->
  inv (w_glock (w_ref (w_lru s (e :: without e (s_lru s))) e (s_ref s e + 1)) false) (OLoad k h e :: r).
Proof.
  intros I HE HH. destruct (lock_alone _ _ _ I eq_refl) as (GL & AL). destruct (proj1 (i_hash _ _ I k e) HE) as (EL & EK).
  assert (MEM : forall x, In x (e :: without e (s_lru s)) <-> In x (s_lru s)).
  { intros x. cbn. rewrite without_in. destruct (Z.eq_dec x e); [subst; tauto|intuition congruence]. }
  assert (PL : Permutation (s_lru s) (e :: without e (s_lru s))) by (apply without_perm; [apply (i_nd _ _ I)|exact EL]).
  constructor; cbn [w_glock w_ref w_lru s_key s_ref s_hid s_base s_mlock s_hash s_lru s_cap s_glock s_next s_segs s_mapped].
  - eapply Permutation_NoDup; [exact PL|apply (i_nd _ _ I)].
  - intros k' x. rewrite MEM. apply (i_hash _ _ I).
  - intros x. rewrite MEM. apply (i_next _ _ I).
  - intros o x [<-|J] X; rewrite MEM.
    + injection X as <-. auto.
    + apply (i_ent _ _ I); [right; exact J|exact X].
  - intros x. rewrite MEM. intros X. generalize (i_ref _ _ I x X). cbn [tot]. unfold uses at 1 3. cbn [ent].
    destruct (Z.eqb_spec e x) as [->|N]; [rewrite set_eq|rewrite set_ne by congruence]; lia.
  - intros x. exact (i_ml _ _ I x).
  - generalize (i_gl _ _ I). rewrite GL. cbn [tot glocks]. rewrite ?G. lia.
  - intros o [<-|J]; [exact Logic.I|]. apply (loc_ext s); auto. apply (i_loc _ _ I). right. exact J.
  - intros x. rewrite MEM. apply (i_segs _ _ I).
  - apply (i_segm _ _ I).
  - rewrite (i_map _ _ I). cbn [flat_map own app]. apply Permutation_app_tail. unfold bases. apply Permutation_flat_map, PL.
  - apply (i_mnd _ _ I).
  - intros o o' J J' K. assert (A : forall x, In x (OLoad k h e :: r) -> exists y, In y (OFind k h :: r) /\ pc_key y = pc_key x /\ pc_hid y = pc_hid x).
    { intros x [<-|X]; [exists (OFind k h)|exists x]; cbn; auto. }
    destruct (A o J) as (y & Y1 & Y2 & Y3). destruct (A o' J') as (y' & Y1' & Y2' & Y3'). rewrite <- Y3, <- Y3'. apply (i_one _ _ I); congruence.
Qed.

Lemma install_old s p k h r c : inv s (p :: r) -> glocks p = 1 -> pc_key p = k -> pc_hid p = h ->
  ent p = None -> own p = [] -> (forall e, locks e p = 0) ->
  In c (s_lru s) -> (s_hash s k = None \/ s_key s c = k) -> (forall o, In o r -> ent o <> Some c) ->
  inv (install s k h c true) (OUntrack k h c (s_base s c) :: r).
Proof.
  intros I G PK PH PE PO PL CL CK NU. destruct (lock_alone _ _ _ I G) as (GL & AL).
  assert (MEM : forall x, In x (c :: without c (s_lru s)) <-> In x (s_lru s)).
  { intros x. cbn. rewrite without_in. destruct (Z.eq_dec x c); [subst; tauto|intuition congruence]. }
  assert (PM : Permutation (s_lru s) (c :: without c (s_lru s))) by (apply without_perm; [apply (i_nd _ _ I)|exact CL]).
  assert (CN : forall o e, In o r -> ent o = Some e -> e <> c) by (intros o e J X ->; apply (NU o J X)).
  constructor; cbn [install s_key s_ref s_hid s_base s_mlock s_hash s_lru s_cap s_glock s_next s_segs s_mapped].
  - eapply Permutation_NoDup; [exact PM|apply (i_nd _ _ I)].
  - intros k' x. rewrite MEM. destruct (Z.eq_dec k' k) as [->|NK].
    + rewrite set_eq. destruct (Z.eq_dec x c) as [->|NX]; [rewrite set_eq; tauto|]. rewrite set_ne by exact NX. split; [congruence|].
      intros (X & XK). exfalso. destruct CK as [CK|CK].
      * generalize (proj2 (i_hash _ _ I k x) (conj X XK)). congruence.
      * generalize (proj2 (i_hash _ _ I k x) (conj X XK)) (proj2 (i_hash _ _ I k c) (conj CL CK)). congruence.
    + rewrite set_ne by exact NK. destruct (Z.eq_dec k' (s_key s c)) as [->|NC].
      * rewrite set_eq. split; [discriminate|]. intros (X & XK). destruct (Z.eq_dec x c) as [->|NX]; [rewrite set_eq in XK; congruence|].
        rewrite set_ne in XK by exact NX. generalize (proj2 (i_hash _ _ I _ x) (conj X XK)) (proj2 (i_hash _ _ I _ c) (conj CL eq_refl)). congruence.
      * rewrite set_ne by exact NC. rewrite (i_hash _ _ I). destruct (Z.eq_dec x c) as [->|NX]; [rewrite set_eq; intuition congruence|].
        rewrite set_ne by exact NX. tauto.
  - intros x. rewrite MEM. apply (i_next _ _ I).
  - intros o x [<-|J] X; rewrite MEM.
    + injection X as <-. rewrite !set_eq. auto.
    + rewrite !set_ne by (eapply CN; eauto). apply (i_ent _ _ I); [right; exact J|exact X].
  - intros x. rewrite MEM. intros X. cbn [tot]. unfold uses at 1. cbn [ent]. destruct (Z.eqb_spec c x) as [<-|N].
    + rewrite set_eq. assert (Z0 : tot (uses c) r = 0); [|lia]. clear - NU. induction r as [|o r' IH]; [reflexivity|]. cbn [tot].
      rewrite IH by (intros o' J; apply NU; right; exact J). unfold uses. specialize (NU o (or_introl eq_refl)).
      destruct (ent o) as [e|]; [|reflexivity]. destruct (Z.eqb_spec e c); [congruence|reflexivity].
    + rewrite set_ne by congruence. generalize (i_ref _ _ I x X). cbn [tot]. unfold uses at 1. rewrite PE. lia.
  - intros x. generalize (i_ml _ _ I x). cbn [tot]. rewrite PL. exact (fun H => H).
  - generalize (i_gl _ _ I). rewrite GL. cbn [tot glocks]. rewrite ?G. lia.
  - intros o [<-|J]; [exact Logic.I|]. apply (loc_ext s); auto; [|apply (i_loc _ _ I); right; exact J].
    intros e X. cbn. apply set_ne. eapply CN; eauto.
  - intros x. rewrite MEM. intros X. destruct (Z.eq_dec x c) as [->|NX]; [rewrite set_eq; congruence|]. rewrite set_ne by exact NX. apply (i_segs _ _ I), X.
  - apply (i_segm _ _ I).
  - rewrite (i_map _ _ I). cbn [flat_map]. rewrite PO. cbn [app own]. rewrite (Permutation_flat_map (fun e => nz (s_base s e)) PM : Permutation (bases (s_base s) (s_lru s)) (bases (s_base s) (c :: without c (s_lru s)))).
    cbn [bases flat_map]. rewrite set_eq. cbn [nz Z.eqb app]. change (flat_map (fun e => nz (s_base s e))) with (bases (s_base s)).
    change (flat_map (fun e => nz (set (s_base s) c 0 e))) with (bases (set (s_base s) c 0)).
    rewrite (bases_ext (set (s_base s) c 0) (s_base s)); [rewrite <- app_assoc; apply Permutation_app_swap_app|].
    intros e X. apply without_in in X. apply set_ne. tauto.
  - apply (i_mnd _ _ I).
  - intros o o' J J' K. assert (A : forall x, In x (OUntrack k h c (s_base s c) :: r) -> exists y, In y (p :: r) /\ pc_key y = pc_key x /\ pc_hid y = pc_hid x).
    { intros x [<-|X]; [exists p|exists x]; cbn; auto. }
    destruct (A o J) as (y & Y1 & Y2 & Y3). destruct (A o' J') as (y' & Y1' & Y2' & Y3'). rewrite <- Y3, <- Y3'. apply (i_one _ _ I); congruence.
Qed.

Lemma install_new s k h r : inv s (OAlloc k h :: r) ->
  inv (install (w_next s (s_next s + 1)) k h (s_next s) false) (OLoad k h (s_next s) :: r).
Proof.
  intros I. destruct (lock_alone _ _ _ I eq_refl) as (GL & AL). set (c := s_next s).
  assert (HN : s_hash s k = None) by exact (i_loc _ _ I _ (or_introl eq_refl)).
  assert (CN : ~ In c (s_lru s)) by (intros X; generalize (i_next _ _ I c X); unfold c; lia).
  assert (NU : forall o e, In o r -> ent o = Some e -> e <> c).
  { intros o e J X ->. apply CN. exact (proj1 (i_ent _ _ I o c (or_intror J) X)). }
  assert (LW : without c (s_lru s) = s_lru s) by (apply without_out, CN).
  assert (NC : forall x, In x (s_lru s) -> x <> c) by (intros x X ->; auto).
  constructor; cbn [install w_next s_key s_ref s_hid s_base s_mlock s_hash s_lru s_cap s_glock s_next s_segs s_mapped]; rewrite ?LW.
  - constructor; [exact CN|apply (i_nd _ _ I)].
  - intros k' x. destruct (Z.eq_dec k' k) as [->|NK].
    + rewrite set_eq. split; [intros E; injection E as <-; rewrite set_eq; cbn; auto|]. intros ([<-|X] & XK); [reflexivity|].
      rewrite set_ne in XK by (apply NC, X). generalize (proj2 (i_hash _ _ I k x) (conj X XK)). congruence.
    + rewrite set_ne by exact NK. rewrite (i_hash _ _ I). cbn. split.
      * intros (X & XK). rewrite set_ne by (apply NC, X). auto.
      * intros ([<-|X] & XK); [rewrite set_eq in XK; congruence|]. rewrite set_ne in XK by (apply NC, X). auto.
  - intros x [<-|X]; [unfold c; lia|]. generalize (i_next _ _ I x X). lia.
  - intros o x [<-|J] X.
    + injection X as <-. rewrite !set_eq. cbn. auto.
    + rewrite !set_ne by (eapply NU; eauto). destruct (i_ent _ _ I o x (or_intror J) X) as (A & B & C). cbn. auto.
  - intros x X. cbn [tot]. unfold uses at 1. cbn [ent]. destruct (Z.eqb_spec c x) as [<-|N].
    + rewrite set_eq. assert (Z0 : tot (uses c) r = 0); [|lia]. clear - NU. induction r as [|o r' IH]; [reflexivity|]. cbn [tot].
      rewrite IH by (intros o' e J; apply NU; right; exact J). unfold uses. specialize (NU o).
      destruct (ent o) as [e|]; [|reflexivity]. destruct (Z.eqb_spec e c); [|reflexivity]. exfalso. apply (NU e (or_introl eq_refl) eq_refl). assumption.
    + rewrite set_ne by congruence. destruct X as [X|X]; [congruence|]. exact (i_ref _ _ I x X).
  - intros x. exact (i_ml _ _ I x).
  - generalize (i_gl _ _ I). rewrite GL. cbn [tot glocks]. rewrite ?G. lia.
  - intros o [<-|J]; [exact Logic.I|]. apply (loc_ext s); auto; [|apply (i_loc _ _ I); right; exact J].
    intros e X. cbn. apply set_ne. eapply NU; eauto.
  - intros x [<-|X]; [rewrite set_eq; congruence|]. rewrite set_ne by (apply NC, X). apply (i_segs _ _ I), X.
  - apply (i_segm _ _ I).
  - rewrite (i_map _ _ I). cbn [bases flat_map own app]. rewrite set_eq. cbn [nz Z.eqb app]. apply Permutation_app_tail.
    change (flat_map (fun e => nz (set (s_base s) c 0 e))) with (bases (set (s_base s) c 0)).
    rewrite (bases_ext (set (s_base s) c 0) (s_base s)); [reflexivity|]. intros e X. apply set_ne, NC, X.
  - apply (i_mnd _ _ I).
  - intros o o' J J' K. assert (A : forall x, In x (OLoad k h c :: r) -> exists y, In y (OAlloc k h :: r) /\ pc_key y = pc_key x /\ pc_hid y = pc_hid x).
    { intros x [<-|X]; [exists (OAlloc k h)|exists x]; cbn; auto. }
    destruct (A o J) as (y & Y1 & Y2 & Y3). destruct (A o' J') as (y' & Y1' & Y2' & Y3'). rewrite <- Y3, <- Y3'. apply (i_one _ _ I); congruence.
Qed.

Ltac st := cbn [w_glock w_ref w_lru w_base w_mlock w_next w_segs w_mapped s_key s_ref s_hid s_base s_mlock s_hash s_lru s_cap s_glock s_next s_segs s_mapped].

(* the holder of an entry's mmap_lock is alone *)
Lemma mlock_alone s p r e : inv s (p :: r) -> locks e p = 1 -> s_mlock s e = true /\ forall o, In o r -> locks e o = 0.
Proof.
  intros I G. generalize (i_ml _ _ I e). cbn [tot]. rewrite G. generalize (tot_nonneg (locks e) r (locks_nn e)). intros N H.
  destruct (s_mlock s e); [|lia]. split; [reflexivity|]. apply tot_zero; [apply locks_nn|lia].
Qed.

Lemma glock_step s p q r : inv s (p :: r) -> s_glock s = true \/ glocks p = 0 ->
  (forall o, In o q -> ent o = ent p /\ pc_key o = pc_key p /\ pc_hid o = pc_hid p /\ loc s o) -> (length q <= 1)%nat ->
  ent p = None -> (forall e, locks e p = 0) -> (forall e, tot (locks e) q = 0) -> own p = [] -> flat_map own q = [] ->
  forall b, tot glocks q - glocks p = b2z b - b2z (s_glock s) -> inv (w_glock s b) (q ++ r).
Proof.
  intros I _ Q QL EN LK LQ OW OQ b GB. apply (inv_frame s _ p q r); st; auto.
  - intros e _. assert (U : tot (uses e) q = 0).
    { clear - Q EN. induction q as [|o q' IH]; [reflexivity|]. cbn [tot]. rewrite IH by (intros x X; apply Q; right; exact X).
      unfold uses. destruct (Q o (or_introl eq_refl)) as (-> & _). rewrite EN. reflexivity. }
    rewrite U. unfold uses. rewrite EN. lia.
  - intros e. rewrite LQ, LK. lia.
  - intros o J. apply (i_loc _ _ I o (or_intror J)).
  - apply (i_segs _ _ I).
  - apply (i_segm _ _ I).
  - rewrite (i_map _ _ I). cbn [flat_map]. rewrite OW, OQ. reflexivity.
  - apply (i_mnd _ _ I).
Qed.

Lemma step_inv s ok v p r s' q : inv s (p :: r) -> pcstep s ok v p = Some (s', q) -> inv s' (q ++ r).
Proof.
  intros I S. pose proof (i_loc _ _ I p (or_introl eq_refl)) as LC. destruct p; cbn [pcstep] in S; cbn [loc] in LC.
  - (* OWant *) destruct (s_glock s) eqn:GL; [discriminate|]. injection S as <- <-.
    apply (glock_step s (OWant k h)); auto. intros o [<-|[]]. cbn. auto.
    cbn. rewrite GL. reflexivity.
  - (* OFind *) destruct (s_hash s k) as [e|] eqn:HE.
    + destruct (Z.eqb_spec (s_hid s e) h) as [HH|HH]; injection S as <- <-.
      * apply hit_inv; auto.
      * destruct (proj1 (i_hash _ _ I k e) HE) as (EL & EK).
        apply (install_old s (OFind k h)); auto. intros o J X. destruct (i_ent _ _ I o e (or_intror J) X) as (_ & A & B).
        apply HH. rewrite B. apply (i_one _ _ I o (OFind k h)); [right; exact J|left; reflexivity|cbn; congruence].
    + destruct (negb (s_cap s =? 0) && _); injection S as <- <-; apply (inv_local s (OFind k h)); cbn; auto.
      split; [exact HE|]. intros x. apply in_rev.
  - (* OScan *) destruct LC as (HN & IC). destruct cs as [|c cs].
    + injection S as <- <-. apply (inv_local s (OScan k h [])); cbn; auto.
    + destruct (Z.eqb_spec (s_ref s c) 0) as [R0|R0]; injection S as <- <-.
      * assert (CL : In c (s_lru s)) by (apply IC; left; reflexivity).
        apply (install_old s (OScan k h (c :: cs))); auto. intros o J X. generalize (i_ref _ _ I c CL). cbn [tot]. rewrite R0.
        generalize (tot_in (uses c) o r (uses_nn c) J) (uses_nn c (OScan k h (c :: cs))). rewrite (uses_ent c o X). lia.
      * apply (inv_local s (OScan k h (c :: cs))); cbn; auto. split; [exact HN|]. intros x X. apply IC. right. exact X.
  - (* OAlloc *) destruct ok; injection S as <- <-.
    + apply install_new, I.
    + destruct (lock_alone _ _ _ I eq_refl) as (GL & _). apply (glock_step s (OAlloc k h)); auto; [intros o []|]. cbn. rewrite GL. reflexivity.
  - (* OUntrack *) destruct (Z.eqb_spec a 0) as [A0|A0]; injection S as <- <-.
    + apply (inv_local s (OUntrack k h e a)); cbn; auto.
    + assert (OA : In a (own (OUntrack k h e a))) by (cbn; unfold nz; destruct (Z.eqb_spec a 0); [contradiction|left; reflexivity]).
      destruct (own_fresh _ _ _ I a OA) as (FB & FO).
      apply (inv_frame s _ (OUntrack k h e a)); st; auto.
      * intros o [<-|[]]. cbn. rewrite set_eq. auto.
      * intros x _. cbn. lia.
      * intros x. cbn. lia.
      * cbn. lia.
      * intros o J. generalize (i_loc _ _ I o (or_intror J)). destruct o; cbn; auto.
        -- intros [H|H]; [left|right; exact H]. destruct (Z.eq_dec a0 a) as [->|N]; [apply set_eq|rewrite set_ne by exact N; exact H].
        -- assert (N : a0 <> a) by (intros ->; apply (FO _ J); left; reflexivity). rewrite set_ne by exact N. auto.
        -- assert (N : a0 <> a) by (intros ->; apply (FO _ J); left; reflexivity). rewrite set_ne by exact N. auto.
        -- assert (N : a0 <> a) by (intros ->; apply (FO _ J); left; reflexivity). rewrite set_ne by exact N. auto.
      * intros x X B. rewrite set_ne by (apply FB, X). apply (i_segs _ _ I); auto.
      * intros x y H. destruct (Z.eq_dec x a) as [->|N]; [rewrite set_eq in H; discriminate|rewrite set_ne in H by exact N]. eapply (i_segm _ _ I), H.
      * cbn [flat_map]; rewrite app_nil_r; exact (i_map _ _ I).
      * apply (i_mnd _ _ I).
  - (* OUnmap *) destruct (Z.eqb_spec a 0) as [A0|A0]; injection S as <- <-.
    + apply (inv_local s (OUnmap k h e a)); cbn; auto. rewrite A0. reflexivity.
    + destruct LC as [LC|LC]; [|contradiction].
      assert (OE : own (OUnmap k h e a) = [a]) by (cbn; unfold nz; destruct (Z.eqb_spec a 0); [contradiction|reflexivity]).
      assert (MA : In a (s_mapped s)).
      { eapply Permutation_in; [symmetry; exact (i_map _ _ I)|]. apply in_or_app. right. cbn [flat_map]. rewrite OE. left. reflexivity. }
      apply (inv_frame s _ (OUnmap k h e a)); st; auto.
      * intros o [<-|[]]. cbn. auto.
      * intros x _. cbn. lia.
      * intros x. cbn. lia.
      * cbn. lia.
      * intros o J. exact (i_loc _ _ I o (or_intror J)).
      * apply (i_segs _ _ I).
      * intros x y H. apply without_in. split; [eapply (i_segm _ _ I), H|congruence].
      * apply (Permutation_cons_inv (a := a)). rewrite <- (without_perm a _ (i_mnd _ _ I) MA). rewrite (i_map _ _ I). cbn [flat_map]. rewrite OE.
        cbn [own app]. symmetry. apply Permutation_middle.
      * apply without_nd, (i_mnd _ _ I).
  - (* OLoad *) destruct (Z.eqb_spec (s_base s e) 0) as [B0|B0]; injection S as <- <-; apply (inv_local s (OLoad k h e)); cbn; auto.
  - (* OLock *) destruct (s_mlock s e) eqn:ML; [discriminate|]. injection S as <- <-. apply (inv_frame s _ (OLock k h e)); st; auto.
    * intros o [<-|[]]. cbn. auto.
    * intros x _. cbn. lia.
    * intros x. cbn [tot locks]. destruct (Z.eqb_spec e x) as [<-|N]; [rewrite set_eq, ML|rewrite set_ne by congruence]; cbn [b2z]; lia.
    * cbn. lia.
    * intros o J. exact (i_loc _ _ I o (or_intror J)).
    * apply (i_segs _ _ I).
    * apply (i_segm _ _ I).
    * exact (i_map _ _ I).
    * apply (i_mnd _ _ I).
  - (* OLoad2 *) destruct (Z.eqb_spec (s_base s e) 0) as [B0|B0]; injection S as <- <-; apply (inv_local s (OLoad2 k h e)); cbn; auto.
  - (* OOpen *) destruct (ok && negb (v =? 0) && negb (mem v (s_mapped s))) eqn:C; injection S as <- <-.
    + apply andb_true_iff in C. destruct C as (C & CM). apply andb_true_iff in C. destruct C as (_ & CV).
      apply negb_true_iff, Z.eqb_neq in CV. assert (NM : ~ In v (s_mapped s)).
      { intros M. apply mem_in in M. rewrite M in CM. discriminate. }
      apply (inv_frame s _ (OOpen k h e)); st; auto.
      * intros o [<-|[]]. cbn. repeat split; auto. destruct (s_segs s v) as [x|] eqn:SV; [|reflexivity]. exfalso. apply NM. eapply (i_segm _ _ I), SV.
      * intros x _. cbn. lia.
      * intros x. cbn. lia.
      * cbn. lia.
      * intros o J. exact (i_loc _ _ I o (or_intror J)).
      * apply (i_segs _ _ I).
      * intros x y H. right. eapply (i_segm _ _ I), H.
      * rewrite (i_map _ _ I). cbn [flat_map own app]. apply Permutation_middle.
      * constructor; [exact NM|apply (i_mnd _ _ I)].
    + apply (inv_local s (OOpen k h e)); cbn; auto.
  - (* OTrack *) destruct LC as (B0 & A0 & SN). rewrite SN in S. destruct (ok && true); injection S as <- <-.
    + destruct (own_fresh _ _ _ I a (or_introl eq_refl)) as (FB & FO).
      assert (MA : In a (s_mapped s)).
      { eapply Permutation_in; [symmetry; exact (i_map _ _ I)|]. apply in_or_app. right. left. reflexivity. }
      apply (inv_frame s _ (OTrack k h e a)); st; auto.
      * intros o [<-|[]]. cbn. rewrite set_eq. repeat split; auto.
      * intros x _. cbn. lia.
      * intros x. cbn. lia.
      * cbn. lia.
      * intros o J. generalize (i_loc _ _ I o (or_intror J)). destruct o; cbn; auto.
        -- intros [H|H]; [|right; exact H]. destruct (Z.eq_dec a0 0) as [->|N0]; [right; reflexivity|left].
           rewrite set_ne; [exact H|]. intros ->. apply (FO _ J). cbn. unfold nz. destruct (Z.eqb_spec a 0); [contradiction|left; reflexivity].
        -- assert (N : a0 <> a) by (intros ->; apply (FO _ J); left; reflexivity). rewrite set_ne by exact N. auto.
        -- assert (N : a0 <> a) by (intros ->; apply (FO _ J); left; reflexivity). rewrite set_ne by exact N. auto.
        -- assert (N : a0 <> a) by (intros ->; apply (FO _ J); left; reflexivity). rewrite set_ne by exact N. auto.
      * intros x X B. rewrite set_ne by (apply FB, X). apply (i_segs _ _ I); auto.
      * intros x y H. destruct (Z.eq_dec x a) as [->|N]; [exact MA|rewrite set_ne in H by exact N]. eapply (i_segm _ _ I), H.
      * exact (i_map _ _ I).
      * apply (i_mnd _ _ I).
    + apply (inv_local s (OTrack k h e a)); cbn; auto.
  - (* OUndo *) destruct LC as (B0 & A0 & SN). injection S as <- <-.
    assert (MA : In a (s_mapped s)).
    { eapply Permutation_in; [symmetry; exact (i_map _ _ I)|]. apply in_or_app. right. left. reflexivity. }
    apply (inv_frame s _ (OUndo k h e a)); st; auto.
    * intros o [<-|[]]. cbn. auto.
    * intros x _. cbn. lia.
    * intros x. cbn. lia.
    * cbn. lia.
    * intros o J. exact (i_loc _ _ I o (or_intror J)).
    * apply (i_segs _ _ I).
    * intros x y H. apply without_in. split; [eapply (i_segm _ _ I), H|congruence].
    * apply (Permutation_cons_inv (a := a)). rewrite <- (without_perm a _ (i_mnd _ _ I) MA). rewrite (i_map _ _ I).
      cbn [flat_map own app]. symmetry. apply Permutation_middle.
    * apply without_nd, (i_mnd _ _ I).
  - (* OStore *) destruct LC as (B0 & A0 & SN). injection S as <- <-.
    assert (LE : locks e (OStore k h e a) = 1) by (cbn; rewrite Z.eqb_refl; reflexivity).
    destruct (mlock_alone _ _ _ e I LE) as (_ & AL). destruct (i_ent _ _ I _ e (or_introl eq_refl) eq_refl) as (EL & _).
    apply (inv_frame s _ (OStore k h e a)); st; auto.
    * intros o [<-|[]]. cbn. rewrite set_eq. auto.
    * intros x _. cbn. lia.
    * intros x. cbn. lia.
    * cbn. lia.
    * intros o J. generalize (i_loc _ _ I o (or_intror J)) (AL o J). intros L K.
      assert (NE : forall x, s_base s x <> 0 -> s_base (w_base s e a) x = s_base s x) by (intros x X; st; apply set_ne; congruence).
      assert (NL : forall x, x <> e -> s_base (w_base s e a) x = s_base s x) by (intros x X; st; apply set_ne; congruence).
      destruct o; cbn [loc] in *; auto; cbn [locks] in K;
        try (assert (N : e0 <> e) by (intros ->; rewrite Z.eqb_refl in K; discriminate)).
      -- rewrite NL by exact N. exact L.
      -- rewrite NL by exact N. exact L.
      -- rewrite NL by exact N. exact L.
      -- rewrite NL by exact N. exact L.
      -- destruct ok0; [|exact Logic.I]. rewrite NL by exact N. exact L.
      -- destruct L as (L1 & L2). rewrite NE by congruence. auto.
      -- destruct L as (L1 & L2). rewrite NE by congruence. auto.
      -- destruct L as (L0 & L1 & L2). rewrite NE by congruence. auto.
    * intros x X B. destruct (Z.eq_dec x e) as [->|N]; [rewrite set_eq; exact SN|]. rewrite set_ne in * by exact N. apply (i_segs _ _ I); auto.
    * apply (i_segm _ _ I).
    * rewrite (i_map _ _ I). cbn [flat_map own app].
      assert (P : Permutation (s_lru s) (e :: without e (s_lru s))) by (apply without_perm; [apply (i_nd _ _ I)|exact EL]).
      rewrite (Permutation_flat_map (fun e => nz (s_base s e)) P : Permutation (bases (s_base s) (s_lru s)) (bases (s_base s) (e :: without e (s_lru s)))).
      rewrite (Permutation_flat_map (fun x => nz (set (s_base s) e a x)) P : Permutation (bases (set (s_base s) e a) (s_lru s)) (bases (set (s_base s) e a) (e :: without e (s_lru s)))).
      cbn [bases flat_map]. rewrite set_eq, B0. unfold nz at 1 3. rewrite (proj2 (Z.eqb_neq a 0) A0). cbn [Z.eqb app].
      change (flat_map (fun e => nz (s_base s e))) with (bases (s_base s)).
      change (flat_map (fun x => nz (set (s_base s) e a x))) with (bases (set (s_base s) e a)).
      rewrite (bases_ext (set (s_base s) e a) (s_base s)); [symmetry; apply Permutation_middle|].
      intros x X. apply without_in in X. apply set_ne. tauto.
    * apply (i_mnd _ _ I).
  - (* OUnlock *) injection S as <- <-.
    assert (LE : locks e (OUnlock k h e ok0) = 1) by (cbn; rewrite Z.eqb_refl; reflexivity).
    destruct (mlock_alone _ _ _ e I LE) as (ML & AL).
    set (q' := if ok0 then if s_base s e =? 0 then [Bad k] else [Held k h e (s_base s e)] else []) in *.
    assert (Q : forall o, In o q' -> o = Held k h e (s_base s e) /\ s_base s e <> 0).
    { intros o. unfold q'. destruct ok0; [|intros []]. destruct (Z.eqb_spec (s_base s e) 0); [contradiction|]. intros [<-|[]]. auto. }
    assert (Q1 : (length q' <= 1)%nat) by (unfold q'; destruct ok0; [destruct (_ =? 0)|]; cbn; lia).
    assert (Q2 : forall f, f (Held k h e (s_base s e)) = 0 -> tot f q' = 0).
    { intros f F. destruct q' as [|o [|]]; [reflexivity| |cbn in Q1; lia]. destruct (Q o (or_introl eq_refl)) as (-> & _). cbn. lia. }
    assert (Q3 : forall x, tot (uses x) q' <= uses x (OUnlock k h e ok0)).
    { intros x. destruct q' as [|o [|]]; [apply uses_nn| |cbn in Q1; lia]. destruct (Q o (or_introl eq_refl)) as (-> & _). cbn. lia. }
    assert (Q4 : flat_map own q' = []).
    { destruct q' as [|o [|]]; [reflexivity| |cbn in Q1; lia]. destruct (Q o (or_introl eq_refl)) as (-> & _). reflexivity. }
    apply (inv_frame s _ (OUnlock k h e ok0)); st; auto.
    * intros o J. destruct (Q o J) as (-> & B). cbn. auto.
    * intros x _. specialize (Q3 x). lia.
    * intros x. rewrite Q2 by reflexivity. cbn [locks]. destruct (Z.eqb_spec e x) as [<-|N]; [rewrite set_eq, ML|rewrite set_ne by congruence]; cbn [b2z]; lia.
    * rewrite Q2 by reflexivity. cbn. lia.
    * intros o J. exact (i_loc _ _ I o (or_intror J)).
    * apply (i_segs _ _ I).
    * apply (i_segm _ _ I).
    * rewrite Q4. exact (i_map _ _ I).
    * apply (i_mnd _ _ I).
  - (* Held *) discriminate.
  - (* CGet *) destruct LC as (BE & A0). destruct (i_ent _ _ I _ e (or_introl eq_refl) eq_refl) as (EL & _).
    assert (SA : s_segs s a = Some e) by (rewrite <- BE; apply (i_segs _ _ I); [exact EL|congruence]).
    rewrite SA in S. injection S as <- <-. apply (inv_local s (CGet k h e a)); cbn; auto.
  - (* CDec *) destruct LC as (-> & BE & A0). injection S as <- <-.
    apply (inv_frame s _ (CDec k h e a e)); st; auto.
    * intros o [].
    * intros x X. cbn [tot]. unfold uses. cbn [ent]. destruct (Z.eqb_spec e x) as [<-|N]; [rewrite set_eq|rewrite set_ne by congruence]; lia.
    * intros x. cbn. lia.
    * cbn. lia.
    * intros o J. exact (i_loc _ _ I o (or_intror J)).
    * apply (i_segs _ _ I).
    * apply (i_segm _ _ I).
    * exact (i_map _ _ I).
    * apply (i_mnd _ _ I).
  - (* Bad *) discriminate.
Qed.

(* ---- executions ---- *)
Lemma init_inv cap : inv (cinit cap) [].
Proof.
  constructor; cbn; try (intros; contradiction); auto; try (intros; discriminate).
  - constructor.
  - intros. split; [discriminate|tauto].
  - constructor.
Qed.

Lemma open_inv s ps k h : inv s ps -> one_handle ps k h -> inv s (OWant k h :: ps).
Proof.
  intros I D. destruct I. constructor; cbn; auto.
  - intros p e [<-|J] X; [discriminate|eauto].
  - intros p [<-|J]; [exact Logic.I|eauto].
  - intros p q [<-|J] [<-|K] E; auto; cbn in *.
    + symmetry. apply D; auto.
Qed.

Lemma close_inv s l r k h e a : inv s (l ++ Held k h e a :: r) -> inv s (l ++ CGet k h e a :: r).
Proof.
  intros I. eapply inv_perm; [apply Permutation_middle|]. apply (inv_local s (Held k h e a)); cbn; auto.
  - eapply inv_perm; [|exact I]. symmetry. apply Permutation_middle.
  - exact (i_loc _ _ I (Held k h e a) (in_elt _ _ _)).
Qed.

Lemma move_inv s ps s' ps' : inv s ps -> cmove one_handle (s, ps) (s', ps') -> inv s' ps'.
Proof.
  intros I M. inversion M; subst.
  - apply open_inv; auto.
  - eapply close_inv, I.
  - eapply inv_perm; [|eapply step_inv; [|eassumption]].
    + apply Permutation_app_swap_app.
    + eapply inv_perm; [|exact I]. symmetry. apply Permutation_middle.
Qed.

Lemma reach_inv cap x : creach one_handle cap x -> inv (fst x) (snd x).
Proof.
  induction 1 as [|[s ps] [s' ps'] R IH M]; [apply init_inv|]. eapply move_inv; [exact IH|exact M].
Qed.

Lemma inv_held s ps k h e a : inv s ps -> In (Held k h e a) ps -> In a (s_mapped s) /\ In e (s_lru s) /\ s_base s e = a /\ s_key s e = k /\ s_hid s e = h /\ a <> 0.
Proof.
  intros I H. destruct (i_loc _ _ I _ H) as (B & N). destruct (i_ent _ _ I _ e H eq_refl) as (A & K & D). repeat split; auto.
  eapply Permutation_in; [symmetry; exact (i_map _ _ I)|]. apply in_or_app. left. apply bases_in. exists e. auto.
Qed.
Lemma inv_closing s ps k h e a : inv s ps -> In (CGet k h e a) ps -> In a (s_mapped s) /\ In e (s_lru s) /\ s_base s e = a.
Proof.
  intros I H. destruct (i_loc _ _ I _ H) as (B & N). destruct (i_ent _ _ I _ e H eq_refl) as (A & K & D). repeat split; auto.
  eapply Permutation_in; [symmetry; exact (i_map _ _ I)|]. apply in_or_app. left. apply bases_in. exists e. auto.
Qed.

Lemma held_mapped cap s ps k h a : creach one_handle cap (s, ps) -> holds ps k h a \/ closing ps k h a -> In a (s_mapped s).
Proof.
  intros R H. generalize (reach_inv _ _ R). cbn. intros I. destruct H as [(e & H)|(e & H)]; [apply (inv_held _ _ _ _ _ _ I H)|apply (inv_closing _ _ _ _ _ _ I H)].
Qed.

Lemma bases_inj b l x y : NoDup (bases b l) -> In x l -> In y l -> b x = b y -> b x <> 0 -> NoDup l -> x = y.
Proof.
  intros ND X Y E N NL. destruct (Z.eq_dec x y) as [|D]; [assumption|]. exfalso.
  revert ND. unfold bases. rewrite (without_perm x l NL X). cbn [flat_map]. intros ND. unfold nz at 1 in ND.
  destruct (Z.eqb_spec (b x) 0); [contradiction|]. cbn in ND. inversion ND; subst. apply H1. apply in_flat_map. exists y.
  split; [apply without_in; auto|]. rewrite E. unfold nz. destruct (Z.eqb_spec (b y) 0); [congruence|left; reflexivity].
Qed.

Lemma held_shared cap s ps k h a k' h' a' : creach one_handle cap (s, ps) -> holds ps k h a -> holds ps k' h' a' ->
  (k = k' <-> a = a') /\ (k = k' -> h = h').
Proof.
  intros R (e & H) (e' & H'). generalize (reach_inv _ _ R). cbn. intros I.
  destruct (inv_held _ _ _ _ _ _ I H) as (_ & L & B & K & D & N). destruct (inv_held _ _ _ _ _ _ I H') as (_ & L' & B' & K' & D' & N').
  assert (EE : k = k' -> e = e').
  { intros E. generalize (proj2 (i_hash _ _ I k e) (conj L K)) (proj2 (i_hash _ _ I k' e') (conj L' K')). rewrite E. congruence. }
  split; [split|].
  - intros E. rewrite <- B, <- B', (EE E). reflexivity.
  - intros E. assert (X : e = e'); [|congruence]. apply (bases_inj (s_base s) (s_lru s)); auto; [|congruence|congruence|apply (i_nd _ _ I)].
    assert (ND : NoDup (bases (s_base s) (s_lru s) ++ flat_map own ps)) by (eapply Permutation_NoDup; [exact (i_map _ _ I)|exact (i_mnd _ _ I)]).
    clear - ND. induction (bases (s_base s) (s_lru s)) as [|x b IH]; [constructor|]. cbn in ND. inversion ND; subst. constructor; auto.
    intros X. apply H1. apply in_or_app. auto.
  - intros E. rewrite <- D, <- D', (EE E). reflexivity.
Qed.

Lemma never_bad cap s ps k : creach one_handle cap (s, ps) -> ~ In (Bad k) ps.
Proof. intros R H. exact (i_loc _ _ (reach_inv _ _ R) _ H). Qed.

(* an upstream close hits a mapping nobody holds *)
Lemma unmap_safe cap s ps s' ps' a : creach one_handle cap (s, ps) -> cmove one_handle (s, ps) (s', ps') -> unmaps s s' a ->
  forall k h, ~ holds ps k h a /\ ~ closing ps k h a.
Proof.
  intros R M (U1 & U2). pose proof (reach_inv _ _ R) as I. cbn in I.
  assert (O : exists p, In p ps /\ In a (own p)).
  { inversion M; subst; [contradiction|contradiction|]. exists p. split; [apply in_elt|].
    match goal with H : pcstep _ _ _ _ = _ |- _ => rename H into H4 end.
    destruct p; cbn [pcstep] in H4; repeat match type of H4 with context [match ?x with _ => _ end] => destruct x eqn:? end;
      try discriminate; injection H4; intros; subst; cbn in U1, U2; try contradiction; try tauto.
    - rewrite without_in in U2. cbn. unfold nz. rewrite Heqb. left. destruct (Z.eq_dec a a0); [congruence|tauto].
    - rewrite without_in in U2. cbn. left. destruct (Z.eq_dec a a0); [congruence|tauto]. }
  destruct O as (p & J & O). intros k h.
  assert (X : forall e, In e (s_lru s) -> s_base s e = a -> a <> 0 -> False).
  { intros e L B N. assert (ND : NoDup (bases (s_base s) (s_lru s) ++ flat_map own ps)) by (eapply Permutation_NoDup; [exact (i_map _ _ I)|exact (i_mnd _ _ I)]).
    apply (nodup_app_not a _ _ ND); [apply bases_in; exists e; auto|apply in_flat_map; exists p; auto]. }
  split; intros (e & H).
  - destruct (inv_held _ _ _ _ _ _ I H) as (_ & L & B & _ & _ & N). eauto.
  - destruct (i_loc _ _ I _ H) as (B & N). destruct (i_ent _ _ I _ e H eq_refl) as (L & _). eauto.
Qed.

(* nothing is mapped but what the cache knows, once nobody is inside a call *)
Lemma quiet_own ps : quiet ps -> flat_map own ps = [].
Proof.
  intros Q. induction ps as [|p ps IH]; [reflexivity|]. cbn. destruct (Q p (or_introl eq_refl)) as (k & h & e & a & ->). cbn. apply IH.
  intros o J. apply Q. right. exact J.
Qed.
Lemma bases_len b l : (length (bases b l) <= length l)%nat.
Proof. induction l as [|x l IH]; cbn; [lia|]. rewrite app_length. unfold nz at 1. destruct (b x =? 0); cbn; fold (bases b l); lia. Qed.
Lemma quiet_map cap s ps : creach one_handle cap (s, ps) -> quiet ps ->
  NoDup (s_mapped s) /\ (forall a, In a (s_mapped s) <-> a <> 0 /\ exists k e, s_hash s k = Some e /\ s_base s e = a) /\ (length (s_mapped s) <= length (s_lru s))%nat.
Proof.
  intros R Q. pose proof (reach_inv _ _ R) as I. cbn in I. generalize (i_map _ _ I). rewrite (quiet_own _ Q), app_nil_r. intros P.
  split; [apply (i_mnd _ _ I)|]. split.
  - intros a. split.
    + intros H. apply (Permutation_in _ P) in H. apply bases_in in H. destruct H as (e & L & B & N). split; [exact N|].
      exists (s_key s e), e. split; [apply (i_hash _ _ I); auto|exact B].
    + intros (N & k & e & H & B). apply (Permutation_in _ (Permutation_sym P)). apply bases_in. exists e. apply (i_hash _ _ I) in H. tauto.
  - rewrite (Permutation_length P). apply bases_len.
Qed.

(* ---- somebody can always go on ---- *)
Definition inside (p : pc) : Prop := match p with Held _ _ _ _ => False | _ => True end.
Lemma tot_pos f ps : 0 < tot f ps -> exists p, In p ps /\ 0 < f p.
Proof.
  induction ps as [|p ps IH]; cbn; [lia|]. intros H. destruct (Z_lt_dec 0 (f p)) as [L|L]; [exists p; auto|].
  destruct IH as (q & J & Q); [lia|]. exists q. auto.
Qed.
Lemma progress cap s ps p : creach one_handle cap (s, ps) -> In p ps -> inside p ->
  exists q, In q ps /\ inside q /\ forall ok v, pcstep s ok v q <> None.
Proof.
  intros R J N. pose proof (reach_inv _ _ R) as I. cbn in I.
  assert (X : (exists k h, p = OWant k h /\ s_glock s = true) \/ (exists k h e, p = OLock k h e /\ s_mlock s e = true) \/ forall ok v, pcstep s ok v p <> None).
  { destruct p; cbn in N; try contradiction; try (right; right; intros ok' v; cbn; repeat match goal with |- context [match ?x with _ => _ end] => destruct x end; discriminate).
    - destruct (s_glock s) eqn:G; [left; eauto|right; right; intros ok v; cbn; rewrite G; discriminate].
    - destruct (s_mlock s e) eqn:G; [right; left; eauto|right; right; intros ok v; cbn; rewrite G; discriminate].
    - exfalso. exact (i_loc _ _ I _ J). }
  destruct X as [(k & h & -> & G)|[(k & h & e & -> & G)|X]].
  - destruct (tot_pos glocks ps) as (q & Q & L); [rewrite (i_gl _ _ I), G; lia|]. exists q. split; [exact Q|].
    destruct q; cbn in L; try lia; split; try exact Logic.I; intros ok v; cbn; repeat match goal with |- context [match ?x with _ => _ end] => destruct x end; discriminate.
  - destruct (tot_pos (locks e) ps) as (q & Q & L); [rewrite (i_ml _ _ I), G; lia|]. exists q. split; [exact Q|].
    destruct q; cbn in L; try lia; split; try exact Logic.I; intros ok' v; cbn; repeat match goal with |- context [match ?x with _ => _ end] => destruct x end; discriminate.
  - exists p. auto.
Qed.

(* ---- runs given as lists, for examples ---- *)
Inductive act := AOpen (k h : Z) | AClose (i : nat) | AStep (i : nat) (ok : bool) (v : Z).
Definition crun1 (x : cstate * list pc) (a : act) : option (cstate * list pc) :=
  let (s, ps) := x in
  match a with
  | AOpen k h => Some (s, OWant k h :: ps)
  | AClose i =>
      match nth_error ps i with
      | Some (Held k h e b) => Some (s, firstn i ps ++ CGet k h e b :: skipn (S i) ps)
      | _ => None
      end
  | AStep i ok v =>
      match nth_error ps i with
      | Some p => match pcstep s ok v p with Some (s', q) => Some (s', firstn i ps ++ q ++ skipn (S i) ps) | None => None end
      | None => None
      end
  end.
Fixpoint crun (x : cstate * list pc) (l : list act) : option (cstate * list pc) :=
  match l with [] => Some x | a :: r => match crun1 x a with Some y => crun y r | None => None end end.
Definition one_handleb (ps : list pc) (k h : Z) : bool := forallb (fun p => negb (pc_key p =? k) || (pc_hid p =? h)) ps.
Fixpoint disciplined (x : cstate * list pc) (l : list act) : bool :=
  match l with
  | [] => true
  | a :: r => match a with AOpen k h => one_handleb (snd x) k h | _ => true end && match crun1 x a with Some y => disciplined y r | None => true end
  end.
Lemma nth_split_eq {A} (l : list A) i p : nth_error l i = Some p -> l = firstn i l ++ p :: skipn (S i) l.
Proof. revert i. induction l as [|x l IH]; intros [|i] H; try discriminate; cbn in *; [congruence|]. f_equal. apply IH, H. Qed.
Lemma crun1_move x a y : crun1 x a = Some y -> cmove (fun _ _ _ => True) x y.
Proof.
  destruct x as [s ps]. destruct a; cbn.
  - intros E. injection E as <-. constructor. exact Logic.I.
  - destruct (nth_error ps i) as [[]|] eqn:H; try discriminate. intros E. injection E as <-. rewrite (nth_split_eq _ _ _ H) at 1. constructor.
  - destruct (nth_error ps i) as [p|] eqn:H; try discriminate. destruct (pcstep s ok v p) as [[s' q]|] eqn:S; [|discriminate]. intros E. injection E as <-.
    rewrite (nth_split_eq _ _ _ H) at 1. econstructor. exact S.
Qed.
Lemma crun_reach cap l : forall x y, creach (fun _ _ _ => True) cap x -> crun x l = Some y -> creach (fun _ _ _ => True) cap y.
Proof.
  induction l as [|a l IH]; cbn; intros x y R H; [congruence|]. destruct (crun1 x a) as [z|] eqn:E; [|discriminate].
  apply (IH z y); [|exact H]. eapply r_move; [exact R|apply crun1_move with (a := a), E].
Qed.
Lemma crun_reach_one cap l : forall x y, creach one_handle cap x -> crun x l = Some y -> disciplined x l = true -> creach one_handle cap y.
Proof.
  induction l as [|a l IH]; cbn; intros x y R H D; [congruence|]. destruct (crun1 x a) as [z|] eqn:E; [|discriminate].
  apply andb_true_iff in D. destruct D as (D1 & D2). apply (IH z y); auto. eapply r_move; [exact R|].
  generalize (crun1_move _ _ _ E). intros M. destruct x as [s ps]. inversion M; subst.
  - destruct a; cbn in E.
    + injection E. intros. subst. constructor. intros p J K. unfold one_handleb in D1. cbn in D1. rewrite forallb_forall in D1. specialize (D1 p J).
      apply orb_true_iff in D1. destruct D1 as [D1|D1]; [apply negb_true_iff, Z.eqb_neq in D1; contradiction|apply Z.eqb_eq, D1].
    + exfalso. destruct (nth_error ps i) as [[]|] eqn:NE; try discriminate. injection E; intros; match goal with H : _ ++ _ = OWant _ _ :: _ |- _ => rename H into EE end. apply (f_equal (@length pc)) in EE.
      rewrite (nth_split_eq _ _ _ NE) in EE at 3. cbn in EE. rewrite !app_length in EE. cbn in EE. lia.
    + exfalso. destruct (nth_error ps i) as [p|] eqn:NE; try discriminate. destruct (pcstep s ok v p) as [[s' q]|] eqn:S; [|discriminate].
      injection E; intros; match goal with H : _ ++ _ = OWant _ _ :: _ |- _ => rename H into EE end. apply (f_equal (@length pc)) in EE. rewrite (nth_split_eq _ _ _ NE) in EE at 3. cbn in EE. rewrite !app_length in EE. cbn in EE.
      assert (length q <= 1)%nat; [|lia]. clear - S.
      destruct p; cbn [pcstep] in S; repeat match type of S with context [match ?x with _ => _ end] => destruct x end; try discriminate; injection S; intros; subst; cbn; lia.
  - constructor.
  - econstructor. eassumption.
Qed.
