(* Invariant of the tracker under concurrent splits and merges, without nesting
   and with records given back only when unread. *)
From Verif Require Import Base Model_TrackerConc Spec_TrackerConc Proof_TrackerConc Model_TrackerSplit Spec_TrackerSplit Proof_TrackerSplit.
From Coq Require Import Permutation.

Definition otracked (t : spc) : list reg := match t with Old o => tracked o | _ => [] end.
Definition own (t : spc) : list Z :=
  match t with
  | Old o => oslot o
  | SLock _ v | SFind _ v _ | SCmp _ v _ _ _ | SUp _ v _ _ _ | SUpd _ v _ _ _ | SErr _ v _ | SDrop _ v _ => [v]
  | SHNew _ _ _ _ c | SRev _ _ _ c | SFree _ c | SIncR _ _ c | SIncW _ _ _ c => [c]
  | SHIns _ _ _ _ c h | SUndo _ _ _ c h => [h; c]
  | MLock _ v | MFindL _ v _ | MFindH _ v _ _ _ | MCmp _ v _ _ _ _ | MUp _ v _ _ _ | MUpd _ v _ _ _ | MErr _ v _ | MDrop _ v _ => [v]
  | MFreeL _ _ lc _ => [lc]
  | MFreeH _ c => [c]
  | _ => []
  end.
Definition locked (t : spc) : list unit :=
  match t with
  | SFind _ _ _ | SCmp _ _ _ _ _ | SUp _ _ _ _ _ | SUpd _ _ _ _ _ | SHNew _ _ _ _ _ | SHIns _ _ _ _ _ _ | SIncR _ _ _ | SIncW _ _ _ _
  | SUndo _ _ _ _ _ | SRev _ _ _ _ | SFree _ _ | SUnl _ | SErr _ _ _
  | MFindL _ _ _ | MFindH _ _ _ _ _ | MCmp _ _ _ _ _ _ | MUp _ _ _ _ _ | MUpd _ _ _ _ _ | MFreeL _ _ _ _ | MRem _ _ _ | MFreeH _ _
  | MUnl _ | MErr _ _ _ => [tt]
  | _ => []
  end.
(* the map differs from the allocations in the middle of a split or merge *)
Definition minus (t : spc) : list reg :=
  match t with SHNew x _ _ _ _ | SHIns x _ _ _ _ _ | SUndo x _ _ _ _ | SRev x _ _ _ => [whole x] | _ => [] end.
Definition plus (t : spc) : list reg :=
  match t with
  | SHNew x _ _ _ _ | SHIns x _ _ _ _ _ | SUndo x _ _ _ _ | SRev x _ _ _ => [first x]
  | MFreeL y _ _ _ | MRem y _ _ => [upper y]
  | _ => []
  end.
Definition tr (H : list reg) (ts : list spc) (r : reg) : Prop :=
  (In r (H ++ flat_map otracked ts) /\ ~ In r (flat_map minus ts)) \/ In r (flat_map plus ts).

Definition nokey (H : list reg) (a : Z) : Prop := forall q, In q H -> r_ptr q <> a.
Definition grec (s : tstate) (H : list reg) (a k c : Z) : Prop :=
  ti_nch (t_info s c) = 0 /\ (k = a -> In (a, c) (t_map s 0)) /\ (k <> a -> nokey H a).
Definition gloc (s : tstate) (H : list reg) (a : Z) (g : gpc) : Prop :=
  match g with
  | GFind l par last => l = 0 /\ par = None /\ last = None
  | GSize l par k c | GNch l par k c | GNch2 l par k c => l = 0 /\ par = None /\ grec s H a k c
  | GChk l par k c => l = 0 /\ par = None /\ k = a /\ grec s H a k c
  | GOut (Some (l, par, c)) => l = 0 /\ par = None /\ In (a, c) (t_map s 0)
  | GOut None => nokey H a
  end.
(* a record holds an allocation noted by the lookup *)
Definition found (s : tstate) (p : Z) (g : list reg) (a k c : Z) : Prop :=
  exists n, t_info s c = TInfo p n 0 /\ In (Reg k n p) g /\ k <= a < k + n.
Definition lloc (s : tstate) (H : list reg) (p : Z) (g : list reg) (b : bool) (t : tpc) : Prop :=
  match t with
  | LFind _ a l top => l = 0 /\ top = None /\ covered H p a 1
  | LSize _ a l top k c => l = 0 /\ top = None /\ (found s p g a k c \/ (k + ti_size (t_info s c) <= a /\ b = true))
  | LNch _ a l k c => l = 0 /\ found s p g a k c
  | LOut _ a k c => found s p g a k c
  | LOut2 _ a k n c => t_info s c = TInfo p n 0 /\ In (Reg k n p) g /\ k <= a < k + n
  | LDone _ a (Some (k, n, p')) => p' = p /\ In (Reg k n p) g /\ k <= a < k + n
  | LDone _ a None => b = true
  | _ => False
  end.
Definition sbase (H : list reg) (x : sargs) : Prop := 0 < sa_first x < sa_size x /\ covered H (sa_pool x) (sa_ptr x) (sa_size x).
Definition mbase (H : list reg) (y : margs) : Prop := ma_lo y < ma_hi y < ma_lo y + ma_size y /\ covered H (ma_pool y) (ma_lo y) (ma_size y).
Definition mid (s : tstate) (H : list reg) (x : sargs) (v l c : Z) : Prop :=
  l = 0 /\ In (sa_ptr x, v) (t_map s 0) /\ t_info s c = rinfo (whole x) /\ In (whole x) H.
Definition loc (s : tstate) (H : list reg) (t : spc) : Prop :=
  match t with
  | Old o => region o <> [] /\ lives o = [] /\ tloc s o
  | Look p g b o => lloc s H p g b o
  | SNew x | SDrop x _ _ => sbase H x
  | SFree x _ | SUnl x => sbase H x /\ In (first x) H /\ In (second x) H
  | SLock x v => sbase H x /\ t_info s v = rinfo (first x)
  | SFind x v g => sbase H x /\ t_info s v = rinfo (first x) /\ gloc s H (sa_ptr x) g
  | SCmp x v l par c => sbase H x /\ t_info s v = rinfo (first x) /\ l = 0 /\ par = None /\ In (sa_ptr x, c) (t_map s 0)
  | SUp x v l par c | SUpd x v l par c =>
      sbase H x /\ t_info s v = rinfo (first x) /\ l = 0 /\ par = None /\ In (sa_ptr x, c) (t_map s 0) /\ In (whole x) H
  | SHNew x v l par c => sbase H x /\ par = None /\ mid s H x v l c
  | SHIns x v l par c h => sbase H x /\ par = None /\ mid s H x v l c /\ t_info s h = rinfo (second x)
  | SUndo x v l c _ | SRev x v l c => sbase H x /\ mid s H x v l c
  | SIncR _ _ _ | SIncW _ _ _ _ => False
  | SErr x v e => sbase H x /\ (e = NotThere -> ~ In (whole x) H) /\ (e <> NotThere -> In (whole x) H)
  | SDone _ _ | MDone _ _ => True
  | MNew y | MDrop y _ _ => mbase H y
  | MFreeH y _ | MUnl y => mbase H y /\ In (union y) H
  | MLock y v => mbase H y /\ t_info s v = rinfo (union y)
  | MFindL y v g => mbase H y /\ t_info s v = rinfo (union y) /\ gloc s H (ma_lo y) g
  | MFindH y v ll lc g => mbase H y /\ t_info s v = rinfo (union y) /\ ll = 0 /\ In (ma_lo y, lc) (t_map s 0) /\ gloc s H (ma_hi y) g
  | MCmp y v ll lc lh hc =>
      mbase H y /\ t_info s v = rinfo (union y) /\ ll = 0 /\ lh = 0 /\ In (ma_lo y, lc) (t_map s 0) /\ In (ma_hi y, hc) (t_map s 0)
  | MUp y v l lc hc =>
      mbase H y /\ t_info s v = rinfo (union y) /\ l = 0 /\ In (ma_lo y, lc) (t_map s 0) /\ In (ma_hi y, hc) (t_map s 0) /\
      exists a b, In (Reg (ma_lo y) a (ma_pool y)) H /\ In (Reg (ma_hi y) b (ma_pool y)) H /\ a + b = ma_size y
  | MUpd y v l lc hc =>
      mbase H y /\ t_info s v = rinfo (union y) /\ l = 0 /\ In (ma_lo y, lc) (t_map s 0) /\ In (ma_hi y, hc) (t_map s 0) /\
      In (lower y) H /\ In (upper y) H
  | MFreeL y l _ hc | MRem y l hc => mbase H y /\ l = 0 /\ In (ma_hi y, hc) (t_map s 0) /\ In (union y) H
  | MErr y v e => mbase H y /\ (e = NotThere -> ~ (In (lower y) H /\ In (upper y) H))
  end.

(* memory allocated, being allocated or being freed *)
Record AR (L : list reg) : Prop := mkAR {
  ar_nd : NoDup L;
  ar_dis : forall p q, In p L -> In q L -> p <> q -> disjoint p q;
  ar_size : forall p, In p L -> 0 < r_size p }.
Record sinv (s : tstate) (m : bool) (H : list reg) (ts : list spc) : Prop := mkInv {
  i_ri : RI s (flat_map own ts) (flat_map srefers ts);
  i_ar : AR (H ++ flat_map sregion ts);
  i_mi : MI s (tr H ts);
  i_cnt : length (flat_map locked ts) = if m then 1%nat else 0%nat;
  i_loc : forall t, In t ts -> loc s H t }.

Lemma fmp {A} (f : spc -> list A) a b : Permutation a b -> Permutation (flat_map f a) (flat_map f b).
Proof.
  induction 1; cbn; auto.
  - apply Permutation_app_head. assumption.
  - rewrite !app_assoc. apply Permutation_app_tail, Permutation_app_comm.
  - etransitivity; eassumption.
Qed.
Lemma fmi {A} (f : spc -> list A) a b x : Permutation a b -> In x (flat_map f a) -> In x (flat_map f b).
Proof. intros P. apply Permutation_in, fmp, P. Qed.
Lemma AR_perm a b : Permutation a b -> AR a -> AR b.
Proof.
  intros P [A B C]. assert (I : forall x, In x b -> In x a) by (intros x; apply Permutation_in; symmetry; exact P).
  constructor; [eapply Permutation_NoDup; [exact P|exact A]|intros p q X Y; apply B; auto|auto].
Qed.
Lemma tr_perm H a b r : Permutation a b -> tr H a r -> tr H b r.
Proof.
  intros P [(X & Y)|X]; [left; split|right].
  - apply in_app_or in X. apply in_or_app. destruct X as [X|X]; [auto|right; exact (fmi _ _ _ _ P X)].
  - intros Z0. apply Y. exact (fmi _ _ _ _ (Permutation_sym P) Z0).
  - exact (fmi _ _ _ _ P X).
Qed.
Lemma sinv_perm s m H a b : Permutation a b -> sinv s m H a -> sinv s m H b.
Proof.
  intros P [A B C D E]. constructor.
  - eapply RI_sub; [exact A|apply fmp, P|]. intros c X. left. exact (fmi _ _ _ _ (Permutation_sym P) X).
  - eapply AR_perm; [|exact B]. apply Permutation_app_head, fmp, P.
  - eapply MI_iff; [exact C|]. intros r. split; apply tr_perm; [exact P|symmetry; exact P].
  - rewrite <- D. apply Permutation_length, fmp. symmetry. exact P.
  - intros t X. apply E. eapply Permutation_in; [symmetry; exact P|exact X].
Qed.

(* ---- frames ---- *)
Definition inz (k : Z) (z : Z * Z) : Prop := fst z <= k < fst z + snd z.
Lemma gloc_frame s s' H H' a g : (forall c, In c (grefs g) -> t_info s' c = t_info s c) ->
  (forall c, In (a, c) (t_map s 0) -> In (a, c) (t_map s' 0)) -> (forall q, r_ptr q = a -> In q H' -> In q H) -> gloc s H a g -> gloc s' H' a g.
Proof.
  intros I M B. assert (N : nokey H a -> nokey H' a) by (intros N q Q E; exact (N q (B q E Q) E)).
  assert (G : forall k c, t_info s' c = t_info s c -> grec s H a k c -> grec s' H' a k c) by (intros k c E (X & Y & Z0); unfold grec; rewrite E; auto).
  destruct g as [| | | | |[[[? ?] ?]|]]; cbn [gloc grefs] in *; intros L; auto; destruct L as (L1 & L2 & L3); repeat (split; [assumption|]).
  1-3: apply G; [apply I; left; reflexivity|exact L3].
  - destruct L3 as (L3 & L4). split; [exact L3|]. apply G; [apply I; left; reflexivity|exact L4].
  - apply M, L3.
Qed.
Lemma found_frame s s' p g a k c : t_info s' c = t_info s c -> found s p g a k c -> found s' p g a k c.
Proof. intros E (n & X). exists n. rewrite E. exact X. Qed.
Ltac kk := repeat match goal with H : _ /\ _ |- _ => destruct H end; repeat match goal with |- _ /\ _ => split end; try assumption; subst;
  try match goal with
  | I : (forall c, _ \/ _ -> t_info ?s' c = _) |- t_info ?s' _ = _ => rewrite I by (cbn [In]; tauto); assumption
  | M : (forall k c, In _ (t_map _ 0) -> _ -> In _ (t_map ?s' 0)) |- In _ (t_map ?s' 0) =>
      apply M; [assumption|left; split; [discriminate|]; eexists; split; [left; reflexivity|unfold inz; cbn; lia]]
  | B : (forall q z, _ -> _ -> (In q _ <-> In q ?H')) |- In ?q ?H' => apply (B q _ (or_introl eq_refl) ltac:(unfold inz; cbn; lia)); assumption
  end.
Lemma loc_frame s s' H H' o :
  (forall c, In c (recs s) \/ In c (srefers o) \/ In c (own o) -> t_info s' c = t_info s c) ->
  (forall k c, In (k, c) (t_map s 0) -> (locked o <> [] /\ exists z, In z (about o) /\ inz k z) \/ (exists r, In r (sregion o) /\ k = r_ptr r) -> In (k, c) (t_map s' 0)) ->
  (forall p a n, In (a, n) (about o) -> covered H p a n -> covered H' p a n) ->
  (locked o <> [] -> forall q z, In z (about o) -> inz (r_ptr q) z -> (In q H <-> In q H')) ->
  loc s H o -> loc s' H' o.
Proof.
  intros I M C B L.
  assert (SB : forall x, In (sa_ptr x, sa_size x) (about o) -> sbase H x -> sbase H' x) by (intros x J (X & Y); split; auto).
  assert (MB : forall y, In (ma_lo y, ma_size y) (about o) -> mbase H y -> mbase H' y) by (intros y J (X & Y); split; auto).
  destruct o; cbn [loc srefers own about locked sregion] in *;
    try (assert (B' := B (fun X => nil_cons (eq_sym X))); clear B);
    repeat match goal with
    | H : sbase _ ?x /\ _ |- _ => let K := fresh "SBX" in destruct H as (K & H); pose proof (SB x (or_introl eq_refl) K); destruct K as (? & K)
    | H : mbase _ ?y /\ _ |- _ => let K := fresh "MBX" in destruct H as (K & H); pose proof (MB y (or_introl eq_refl) K); destruct K as (? & K)
    end; auto; try (apply SB; [left; reflexivity|exact L]); try (apply MB; [left; reflexivity|exact L]).
  - (* Old *) destruct L as (L1 & L2 & L). repeat split; auto. apply (tloc_ext s); auto.
    + intros r k c J (X & Y & Z0). assert (J' : In r (region t)).
      { apply in_app_or in J. destruct J as [J|J]; [exact J|]. destruct t; cbn in J, L1; try contradiction; congruence. }
      unfold rec_of. split; [exact X|]. split; [apply M; [exact Y|right; exists r; auto]|]. rewrite I; [exact Z0|left; eapply recs_in, Y].
    + intros c J. rewrite I; auto.
  - (* Look *) destruct t; cbn [lloc] in *; try contradiction; auto.
    + destruct L as (X & Y & Z0). repeat split; auto. apply (C p a 1); [left; reflexivity|exact Z0].
    + cbn [refers] in I. assert (E : t_info s' c = t_info s c) by (apply I; right; left; left; reflexivity).
      destruct L as (X & Y & [Z0|Z0]); repeat split; auto; [left; eapply found_frame; eauto|right; rewrite E; auto].
    + cbn [refers] in I. assert (E : t_info s' c = t_info s c) by (apply I; right; left; left; reflexivity). destruct L; split; auto. eapply found_frame; eauto.
    + cbn [refers] in I. assert (E : t_info s' c = t_info s c) by (apply I; right; left; left; reflexivity). eapply found_frame; eauto.
    + cbn [refers] in I. rewrite I; auto. right; left; left; reflexivity.
  - (* SLock *) kk.
  - (* SFind *) kk. apply (gloc_frame s s' H H'); auto; [intros c J; kk|].
    intros q E J. eapply (proj2 (B' q _ (or_introl eq_refl) ltac:(unfold inz; cbn; lia))). exact J.
  - (* SCmp *) kk.
  - (* SUp *) kk.
  - (* SUpd *) kk.
  - (* SHNew *) unfold mid in *. kk.
  - (* SHIns *) unfold mid in *. kk.
  - (* SUndo *) unfold mid in *. kk.
  - (* SRev *) unfold mid in *. kk.
  - (* SFree *) kk.
  - (* SUnl *) kk.
  - (* SErr *) assert (W : In (whole x) H <-> In (whole x) H') by (apply (B' (whole x) _ (or_introl eq_refl)); unfold inz; cbn; lia). tauto.
  - (* MLock *) kk.
  - (* MFindL *) kk. apply (gloc_frame s s' H H'); auto; [intros c J; kk|].
    intros q E J. eapply (proj2 (B' q _ (or_introl eq_refl) ltac:(unfold inz; cbn; lia))). exact J.
  - (* MFindH *) kk. apply (gloc_frame s s' H H'); auto; [intros c J; apply I; right; left; right; exact J|intros c J; kk|].
    intros q E J. eapply (proj2 (B' q _ (or_introl eq_refl) ltac:(unfold inz; cbn; lia))). exact J.
  - (* MCmp *) kk.
  - (* MUp *) destruct L as (X & Y & Z0 & U & (a & b & V & W & E)). kk. exists a, b. kk.
  - (* MUpd *) kk.
  - (* MFreeL *) kk.
  - (* MRem *) kk.
  - (* MFreeH *) kk.
  - (* MUnl *) kk.
  - (* MErr *) split; auto. intros E (J & K). apply (L E). split.
    + apply (B' (lower y) _ (or_introl eq_refl) ltac:(unfold inz; cbn; lia)), J.
    + apply (B' (upper y) _ (or_introl eq_refl) ltac:(unfold inz; cbn; lia)), K.
Qed.
