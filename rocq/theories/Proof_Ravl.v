From Verif Require Import Base Model_Ravl Spec_OrderedSet.

Section P.
Context {A : Type} (cmp : A -> A -> Z) (TO : total_order cmp).
Notation tree := (tree A). Notation frame := (frame A). Notation loc := (loc A).
Notation foreach := ravl_foreach.

(* ---------- in-order decomposition ---------- *)
Fixpoint lefts (p : list frame) : list A :=
  match p with
  | [] => []
  | InLeft _ _ _ :: q => lefts q
  | InRight l _ x :: q => lefts q ++ foreach l ++ [x]
  end.
Fixpoint rights (p : list frame) : list A :=
  match p with
  | [] => []
  | InLeft _ x r :: q => x :: foreach r ++ rights q
  | InRight _ _ _ :: q => rights q
  end.
Lemma foreach_plug : forall p n, foreach (plug n p) = lefts p ++ foreach n ++ rights p.
Proof.
  induction p as [|[rk x r|l rk x] q IH]; intros n; cbn [plug lefts rights parent_of].
  - cbn. rewrite app_nil_r. reflexivity.
  - rewrite IH. cbn. rewrite <- !app_assoc. reflexivity.
  - rewrite IH. cbn. rewrite <- !app_assoc. cbn. reflexivity.
Qed.

(* node at list position: A before, x, B after *)
Definition at_pos (whole : tree) (n : loc) (a : list A) (x : A) (b : list A) : Prop :=
  plug (fst n) (snd n) = whole /\
  exists l rk r, fst n = Node l rk x r /\ a = lefts (snd n) ++ foreach l /\ b = foreach r ++ rights (snd n).

Lemma at_pos_list : forall w n a x b, at_pos w n a x b -> foreach w = a ++ x :: b /\ ravl_data n = Some x.
Proof.
  intros w [t p] a x b (E & l & rk & r & En & -> & ->). cbn [fst snd] in *. subst t. split; [|reflexivity].
  rewrite <- E, foreach_plug. cbn. rewrite <- !app_assoc. reflexivity.
Qed.

Lemma leftmost : forall t p, t <> Null ->
  exists x b, at_pos (plug t p) (type_most t p LEFT) (lefts p) x b /\ x :: b = foreach t ++ rights p.
Proof.
  induction t as [|l IHl rk x r IHr]; intros p N; [congruence|].
  destruct l as [|ll lrk lx lr].
  - cbn [type_most]. exists x, (foreach r ++ rights p). split; [|reflexivity].
    split; [reflexivity|]. exists Null, rk, r. cbn [fst snd foreach]. rewrite app_nil_r. auto.
  - cbn [type_most]. destruct (IHl (InLeft rk x r :: p) ltac:(discriminate)) as (x' & b & H & E).
    exists x', b. split; [exact H|]. rewrite E. cbn [rights]. cbn [ravl_foreach]. rewrite <- !app_assoc. reflexivity.
Qed.
Lemma rightmost : forall t p, t <> Null ->
  exists a x, at_pos (plug t p) (type_most t p RIGHT) a x (rights p) /\ a ++ [x] = lefts p ++ foreach t.
Proof.
  induction t as [|l IHl rk x r IHr]; intros p N; [congruence|].
  destruct r as [|rl rrk rx rr].
  - exists (lefts p ++ foreach l), x. split.
    + split; [reflexivity|]. exists l, rk, Null. cbn. auto.
    + cbn. rewrite <- app_assoc. reflexivity.
  - destruct (IHr (InRight l rk x :: p) ltac:(discriminate)) as (a & x' & H & E).
    exists a, x'. split.
    + exact H.
    + rewrite E. cbn [lefts ravl_foreach]. rewrite <- !app_assoc. reflexivity.
Qed.

Lemma climb_right : forall p n,
  match climb n p RIGHT with
  | None => rights p = []
  | Some m => exists y b, at_pos (plug n p) m (lefts p ++ foreach n) y b /\ y :: b = rights p
  end.
Proof.
  induction p as [|[rk x r|l rk x] q IH]; intros n; cbn [climb].
  - reflexivity.
  - exists x, (foreach r ++ rights q). split; [|reflexivity]. split; [reflexivity|].
    exists n, rk, r. cbn. auto.
  - specialize (IH (Node l rk x n)). cbn [parent_of]. destruct (climb (Node l rk x n) q RIGHT) as [m|]; [|exact IH].
    destruct IH as (y & b & H & E). exists y, b. split; [|exact E]. cbn [lefts plug parent_of].
    cbn [ravl_foreach] in H. rewrite <- !app_assoc in *. exact H.
Qed.
Lemma climb_left : forall p n,
  match climb n p LEFT with
  | None => lefts p = []
  | Some m => exists a y, at_pos (plug n p) m a y (foreach n ++ rights p) /\ a ++ [y] = lefts p
  end.
Proof.
  induction p as [|[rk x r|l rk x] q IH]; intros n; cbn [climb].
  - reflexivity.
  - specialize (IH (Node n rk x r)). cbn [parent_of]. destruct (climb (Node n rk x r) q LEFT) as [m|]; [|exact IH].
    destruct IH as (a & y & H & E). exists a, y. split; [|exact E]. cbn [rights plug parent_of].
    cbn [ravl_foreach] in H. rewrite <- app_assoc in H. exact H.
  - exists (lefts q ++ foreach l), x. split.
    + split; [reflexivity|]. exists l, rk, n. cbn. auto.
    + cbn. rewrite <- app_assoc. reflexivity.
Qed.

Lemma successor_spec : forall w n a x b, at_pos w n a x b ->
  match ravl_node_successor n with
  | None => b = []
  | Some m => exists y b', at_pos w m (a ++ [x]) y b' /\ b = y :: b'
  end.
Proof.
  intros w [t p] a x b (E & l & rk & r & En & -> & ->). cbn [fst snd] in *. subst t w.
  unfold ravl_node_successor, cessor. cbn [fst snd]. destruct r as [|rl rrk rx rr].
  - pose proof (climb_right p (Node l rk x Null)) as H.
    destruct (climb (Node l rk x Null) p RIGHT) as [m|]; cbn [ravl_foreach app]; [|exact H].
    destruct H as (y & b & H1 & H2). exists y, b. split; [|symmetry; exact H2].
    cbn [ravl_foreach] in H1. rewrite <- !app_assoc in *. exact H1.
  - destruct (leftmost (Node rl rrk rx rr) (InRight l rk x :: p) ltac:(discriminate)) as (y & b & H1 & H2).
    exists y, b. split; [|symmetry; exact H2]. cbn [lefts] in H1. rewrite <- !app_assoc in *. exact H1.
Qed.
Lemma predecessor_spec : forall w n a x b, at_pos w n a x b ->
  match ravl_node_predecessor n with
  | None => a = []
  | Some m => exists a' y, at_pos w m a' y (x :: b) /\ a = a' ++ [y]
  end.
Proof.
  intros w [t p] a x b (E & l & rk & r & En & -> & ->). cbn [fst snd] in *. subst t w.
  unfold ravl_node_predecessor, cessor. cbn [fst snd]. destruct l as [|ll lrk lx lr].
  - pose proof (climb_left p (Node Null rk x r)) as H.
    destruct (climb (Node Null rk x r) p LEFT) as [m|]; cbn [ravl_foreach]; rewrite app_nil_r; [|exact H].
    destruct H as (a & y & H1 & H2). exists a, y. split; [|symmetry; exact H2]. exact H1.
  - destruct (rightmost (Node ll lrk lx lr) (InLeft rk x r :: p) ltac:(discriminate)) as (a & y & H1 & H2).
    exists a, y. split; [|symmetry; exact H2]. exact H1.
Qed.

(* ---------- order facts ---------- *)
Lemma cmp_opp : forall x y, cmp x y < 0 <-> cmp y x > 0.
Proof. intros x y. pose proof (to_sym _ TO x y). destruct (Z.sgn_spec (cmp x y)); destruct (Z.sgn_spec (cmp y x)); lia. Qed.
Lemma cmp_eq_sym : forall x y, cmp x y = 0 <-> cmp y x = 0.
Proof. intros x y. pose proof (to_sym _ TO x y). destruct (Z.sgn_spec (cmp x y)); destruct (Z.sgn_spec (cmp y x)); lia. Qed.
Lemma cmp_refl : forall x, cmp x x = 0.
Proof. intros x. pose proof (to_sym _ TO x x). destruct (Z.sgn_spec (cmp x x)); lia. Qed.
Lemma lt_le : forall x y z, cmp x y < 0 -> cmp y z <= 0 -> cmp x z < 0.
Proof.
  intros x y z H1 H2. destruct (Z_lt_le_dec (cmp x z) 0); [assumption|].
  assert (cmp z x <= 0) by (pose proof (to_sym _ TO x z); destruct (Z.sgn_spec (cmp x z)); destruct (Z.sgn_spec (cmp z x)); lia).
  pose proof (to_trans _ TO y z x H2 H). apply cmp_opp in H1. lia.
Qed.
Lemma le_lt : forall x y z, cmp x y <= 0 -> cmp y z < 0 -> cmp x z < 0.
Proof.
  intros x y z H1 H2. destruct (Z_lt_le_dec (cmp x z) 0); [assumption|].
  assert (cmp z x <= 0) by (pose proof (to_sym _ TO x z); destruct (Z.sgn_spec (cmp x z)); destruct (Z.sgn_spec (cmp z x)); lia).
  pose proof (to_trans _ TO z x y H H1). apply cmp_opp in H2. lia.
Qed.
Lemma le_opp : forall x y, cmp x y <= 0 <-> cmp y x >= 0.
Proof. intros x y. pose proof (cmp_opp x y). pose proof (cmp_opp y x). pose proof (cmp_eq_sym x y). lia. Qed.

Lemma asc_app : forall a b, ascending cmp (a ++ b) <->
  ascending cmp a /\ ascending cmp b /\ (forall x y, In x a -> In y b -> cmp x y < 0).
Proof.
  induction a as [|x a IH]; intros b; cbn [app].
  - split; [|tauto]. intros H. split; [constructor|]. split; [exact H|]. intros ? ? [].
  - split.
    + intros H. inversion H as [|? ? H1 H2]; subst. apply IH in H1. destruct H1 as (B1 & B2 & B3).
      split; [constructor; auto; intros; apply H2; apply in_or_app; auto|]. split; [exact B2|].
      intros u v [->|U] V; [apply H2; apply in_or_app; auto|auto].
    + intros (H1 & H2 & H3). inversion H1 as [|? ? H4 H5]; subst. constructor.
      * apply IH. split; [exact H4|]. split; [exact H2|]. intros; apply H3; [right|]; assumption.
      * intros y Hy. apply in_app_or in Hy. destruct Hy as [Hy|Hy]; [auto|apply H3; [left; reflexivity|exact Hy]].
Qed.
Lemma asc_mid : forall a x b, ascending cmp (a ++ x :: b) <->
  ascending cmp a /\ ascending cmp b /\ (forall y, In y a -> cmp y x < 0) /\ (forall y, In y b -> cmp x y < 0).
Proof.
  intros a x b. rewrite asc_app. split.
  - intros (H1 & H2 & H3). inversion H2; subst. split; [exact H1|]. split; [assumption|]. split; [|assumption].
    intros y Hy. apply H3; [exact Hy|left; reflexivity].
  - intros (H1 & H2 & H3 & H4). split; [exact H1|]. split; [constructor; assumption|].
    intros u v U [<-|V]; [auto|]. eapply lt_le; [apply H3; exact U|]. specialize (H4 v V). lia.
Qed.

(* the search point x splits the list *)
Definition splits (x : A) (a b : list A) : Prop :=
  (forall y, In y a -> cmp x y > 0) /\ (forall y, In y b -> cmp x y < 0).

Lemma find_equal : forall t p x r, ascending cmp (foreach (plug t p)) -> splits x (lefts p) (rights p) ->
  match find_loop cmp x P_EQUAL t p r with
  | Some m => r = Some m \/ exists a y b, at_pos (plug t p) m a y b /\ cmp x y = 0
  | None => True
  end /\ (r = None -> find_loop cmp x P_EQUAL t p r = None -> forall y, In y (foreach (plug t p)) -> cmp x y <> 0).
Proof.
  induction t as [|l IHl rk y rt IHr]; intros p x r Hasc (SL & SR); cbn [find_loop].
  - split; [destruct r; auto|]. intros _ _ z Hz. rewrite foreach_plug in Hz. cbn [ravl_foreach app] in Hz.
    apply in_app_or in Hz. destruct Hz as [Hz|Hz]; [specialize (SL z Hz)|specialize (SR z Hz)]; lia.
  - unfold predicate_holds. cbn [has_equal has_greater has_less andb].
    pose proof Hasc as Hasc'. rewrite foreach_plug in Hasc'. cbn [ravl_foreach] in Hasc'.
    rewrite <- app_assoc in Hasc'. cbn [app] in Hasc'. rewrite app_assoc in Hasc'. apply asc_mid in Hasc'.
    destruct Hasc' as (_ & _ & HL & HR).
    destruct (Z.eqb_spec (cmp x y) 0) as [E|E].
    + split.
      * right. exists (lefts p ++ foreach l), y, (foreach rt ++ rights p). split; [|exact E].
        split; [reflexivity|]. exists l, rk, rt. auto.
      * intros _ C. discriminate.
    + destruct (cmp x y >? 0) eqn:G.
      * apply (IHr (InRight l rk y :: p) x r Hasc). cbn [lefts rights]. split; [|exact SR].
        intros z Hz. apply in_app_or in Hz. destruct Hz as [Hz|Hz]; [apply SL; exact Hz|].
        assert (cmp z y <= 0).
        { apply in_app_or in Hz. destruct Hz as [Hz|[<-|[]]]; [|rewrite cmp_refl; lia].
          assert (cmp z y < 0) by (apply HL; apply in_or_app; auto). lia. }
        pose proof (cmp_opp z x). enough (cmp z x < 0) by lia. apply le_lt with y; [assumption|]. apply cmp_opp. lia.
      * apply (IHl (InLeft rk y rt :: p) x r Hasc). cbn [lefts rights]. split; [exact SL|].
        intros z [<-|Hz]; [lia|]. apply in_app_or in Hz. destruct Hz as [Hz|Hz]; [|apply SR; exact Hz].
        apply lt_le with y; [lia|]. assert (cmp y z < 0) by (apply HR; apply in_or_app; auto). lia.
Qed.

(* lemma used when the search walks below node y *)
Lemma splits_step : forall l rk y rt p x, ascending cmp (foreach (plug (Node l rk y rt) p)) ->
  splits x (lefts p) (rights p) ->
  (cmp x y > 0 -> splits x (lefts (InRight l rk y :: p)) (rights (InRight l rk y :: p))) /\
  (cmp x y < 0 -> splits x (lefts (InLeft rk y rt :: p)) (rights (InLeft rk y rt :: p))) /\
  (cmp x y = 0 -> splits x (lefts p ++ foreach l) (foreach rt ++ rights p)).
Proof.
  intros l rk y rt p x Hasc (SL & SR).
  rewrite foreach_plug in Hasc. cbn [ravl_foreach] in Hasc.
  rewrite <- app_assoc in Hasc. cbn [app] in Hasc. rewrite app_assoc in Hasc. apply asc_mid in Hasc.
  destruct Hasc as (_ & _ & HL & HR).
  assert (CL : forall z, cmp z y <= 0 -> cmp x y > 0 -> cmp x z > 0).
  { intros z Z1 Z2. pose proof (cmp_opp z x). enough (cmp z x < 0) by lia. apply le_lt with y; [assumption|]. apply cmp_opp. lia. }
  split; [|split]; intros G; split; cbn [lefts rights]; try assumption.
  - intros z Hz. apply in_app_or in Hz. destruct Hz as [Hz|Hz]; [apply SL; exact Hz|].
    apply CL; [|exact G].
    apply in_app_or in Hz. destruct Hz as [Hz|[<-|[]]]; [|rewrite cmp_refl; lia].
    assert (cmp z y < 0) by (apply HL; apply in_or_app; auto). lia.
  - intros z [<-|Hz]; [lia|]. apply in_app_or in Hz. destruct Hz as [Hz|Hz]; [|apply SR; exact Hz].
    apply lt_le with y; [lia|]. assert (cmp y z < 0) by (apply HR; apply in_or_app; auto). lia.
  - intros z Hz. pose proof (cmp_opp z x). enough (cmp z x < 0) by lia.
    apply lt_le with y; [apply HL; exact Hz|]. apply cmp_eq_sym in G. lia.
  - intros z Hz. apply le_lt with y; [lia|]. apply HR; exact Hz.
Qed.

Definition gt_result (w : tree) (o : option loc) (x : A) : Prop :=
  exists a b, foreach w = a ++ b /\ (forall z, In z a -> cmp x z >= 0) /\ (forall z, In z b -> cmp x z < 0) /\
    match o with None => b = [] | Some m => exists y b', at_pos w m a y b' /\ b = y :: b' end.
Definition lt_result (w : tree) (o : option loc) (x : A) : Prop :=
  exists a b, foreach w = a ++ b /\ (forall z, In z a -> cmp x z > 0) /\ (forall z, In z b -> cmp x z <= 0) /\
    match o with None => a = [] | Some m => exists a' y, at_pos w m a' y b /\ a = a' ++ [y] end.
Definition eq_result (w : tree) (o : option loc) (x : A) : Prop :=
  match o with None => False | Some m => exists a y b, at_pos w m a y b /\ cmp x y = 0 end.

Lemma find_gt : forall t p x fl, has_greater fl = true -> ascending cmp (foreach (plug t p)) ->
  splits x (lefts p) (rights p) ->
  let o := find_loop cmp x fl t p (climb t p RIGHT) in
  if has_equal fl then eq_result (plug t p) o x \/
       (gt_result (plug t p) o x /\ forall z, In z (foreach (plug t p)) -> cmp x z <> 0)
  else gt_result (plug t p) o x.
Proof.
  induction t as [|l IHl rk y rt IHr]; intros p x fl Hg Hasc S o; subst o; cbn [find_loop].
  - assert (G : gt_result (plug Null p) (climb Null p RIGHT) x /\
                forall z, In z (foreach (plug Null p)) -> cmp x z <> 0).
    { destruct S as (SL & SR). split.
      - exists (lefts p), (rights p). rewrite foreach_plug. split; [reflexivity|].
        split; [intros z Hz; specialize (SL z Hz); lia|]. split; [exact SR|].
        pose proof (climb_right p Null) as C. destruct (climb Null p RIGHT) as [m|]; [|exact C].
        destruct C as (y & b & C1 & C2). cbn [ravl_foreach] in C1. rewrite app_nil_r in C1. exists y, b. auto.
      - intros z Hz. rewrite foreach_plug in Hz. cbn [ravl_foreach app] in Hz. apply in_app_or in Hz.
        destruct Hz as [Hz|Hz]; [specialize (SL z Hz)|specialize (SR z Hz)]; lia. }
    destruct (has_equal fl); tauto.
  - unfold predicate_holds. rewrite Hg.
    assert (NL : has_less fl = false) by (destruct fl; (reflexivity || discriminate)). rewrite NL. cbn [andb].
    destruct (splits_step l rk y rt p x Hasc S) as (S1 & S2 & S3).
    destruct (has_equal fl) eqn:HE; cbn [andb].
    + destruct (Z.eqb_spec (cmp x y) 0) as [E|E].
      * left. exists (lefts p ++ foreach l), y, (foreach rt ++ rights p). split; [|exact E].
        split; [reflexivity|]. exists l, rk, rt. auto.
      * destruct (Z.ltb_spec (cmp x y) 0) as [L|L].
        -- replace (cmp x y >? 0) with false by lia. specialize (IHl (InLeft rk y rt :: p) x fl Hg Hasc (S2 L)).
           rewrite HE in IHl. exact IHl.
        -- replace (cmp x y >? 0) with true by lia. specialize (IHr (InRight l rk y :: p) x fl Hg Hasc (S1 ltac:(lia))).
           rewrite HE in IHr. exact IHr.
    + destruct (Z.ltb_spec (cmp x y) 0) as [L|L].
      * replace (cmp x y >? 0) with false by lia. specialize (IHl (InLeft rk y rt :: p) x fl Hg Hasc (S2 L)).
        rewrite HE in IHl. exact IHl.
      * destruct (Z.eqb_spec (cmp x y) 0) as [E|E].
        -- destruct (S3 E) as (SA & SB).
           assert (AP : at_pos (plug (Node l rk y rt) p) (Node l rk y rt, p) (lefts p ++ foreach l) y (foreach rt ++ rights p)).
           { split; [reflexivity|]. exists l, rk, rt. auto. }
           pose proof (successor_spec _ _ _ _ _ AP) as SU.
           exists ((lefts p ++ foreach l) ++ [y]), (foreach rt ++ rights p).
           split; [rewrite foreach_plug; cbn [ravl_foreach]; rewrite <- !app_assoc; reflexivity|].
           split; [intros z Hz; apply in_app_or in Hz; destruct Hz as [Hz|[<-|[]]]; [specialize (SA z Hz)|]; lia|].
           split; [exact SB|]. destruct (ravl_node_successor _) as [m|]; [|exact SU].
           destruct SU as (y' & b' & U1 & U2). eauto.
        -- replace (cmp x y >? 0) with true by lia. specialize (IHr (InRight l rk y :: p) x fl Hg Hasc (S1 ltac:(lia))).
           rewrite HE in IHr. exact IHr.
Qed.

Lemma find_lt : forall t p x fl, has_less fl = true -> ascending cmp (foreach (plug t p)) ->
  splits x (lefts p) (rights p) ->
  let o := find_loop cmp x fl t p (climb t p LEFT) in
  if has_equal fl then eq_result (plug t p) o x \/
       (lt_result (plug t p) o x /\ forall z, In z (foreach (plug t p)) -> cmp x z <> 0)
  else lt_result (plug t p) o x.
Proof.
  induction t as [|l IHl rk y rt IHr]; intros p x fl Hg Hasc S o; subst o; cbn [find_loop].
  - assert (G : lt_result (plug Null p) (climb Null p LEFT) x /\
                forall z, In z (foreach (plug Null p)) -> cmp x z <> 0).
    { destruct S as (SL & SR). split.
      - exists (lefts p), (rights p). rewrite foreach_plug. split; [reflexivity|].
        split; [exact SL|]. split; [intros z Hz; specialize (SR z Hz); lia|].
        pose proof (climb_left p Null) as C. destruct (climb Null p LEFT) as [m|]; [|exact C].
        destruct C as (a & y & C1 & C2). cbn [ravl_foreach app] in C1. exists a, y. auto.
      - intros z Hz. rewrite foreach_plug in Hz. cbn [ravl_foreach app] in Hz. apply in_app_or in Hz.
        destruct Hz as [Hz|Hz]; [specialize (SL z Hz)|specialize (SR z Hz)]; lia. }
    destruct (has_equal fl); tauto.
  - unfold predicate_holds. rewrite Hg.
    assert (NL : has_greater fl = false) by (destruct fl; (reflexivity || discriminate)). rewrite NL. cbn [andb].
    destruct (splits_step l rk y rt p x Hasc S) as (S1 & S2 & S3).
    destruct (has_equal fl) eqn:HE; cbn [andb].
    + destruct (Z.eqb_spec (cmp x y) 0) as [E|E].
      * left. exists (lefts p ++ foreach l), y, (foreach rt ++ rights p). split; [|exact E].
        split; [reflexivity|]. exists l, rk, rt. auto.
      * destruct (cmp x y >? 0) eqn:L.
        -- specialize (IHr (InRight l rk y :: p) x fl Hg Hasc (S1 ltac:(lia))).
           rewrite HE in IHr. exact IHr.
        -- specialize (IHl (InLeft rk y rt :: p) x fl Hg Hasc (S2 ltac:(lia))).
           rewrite HE in IHl. exact IHl.
    + destruct (cmp x y >? 0) eqn:L.
      * specialize (IHr (InRight l rk y :: p) x fl Hg Hasc (S1 ltac:(lia))).
        rewrite HE in IHr. exact IHr.
      * destruct (Z.eqb_spec (cmp x y) 0) as [E|E].
        -- destruct (S3 E) as (SA & SB).
           assert (AP : at_pos (plug (Node l rk y rt) p) (Node l rk y rt, p) (lefts p ++ foreach l) y (foreach rt ++ rights p)).
           { split; [reflexivity|]. exists l, rk, rt. auto. }
           pose proof (predecessor_spec _ _ _ _ _ AP) as SU.
           exists (lefts p ++ foreach l), (y :: foreach rt ++ rights p).
           split; [rewrite foreach_plug; cbn [ravl_foreach]; rewrite <- !app_assoc; reflexivity|].
           split; [exact SA|].
           split; [intros z [<-|Hz]; [|specialize (SB z Hz)]; lia|].
           destruct (ravl_node_predecessor _) as [m|]; [|exact SU].
           destruct SU as (a' & y' & U1 & U2). eauto.
        -- specialize (IHl (InLeft rk y rt :: p) x fl Hg Hasc (S2 ltac:(lia))).
           rewrite HE in IHl. exact IHl.
Qed.

Definition members (t : tree) : A -> Prop := fun x => In x (foreach t).

Lemma in_mid : forall (a : list A) y b z, In z (a ++ y :: b) <-> In z a \/ z = y \/ In z b.
Proof. intros. rewrite in_app_iff. cbn. intuition congruence. Qed.

Lemma find_spec : forall t x fl, ascending cmp (foreach t) ->
  match ravl_find cmp t x fl with
  | None => nearest cmp (members t) fl x None
  | Some m => exists a y b, at_pos t m a y b /\ nearest cmp (members t) fl x (Some y)
  end.
Proof.
  intros t x fl Hasc. unfold ravl_find.
  assert (S0 : splits x (lefts []) (rights [])) by (split; intros ? []).
  assert (EQ : forall o, eq_result t o x -> has_equal fl = true ->
    match o with None => nearest cmp (members t) fl x None
      | Some m => exists a y b, at_pos t m a y b /\ nearest cmp (members t) fl x (Some y) end).
  { intros [m|] E HE; [|destruct E]. destruct E as (a & y & b & E1 & E2). exists a, y, b. split; [exact E1|].
    destruct (at_pos_list _ _ _ _ _ E1) as (L & _). unfold members. cbn [nearest].
    split; [rewrite L; apply in_mid; auto|].
    split; [destruct fl; cbn [qualifies] in *; (lia || discriminate)|].
    intros y' _ Q. assert (E3 := E2). apply cmp_eq_sym in E3.
    destruct fl; cbn [qualifies closer has_equal] in *; try discriminate.
    + apply Z.le_antisymm.
      * apply to_trans with x; [exact TO|lia|lia].
      * destruct (Z_lt_le_dec (cmp y y') 0) as [C|C]; [|exact C]. exfalso.
        assert (cmp x y' < 0) by (apply le_lt with y; lia). lia.
    + destruct (Z_lt_le_dec (cmp y y') 0) as [C|C]; [|lia]. exfalso.
      assert (cmp x y' < 0) by (apply le_lt with y; lia). lia.
    + apply to_trans with x; [exact TO|lia|lia]. }
  assert (GT : forall o, gt_result t o x -> (fl = P_GREATER \/ (fl = P_GREATER_EQUAL /\ forall z, In z (foreach t) -> cmp x z <> 0)) ->
    match o with None => nearest cmp (members t) fl x None
      | Some m => exists a y b, at_pos t m a y b /\ nearest cmp (members t) fl x (Some y) end).
  { intros o (a & b & L & Ha & Hb & Ho) Hfl.
    assert (Q : forall z, In z (foreach t) -> qualifies cmp fl x z -> In z b).
    { intros z Hz Q. assert (cmp x z < 0).
      { destruct Hfl as [->|(-> & N)]; cbn [qualifies] in Q; [exact Q|]. specialize (N z Hz). lia. }
      rewrite L in Hz. apply in_app_or in Hz. destruct Hz as [Hz|Hz]; [|exact Hz]. specialize (Ha z Hz). lia. }
    destruct o as [m|].
    - destruct Ho as (y & b' & Ho1 & ->). exists a, y, b'. split; [exact Ho1|]. unfold members. cbn [nearest].
      split; [rewrite L; apply in_mid; auto|].
      split; [specialize (Hb y (or_introl eq_refl)); destruct Hfl as [->|(-> & _)]; cbn [qualifies]; lia|].
      intros y' Hy' Q'. specialize (Q y' Hy' Q').
      assert (cmp y y' <= 0).
      { destruct Q as [<-|Q]; [rewrite cmp_refl; lia|]. rewrite L in Hasc. apply asc_mid in Hasc.
        destruct Hasc as (_ & _ & _ & H). specialize (H y' Q). lia. }
      destruct Hfl as [->|(-> & _)]; cbn [closer]; assumption.
    - cbn [nearest]. intros y Hy Q'. specialize (Q y Hy Q'). rewrite Ho in Q. exact Q. }
  assert (LT : forall o, lt_result t o x -> (fl = P_LESS \/ (fl = P_LESS_EQUAL /\ forall z, In z (foreach t) -> cmp x z <> 0)) ->
    match o with None => nearest cmp (members t) fl x None
      | Some m => exists a y b, at_pos t m a y b /\ nearest cmp (members t) fl x (Some y) end).
  { intros o (a & b & L & Ha & Hb & Ho) Hfl.
    assert (Q : forall z, In z (foreach t) -> qualifies cmp fl x z -> In z a).
    { intros z Hz Q. assert (cmp x z > 0).
      { destruct Hfl as [->|(-> & N)]; cbn [qualifies] in Q; [exact Q|]. specialize (N z Hz). lia. }
      rewrite L in Hz. apply in_app_or in Hz. destruct Hz as [Hz|Hz]; [exact Hz|]. specialize (Hb z Hz). lia. }
    destruct o as [m|].
    - destruct Ho as (a' & y & Ho1 & ->). exists a', y, b. split; [exact Ho1|]. unfold members. cbn [nearest].
      split; [rewrite L, <- app_assoc; apply in_mid; auto|].
      split; [specialize (Ha y ltac:(apply in_or_app; right; left; reflexivity)); destruct Hfl as [->|(-> & _)]; cbn [qualifies]; lia|].
      intros y' Hy' Q'. specialize (Q y' Hy' Q').
      assert (cmp y y' >= 0).
      { apply in_app_or in Q. destruct Q as [Q|[<-|[]]]; [|rewrite cmp_refl; lia].
        rewrite L, <- app_assoc in Hasc. apply asc_mid in Hasc.
        destruct Hasc as (_ & _ & H & _). specialize (H y' Q). apply le_opp. lia. }
      destruct Hfl as [->|(-> & _)]; cbn [closer]; assumption.
    - cbn [nearest]. intros y Hy Q'. specialize (Q y Hy Q'). rewrite Ho in Q. exact Q. }
  destruct fl.
  - destruct (find_equal t [] x None Hasc S0) as (E1 & E2). cbn [plug] in *.
    destruct (find_loop cmp x P_EQUAL t [] None) as [m|] eqn:F.
    + destruct E1 as [E1|E1]; [discriminate|]. exact (EQ (Some m) E1 eq_refl).
    + intros y Hy Q. exact (E2 eq_refl eq_refl y Hy Q).
  - pose proof (find_gt t [] x P_GREATER eq_refl Hasc S0) as G. apply (GT _ G). auto.
  - pose proof (find_lt t [] x P_LESS eq_refl Hasc S0) as G. apply (LT _ G). auto.
  - pose proof (find_lt t [] x P_LESS_EQUAL eq_refl Hasc S0) as G. cbn [has_equal plug] in G.
    destruct G as [G|(G & N)]; [exact (EQ _ G eq_refl)|]. apply (LT _ G). auto.
  - pose proof (find_gt t [] x P_GREATER_EQUAL eq_refl Hasc S0) as G. cbn [has_equal plug] in G.
    destruct G as [G|(G & N)]; [exact (EQ _ G eq_refl)|]. apply (GT _ G). auto.
Qed.

(* ---------- ranks ---------- *)
Fixpoint rank_ok (t : tree) : Prop :=
  match t with
  | Null => True
  | Node l rk _ r => node_rank l < rk /\ node_rank r < rk /\ rank_ok l /\ rank_ok r
  end.
Fixpoint path_ok (p : list frame) (h : Z) : Prop :=
  match p with
  | [] => True
  | f :: q => h < frame_rank f /\ node_rank (sibling f) < frame_rank f /\ rank_ok (sibling f) /\ path_ok q (frame_rank f)
  end.
Lemma rank_lb : forall t, rank_ok t -> -1 <= node_rank t.
Proof.
  induction t as [|l IHl rk x r IHr]; cbn [rank_ok node_rank]; [lia|].
  intros (H1 & H2 & H3 & H4). specialize (IHl H3). lia.
Qed.
Lemma rank_plug : forall p n, rank_ok (plug n p) <-> rank_ok n /\ path_ok p (node_rank n).
Proof.
  induction p as [|[rk x r|l rk x] q IH]; intros n; cbn [plug path_ok].
  - tauto.
  - rewrite IH. cbn. tauto.
  - rewrite IH. cbn. tauto.
Qed.
Lemma path_ok_lower : forall p h h', path_ok p h -> h' <= h -> path_ok p h'.
Proof. intros [|f q] h h'; cbn; [auto|]. intros (H1 & H2) L. split; [lia|exact H2]. Qed.

Notation fibn := fibonacci.
Definition fib (k : Z) : Z := fibn (Z.to_nat k).
Lemma fibn_S : forall n, fibn (S (S n)) = fibn (S n) + fibn n. Proof. reflexivity. Qed.
Lemma fib_rec : forall k, 0 <= k -> fib (k + 2) = fib (k + 1) + fib k.
Proof.
  intros k Hk. unfold fib. replace (Z.to_nat (k + 2)) with (S (S (Z.to_nat k))) by lia.
  replace (Z.to_nat (k + 1)) with (S (Z.to_nat k)) by lia. apply fibn_S.
Qed.
Lemma fibn_nonneg : forall n, 0 <= fibn n /\ 0 <= fibn (S n).
Proof. induction n as [|n IH]; [cbn; lia|]. split; [apply IH|]. rewrite fibn_S. lia. Qed.
Lemma fib_nonneg : forall k, 0 <= fib k. Proof. intros. apply fibn_nonneg. Qed.
Lemma fib_mono : forall k j, 0 <= k <= j -> fib k <= fib j.
Proof.
  intros k j H. unfold fib.
  assert (M : forall n, fibn n <= fibn (S n)).
  { intros [|n]; [cbn; lia|]. rewrite fibn_S. pose proof (fibn_nonneg n). lia. }
  replace (Z.to_nat j) with (Z.to_nat k + Z.to_nat (j - k))%nat by lia.
  induction (Z.to_nat (j - k)) as [|d IH]; [rewrite Nat.add_0_r; lia|].
  rewrite Nat.add_succ_r. specialize (M (Z.to_nat k + d)%nat). lia.
Qed.

(* potential of a node: fib rank for a 1,1-node, 0 otherwise *)
Definition npot (rk a b : Z) : Z := if (rk - a =? 1) && (rk - b =? 1) then fib rk else 0.
Fixpoint pot (t : tree) : Z :=
  match t with
  | Null => 0
  | Node l rk _ r => npot rk (node_rank l) (node_rank r) + pot l + pot r
  end.
Fixpoint ppot (p : list frame) (h : Z) : Z :=
  match p with
  | [] => 0
  | f :: q => npot (frame_rank f) h (node_rank (sibling f)) + pot (sibling f) + ppot q (frame_rank f)
  end.
Fixpoint proot (p : list frame) (h : Z) : Z :=
  match p with [] => h | f :: q => proot q (frame_rank f) end.
Lemma npot_sym : forall rk a b, npot rk a b = npot rk b a.
Proof. intros. unfold npot. rewrite andb_comm. reflexivity. Qed.
Lemma pot_plug : forall p n, pot (plug n p) = pot n + ppot p (node_rank n) /\ node_rank (plug n p) = proot p (node_rank n).
Proof.
  induction p as [|[rk x r|l rk x] q IH]; intros n; cbn [plug ppot proot frame_rank sibling parent_of].
  - lia.
  - destruct (IH (Node n rk x r)) as (E1 & E2). rewrite E1, E2. cbn [pot node_rank]. lia.
  - destruct (IH (Node l rk x n)) as (E1 & E2). rewrite E1, E2. cbn [pot node_rank]. rewrite (npot_sym rk (node_rank n)). lia.
Qed.
Lemma npot_nonneg : forall rk a b, 0 <= npot rk a b.
Proof. intros. unfold npot. destruct (_ && _); [apply fib_nonneg|lia]. Qed.
Lemma pot_nonneg : forall t, 0 <= pot t.
Proof. induction t as [|l IHl rk x r IHr]; cbn [pot]; [lia|]. pose proof (npot_nonneg rk (node_rank l) (node_rank r)). lia. Qed.
Lemma npot_lower : forall rk a a' b, a' <= a -> a < rk -> npot rk a' b <= npot rk a b.
Proof.
  intros rk a a' b H1 H2. destruct (Z.eq_dec a' a) as [->|N]; [lia|].
  unfold npot at 1. replace (rk - a' =? 1) with false by lia. cbn [andb]. apply npot_nonneg.
Qed.
Lemma ppot_lower : forall p h h', path_ok p h -> h' <= h -> ppot p h' <= ppot p h.
Proof. intros [|f q] h h'; cbn; [lia|]. intros (H1 & _) L. pose proof (npot_lower (frame_rank f) h h' (node_rank (sibling f)) L H1). lia. Qed.

Lemma proot_lower : forall p h h', h' <= h -> proot p h' <= proot p h.
Proof. intros [|f q] h h' L; cbn; lia. Qed.
Lemma proot_ge : forall p h, path_ok p h -> h <= proot p h.
Proof.
  induction p as [|f q IH]; intros h; cbn [path_ok proot]; [lia|]. intros (H1 & _ & _ & H2).
  specialize (IH _ H2). lia.
Qed.

(* the node on which balancing works: a fresh leaf or a just-promoted node *)
Definition promoted (n : tree) : Prop :=
  match n with
  | Null => False
  | Node l rk _ r => (rk = 0 /\ l = Null /\ r = Null) \/
      (1 <= rk /\ ((rk - node_rank l = 1 /\ rk - node_rank r = 2) \/ (rk - node_rank l = 2 /\ rk - node_rank r = 1)))
  end.
(* additionally: a 1-child of a promoted node of positive rank is itself promoted *)
Definition promoted2 (n : tree) : Prop :=
  promoted n /\
  match n with
  | Null => False
  | Node l rk _ r => (rk - node_rank l = 1 -> l <> Null -> promoted l) /\
                     (rk - node_rank r = 1 -> r <> Null -> promoted r)
  end.

Lemma fib1 : fib 1 = 1. Proof. reflexivity. Qed.
Lemma fib0 : fib 0 = 0. Proof. reflexivity. Qed.

Lemma npot_cases : forall rk a b, npot rk a b = 0 \/ (rk - a = 1 /\ rk - b = 1 /\ npot rk a b = fib rk).
Proof. intros. unfold npot. destruct (_ && _) eqn:B; [right; lia|left; reflexivity]. Qed.
Lemma promoted_pot : forall l rk x r, promoted (Node l rk x r) -> npot rk (node_rank l) (node_rank r) = 0.
Proof.
  intros l rk x r [(-> & -> & ->)|(H & H2)]; cbn [node_rank].
  - reflexivity.
  - destruct (npot_cases rk (node_rank l) (node_rank r)); lia.
Qed.

Lemma npot11_le : forall rk a b, npot rk a b <= fib rk.
Proof. intros. unfold npot. destruct (_ && _); [lia|apply fib_nonneg]. Qed.



(* the rotation step *)
Ltac list_eq := rewrite <- ?app_assoc; cbn [app]; rewrite <- ?app_assoc; cbn [app]; rewrite <- ?app_assoc; reflexivity.
Lemma rotate_spec : forall n f, rank_ok n -> promoted2 n ->
  frame_rank f = node_rank n -> node_rank (sibling f) + 1 < frame_rank f -> rank_ok (sibling f) ->
  exists t, balance_rotate n f = Some t /\ foreach t = foreach (parent_of n f) /\ rank_ok t /\
    node_rank t = frame_rank f /\
    pot t <= pot n + pot (sibling f) + fib (frame_rank f + 1).
Proof.
  intros n f Hn (Hp & Hp2) Hr Hs Hso. destruct n as [|nl nr nx z]; [destruct Hp|].
  pose proof (promoted_pot _ _ _ _ Hp) as P0.
  pose proof (rank_lb _ Hso) as LB. cbn [node_rank] in Hr.
  cbn [rank_ok] in Hn. destruct Hn as (N1 & N2 & N3 & N4).
  pose proof (rank_lb _ N3) as LBl. pose proof (rank_lb _ N4) as LBr.
  destruct Hp as [(-> & _ & _)|(Hk & Hij)]; [exfalso; lia|].
  assert (FR : fib (nr + 1) = fib nr + fib (nr - 1)).
  { replace (nr + 1) with (nr - 1 + 2) by lia. rewrite fib_rec by lia. f_equal. f_equal. lia. }
  destruct f as [ry y s|s ry y]; cbn [sibling frame_rank parent_of] in *; subst ry.
  - (* left child, z right *)
    cbn [balance_rotate]. unfold rank_difference_parent. cbn [node_rank].
    destruct z as [|zl zr zx zrr].
    + cbn [rotate bind demote_right demote]. replace (nr >? 0) with true by lia. cbn [option_map].
      eexists. split; [reflexivity|]. cbn [ravl_foreach node_rank rank_ok pot] in *.
      split; [list_eq|].
      split; [lia + (repeat split; try assumption; lia)|]. split; [reflexivity|].
      pose proof (npot11_le nr (node_rank nl) (nr - 1)). pose proof (npot11_le (nr - 1) (-1) (node_rank s)). lia.
    + cbn [node_rank] in *. destruct (Z.eqb_spec (nr - zr) 2) as [E2|E2].
      * cbn [rotate bind demote_right demote]. replace (nr >? 0) with true by lia. cbn [option_map].
        eexists. split; [reflexivity|]. cbn [ravl_foreach node_rank rank_ok pot] in *.
        split; [list_eq|].
        split; [tauto + (repeat split; try assumption; try tauto; lia)|]. split; [reflexivity|].
        pose proof (npot11_le nr (node_rank nl) (nr - 1)). pose proof (npot11_le (nr - 1) zr (node_rank s)). lia.
      * assert (E1 : nr - zr = 1) by lia. replace (nr - zr =? 1) with true by lia.
        destruct Hp2 as (_ & Hz). specialize (Hz E1 ltac:(discriminate)).
        pose proof (promoted_pot _ _ _ _ Hz) as PZ.
        cbn [rotate bind promote demote_left demote_right demote].
        replace (nr >? 0) with true by lia. cbn [option_map bind demote_right demote].
        replace (nr >? 0) with true by lia. cbn [option_map].
        eexists. split; [reflexivity|]. cbn [ravl_foreach node_rank rank_ok pot] in *.
        destruct N4 as (Z1 & Z2 & Z3 & Z4).
        split; [list_eq|].
        split; [repeat split; try assumption; lia|]. split; [lia|].
        replace (zr + 1) with nr by lia.
        pose proof (npot11_le nr (nr - 1) (nr - 1)).
        assert (PP : npot (nr - 1) (node_rank nl) (node_rank zl) + npot (nr - 1) (node_rank zrr) (node_rank s) <= fib (nr - 1)).
        { destruct Hz as [(-> & -> & ->)|(Zk & Zij)]; cbn [node_rank].
          - replace (nr - 1) with 0 by lia. pose proof (npot11_le 0 (node_rank nl) (-1)). pose proof (npot11_le 0 (-1) (node_rank s)). rewrite fib0 in *. lia.
          - pose proof (fib_nonneg (nr - 1)).
            destruct (npot_cases (nr - 1) (node_rank nl) (node_rank zl)) as [C1|C1]; destruct (npot_cases (nr - 1) (node_rank zrr) (node_rank s)) as [C2|C2]; lia. }
        lia.
  - (* right child, z left *)
    cbn [balance_rotate]. unfold rank_difference_parent. cbn [node_rank].
    rename nl into zz. rename z into nrt. rename zz into z.
    destruct z as [|zl zr zx zrr].
    + cbn [rotate bind demote_left demote]. replace (nr >? 0) with true by lia. cbn [option_map].
      eexists. split; [reflexivity|]. cbn [ravl_foreach node_rank rank_ok pot] in *.
      split; [list_eq|].
      split; [lia + (repeat split; try assumption; lia)|]. split; [reflexivity|].
      pose proof (npot11_le nr (nr - 1) (node_rank nrt)). pose proof (npot11_le (nr - 1) (node_rank s) (-1)). lia.
    + cbn [node_rank] in *. destruct (Z.eqb_spec (nr - zr) 2) as [E2|E2].
      * cbn [rotate bind demote_left demote]. replace (nr >? 0) with true by lia. cbn [option_map].
        eexists. split; [reflexivity|]. cbn [ravl_foreach node_rank rank_ok pot] in *.
        split; [list_eq|].
        split; [tauto + (repeat split; try assumption; try tauto; lia)|]. split; [reflexivity|].
        pose proof (npot11_le nr (nr - 1) (node_rank nrt)). pose proof (npot11_le (nr - 1) (node_rank s) zr). lia.
      * assert (E1 : nr - zr = 1) by lia. replace (nr - zr =? 1) with true by lia.
        destruct Hp2 as (Hz & _). specialize (Hz E1 ltac:(discriminate)).
        pose proof (promoted_pot _ _ _ _ Hz) as PZ.
        cbn [rotate bind promote demote_left demote_right demote].
        replace (nr >? 0) with true by lia. cbn [option_map bind demote_left demote].
        replace (nr >? 0) with true by lia. cbn [option_map].
        eexists. split; [reflexivity|]. cbn [ravl_foreach node_rank rank_ok pot] in *.
        destruct N3 as (Z1 & Z2 & Z3 & Z4).
        split; [list_eq|].
        split; [repeat split; try assumption; lia|]. split; [lia|].
        replace (zr + 1) with nr by lia.
        pose proof (npot11_le nr (nr - 1) (nr - 1)).
        assert (PP : npot (nr - 1) (node_rank s) (node_rank zl) + npot (nr - 1) (node_rank zrr) (node_rank nrt) <= fib (nr - 1)).
        { destruct Hz as [(-> & -> & ->)|(Zk & Zij)]; cbn [node_rank].
          - replace (nr - 1) with 0 by lia. pose proof (npot11_le 0 (node_rank s) (-1)). pose proof (npot11_le 0 (-1) (node_rank nrt)). rewrite fib0 in *. lia.
          - pose proof (fib_nonneg (nr - 1)).
            destruct (npot_cases (nr - 1) (node_rank s) (node_rank zl)) as [C1|C1]; destruct (npot_cases (nr - 1) (node_rank zrr) (node_rank nrt)) as [C2|C2]; lia. }
        lia.
Qed.

Lemma balance_spec : forall p n, rank_ok n -> promoted2 n -> path_ok p (node_rank n - 1) ->
  exists t, balance n p = Some t /\ foreach t = foreach (plug n p) /\ rank_ok t /\
    pot t + fib (node_rank t + 3) <=
      pot n + ppot p (node_rank n - 1) + fib (proot p (node_rank n - 1) + 3) + fib (node_rank n + 1).
Proof.
  induction p as [|f q IH]; intros n Hn Hp Hpath.
  - cbn [balance]. rewrite andb_false_r. exists n. split; [reflexivity|]. split; [reflexivity|]. split; [exact Hn|].
    cbn [ppot proot]. pose proof (rank_lb _ Hn). destruct Hp as (Hp & _).
    assert (0 <= node_rank n) by (destruct n as [|l rk x r]; [destruct Hp|]; cbn [node_rank]; destruct Hp as [(-> & _)|(H1 & _)]; lia).
    replace (node_rank n + 3) with (node_rank n + 1 + 2) by lia. rewrite fib_rec by lia.
    replace (node_rank n - 1 + 3) with (node_rank n + 1 + 1) by lia. lia.
  - cbn [path_ok] in Hpath. destruct Hpath as (Q1 & Q2 & Q3 & Q4).
    set (k := node_rank n) in *. set (r := frame_rank f) in *. set (s := sibling f) in *.
    pose proof (rank_lb _ Q3) as LBs.
    assert (K0 : 0 <= k).
    { unfold k. destruct Hp as (Hp & _). destruct n as [|l rk x rt]; [destruct Hp|]; cbn [node_rank]; destruct Hp as [(-> & _)|(H1 & _)]; lia. }
    cbn [balance ppot proot]. fold r s.
    assert (NI : node_is (parent_of n f) 0 1 = (r - k =? 0) && (r - node_rank s =? 1) || (r - k =? 1) && (r - node_rank s =? 0)).
    { subst r s k. unfold node_is, node_is_i_j, rank_difference_parent. destruct f; cbn [parent_of node_rank frame_rank sibling].
      - reflexivity.
      - rewrite orb_comm. f_equal; apply andb_comm. }
    assert (RD : rank_difference_parent (parent_of n f) n = r - k).
    { subst r k. unfold rank_difference_parent. destruct f; reflexivity. }
    assert (RS : rank_difference_parent (parent_of n f) s = r - node_rank s).
    { subst r s. unfold rank_difference_parent. destruct f; reflexivity. }
    rewrite NI, RD, RS.
    replace ((r - k =? 1) && (r - node_rank s =? 0)) with false by lia. rewrite orb_false_r.
    destruct (Z.eqb_spec (r - k) 0) as [D|D]; cbn [andb].
    + destruct (Z.eqb_spec (r - node_rank s) 1) as [S1|S1].
      * (* promote *)
        assert (RK : node_rank (promote (parent_of n f)) = k + 1).
        { destruct f; cbn [parent_of promote node_rank frame_rank] in *; subst r; lia. }
        destruct (IH (promote (parent_of n f))) as (t & B & F & R & P).
        -- destruct f; cbn [parent_of promote rank_ok]; cbn [sibling frame_rank] in *; subst r s k;
             repeat split; try assumption; lia.
        -- destruct Hp as (Hp & _). split.
           ++ destruct f; cbn [parent_of promote promoted]; right; cbn [sibling frame_rank] in *; subst r s k; lia.
           ++ destruct f; cbn [parent_of promote]; cbn [sibling frame_rank] in *; subst r s k; split; intros E NN;
              try exact Hp; exfalso; lia.
        -- rewrite RK. replace (k + 1 - 1) with r by lia. exact Q4.
        -- exists t. split; [exact B|]. split.
           { rewrite F. cbn [plug]. rewrite !foreach_plug. f_equal. f_equal.
             destruct f; reflexivity. }
           split; [exact R|].
           rewrite RK in P. replace (k + 1 - 1) with r in P by lia.
           assert (PE : pot (promote (parent_of n f)) = pot n + pot s).
           { destruct f; cbn [parent_of promote pot]; cbn [sibling frame_rank] in *; subst r s k;
               match goal with |- npot ?a ?b ?c + _ + _ = _ => destruct (npot_cases a b c) end; lia. }
           rewrite PE in P.
           assert (NP : npot r (k - 1) (node_rank s) = fib r).
           { unfold npot. replace (r - (k - 1) =? 1) with true by lia. replace (r - node_rank s =? 1) with true by lia. reflexivity. }
           rewrite NP. replace (k + 1 + 1) with (r + 2) in P by lia. rewrite fib_rec in P by lia.
           replace (k + 1) with (r + 1) by lia. lia.
      * (* rotate *)
        replace (r - node_rank s >? 1) with true by lia. cbn [andb].
        destruct (rotate_spec n f Hn Hp ltac:(fold r k; lia) ltac:(fold r s; lia) Q3) as (t & B & F & R & RK & P).
        fold r s in RK, P. rewrite B. cbn [option_map]. exists (plug t q). split; [reflexivity|].
        split; [cbn [plug]; rewrite !foreach_plug, F; reflexivity|].
        split; [apply rank_plug; split; [exact R|rewrite RK; exact Q4]|].
        destruct (pot_plug q t) as (E1 & E2). rewrite E1, E2, RK.
        pose proof (npot_nonneg r (k - 1) (node_rank s)). replace (k + 1) with (r + 1) by lia. lia.
    + cbn [andb]. exists (plug (parent_of n f) q). split; [reflexivity|]. split; [reflexivity|].
      assert (RK : node_rank (parent_of n f) = r) by (subst r; destruct f; reflexivity).
      split.
      { apply rank_plug. rewrite RK. split; [|exact Q4].
        destruct f; cbn [parent_of rank_ok]; cbn [sibling frame_rank] in *; subst r s k; repeat split; try assumption; lia. }
      destruct (pot_plug q (parent_of n f)) as (E1 & E2). rewrite E1, E2, RK.
      assert (PE : pot (parent_of n f) = npot r k (node_rank s) + pot n + pot s).
      { destruct f; cbn [parent_of pot]; subst r s k; cbn [frame_rank sibling]; [lia|]. rewrite (npot_sym rank (node_rank n)). lia. }
      rewrite PE. pose proof (npot_nonneg r (k - 1) (node_rank s)).
      assert (npot r k (node_rank s) <= fib (k + 1)); [|lia].
      pose proof (fib_nonneg (k + 1)). destruct (npot_cases r k (node_rank s)) as [C|(C1 & C2 & C3)]; [lia|].
      rewrite C3. replace r with (k + 1) by lia. lia.
Qed.

(* ---------- insertion ---------- *)
Lemma descend_spec : forall t p x, ascending cmp (foreach (plug t p)) -> splits x (lefts p) (rights p) ->
  rank_ok (plug t p) ->
  match descend cmp x t p with
  | None => exists y, In y (foreach (plug t p)) /\ cmp x y = 0
  | Some q => plug Null q = plug t p /\ splits x (lefts q) (rights q)
  end.
Proof.
  induction t as [|l IHl rk y rt IHr]; intros p x Hasc S R; cbn [descend].
  - auto.
  - destruct (splits_step l rk y rt p x Hasc S) as (S1 & S2 & S3).
    destruct (Z.eqb_spec (cmp x y) 0) as [E|E].
    + exists y. split; [|exact E]. rewrite foreach_plug. cbn [ravl_foreach]. rewrite !in_app_iff. cbn. auto.
    + destruct (cmp x y >? 0) eqn:G.
      * exact (IHr (InRight l rk y :: p) x Hasc (S1 ltac:(lia)) R).
      * exact (IHl (InLeft rk y rt :: p) x Hasc (S2 ltac:(lia)) R).
Qed.

Definition energy (t : tree) : Z := pot t + fib (node_rank t + 3).

Lemma emplace_spec : forall t x, ascending cmp (foreach t) -> rank_ok t ->
  match ravl_emplace cmp true t x with
  | None => False
  | Some (t', EM_OK) => (forall y, In y (foreach t) -> cmp x y <> 0) /\
      ascending cmp (foreach t') /\ (forall z, In z (foreach t') <-> z = x \/ In z (foreach t)) /\
      rank_ok t' /\ energy t' <= energy t + 1
  | Some (t', EM_EXIST) => t' = t /\ exists y, In y (foreach t) /\ cmp x y = 0
  | Some (t', EM_NOMEM) => False
  end.
Proof.
  intros t x Hasc R. unfold ravl_emplace. cbn [negb].
  pose proof (descend_spec t [] x Hasc ltac:(split; intros ? []) R) as D.
  destruct (descend cmp x t []) as [q|]; [|cbn [plug] in D; auto]. destruct D as (E & SL & SR). cbn [plug] in E.
  assert (RQ : rank_ok (plug Null q)) by (rewrite E; exact R).
  apply rank_plug in RQ. destruct RQ as (_ & PQ). cbn [node_rank] in PQ.
  assert (FT : foreach t = lefts q ++ rights q) by (rewrite <- E, foreach_plug; reflexivity).
  destruct (balance_spec q (Node Null 0 x Null)) as (t' & B & F & R' & P).
  - cbn. lia.
  - split; [left; auto|]. cbn. split; intros; congruence.
  - exact PQ.
  - rewrite B. cbn [option_map]. rewrite foreach_plug in F. cbn [ravl_foreach app] in F.
    split.
    { intros y Hy. rewrite FT in Hy. apply in_app_or in Hy. destruct Hy as [Hy|Hy]; [specialize (SL y Hy)|specialize (SR y Hy)]; lia. }
    split.
    { rewrite F. apply asc_mid. rewrite FT in Hasc. apply asc_app in Hasc. destruct Hasc as (H1 & H2 & _).
      split; [exact H1|]. split; [exact H2|]. split; [|exact SR]. intros y Hy. apply cmp_opp. apply SL. exact Hy. }
    split; [intros z; rewrite F, in_mid, FT, in_app_iff; tauto|].
    split; [exact R'|]. unfold energy.
    destruct (pot_plug q Null) as (E1 & E2). rewrite E in E1, E2. cbn [node_rank pot] in E1, E2.
    cbn [node_rank] in P. replace (pot (Node Null 0 x Null)) with 0 in P by reflexivity.
    change (0 - 1) with (-1) in P. rewrite <- E2 in P. change (fib (0 + 1)) with 1 in P. lia.
Qed.

(* ---------- removal ---------- *)
Lemma remove_simple_spec : forall w n a x b, at_pos w n a x b -> rank_ok w ->
  (exists l rk r, fst n = Node l rk x r /\ (l = Null \/ r = Null)) ->
  foreach (remove_simple (fst n) (snd n)) = a ++ b /\ rank_ok (remove_simple (fst n) (snd n)) /\
  energy (remove_simple (fst n) (snd n)) <= energy w /\
  node_rank (remove_simple (fst n) (snd n)) <= node_rank w.
Proof.
  intros w [t p] a x b (E & l & rk & r & En & -> & ->) R (l' & rk' & r' & En' & Hc). cbn [fst snd] in *.
  subst t w. injection En' as <- <- <-. apply rank_plug in R. destruct R as (R & PR).
  cbn [rank_ok] in R. destruct R as (R1 & R2 & R3 & R4).
  assert (G : forall c, rank_ok c -> node_rank c < rk -> (pot c <= pot (Node l rk x r)) ->
     rank_ok (plug c p) /\ energy (plug c p) <= energy (plug (Node l rk x r) p) /\
     node_rank (plug c p) <= node_rank (plug (Node l rk x r) p)).
  { intros c C1 C2 C3. cbn [node_rank] in PR. split; [apply rank_plug; split; [exact C1|apply path_ok_lower with rk; [exact PR|lia]]|].
    unfold energy. destruct (pot_plug p c) as (A1 & A2). destruct (pot_plug p (Node l rk x r)) as (B1 & B2).
    rewrite A1, A2, B1, B2. cbn [node_rank]. pose proof (ppot_lower p rk (node_rank c) PR ltac:(lia)).
    pose proof (proot_lower p rk (node_rank c) ltac:(lia)). pose proof (rank_lb _ C1).
    assert (LL : -1 <= proot p (node_rank c)).
    { assert (path_ok p (node_rank c)) by (apply path_ok_lower with rk; [exact PR|lia]).
      pose proof (proot_ge _ _ H2). lia. }
    pose proof (fib_mono (proot p (node_rank c) + 3) (proot p rk + 3) ltac:(lia)). lia. }
  pose proof (npot_nonneg rk (node_rank l) (node_rank r)). pose proof (pot_nonneg l). pose proof (pot_nonneg r).
  destruct l as [|ll lrk lx lr].
  - cbn [remove_simple]. split; [rewrite foreach_plug; cbn [ravl_foreach]; rewrite app_nil_r; reflexivity|].
    apply G; [assumption|assumption|]. cbn [pot] in *. lia.
  - destruct Hc as [Hc|Hc]; [discriminate|]. subst r. cbn [remove_simple].
    split; [rewrite foreach_plug; cbn [ravl_foreach app]; rewrite <- !app_assoc; reflexivity|].
    apply G; [assumption|assumption|]. cbn [pot] in *. lia.
Qed.

(* leftmost node has no left child *)
Lemma leftmost_nochild : forall (t : tree) p l rk x r q, type_most t p LEFT = (Node l rk x r, q) -> l = Null.
Proof.
  induction t as [|tl IHl trk tx tr IHr]; intros p l rk x r q; cbn [type_most]; [discriminate|].
  destruct tl as [|a b c d]; [congruence|]. apply IHl.
Qed.

Lemma type_most_replace : forall (t : tree) p p', exists q,
  type_most t p LEFT = (fst (type_most t p LEFT), q ++ p) /\
  type_most t p' LEFT = (fst (type_most t p LEFT), q ++ p').
Proof.
  induction t as [|tl IHl trk tx tr IHr]; intros p p'.
  - exists []. split; reflexivity.
  - destruct tl as [|a b c d].
    + exists []. split; reflexivity.
    + cbn [type_most]. destruct (IHl (InLeft trk tx tr :: p) (InLeft trk tx tr :: p')) as (q & E1 & E2).
      exists (q ++ [InLeft trk tx tr]). rewrite <- !app_assoc. cbn [app]. split; [exact E1|exact E2].
Qed.

Lemma remove_spec : forall w n a x b, at_pos w n a x b -> rank_ok w ->
  foreach (ravl_remove n) = a ++ b /\ rank_ok (ravl_remove n) /\ energy (ravl_remove n) <= energy w /\
  node_rank (ravl_remove n) <= node_rank w.
Proof.
  intros w [t p] a x b AP R. pose proof AP as (E & l & rk & r & En & Ea & Eb). cbn [fst snd] in *. subst t.
  unfold ravl_remove. cbn [fst snd].
  destruct l as [|ll lrk lx lr]; [apply (remove_simple_spec w (Node Null rk x r, p) a x b AP R); cbn [fst]; eauto 6|].
  destruct r as [|rl rrk rx rr].
  { apply (remove_simple_spec w (Node (Node ll lrk lx lr) rk x Null, p) a x b AP R); cbn [fst]; eauto 6. }
  set (L := Node ll lrk lx lr) in *. set (RT := Node rl rrk rx rr) in *.
  destruct (leftmost RT (InRight L rk x :: p) ltac:(discriminate)) as (sx & sb & S1 & S2).
  pose proof S1 as (_ & sl & srk & sr & Es & _ & _). 
  assert (X : exists o, fst (type_most RT (InRight L rk x :: p) LEFT) = o /\ o = Node sl srk sx sr) by eauto.
  destruct X as (o & Eo & ->). rewrite Eo. 
  destruct (leftmost RT (InRight L rk sx :: p) ltac:(discriminate)) as (sx2 & sb2 & T1 & T2).
  set (s2 := type_most RT (InRight L rk sx :: p) LEFT) in *.
  destruct (type_most_replace RT (InRight L rk x :: p) (InRight L rk sx :: p)) as (q & R1 & R2).
  fold s2 in R2. rewrite Eo in R2.
  assert (sx2 = sx /\ sb2 = sb).
  { destruct T1 as (_ & l2 & rk2 & r2 & F2 & _ & _). rewrite R2 in F2. cbn [fst] in F2. injection F2 as -> -> -> ->.
    split; [reflexivity|]. cbn [rights] in *. congruence. }
  destruct H as (-> & ->). cbn [plug parent_of] in T1.
  assert (NL : sl = Null).
  { apply (leftmost_nochild RT (InRight L rk x :: p) sl srk sx sr (snd (type_most RT (InRight L rk x :: p) LEFT))).
    rewrite <- Eo. apply surjective_pairing. }
  assert (RW : rank_ok (plug (Node L rk sx RT) p)).
  { rewrite <- E in R. apply rank_plug in R. apply rank_plug. exact R. }
  assert (EW : energy (plug (Node L rk sx RT) p) = energy w /\ node_rank (plug (Node L rk sx RT) p) = node_rank w).
  { rewrite <- E. unfold energy. destruct (pot_plug p (Node L rk sx RT)) as (A1 & A2). destruct (pot_plug p (Node L rk x RT)) as (B1 & B2).
    rewrite A1, A2, B1, B2. split; reflexivity. }
  destruct (remove_simple_spec _ _ _ _ _ T1 RW) as (Q1 & Q2 & Q3 & Q4).
  { exists sl, srk, sr. rewrite R2. cbn [fst]. auto. }
  split.
  { rewrite Q1. cbn [lefts]. cbn [rights] in S2. rewrite Ea, Eb, <- !app_assoc. f_equal. f_equal. cbn [app].
    rewrite <- S2. reflexivity. }
  split; [exact Q2|]. lia.
Qed.

(* ---------- histories ---------- *)
Definition inv (t : tree) (S : A -> Prop) (m : Z) : Prop :=
  ascending cmp (foreach t) /\ (forall x, In x (foreach t) <-> S x) /\ rank_ok t /\ energy t <= m + 2.

Lemma nearest_ext : forall S S' p x o, (forall y, S y <-> S' y) -> nearest cmp S p x o -> nearest cmp S' p x o.
Proof.
  intros S S' p x [y|] E; cbn [nearest].
  - intros (H1 & H2 & H3). split; [apply E; exact H1|]. split; [exact H2|]. intros y' Hy'. apply H3. apply E. exact Hy'.
  - intros H y Hy. apply H. apply E. exact Hy.
Qed.

Lemma step_inv : forall t S m o, inv t S m ->
  exists t' r S', step cmp t o = Some (t', r) /\ allowed cmp S o r S' /\ inv t' S' (m + inserts [r]).
Proof.
  intros t S m o (I1 & I2 & I3 & I4). destruct o as [ok x|x fl]; cbn [step].
  - destruct ok.
    + pose proof (emplace_spec t x I1 I3) as H. destruct (ravl_emplace cmp true t x) as [[t' c]|]; [|destruct H].
      cbn [option_map fst snd]. destruct c; [| |destruct H].
      * destruct H as (H1 & H2 & H3 & H4 & H5).
        exists t', (OutIns EM_OK), (fun z => z = x \/ S z). split; [reflexivity|]. split.
        -- apply al_new; [|tauto]. intros y Hy. apply H1. apply I2. exact Hy.
        -- split; [exact H2|]. split; [intros z; rewrite H3, I2; tauto|]. split; [exact H4|]. cbn [inserts]. lia.
      * destruct H as (-> & y & Hy & Ey). exists t, (OutIns EM_EXIST), S. split; [reflexivity|]. split.
        -- apply al_exist with y; [apply I2; exact Hy|exact Ey].
        -- cbn [inserts]. rewrite Z.add_0_r. repeat split; try assumption; apply I2.
    + cbn. exists t, (OutIns EM_NOMEM), S. split; [reflexivity|]. split; [constructor|].
      rewrite Z.add_0_r. repeat split; try assumption; apply I2.
  - pose proof (find_spec t x fl I1) as H. destruct (ravl_find cmp t x fl) as [n|].
    + destruct H as (a & y & b & AP & NR). destruct (at_pos_list _ _ _ _ _ AP) as (FL & DT).
      destruct (remove_spec _ _ _ _ _ AP I3) as (R1 & R2 & R3 & R4).
      rewrite FL in I1. pose proof I1 as I1'. apply asc_mid in I1'. destruct I1' as (A1 & A2 & A3 & A4).
      exists (ravl_remove n), (OutRem (Some y)), (fun z => S z /\ cmp z y <> 0).
      split; [rewrite DT; reflexivity|]. split.
      * apply al_rem; [|tauto]. apply nearest_ext with (2 := NR). exact I2.
      * split; [rewrite R1; apply asc_app; split; [exact A1|]; split; [exact A2|];
                intros u v U V; apply lt_le with y; [apply A3; exact U|specialize (A4 v V); lia]|].
        split.
        { intros z. rewrite R1, in_app_iff, <- I2, FL, in_mid. split.
          - intros [U|U]; (split; [tauto|]).
            + specialize (A3 z U). lia.
            + specialize (A4 z U). pose proof (proj1 (cmp_opp _ _) A4). lia.
          - intros ([U|[->|U]] & N); [tauto| |tauto]. rewrite cmp_refl in N. congruence. }
        split; [exact R2|]. cbn [inserts]. lia.
    + exists t, (OutRem None), S. split; [reflexivity|]. split.
      * apply al_none. apply nearest_ext with (2 := H). exact I2.
      * cbn [inserts]. rewrite Z.add_0_r. repeat split; try assumption; apply I2.
Qed.

Lemma inserts_cons : forall r (rs : list (out A)), inserts (r :: rs) = inserts [r] + inserts rs.
Proof. intros [[]|] rs; cbn [inserts]; lia. Qed.

Lemma exec_inv : forall ops t S m, inv t S m ->
  exists t' rs S', exec cmp t ops = Some (t', rs) /\ runs cmp S ops rs S' /\ inv t' S' (m + inserts rs).
Proof.
  induction ops as [|o os IH]; intros t S m I.
  - exists t, [], S. split; [reflexivity|]. split; [constructor|]. cbn [inserts]. rewrite Z.add_0_r. exact I.
  - destruct (step_inv t S m o I) as (t1 & r & S1 & E1 & A1 & I1).
    destruct (IH t1 S1 _ I1) as (t2 & rs & S2 & E2 & A2 & I2).
    exists t2, (r :: rs), S2. cbn [exec]. rewrite E1, E2. split; [reflexivity|].
    split; [econstructor; eassumption|]. rewrite inserts_cons, Z.add_assoc. exact I2.
Qed.
Lemma inv_empty : inv Null empty 0.
Proof. split; [constructor|]. split; [cbn; tauto|]. split; [exact I|]. unfold energy. vm_compute. discriminate. Qed.

(* ---------- height ---------- *)
Lemma height_rank : forall t, rank_ok t -> height t <= node_rank t + 1.
Proof.
  induction t as [|l IHl rk x r IHr]; cbn [rank_ok height node_rank]; [lia|].
  intros (H1 & H2 & H3 & H4). specialize (IHl H3). specialize (IHr H4). lia.
Qed.
Lemma height_nonneg : forall t : tree, 0 <= height t.
Proof. induction t; cbn [height]; lia. Qed.

Lemma fib_pow : forall n, 2 ^ Z.of_nat n <= fibn (2 * n + 2) /\ 2 ^ Z.of_nat n <= fibn (2 * n + 3).
Proof.
  induction n as [|n (IH1 & IH2)]; [cbn; lia|].
  rewrite Nat2Z.inj_succ, Z.pow_succ_r by lia.
  replace (2 * S n + 2)%nat with (S (S (2 * n + 2))) by lia.
  replace (2 * S n + 3)%nat with (S (S (S (2 * n + 2)))) by lia.
  replace (2 * n + 3)%nat with (S (2 * n + 2)) in IH2 by lia.
  rewrite !fibn_S. pose proof (fibn_nonneg (2 * n + 2)). lia.
Qed.

Lemma height_bound : forall t S m, inv t S m -> fib (height t + 2) <= m + 2 /\ 2 ^ (height t / 2) <= m + 2.
Proof.
  intros t S m (_ & _ & R & E). pose proof (height_rank t R) as H. pose proof (height_nonneg t) as HN.
  unfold energy in E. pose proof (pot_nonneg t).
  pose proof (fib_mono (height t + 2) (node_rank t + 3) ltac:(lia)) as M.
  split; [lia|].
  assert (F : 2 ^ (height t / 2) <= fib (height t + 2)); [|lia].
  pose proof (Z.div_mod (height t) 2 ltac:(lia)) as D. pose proof (Z.mod_pos_bound (height t) 2 ltac:(lia)) as B.
  set (q := height t / 2) in *. assert (0 <= q) by lia. unfold fib.
  destruct (fib_pow (Z.to_nat q)) as (P1 & P2). rewrite Z2Nat.id in P1, P2 by lia.
  destruct (Z.eq_dec (height t mod 2) 0) as [E0|E0].
  - replace (Z.to_nat (height t + 2)) with (2 * Z.to_nat q + 2)%nat by lia. exact P1.
  - replace (Z.to_nat (height t + 2)) with (2 * Z.to_nat q + 3)%nat by lia. exact P2.
Qed.

Lemma height_plug : forall p (a b : tree), height a <= height b -> height (plug a p) <= height (plug b p).
Proof.
  induction p as [|[rk x r|l rk x] q IH]; intros a b H; cbn [plug parent_of]; [exact H| |];
    apply IH; cbn [height]; lia.
Qed.
Lemma height_remove_simple : forall (n : tree) p, height (remove_simple n p) <= height (plug n p).
Proof.
  intros [|l rk x r] p; cbn [remove_simple]; [lia|].
  destruct l as [|ll lrk lx lr]; apply height_plug; cbn [height]; pose proof (height_nonneg r); lia.
Qed.
Lemma type_most_plug : forall (t : tree) p s, plug (fst (type_most t p s)) (snd (type_most t p s)) = plug t p.
Proof.
  induction t as [|l IHl rk x r IHr]; intros p s; cbn [type_most]; [reflexivity|].
  destruct s; [destruct l|destruct r]; try reflexivity; [rewrite IHl|rewrite IHr]; reflexivity.
Qed.
Lemma height_remove : forall (n : loc), height (ravl_remove n) <= height (plug (fst n) (snd n)).
Proof.
  intros [t p]. cbn [fst snd]. unfold ravl_remove. cbn [fst snd].
  destruct t as [|l rk x r]; [apply height_remove_simple|].
  destruct l as [|ll lrk lx lr]; [apply height_remove_simple|].
  destruct r as [|rl rrk rx rr]; [apply height_remove_simple|].
  set (L := Node ll lrk lx lr). set (RT := Node rl rrk rx rr).
  destruct (fst (type_most RT (InRight L rk x :: p) LEFT)) as [|a b sx c]; [lia|].
  etransitivity; [apply height_remove_simple|]. rewrite type_most_plug. cbn [plug parent_of].
  apply height_plug. cbn [height]. lia.
Qed.
Lemma step_height : forall (t t' : tree) x fl r, ascending cmp (foreach t) -> step cmp t (OpRemove x fl) = Some (t', r) ->
  height t' <= height t.
Proof.
  intros t t' x fl r Hasc E. cbn [step] in E. pose proof (find_spec t x fl Hasc) as F.
  destruct (ravl_find cmp t x fl) as [n|].
  - destruct F as (a & y & b & (P & _) & _). injection E as <- _. rewrite <- P. apply height_remove.
  - injection E as <- _. lia.
Qed.

Lemma first_spec : forall t, ascending cmp (foreach t) ->
  match ravl_first t with None => foreach t = [] | Some n => exists y b, at_pos t n [] y b /\ foreach t = y :: b end.
Proof.
  intros t Hasc. unfold ravl_first. destruct t as [|l rk x r]; [reflexivity|].
  destruct (leftmost (Node l rk x r) [] ltac:(discriminate)) as (y & b & H1 & H2). exists y, b.
  split; [exact H1|]. rewrite H2. cbn [rights]. rewrite app_nil_r. reflexivity.
Qed.
Lemma last_spec : forall t, ascending cmp (foreach t) ->
  match ravl_last t with None => foreach t = [] | Some n => exists a y, at_pos t n a y [] /\ foreach t = a ++ [y] end.
Proof.
  intros t Hasc. unfold ravl_last. destruct t as [|l rk x r]; [reflexivity|].
  destruct (rightmost (Node l rk x r) [] ltac:(discriminate)) as (a & y & H1 & H2). exists a, y.
  split; [exact H1|]. rewrite H2. reflexivity.
Qed.


Lemma find_data : forall t S m x fl, inv t S m -> nearest cmp S fl x (data_of (ravl_find cmp t x fl)).
Proof.
  intros t S m x fl (I1 & I2 & _). pose proof (find_spec t x fl I1) as F.
  destruct (ravl_find cmp t x fl) as [n|]; cbn [data_of].
  - destruct F as (a & y & b & AP & NR). destruct (at_pos_list _ _ _ _ _ AP) as (_ & ->).
    apply nearest_ext with (2 := NR). exact I2.
  - apply nearest_ext with (2 := F). exact I2.
Qed.

Lemma cessor_data : forall t S m n a y b, inv t S m -> at_pos t n a y b ->
  nearest cmp S P_GREATER y (data_of (ravl_node_successor n)) /\
  nearest cmp S P_LESS y (data_of (ravl_node_predecessor n)).
Proof.
  intros t S m n a y b (I1 & I2 & _) AP. destruct (at_pos_list _ _ _ _ _ AP) as (L & _).
  pose proof I1 as I1'. rewrite L in I1'. pose proof I1' as I1''. apply asc_mid in I1'.
  destruct I1' as (A1 & A2 & A3 & A4). split.
  - pose proof (successor_spec _ _ _ _ _ AP) as SU. destruct (ravl_node_successor n) as [k|]; cbn [data_of].
    + destruct SU as (y' & b' & AP' & ->). destruct (at_pos_list _ _ _ _ _ AP') as (L' & ->).
      cbn [nearest qualifies closer]. split; [apply I2; rewrite L'; apply in_mid; auto|].
      split; [apply A4; left; reflexivity|]. intros z Hz Q. apply I2 in Hz. rewrite L in Hz. apply in_mid in Hz.
      destruct Hz as [Hz|[->|[->|Hz]]].
      * specialize (A3 z Hz). apply cmp_opp in A3. lia.
      * rewrite cmp_refl in Q. lia.
      * rewrite cmp_refl. lia.
      * inversion A2 as [|? ? ? HH]; subst. specialize (HH z Hz). lia.
    + subst b. cbn [nearest qualifies]. intros z Hz Q. apply I2 in Hz. rewrite L in Hz. apply in_mid in Hz.
      destruct Hz as [Hz|[->|[]]]; [specialize (A3 z Hz); apply cmp_opp in A3; lia|]. rewrite cmp_refl in Q. lia.
  - pose proof (predecessor_spec _ _ _ _ _ AP) as SU. destruct (ravl_node_predecessor n) as [k|]; cbn [data_of].
    + destruct SU as (a' & y' & AP' & ->). destruct (at_pos_list _ _ _ _ _ AP') as (L' & ->).
      cbn [nearest qualifies closer]. split; [apply I2; rewrite L'; apply in_mid; auto|].
      split; [specialize (A3 y' ltac:(apply in_or_app; right; left; reflexivity)); apply cmp_opp in A3; exact A3|].
      intros z Hz Q. apply I2 in Hz. rewrite L in Hz. apply in_mid in Hz.
      destruct Hz as [Hz|[->|Hz]].
      * apply in_app_or in Hz. destruct Hz as [Hz|[->|[]]]; [|rewrite cmp_refl; lia].
        apply asc_app in A1. destruct A1 as (_ & _ & B). specialize (B z y' Hz (or_introl eq_refl)).
        apply cmp_opp in B. lia.
      * rewrite cmp_refl in Q. lia.
      * specialize (A4 z Hz). lia.
    + subst a. cbn [nearest qualifies]. intros z Hz Q. apply I2 in Hz. rewrite L in Hz. apply in_mid in Hz.
      destruct Hz as [[]|[->|Hz]]; [rewrite cmp_refl in Q; lia|]. specialize (A4 z Hz). lia.
Qed.

(* every position of the tree *)
Lemma node_pos : forall t (n : loc), plug (fst n) (snd n) = t -> fst n <> Null ->
  exists a y b, at_pos t n a y b /\ ravl_data n = Some y.
Proof.
  intros t [[|l rk x r] p] E N; cbn [fst snd] in *; [congruence|].
  exists (lefts p ++ foreach l), x, (foreach r ++ rights p).
  split; [|reflexivity]. split; [exact E|]. exists l, rk, r. auto.
Qed.


Lemma ends_data : forall t S m, inv t S m ->
  least cmp S (data_of (ravl_first t)) /\ greatest cmp S (data_of (ravl_last t)) /\
  (ravl_empty t = true <-> forall y, ~ S y).
Proof.
  intros t S m (I1 & I2 & _). split; [|split].
  - pose proof (first_spec t I1) as F. destruct (ravl_first t) as [n|]; cbn [data_of].
    + destruct F as (y & b & AP & L). destruct (at_pos_list _ _ _ _ _ AP) as (_ & ->). cbn [least].
      split; [apply I2; rewrite L; left; reflexivity|]. intros z Hz. apply I2 in Hz. rewrite L in *.
      destruct Hz as [->|Hz]; [rewrite cmp_refl; lia|]. inversion I1 as [|? ? ? HH]; subst. specialize (HH z Hz). lia.
    + cbn [least]. intros y Hy. apply I2 in Hy. rewrite F in Hy. exact Hy.
  - pose proof (last_spec t I1) as F. destruct (ravl_last t) as [n|]; cbn [data_of].
    + destruct F as (a & y & AP & L). destruct (at_pos_list _ _ _ _ _ AP) as (_ & ->). cbn [greatest].
      split; [apply I2; rewrite L; apply in_or_app; right; left; reflexivity|]. intros z Hz. apply I2 in Hz. rewrite L in *.
      apply in_app_or in Hz. destruct Hz as [Hz|[->|[]]]; [|rewrite cmp_refl; lia].
      apply asc_app in I1. destruct I1 as (_ & _ & B). specialize (B z y Hz (or_introl eq_refl)). apply le_opp. lia.
    + cbn [greatest]. intros y Hy. apply I2 in Hy. rewrite F in Hy. exact Hy.
  - destruct t as [|l rk x r]; cbn [ravl_empty].
    + split; [|reflexivity]. intros _ y Hy. apply I2 in Hy. exact Hy.
    + split; [discriminate|]. intros H. exfalso. apply (H x). apply I2. cbn [ravl_foreach]. apply in_or_app. right. left. reflexivity.
Qed.
End P.
