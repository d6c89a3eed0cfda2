(* Invariant of the coarse allocator: list-level facts. *)
From Coq Require Import Permutation.
From Verif Require Import Base Model_Utils Proof_Utils Model_Coarse Spec_Coarse.

(* calls of the alloc callback among the events of a call *)
Definition asks (ev : list event) : list event :=
  filter (fun e => match e with EvAlloc _ _ _ _ => true | _ => false end) ev.
Lemma asks_app : forall a b, asks (a ++ b) = asks a ++ asks b.
Proof. intros. unfold asks. apply filter_app. Qed.
Lemma asks_obtained : forall ev, asks ev = [] -> obtained ev = [].
Proof.
  unfold asks, obtained. induction ev as [|e ev IH]; intros H; [reflexivity|]. cbn [filter flat_map] in *.
  destruct e; try discriminate; exact (IH H).
Qed.

Definition key (b : block) : Z * Z := (b_data b, b_size b).
Definition bend (b : block) : Z := b_data b + b_size b.

Fixpoint chain (lo : Z) (l : list block) : Prop :=
  match l with
  | [] => True
  | b :: r => lo <= b_data b /\ 0 < b_size b /\ bend b <= U64 /\ chain (bend b) r
  end.
Definition fin (lo : Z) (l : list block) : Z := fold_left (fun _ b => bend b) l lo.

Lemma chain_weaken : forall l lo lo', lo' <= lo -> chain lo l -> chain lo' l.
Proof. destruct l; cbn; intros; [trivial|]. intuition lia. Qed.

Lemma chain_app : forall l1 l2 lo, chain lo (l1 ++ l2) <-> chain lo l1 /\ chain (fin lo l1) l2.
Proof.
  induction l1 as [|b l1 IH]; intros l2 lo; cbn [app chain].
  - cbn. tauto.
  - rewrite IH. unfold fin; cbn [fold_left]. tauto.
Qed.

Lemma fin_ge : forall l lo, chain lo l -> lo <= fin lo l.
Proof.
  induction l as [|b l IH]; intros lo H; [cbn; lia|].
  cbn [chain] in H. destruct H as (H1 & H2 & H3 & H4). apply IH in H4.
  unfold fin in *; cbn [fold_left]. unfold bend in *. lia.
Qed.

Lemma chain_left : forall l lo x, chain lo l -> In x l -> lo <= b_data x /\ 0 < b_size x /\ bend x <= fin lo l.
Proof.
  induction l as [|b l IH]; intros lo x H I; [destruct I|].
  cbn [chain] in H. destruct H as (H1 & H2 & H3 & H4).
  pose proof (fin_ge _ _ H4) as G. unfold fin in *; cbn [fold_left].
  destruct I as [->|I].
  - repeat split; try assumption.
  - destruct (IH _ _ H4 I) as (A & B & C). repeat split; try assumption. unfold bend in *; lia.
Qed.

Lemma chain_right : forall l lo x, chain lo l -> In x l -> lo <= b_data x.
Proof. intros l lo x H I. exact (proj1 (chain_left _ _ _ H I)). Qed.

Lemma chain_end : forall l lo x, chain lo l -> In x l -> bend x <= U64.
Proof.
  induction l as [|b l IH]; intros lo x H I; [destruct I|].
  cbn [chain] in H. destruct I as [->|I]; [tauto|]. eapply IH; [|exact I]. apply H.
Qed.

(* a list position: everything before is below p, everything after above *)
Definition mid (l1 : list block) (p : Z) (l2 : list block) : Prop :=
  (forall x, In x l1 -> b_data x < p) /\ (forall x, In x l2 -> p < b_data x).

Lemma chain_mid : forall l1 b l2 lo, chain lo (l1 ++ b :: l2) -> mid l1 (b_data b) l2.
Proof.
  intros l1 b l2 lo H. apply chain_app in H. destruct H as (H1 & H2). cbn [chain] in H2.
  destruct H2 as (A & B & C & D). split; intros x I.
  - destruct (chain_left _ _ _ H1 I) as (E & F & G). unfold bend in *. lia.
  - pose proof (chain_right _ _ _ D I). unfold bend in *. lia.
Qed.

Lemma chain_between : forall l1 b l2 lo q, chain lo (l1 ++ b :: l2) -> b_data b <= q < bend b -> 
  (forall x, In x l1 -> b_data x < q) /\ (forall x, In x l2 -> q < b_data x).
Proof.
  intros l1 b l2 lo q H Q. pose proof (chain_mid _ _ _ _ H) as (M1 & M2).
  apply chain_app in H. destruct H as (H1 & H2). cbn [chain] in H2.
  split; intros x I; [apply M1 in I; lia|]. pose proof (chain_right _ _ _ (proj2 (proj2 (proj2 H2))) I). lia.
Qed.

Lemma find_mid : forall l1 b l2 p, mid l1 p l2 -> b_data b = p -> find_block (l1 ++ b :: l2) p = Some b.
Proof.
  intros l1 b l2 p (M & _) E. unfold find_block. induction l1 as [|x l1 IH]; cbn [app find].
  - rewrite E, Z.eqb_refl. reflexivity.
  - destruct (Z.eqb_spec (b_data x) p) as [X|_]; [exfalso; specialize (M x (or_introl eq_refl)); lia|].
    apply IH. intros y I. apply M. right. exact I.
Qed.

Lemma update_mid : forall l1 b l2 p f, mid l1 p l2 -> b_data b = p -> update_block (l1 ++ b :: l2) p f = l1 ++ f b :: l2.
Proof.
  intros l1 b l2 p f (M1 & M2) E. unfold update_block. rewrite map_app. cbn [map]. rewrite E, Z.eqb_refl.
  assert (K : forall l, (forall x, In x l -> b_data x <> p) -> map (fun b => if b_data b =? p then f b else b) l = l).
  { induction l as [|x l IH]; intros H; cbn [map]; [reflexivity|].
    destruct (Z.eqb_spec (b_data x) p) as [X|_]; [exfalso; exact (H x (or_introl eq_refl) X)|].
    rewrite IH; [reflexivity|]. intros y I; apply H; right; exact I. }
  rewrite !K; [reflexivity| |]; intros x I; [apply M2 in I|apply M1 in I]; lia.
Qed.

Lemma remove_mid : forall l1 b l2 p, mid l1 p l2 -> b_data b = p -> remove_block (l1 ++ b :: l2) p = l1 ++ l2.
Proof.
  intros l1 b l2 p (M1 & M2) E. unfold remove_block. rewrite filter_app. cbn [filter]. rewrite E, Z.eqb_refl. cbn [negb].
  assert (K : forall l, (forall x, In x l -> b_data x <> p) -> filter (fun b => negb (b_data b =? p)) l = l).
  { induction l as [|x l IH]; intros H; cbn [filter]; [reflexivity|].
    destruct (Z.eqb_spec (b_data x) p) as [X|_]; [exfalso; exact (H x (or_introl eq_refl) X)|].
    cbn [negb]. rewrite IH; [reflexivity|]. intros y I; apply H; right; exact I. }
  rewrite !K; [reflexivity| |]; intros x I; [apply M2 in I|apply M1 in I]; lia.
Qed.

Lemma insert_mid : forall l1 l2 n, mid l1 (b_data n) l2 -> insert_block (l1 ++ l2) n = l1 ++ n :: l2.
Proof.
  intros l1 l2 n (M1 & M2). induction l1 as [|x l1 IH]; cbn [app].
  - destruct l2 as [|y l2]; cbn [insert_block]; [reflexivity|].
    destruct (Z.ltb_spec (b_data n) (b_data y)) as [_|L]; [reflexivity|]. specialize (M2 y (or_introl eq_refl)); lia.
  - cbn [insert_block]. destruct (Z.ltb_spec (b_data n) (b_data x)) as [L|_]; [specialize (M1 x (or_introl eq_refl)); lia|].
    rewrite IH; [reflexivity|]. intros y I; apply M1; right; exact I.
Qed.

Lemma find_none_mid : forall l1 l2 p, mid l1 p l2 -> find_block (l1 ++ l2) p = None.
Proof.
  intros l1 l2 p (M1 & M2). unfold find_block.
  destruct (find _ (l1 ++ l2)) eqn:E; [|reflexivity].
  apply find_some in E. destruct E as (I & E). apply in_app_or in I.
  destruct I as [I|I]; [apply M1 in I|apply M2 in I]; lia.
Qed.

Lemma find_split : forall l p b lo, chain lo l -> find_block l p = Some b ->
  exists l1 l2, l = l1 ++ b :: l2 /\ b_data b = p /\ mid l1 p l2.
Proof.
  intros l p b lo C F. apply find_some in F. destruct F as (I & E).
  apply in_split in I. destruct I as (l1 & l2 & ->). exists l1, l2.
  pose proof (chain_mid _ _ _ _ C) as M. assert (b_data b = p) by lia. subst p. repeat split; try reflexivity; apply M.
Qed.

Lemma in_find : forall l b lo, chain lo l -> In b l -> find_block l (b_data b) = Some b.
Proof.
  intros l b lo C I. apply in_split in I. destruct I as (l1 & l2 & ->).
  apply find_mid; [|reflexivity]. exact (chain_mid _ _ _ _ C).
Qed.

Lemma data_inj : forall l lo a b, chain lo l -> In a l -> In b l -> b_data a = b_data b -> a = b.
Proof.
  intros l lo a b C Ia Ib E. pose proof (in_find _ _ _ C Ia) as Fa. pose proof (in_find _ _ _ C Ib) as Fb.
  rewrite E in Fa. congruence.
Qed.

Lemma prev_mid : forall l1 b l2 p, mid l1 p l2 -> b_data b = p ->
  prev_block (l1 ++ b :: l2) p = match rev l1 with [] => None | x :: _ => Some (b_data x) end.
Proof.
  intros l1 b l2 p (M & _) E. induction l1 as [|x l1 IH]; cbn [app prev_block].
  - rewrite E, Z.ltb_irrefl. reflexivity.
  - destruct (Z.ltb_spec (b_data x) p) as [_|L]; [|specialize (M x (or_introl eq_refl)); lia].
    rewrite IH by (intros y I; apply M; right; exact I).
    cbn [rev]. destruct (rev l1); reflexivity.
Qed.

Lemma next_mid : forall l1 b l2 p, mid l1 p l2 -> b_data b = p ->
  next_block (l1 ++ b :: l2) p = match l2 with [] => None | x :: _ => Some (b_data x) end.
Proof.
  intros l1 b l2 p (M1 & M2) E. induction l1 as [|x l1 IH]; cbn [app next_block].
  - rewrite E, Z.ltb_irrefl. destruct l2 as [|y l2]; [reflexivity|]. cbn [next_block].
    destruct (Z.ltb_spec p (b_data y)) as [_|L]; [reflexivity|]. specialize (M2 y (or_introl eq_refl)); lia.
  - destruct (Z.ltb_spec p (b_data x)) as [L|_]; [specialize (M1 x (or_introl eq_refl)); lia|].
    apply IH. intros y I; apply M1; right; exact I.
Qed.

(* ---- size classes ---- *)
Definition tag (e : Z * list Z) : list (Z * Z) := map (fun a => (a, fst e)) (snd e).
Definition members (fr : list (Z * list Z)) : list (Z * Z) := flat_map tag fr.
Fixpoint asc (lo : Z) (fr : list (Z * list Z)) : Prop :=
  match fr with [] => True | e :: r => lo < fst e /\ snd e <> [] /\ asc (fst e) r end.
Definition lastk (lo : Z) (fr : list (Z * list Z)) : Z := fold_left (fun _ e => fst e) fr lo.

Lemma asc_app : forall f1 f2 lo, asc lo (f1 ++ f2) <-> asc lo f1 /\ asc (lastk lo f1) f2.
Proof.
  induction f1 as [|e f1 IH]; intros f2 lo; cbn [app asc]; [cbn; tauto|].
  rewrite IH. unfold lastk; cbn [fold_left]. tauto.
Qed.
Lemma asc_weaken : forall f lo lo', lo' <= lo -> asc lo f -> asc lo' f.
Proof. destruct f; cbn; intros; [trivial|]. intuition lia. Qed.
Lemma lastk_ge : forall f lo, asc lo f -> lo <= lastk lo f.
Proof.
  induction f as [|e f IH]; intros lo H; [cbn; lia|]. cbn [asc] in H. destruct H as (A & B & C).
  apply IH in C. unfold lastk in *; cbn [fold_left]. lia.
Qed.
Lemma asc_keys : forall f lo e, asc lo f -> In e f -> lo < fst e <= lastk lo f /\ snd e <> [].
Proof.
  induction f as [|x f IH]; intros lo e H I; [destruct I|]. cbn [asc] in H. destruct H as (A & B & C).
  pose proof (lastk_ge _ _ C). unfold lastk in *; cbn [fold_left].
  destruct I as [->|I]; [split; [lia|assumption]|]. destruct (IH _ _ C I). split; [lia|assumption].
Qed.
Lemma asc_mid : forall f1 s l f2 lo, asc lo (f1 ++ (s, l) :: f2) ->
  (forall e, In e f1 -> fst e < s) /\ (forall e, In e f2 -> s < fst e).
Proof.
  intros f1 s l f2 lo H. apply asc_app in H. destruct H as (H1 & H2). cbn [asc fst snd] in H2. destruct H2 as (A & B & C).
  split; intros e I.
  - destruct (asc_keys _ _ _ H1 I). lia.
  - destruct (asc_keys _ _ _ C I). lia.
Qed.

Lemma asc_insert : forall f1 f2 lo s l, asc lo (f1 ++ f2) -> lo < s ->
  (forall e, In e f1 -> fst e < s) -> (forall e, In e f2 -> s < fst e) -> l <> [] ->
  asc lo (f1 ++ (s, l) :: f2).
Proof.
  induction f1 as [|e f1 IH]; intros f2 lo s l A L M1 M2 N; cbn [app asc] in *.
  - cbn [fst snd]. split; [exact L|]. split; [exact N|]. destruct f2 as [|e f2]; [exact I|].
    cbn [asc] in *. split; [apply M2; left; reflexivity|apply A].
  - split; [apply A|]. split; [apply A|]. apply IH; [apply A|apply M1; left; reflexivity| |exact M2|exact N].
    intros x I; apply M1; right; exact I.
Qed.

Lemma members_app : forall f1 f2, members (f1 ++ f2) = members f1 ++ members f2.
Proof. intros. unfold members. apply flat_map_app. Qed.
Lemma members_cons : forall s l f, members ((s, l) :: f) = map (fun a => (a, s)) l ++ members f.
Proof. reflexivity. Qed.

Lemma class_find_some : forall fr s l, class_find fr s = Some l -> exists f1 f2, fr = f1 ++ (s, l) :: f2.
Proof.
  induction fr as [|[k l0] fr IH]; intros s l H; cbn [class_find] in H; [discriminate|].
  destruct (Z.eqb_spec k s) as [->|N].
  - injection H as ->. exists [], fr. reflexivity.
  - destruct (IH _ _ H) as (f1 & f2 & ->). exists ((k, l0) :: f1), f2. reflexivity.
Qed.

Lemma class_find_mid : forall f1 s l f2, (forall e, In e f1 -> fst e < s) -> class_find (f1 ++ (s, l) :: f2) s = Some l.
Proof.
  induction f1 as [|[k l0] f1 IH]; intros s l f2 H; cbn [app class_find].
  - rewrite Z.eqb_refl. reflexivity.
  - destruct (Z.eqb_spec k s) as [E|N]; [specialize (H _ (or_introl eq_refl)); cbn in H; lia|].
    apply IH. intros e I; apply H; right; exact I.
Qed.

Lemma class_put_mid : forall f1 s l l' f2, (forall e, In e f1 -> fst e < s) ->
  class_put (f1 ++ (s, l) :: f2) s l' = f1 ++ (s, l') :: f2.
Proof.
  induction f1 as [|[k l0] f1 IH]; intros s l l' f2 H; cbn [app class_put].
  - rewrite Z.eqb_refl. reflexivity.
  - pose proof (H _ (or_introl eq_refl)) as K. cbn in K.
    destruct (Z.eqb_spec k s); [lia|]. destruct (Z.ltb_spec s k); [lia|].
    rewrite IH; [reflexivity|]. intros e I; apply H; right; exact I.
Qed.

Lemma class_put_new : forall fr s l lo, asc lo fr -> class_find fr s = None ->
  exists f1 f2, fr = f1 ++ f2 /\ class_put fr s l = f1 ++ (s, l) :: f2 /\
    (forall e, In e f1 -> fst e < s) /\ (forall e, In e f2 -> s < fst e).
Proof.
  induction fr as [|[k l0] fr IH]; intros s l lo A F; cbn [class_find class_put] in *.
  - exists [], []. repeat split; intros e [].
  - destruct (Z.eqb_spec k s) as [|N]; [discriminate|]. cbn [asc fst snd] in A. destruct A as (A1 & A2 & A3).
    destruct (Z.ltb_spec s k) as [L|L].
    + exists [], ((k, l0) :: fr). repeat split; [intros e []|]. intros e [<-|I]; [exact L|].
      destruct (asc_keys _ _ _ A3 I). lia.
    + destruct (IH s l k A3 F) as (f1 & f2 & E1 & E2 & E3 & E4). exists ((k, l0) :: f1), f2.
      rewrite E2, E1. repeat split; [|exact E4]. intros e [<-|I]; [cbn; lia|]. exact (E3 _ I).
Qed.

Lemma class_del_mid : forall f1 s l f2 lo, asc lo (f1 ++ (s, l) :: f2) -> class_del (f1 ++ (s, l) :: f2) s = f1 ++ f2.
Proof.
  intros f1 s l f2 lo A. destruct (asc_mid _ _ _ _ _ A) as (M1 & M2).
  unfold class_del. rewrite filter_app. cbn [filter fst]. rewrite Z.eqb_refl. cbn [negb].
  assert (K : forall f, (forall e, In e f -> fst e <> s) -> filter (fun e : Z * list Z => negb (fst e =? s)) f = f).
  { induction f as [|e f IH]; intros H; cbn [filter]; [reflexivity|].
    destruct (Z.eqb_spec (fst e) s) as [X|_]; [exfalso; exact (H e (or_introl eq_refl) X)|].
    cbn [negb]. rewrite IH; [reflexivity|]. intros y I; apply H; right; exact I. }
  rewrite !K; [reflexivity| |]; intros e I; [apply M2 in I|apply M1 in I]; lia.
Qed.

Lemma class_set_mid : forall f1 s l l' f2 lo, asc lo (f1 ++ (s, l) :: f2) ->
  asc lo (class_set (f1 ++ (s, l) :: f2) s l') /\
  members (class_set (f1 ++ (s, l) :: f2) s l') = members f1 ++ map (fun a => (a, s)) l' ++ members f2.
Proof.
  intros f1 s l l' f2 lo A. pose proof A as A0. destruct (asc_mid _ _ _ _ _ A) as (M1 & M2).
  apply asc_app in A. destruct A as (A1 & A2). cbn [asc fst snd] in A2. destruct A2 as (B1 & B2 & B3).
  destruct l' as [|a l'].
  - cbn [class_set]. rewrite (class_del_mid _ _ _ _ _ A0), members_app. split; [|reflexivity].
    apply asc_app. split; [exact A1|]. eapply asc_weaken; [|exact B3]. lia.
  - cbn [class_set]. rewrite class_put_mid by exact M1. rewrite members_app, members_cons. split; [|reflexivity].
    apply asc_app. split; [exact A1|]. cbn [asc fst snd]. repeat split; [exact B1|discriminate|exact B3].
Qed.

Lemma class_ge_some : forall fr s k l, class_ge fr s = Some (k, l) ->
  s <= k /\ exists f1 f2, fr = f1 ++ (k, l) :: f2 /\ forall e, In e f1 -> fst e < s.
Proof.
  induction fr as [|[k0 l0] fr IH]; intros s k l H; cbn [class_ge] in H; [discriminate|].
  destruct (Z.leb_spec s k0) as [L|L].
  - injection H as -> ->. split; [exact L|]. exists [], fr. split; [reflexivity|]. intros e [].
  - destruct (IH _ _ _ H) as (A & f1 & f2 & -> & B). split; [exact A|]. exists ((k0, l0) :: f1), f2.
    split; [reflexivity|]. intros e [<-|I]; [exact L|]. exact (B _ I).
Qed.
Lemma class_ge_none : forall fr s, class_ge fr s = None -> forall e, In e fr -> fst e < s.
Proof.
  induction fr as [|[k0 l0] fr IH]; intros s H e I; [destruct I|]. cbn [class_ge] in H.
  destruct (Z.leb_spec s k0) as [L|L]; [discriminate|]. destruct I as [<-|I]; [exact L|]. exact (IH _ H _ I).
Qed.

Lemma remove_first_perm : forall l p, In p l -> Permutation l (p :: remove_first l p).
Proof.
  induction l as [|a l IH]; intros p I; [destruct I|]. cbn [remove_first].
  destruct (Z.eqb_spec a p) as [->|N]; [reflexivity|].
  destruct I as [E|I]; [contradiction|]. rewrite (IH _ I) at 1. apply perm_swap.
Qed.

Lemma rm_aligned_some : forall l al p l', rm_with_alignment_loop l al = (Some p, l') ->
  IS_ALIGNED p al = true /\ Permutation l (p :: l').
Proof.
  induction l as [|a l IH]; intros al p l' H; cbn [rm_with_alignment_loop] in H; [discriminate|].
  destruct (IS_ALIGNED a al) eqn:E.
  - injection H as -> ->. split; [exact E|reflexivity].
  - destruct (rm_with_alignment_loop l al) as [x r'] eqn:E2. injection H as -> <-.
    destruct (IH _ _ _ E2) as (A & B). split; [exact A|]. rewrite B. apply perm_swap.
Qed.
Lemma rm_aligned_none : forall l al l', rm_with_alignment_loop l al = (None, l') ->
  l' = l /\ forall a, In a l -> IS_ALIGNED a al = false.
Proof.
  induction l as [|a l IH]; intros al l' H; cbn [rm_with_alignment_loop] in H; [injection H as <-; split; [reflexivity|intros ? []]|].
  destruct (IS_ALIGNED a al) eqn:E; [discriminate|].
  destruct (rm_with_alignment_loop l al) as [x r'] eqn:E2. injection H as -> <-.
  destruct (IH _ _ E2) as (-> & B). split; [reflexivity|]. intros b [<-|I]; [exact E|exact (B _ I)].
Qed.

(* ---- the core invariant of the two trees ---- *)
Definition listed_keys (al : list block) : list (Z * Z) := map key (filter b_listed al).
Record Core (al : list block) (fr : list (Z * list Z)) : Prop := {
  core_chain : chain 1 al;
  core_asc : asc 0 fr;
  core_perm : Permutation (members fr) (listed_keys al);
  core_unused : forall b, In b al -> b_listed b = true -> b_used b = false }.

Definition put (c : coarse) (al : list block) (fr : list (Z * list Z)) : coarse :=
  Coarse (page_size c) (strat c) (has_alloc c) (has_free c) al fr (used_size c) (alloc_size c).

Lemma put_same : forall c, put c (all_blocks c) (free_blocks c) = c.
Proof. destruct c; reflexivity. Qed.
Lemma put_put : forall c a f a' f', put (put c a f) a' f' = put c a' f'.
Proof. reflexivity. Qed.

Lemma listed_app : forall a b, listed_keys (a ++ b) = listed_keys a ++ listed_keys b.
Proof. intros. unfold listed_keys. rewrite filter_app, map_app. reflexivity. Qed.
Lemma listed_true : forall b l, b_listed b = true -> listed_keys (b :: l) = key b :: listed_keys l.
Proof. intros b l H. unfold listed_keys. cbn [filter]. rewrite H. reflexivity. Qed.
Lemma listed_false : forall b l, b_listed b = false -> listed_keys (b :: l) = listed_keys l.
Proof. intros b l H. unfold listed_keys. cbn [filter]. rewrite H. reflexivity. Qed.

Lemma in_listed : forall al p s, In (p, s) (listed_keys al) <-> exists b, In b al /\ b_listed b = true /\ b_data b = p /\ b_size b = s.
Proof.
  intros al p s. unfold listed_keys. rewrite in_map_iff. unfold key. split.
  - intros (b & E & I). apply filter_In in I. injection E as <- <-. exists b. tauto.
  - intros (b & I & L & <- & <-). exists b. split; [reflexivity|]. apply filter_In. tauto.
Qed.

Lemma chain_same : forall l1 b b' l2 lo, b_data b' = b_data b -> b_size b' = b_size b ->
  chain lo (l1 ++ b :: l2) -> chain lo (l1 ++ b' :: l2).
Proof.
  intros l1 b b' l2 lo E1 E2 H. apply chain_app in H. apply chain_app. split; [apply H|].
  destruct H as (_ & H). cbn [chain] in *. unfold bend in *. rewrite E1, E2. exact H.
Qed.

Lemma with_listed_same : forall b, b_listed b = false -> with_listed false b = b.
Proof. destruct b; cbn; intros ->; reflexivity. Qed.

(* taking a listed block out of its class *)
Lemma core_unlist : forall l1 b l2 fr f1 l f2 l',
  Core (l1 ++ b :: l2) fr -> b_listed b = true ->
  fr = f1 ++ (b_size b, l) :: f2 -> Permutation l (b_data b :: l') ->
  Core (l1 ++ with_listed false b :: l2) (class_set fr (b_size b) l').
Proof.
  intros l1 b l2 fr f1 l f2 l' [C1 C2 C3 C4] L E P. subst fr.
  destruct (class_set_mid _ _ _ l' _ _ C2) as (A & M).
  split.
  - eapply chain_same; [| |exact C1]; reflexivity.
  - exact A.
  - rewrite M. rewrite listed_app in *. rewrite listed_true in C3 by exact L.
    rewrite listed_false by reflexivity.
    rewrite members_app, members_cons in C3. rewrite (Permutation_map (fun a => (a, b_size b)) P) in C3. cbn [map app] in C3.
    apply Permutation_app_inv in C3. exact C3.
  - intros x I. apply in_app_or in I. intros LX. destruct I as [I|[<-|I]].
    + apply C4; [apply in_or_app; left; exact I|exact LX].
    + cbn in LX. discriminate.
    + apply C4; [apply in_or_app; right; right; exact I|exact LX].
Qed.

(* putting an unlisted free block into its class *)
Lemma core_list : forall l1 b l2 fr fr',
  Core (l1 ++ b :: l2) fr -> b_listed b = false -> b_used b = false ->
  asc 0 fr' -> Permutation (members fr') (key b :: members fr) ->
  Core (l1 ++ with_listed true b :: l2) fr'.
Proof.
  intros l1 b l2 fr fr' [C1 C2 C3 C4] L U A P. split.
  - eapply chain_same; [| |exact C1]; reflexivity.
  - exact A.
  - rewrite P, C3, !listed_app. rewrite (listed_true (with_listed true b)) by reflexivity. rewrite (listed_false b) by exact L.
    change (key (with_listed true b)) with (key b). apply Permutation_middle.
  - intros x I. apply in_app_or in I. intros LX. destruct I as [I|[<-|I]].
    + apply C4; [apply in_or_app; left; exact I|exact LX].
    + exact U.
    + apply C4; [apply in_or_app; right; right; exact I|exact LX].
Qed.

(* every class element is a listed block of that size *)
Lemma core_elem : forall al f1 s l f2 p, Core al (f1 ++ (s, l) :: f2) -> In p l ->
  exists b l1 l2, al = l1 ++ b :: l2 /\ b_data b = p /\ b_size b = s /\ b_listed b = true /\ b_used b = false.
Proof.
  intros al f1 s l f2 p [C1 C2 C3 C4] I.
  assert (K : In (p, s) (listed_keys al)).
  { eapply Permutation_in; [exact C3|]. rewrite members_app, members_cons. apply in_or_app; right.
    apply in_or_app; left. apply in_map_iff. exists p. split; [reflexivity|exact I]. }
  apply in_listed in K. destruct K as (b & I1 & L & E1 & E2). pose proof (C4 _ I1 L) as U.
  apply in_split in I1. destruct I1 as (l1 & l2 & ->). exists b, l1, l2. repeat split; assumption.
Qed.

(* and every listed block is in the class of its size *)
Lemma core_class : forall l1 b l2 fr, Core (l1 ++ b :: l2) fr -> b_listed b = true ->
  exists f1 l f2, fr = f1 ++ (b_size b, l) :: f2 /\ In (b_data b) l /\ class_find fr (b_size b) = Some l.
Proof.
  intros l1 b l2 fr [C1 C2 C3 C4] L.
  assert (K : In (b_data b, b_size b) (members fr)).
  { eapply Permutation_in; [symmetry; exact C3|]. apply in_listed. exists b. repeat split; [|exact L].
    apply in_or_app; right; left; reflexivity. }
  unfold members in K. apply in_flat_map in K. destruct K as ([k l] & I & T). unfold tag in T. cbn [fst snd] in T.
  apply in_map_iff in T. destruct T as (a & E & Ia). injection E as -> ->.
  apply in_split in I. destruct I as (f1 & f2 & ->). exists f1, l, f2. repeat split; [exact Ia|].
  apply class_find_mid. exact (proj1 (asc_mid _ _ _ _ _ C2)).
Qed.

Lemma core_merge2 : forall l1 b1 b2 l2 fr u, Core (l1 ++ b1 :: b2 :: l2) fr ->
  b_listed b1 = false -> b_listed b2 = false -> bend b1 = b_data b2 ->
  Core (l1 ++ Block (b_data b1) (b_size b1 + b_size b2) u false :: l2) fr.
Proof.
  intros l1 b1 b2 l2 fr u [C1 C2 C3 C4] L1 L2 E. split.
  - apply chain_app in C1. apply chain_app. destruct C1 as (D1 & D2). split; [exact D1|].
    cbn [chain] in D2. destruct D2 as (X1 & X2 & X3 & X4 & X5 & X6 & X7). unfold bend in *. cbn [chain b_data b_size]. unfold bend; cbn [b_data b_size].
    replace (b_data b1 + (b_size b1 + b_size b2)) with (b_data b2 + b_size b2) by lia. repeat split; try assumption; lia.
  - exact C2.
  - rewrite C3, !listed_app. rewrite !listed_false by (try reflexivity; assumption). reflexivity.
  - intros x I. apply in_app_or in I. intros LX. destruct I as [I|[<-|I]].
    + apply C4; [apply in_or_app; left; exact I|exact LX].
    + discriminate.
    + apply C4; [apply in_or_app; right; right; right; exact I|exact LX].
Qed.

Lemma core_split2 : forall l1 b l2 fr s u1 u2, Core (l1 ++ b :: l2) fr ->
  b_listed b = false -> 0 < s < b_size b ->
  Core (l1 ++ Block (b_data b) s u1 false :: Block (b_data b + s) (b_size b - s) u2 false :: l2) fr.
Proof.
  intros l1 b l2 fr s u1 u2 [C1 C2 C3 C4] L S. split.
  - apply chain_app in C1. apply chain_app. destruct C1 as (D1 & D2). split; [exact D1|].
    cbn [chain] in D2. destruct D2 as (X1 & X2 & X3 & X4). unfold bend in *. cbn [chain b_data b_size]. unfold bend; cbn [b_data b_size].
    replace (b_data b + s + (b_size b - s)) with (b_data b + b_size b) by lia. repeat split; try assumption; lia.
  - exact C2.
  - rewrite C3, !listed_app. rewrite !listed_false by (try reflexivity; assumption). reflexivity.
  - intros x I. apply in_app_or in I. intros LX. destruct I as [I|[<-|[<-|I]]]; try discriminate.
    + apply C4; [apply in_or_app; left; exact I|exact LX].
    + apply C4; [apply in_or_app; right; right; exact I|exact LX].
Qed.

(* changing the used flag of an unlisted block *)
Lemma core_flag : forall l1 b l2 fr u, Core (l1 ++ b :: l2) fr -> b_listed b = false ->
  Core (l1 ++ with_used u b :: l2) fr.
Proof.
  intros l1 b l2 fr u [C1 C2 C3 C4] L. split.
  - eapply chain_same; [| |exact C1]; reflexivity.
  - exact C2.
  - rewrite C3, !listed_app. rewrite !listed_false by (try reflexivity; assumption). reflexivity.
  - intros x I. apply in_app_or in I. intros LX. destruct I as [I|[<-|I]].
    + apply C4; [apply in_or_app; left; exact I|exact LX].
    + cbn in LX. congruence.
    + apply C4; [apply in_or_app; right; right; exact I|exact LX].
Qed.

Section Steps.
Variable dbg : bool.

Lemma find_here : forall c l1 b l2, chain 1 (all_blocks c) -> all_blocks c = l1 ++ b :: l2 ->
  find_block (all_blocks c) (b_data b) = Some b.
Proof. intros c l1 b l2 C E. rewrite E in *. apply find_mid; [|reflexivity]. exact (chain_mid _ _ _ _ C). Qed.

Lemma upd_here : forall c l1 b l2 f, chain 1 (all_blocks c) -> all_blocks c = l1 ++ b :: l2 ->
  upd c (b_data b) f = set_all c (l1 ++ f b :: l2).
Proof. intros c l1 b l2 f C E. unfold upd. rewrite E in *. rewrite update_mid; [reflexivity| |reflexivity]. exact (chain_mid _ _ _ _ C). Qed.

Lemma rm_node_ok : forall c l1 b l2, Core (all_blocks c) (free_blocks c) -> all_blocks c = l1 ++ b :: l2 -> b_listed b = true ->
  exists fr', free_blocks_rm_node c (b_data b) = Some (put c (l1 ++ with_listed false b :: l2) fr') /\
    Core (l1 ++ with_listed false b :: l2) fr'.
Proof.
  intros c l1 b l2 C E L. unfold free_blocks_rm_node. rewrite (find_here c l1 b l2 (core_chain _ _ C) E).
  pose proof C as C0. rewrite E in C0. destruct (core_class _ _ _ _ C0 L) as (f1 & l & f2 & F & I & CF).
  rewrite CF. exists (class_set (free_blocks c) (b_size b) (remove_first l (b_data b))). split.
  - destruct l as [|a l]; [destruct I|]. f_equal. rewrite (upd_here _ l1 b l2) ; [reflexivity|exact (core_chain _ _ C)|exact E].
  - eapply core_unlist; [exact C0|exact L|exact F|]. apply remove_first_perm. exact I.
Qed.

Lemma unlist_ok : forall c l1 b l2, Core (all_blocks c) (free_blocks c) -> all_blocks c = l1 ++ b :: l2 ->
  exists fr', unlist c (b_data b) = Some (put c (l1 ++ with_listed false b :: l2) fr') /\
    Core (l1 ++ with_listed false b :: l2) fr'.
Proof.
  intros c l1 b l2 C E. unfold unlist. rewrite (find_here c l1 b l2 (core_chain _ _ C) E).
  destruct (b_listed b) eqn:L.
  - apply rm_node_ok; assumption.
  - rewrite with_listed_same by exact L. exists (free_blocks c). rewrite <- E, put_same. split; [reflexivity|exact C].
Qed.

(* The tree of all blocks may be inconsistent while this runs (the current
   block still has its old size); only the position of b matters. *)
Lemma add_gen : forall c l1 b l2 o v1 v2, Core (v1 ++ b :: v2) (free_blocks c) -> all_blocks c = l1 ++ b :: l2 ->
  mid l1 (b_data b) l2 ->
  b_listed b = false -> b_used b = false -> o_elem o = true ->
  (exists fr', free_blocks_add c (b_data b) o = Some (true, put c (l1 ++ with_listed true b :: l2) fr') /\
    Core (v1 ++ with_listed true b :: v2) fr') \/
  (free_blocks_add c (b_data b) o = Some (false, c) /\ o_head o = false).
Proof.
  intros c l1 b l2 o v1 v2 C0 E MID L U O. unfold free_blocks_add. rewrite E. rewrite (find_mid _ _ _ _ MID eq_refl).
  assert (UPD : forall fr, upd (set_free c fr) (b_data b) (with_listed true) = put c (l1 ++ with_listed true b :: l2) fr).
  { intros fr. unfold upd. cbn [all_blocks set_free]. rewrite E, (update_mid _ _ _ _ _ MID eq_refl). reflexivity. }
  rewrite O.
  destruct (class_find (free_blocks c) (b_size b)) as [l|] eqn:CF.
  - left. destruct (class_find_some _ _ _ CF) as (f1 & f2 & F).
    exists (class_put (free_blocks c) (b_size b) (b_data b :: l)).
    split; [rewrite UPD; reflexivity|].
    pose proof (core_asc _ _ C0) as A. rewrite F in A. destruct (class_set_mid _ _ _ (b_data b :: l) _ _ A) as (A' & M).
    cbn [class_set] in A', M. rewrite F.
    eapply core_list; [exact C0|exact L|exact U|exact A'|]. rewrite M, F, members_app, members_cons. cbn [map app].
    symmetry. apply Permutation_middle.
  - destruct (o_head o) eqn:H; cbn [negb]; [left|right; split; reflexivity].
    destruct (class_put_new _ _ [b_data b] _ (core_asc _ _ C0) CF) as (f1 & f2 & F & P & M1 & M2).
    exists (class_put (free_blocks c) (b_size b) [b_data b]).
    split; [rewrite UPD; reflexivity|].
    pose proof (core_asc _ _ C0) as A. rewrite F in A.
    rewrite P. eapply core_list; [exact C0|exact L|exact U| |].
    + apply asc_insert; [exact A| |exact M1|exact M2|discriminate].
      pose proof (core_chain _ _ C0) as CH. apply chain_app in CH. destruct CH as (_ & CH). cbn [chain] in CH. lia.
    + rewrite F, !members_app, members_cons. cbn [map app]. symmetry. apply Permutation_middle.
Qed.

Lemma add_ok : forall c l1 b l2 o, Core (all_blocks c) (free_blocks c) -> all_blocks c = l1 ++ b :: l2 ->
  b_listed b = false -> b_used b = false -> o_elem o = true ->
  (exists fr', free_blocks_add c (b_data b) o = Some (true, put c (l1 ++ with_listed true b :: l2) fr') /\
    Core (l1 ++ with_listed true b :: l2) fr') \/
  (free_blocks_add c (b_data b) o = Some (false, c) /\ o_head o = false).
Proof.
  intros c l1 b l2 o C E L U O. rewrite E in C. apply add_gen; try assumption.
  exact (chain_mid _ _ _ _ (core_chain _ _ C)).
Qed.

Lemma rm_ge_ok : forall c size al ck, Core (all_blocks c) (free_blocks c) ->
  exists x c', free_blocks_rm_ge dbg c size al ck = Some (x, c') /\
  match x with
  | None => c' = c /\
      (class_ge (free_blocks c) size = None \/
       exists k l, class_ge (free_blocks c) size = Some (k, l) /\
         match ck with
         | CHECK_ONLY_THE_FIRST_BLOCK => exists a r, l = a :: r /\ IS_NOT_ALIGNED a al = true
         | CHECK_ALL_BLOCKS_OF_SIZE => forall a, In a l -> IS_ALIGNED a al = false
         end)
  | Some p => exists l1 b l2 fr', all_blocks c = l1 ++ b :: l2 /\ b_data b = p /\ b_listed b = true /\ b_used b = false /\
      size <= b_size b /\ IS_ALIGNED p al = true /\
      c' = put c (l1 ++ with_listed false b :: l2) fr' /\ Core (l1 ++ with_listed false b :: l2) fr'
  end.
Proof.
  intros c size al ck C. unfold free_blocks_rm_ge.
  destruct (class_ge (free_blocks c) size) as [[k l]|] eqn:G; [|exists None, c; repeat split; left; reflexivity].
  destruct (class_ge_some _ _ _ _ G) as (SK & f1 & f2 & F & LT).
  pose proof (core_asc _ _ C) as A. rewrite F in A.
  assert (NE : l <> []).
  { apply asc_app in A. destruct A as (_ & A). cbn [asc snd] in A. tauto. }
  assert (HIT : forall p l', Permutation l (p :: l') -> IS_ALIGNED p al = true ->
    exists l1 b l2 fr', all_blocks c = l1 ++ b :: l2 /\ b_data b = p /\ b_listed b = true /\ b_used b = false /\
      size <= b_size b /\ IS_ALIGNED p al = true /\
      upd (set_free c (class_set (free_blocks c) k l')) p (with_listed false) = put c (l1 ++ with_listed false b :: l2) fr' /\
      Core (l1 ++ with_listed false b :: l2) fr').
  { intros p l' P AL. pose proof C as C0. rewrite F in C0.
    destruct (core_elem _ _ _ _ _ p C0) as (b & l1 & l2 & E & E1 & E2 & E3 & E4).
    { eapply Permutation_in; [symmetry; exact P|]. left; reflexivity. }
    exists l1, b, l2, (class_set (free_blocks c) k l'). subst p. 
    split; [exact E|]. split; [reflexivity|]. split; [exact E3|]. split; [exact E4|]. split; [lia|]. split; [exact AL|].
    split.
    - rewrite (upd_here _ l1 b l2); [reflexivity|exact (core_chain _ _ C)|exact E].
    - rewrite <- E2. rewrite E in C. eapply core_unlist; [exact C|exact E3|rewrite F, E2; reflexivity|exact P]. }
  assert (MISS : set_free c (class_set (free_blocks c) k l) = c).
  { replace (class_set (free_blocks c) k l) with (free_blocks c); [destruct c; reflexivity|].
    rewrite F. destruct l as [|a l]; [contradiction|]. cbn [class_set]. symmetry. apply class_put_mid.
    exact (proj1 (asc_mid _ _ _ _ _ A)). }
  destruct ck.
  - destruct l as [|a r]; [contradiction|]. cbn [node_list_rm_first].
    destruct (IS_NOT_ALIGNED a al) eqn:NA.
    + exists None, c. rewrite MISS. split; [reflexivity|]. split; [reflexivity|]. right. exists k, (a :: r).
      split; [reflexivity|]. exists a, r. split; [reflexivity|exact NA].
    + eexists (Some a), _. split; [reflexivity|]. apply HIT; [reflexivity|].
      rewrite is_not_aligned_spec in NA. destruct (IS_ALIGNED a al); [reflexivity|discriminate].
  - unfold node_list_rm_with_alignment. destruct l as [|a0 r0]; [contradiction|].
    destruct (rm_with_alignment_loop (a0 :: r0) al) as [[p|] l'] eqn:R.
    + destruct (rm_aligned_some _ _ _ _ R) as (AL & P). eexists (Some p), _. split; [reflexivity|]. apply HIT; assumption.
    + destruct (rm_aligned_none _ _ _ R) as (-> & N). exists None, c. rewrite MISS. split; [reflexivity|].
      split; [reflexivity|]. right. exists k, (a0 :: r0). split; [reflexivity|exact N].
Qed.

Lemma bend_word : forall al lo b, chain lo al -> 1 <= lo -> In b al -> 0 < b_data b /\ 0 < b_size b /\ bend b <= U64.
Proof.
  intros al lo b C L I. pose proof (chain_left _ _ _ C I) as (A & B & _). pose proof (chain_end _ _ _ C I). lia.
Qed.

Lemma merge_ok : forall c l1 b1 b2 l2 u m, Core (all_blocks c) (free_blocks c) -> all_blocks c = l1 ++ b1 :: b2 :: l2 ->
  exists r c' ev, user_block_merge dbg c (b_data b1) (b_data b2) u m = Some (r, c', ev) /\ asks ev = [] /\
  ((r = SUCCESS /\ m = SUCCESS /\ b_used b1 = u /\ b_used b2 = u /\ bend b1 = b_data b2 /\
    exists fr', c' = put c (l1 ++ Block (b_data b1) (b_size b1 + b_size b2) u false :: l2) fr' /\
      Core (l1 ++ Block (b_data b1) (b_size b1 + b_size b2) u false :: l2) fr') \/
   (r <> SUCCESS /\ c' = c /\ ~ (m = SUCCESS /\ b_used b1 = u /\ b_used b2 = u /\ bend b1 = b_data b2))).
Proof.
  intros c l1 b1 b2 l2 u m C E. unfold user_block_merge.
  assert (E' : all_blocks c = (l1 ++ [b1]) ++ b2 :: l2) by (rewrite E, <- app_assoc; reflexivity).
  pose proof (core_chain _ _ C) as CH.
  rewrite (find_here c l1 b1 (b2 :: l2) CH E), (find_here c (l1 ++ [b1]) b2 l2 CH E').
  pose proof CH as CH1. rewrite E in CH1. destruct (chain_mid _ _ _ _ CH1) as (_ & M). specialize (M b2 (or_introl eq_refl)).
  apply chain_app in CH1. destruct CH1 as (_ & CH1). cbn [chain] in CH1. destruct CH1 as (_ & S1 & B1 & D & S2 & B2 & _).
  unfold assert_fails. destruct (Z.ltb_spec (b_data b1) (b_data b2)) as [_|X]; [|lia]. cbn [negb]. rewrite andb_false_r.
  assert (P1 : 0 < b_data b1).
  { apply (bend_word _ 1 b1 CH ltac:(lia)). rewrite E. apply in_or_app; right; left; reflexivity. }
  assert (W : (wrap (b_data b1 + b_size b1) =? b_data b2) = (bend b1 =? b_data b2)).
  { unfold bend in *. destruct (Z.eq_dec (b_data b1 + b_size b1) U64) as [Q|Q].
    - rewrite Q. unfold wrap. rewrite Z.mod_same by (vm_compute; discriminate). lia.
    - rewrite wrap_id by (unfold is_word; lia). reflexivity. }
  rewrite W.
  destruct (Bool.eqb_spec (b_used b1) u) as [U1|U1];
  destruct (Bool.eqb_spec (b_used b2) u) as [U2|U2];
  destruct (Z.eqb_spec (bend b1) (b_data b2)) as [CT|CT]; cbn [andb negb];
    try (eexists _, _, _; split; [reflexivity|]; split; [reflexivity|]; right;
         split; [discriminate|]; split; [reflexivity|]; intros (_ & ? & ? & ?); contradiction).
  assert (TS : wrap (b_size b1 + b_size b2) = b_size b1 + b_size b2) by (apply wrap_id; unfold is_word, bend in *; lia).
  rewrite TS.
  assert (D1 : m = SUCCESS \/ m <> SUCCESS) by (destruct m; (left; reflexivity) || (right; discriminate)).
  destruct D1 as [->|NM].
  2:{ exists m, c, [EvMerge (b_data b1) (b_data b2) (b_size b1 + b_size b2) m].
      split; [destruct m; try reflexivity; contradiction|]. split; [reflexivity|]. right. split; [exact NM|].
      split; [reflexivity|]. intros (X & _). contradiction. }
  destruct (unlist_ok c l1 b1 (b2 :: l2) C E) as (fr1 & -> & C1).
  set (c1 := put c (l1 ++ with_listed false b1 :: b2 :: l2) fr1).
  destruct (unlist_ok c1 (l1 ++ [with_listed false b1]) b2 l2) as (fr2 & -> & C2); [exact C1|cbn; rewrite <- app_assoc; reflexivity|].
  cbn [all_blocks put]. eexists _, _, _. split; [reflexivity|]. split; [reflexivity|]. left.
  repeat (split; [assumption || reflexivity|]). exists fr2.
  rewrite <- app_assoc in C2. cbn [app] in C2.
  pose proof (core_merge2 _ _ _ _ _ u C2 eq_refl eq_refl CT) as C3. cbn [b_data b_size with_listed] in C3.
  split; [|exact C3].
  unfold set_all, put; cbn [page_size strat has_alloc has_free free_blocks used_size alloc_size all_blocks]. f_equal.
  rewrite <- app_assoc. cbn [app].
  rewrite update_mid; [| |reflexivity].
  2:{ pose proof (core_chain _ _ C2) as Q. exact (chain_mid _ _ _ _ Q). }
  rewrite (app_assoc l1 [_] (_ :: l2) : l1 ++ with_size _ _ :: _ = _).
  rewrite remove_mid; [| |reflexivity].
  - rewrite <- app_assoc. unfold with_size, with_listed; cbn. rewrite U1. reflexivity.
  - pose proof (core_chain _ _ C2) as Q.
    change (l1 ++ with_listed false b1 :: with_listed false b2 :: l2) with (l1 ++ [with_listed false b1] ++ with_listed false b2 :: l2) in Q.
    rewrite app_assoc in Q. apply chain_mid in Q. destruct Q as (Q1 & Q2). split; [|exact Q2].
    intros x I. apply in_app_or in I. destruct I as [I|[<-|[]]]; [apply Q1; apply in_or_app; left; exact I|].
    apply (Q1 (with_listed false b1)). apply in_or_app; right; left; reflexivity.
Qed.

(* What re-adding the free block b does: it may swallow one free neighbour on
   each side. *)
Definition left_part (l1 : list block) (b : block) (m1 : list block) (lo : Z) (m : result) : Prop :=
  (l1 = m1 /\ lo = b_data b /\
   forall l x, l1 = l ++ [x] -> ~ (m = SUCCESS /\ b_used x = false /\ bend x = b_data b)) \/
  (exists x, l1 = m1 ++ [x] /\ b_used x = false /\ bend x = b_data b /\ lo = b_data x).
Definition right_part (l2 : list block) (b : block) (m2 : list block) (hi : Z) (m : result) : Prop :=
  (l2 = m2 /\ hi = bend b /\
   forall l x, l2 = x :: l -> ~ (m = SUCCESS /\ b_used x = false /\ bend b = b_data x)) \/
  (exists x, l2 = x :: m2 /\ b_used x = false /\ bend b = b_data x /\ hi = bend x).

Lemma prev_ok : forall c l1 b l2 m, Core (all_blocks c) (free_blocks c) -> all_blocks c = l1 ++ b :: l2 ->
  b_listed b = false -> b_used b = false ->
  exists c' ev m1 lo fr', free_block_merge_with_prev dbg c (b_data b) m = Some (lo, c', ev) /\ asks ev = [] /\
    left_part l1 b m1 lo m /\
    c' = put c (m1 ++ Block lo (bend b - lo) false false :: l2) fr' /\
    Core (m1 ++ Block lo (bend b - lo) false false :: l2) fr'.
Proof.
  intros c l1 b l2 m C E L U. unfold free_block_merge_with_prev.
  pose proof (core_chain _ _ C) as CH. rewrite E in CH. pose proof (chain_mid _ _ _ _ CH) as M.
  assert (SAME : c = put c (l1 ++ Block (b_data b) (bend b - b_data b) false false :: l2) (free_blocks c) /\
     Core (l1 ++ Block (b_data b) (bend b - b_data b) false false :: l2) (free_blocks c)).
  { replace (Block (b_data b) (bend b - b_data b) false false) with b.
    - rewrite <- E, put_same. split; [reflexivity|exact C].
    - unfold bend. replace (b_data b + b_size b - b_data b) with (b_size b) by lia. destruct b; cbn in *; subst; reflexivity. }
  rewrite E, (prev_mid _ _ _ _ M eq_refl).
  destruct (rev l1) as [|x r] eqn:R.
  - apply (f_equal (@rev block)) in R. rewrite rev_involutive in R. cbn in R. subst l1.
    exists c, [], [], (b_data b), (free_blocks c). split; [reflexivity|]. split; [reflexivity|]. split; [|exact SAME].
    left. repeat split. intros l x Q. destruct l; discriminate.
  - apply (f_equal (@rev block)) in R. rewrite rev_involutive in R. cbn [rev] in R.
    set (l0 := rev r) in *. clearbody l0. subst l1.
    destruct (merge_ok c l0 x b l2 false m C) as (res & c' & ev & -> & OB & [(R1 & R2 & R3 & R4 & R5 & fr' & R6 & R7)|(R1 & R2 & R3)]).
    + rewrite E, <- app_assoc. reflexivity.
    + subst res. exists c', ev, l0, (b_data x), fr'. split; [reflexivity|]. split; [exact OB|].
      replace (bend b - b_data x) with (b_size x + b_size b) by (unfold bend in *; lia).
      split; [|split; assumption]. right. exists x. repeat split; assumption.
    + exists c, ev, (l0 ++ [x]), (b_data b), (free_blocks c). split; [destruct res; try contradiction; subst c'; reflexivity|].
      split; [exact OB|]. split; [|exact SAME]. left. repeat split. intros l y Q (Q1 & Q2 & Q3).
      apply app_inj_tail in Q. destruct Q as (_ & <-). apply R3. repeat split; assumption.
Qed.

Lemma next_ok : forall c l1 b l2 m, Core (all_blocks c) (free_blocks c) -> all_blocks c = l1 ++ b :: l2 ->
  b_listed b = false -> b_used b = false ->
  exists c' ev m2 hi fr', free_block_merge_with_next dbg c (b_data b) m = Some (b_data b, c', ev) /\ asks ev = [] /\
    right_part l2 b m2 hi m /\
    c' = put c (l1 ++ Block (b_data b) (hi - b_data b) false false :: m2) fr' /\
    Core (l1 ++ Block (b_data b) (hi - b_data b) false false :: m2) fr'.
Proof.
  intros c l1 b l2 m C E L U. unfold free_block_merge_with_next.
  pose proof (core_chain _ _ C) as CH. rewrite E in CH. pose proof (chain_mid _ _ _ _ CH) as M.
  assert (SAME : c = put c (l1 ++ Block (b_data b) (bend b - b_data b) false false :: l2) (free_blocks c) /\
     Core (l1 ++ Block (b_data b) (bend b - b_data b) false false :: l2) (free_blocks c)).
  { replace (Block (b_data b) (bend b - b_data b) false false) with b.
    - rewrite <- E, put_same. split; [reflexivity|exact C].
    - unfold bend. replace (b_data b + b_size b - b_data b) with (b_size b) by lia. destruct b; cbn in *; subst; reflexivity. }
  rewrite E, (next_mid _ _ _ _ M eq_refl).
  destruct l2 as [|x l2].
  - exists c, [], [], (bend b), (free_blocks c). split; [reflexivity|]. split; [reflexivity|]. split; [|exact SAME].
    left. repeat split. intros l x Q. discriminate.
  - destruct (merge_ok c l1 b x l2 false m C E) as (res & c' & ev & -> & OB & [(R1 & R2 & R3 & R4 & R5 & fr' & R6 & R7)|(R1 & R2 & R3)]).
    + subst res. exists c', ev, l2, (bend x), fr'. split; [reflexivity|]. split; [exact OB|].
      replace (bend x - b_data b) with (b_size b + b_size x) by (unfold bend in *; lia).
      split; [|split; assumption]. right. exists x. repeat split; assumption.
    + exists c, ev, (x :: l2), (bend b), (free_blocks c). split; [subst c'; reflexivity|].
      split; [exact OB|]. split; [|exact SAME]. left. repeat split. intros l y Q (Q1 & Q2 & Q3).
      injection Q as <- <-. apply R3. repeat split; assumption.
Qed.


Lemma re_add_ok : forall c l1 b l2 o, Core (all_blocks c) (free_blocks c) -> all_blocks c = l1 ++ b :: l2 ->
  b_listed b = false -> b_used b = false -> o_elem (o_back o) = true ->
  exists ok c' ev m1 m2 lo hi fr', free_blocks_re_add dbg c (b_data b) o = Some (ok, c', ev) /\ asks ev = [] /\
    left_part l1 b m1 lo (o_prev o) /\ right_part l2 b m2 hi (o_next o) /\
    (ok = false -> o_head (o_back o) = false) /\
    c' = put c (m1 ++ Block lo (hi - lo) false ok :: m2) fr' /\
    Core (m1 ++ Block lo (hi - lo) false ok :: m2) fr'.
Proof.
  intros c l1 b l2 o C E L U O. unfold free_blocks_re_add.
  destruct (prev_ok c l1 b l2 (o_prev o) C E L U) as (c1 & ev1 & m1 & lo & fr1 & -> & OB1 & LP & Ec1 & C1).
  destruct (next_ok c1 m1 (Block lo (bend b - lo) false false) l2 (o_next o)) as (c2 & ev2 & m2 & hi & fr2 & N & OB2 & RP & Ec2 & C2);
    [rewrite Ec1; exact C1|rewrite Ec1; reflexivity|reflexivity|reflexivity|].
  cbn [b_data] in N, Ec2, C2. rewrite N.
  set (n := Block lo (hi - lo) false false) in *.
  assert (RP' : right_part l2 b m2 hi (o_next o)).
  { clear - RP. unfold right_part, bend in *. cbn [b_data b_size] in RP.
    replace (lo + (b_data b + b_size b - lo)) with (b_data b + b_size b) in RP by lia. exact RP. }
  destruct (add_ok c2 m1 n m2 (o_back o)) as [(fr' & A & C3)|(A & H)];
    [rewrite Ec2; exact C2|rewrite Ec2; reflexivity|reflexivity|reflexivity|exact O| |];
    change (b_data n) with lo in A; rewrite A.
  - exists true, (put c2 (m1 ++ with_listed true n :: m2) fr'), (ev1 ++ ev2), m1, m2, lo, hi, fr'.
    rewrite asks_app, OB1, OB2.
    repeat (split; [assumption || reflexivity || discriminate|]). rewrite Ec2, Ec1. split; [reflexivity|exact C3].
  - exists false, c2, (ev1 ++ ev2), m1, m2, lo, hi, fr2.
    rewrite asks_app, OB1, OB2.
    repeat (split; [assumption || reflexivity || discriminate|]). split; [intros _; exact H|].
    split; [rewrite Ec2, Ec1; reflexivity|exact C2].
Qed.
End Steps.
