From Verif Require Import Base Model_IpcCache Spec_IpcCache.

(* ---- lists ---- *)
Inductive subseq {A} : list A -> list A -> Prop :=
| sub_nil : forall l, subseq [] l
| sub_skip : forall x l m, subseq l m -> subseq l (x :: m)
| sub_take : forall x l m, subseq l m -> subseq (x :: l) (x :: m).

Lemma sub_in : forall A (l m : list A) x, subseq l m -> In x l -> In x m.
Proof. intros A l m x S. induction S; cbn; [intros []| |intros [->|H]]; auto. Qed.
Lemma sub_map_filter : forall A B (f : A -> bool) (g : A -> B) l u, subseq (map g l) u -> subseq (map g (filter f l)) u.
Proof.
  intros A B f g l u. revert l. induction u as [|x u IH]; intros l S.
  - inversion S as [? E| |]. symmetry in E. apply map_eq_nil in E. subst. constructor.
  - inversion S as [? E|? ? ? S' E|? ? ? S' E]; subst.
    + symmetry in E. apply map_eq_nil in E. subst. constructor.
    + apply sub_skip, IH. assumption.
    + destruct l as [|a l]; [discriminate|]. cbn in E. injection E as -> ->. cbn [filter]. destruct (f a); cbn [map]; [apply sub_take|apply sub_skip]; apply IH; assumption.
Qed.
Lemma sub_filter_r : forall A (f : A -> bool) (l u : list A), subseq l u -> (forall x, In x l -> f x = true) -> subseq l (filter f u).
Proof.
  intros A f l u S. induction S as [u|x l u S IH|x l u S IH]; intros H; [constructor| |].
  - cbn [filter]. destruct (f x); [apply sub_skip|]; auto.
  - cbn [filter]. rewrite (H x (or_introl eq_refl)). apply sub_take, IH. intros y Y. apply H. right. exact Y.
Qed.
Lemma sub_split : forall A (a : A) m u, subseq (a :: m) u -> exists u1 u2, u = u1 ++ a :: u2 /\ subseq m u2.
Proof.
  intros A a m u. induction u as [|x u IH]; intros S; inversion S as [|? ? ? S' E|? ? ? S' E]; subst.
  - destruct (IH S') as (u1 & u2 & -> & H). exists (x :: u1), u2. auto.
  - exists [], u. auto.
Qed.
Lemma sub_app_r : forall A (l m u : list A), subseq (l ++ m) u -> subseq m u.
Proof.
  intros A l. induction l as [|x l IH]; intros m u S; [exact S|]. cbn in S. destruct (sub_split _ _ _ _ S) as (u1 & u2 & -> & S2). apply IH in S2.
  clear - S2. induction u1; cbn; apply sub_skip; assumption.
Qed.
Lemma before_sub : forall A (l u : list A) a b, subseq l u -> before l a b -> before u a b.
Proof.
  intros A l u a b S (l1 & l2 & l3 & ->). apply sub_app_r in S. destruct (sub_split _ _ _ _ S) as (u1 & u2 & -> & S2).
  apply sub_app_r in S2. destruct (sub_split _ _ _ _ S2) as (u3 & u4 & -> & _). exists u1, u3, u4. reflexivity.
Qed.

Lemma key_eqb_eq : forall a b, key_eqb a b = true <-> a = b.
Proof.
  intros (a1, a2, a3) (b1, b2, b3). unfold key_eqb. cbn [k_base k_prov k_pid]. rewrite !andb_true_iff, !Z.eqb_eq. split; [intros ((-> & ->) & ->); reflexivity|].
  intros E. injection E as -> -> ->. auto.
Qed.
Lemma key_eqb_neq : forall a b, key_eqb a b = false <-> a <> b.
Proof. intros a b. rewrite <- key_eqb_eq. destruct (key_eqb a b); split; congruence. Qed.
Lemma key_eq_dec : forall a b : key, a = b \/ a <> b.
Proof. intros a b. destruct (key_eqb a b) eqn:E; [left; apply key_eqb_eq|right; apply key_eqb_neq]; exact E. Qed.

Lemma distinct_in : forall l x, In x (distinct l) <-> In x l.
Proof.
  induction l as [|k l IH]; intros x; [tauto|]. cbn [distinct]. destruct (existsb (key_eqb k) l) eqn:E.
  - rewrite IH. cbn. split; [auto|]. intros [->|H]; [|exact H]. apply existsb_exists in E. destruct E as (y & Y & E). apply key_eqb_eq in E. subst. exact Y.
  - cbn. rewrite IH. tauto.
Qed.
Lemma distinct_nodup : forall l, NoDup (distinct l).
Proof.
  induction l as [|k l IH]; [constructor|]. cbn [distinct]. destruct (existsb (key_eqb k) l) eqn:E; [exact IH|]. constructor; [|exact IH].
  intros H. apply (proj1 (distinct_in _ _)) in H. assert (X : existsb (key_eqb k) l = true) by (apply existsb_exists; exists k; split; [exact H|apply key_eqb_eq; reflexivity]). congruence.
Qed.
Lemma distinct_bound : forall l m, NoDup l -> (forall x, In x l -> In x m) -> (length l <= length (distinct m))%nat.
Proof. intros l m N H. apply NoDup_incl_length; [exact N|]. intros x X. apply distinct_in, H, X. Qed.

Lemma NoDup_map_filter : forall A B (f : A -> bool) (g : A -> B) l, NoDup (map g l) -> NoDup (map g (filter f l)).
Proof.
  intros A B f g l. induction l as [|a l IH]; intros N; [exact N|]. cbn in N. inversion N as [|? ? X Y]; subst. cbn [filter]. destruct (f a); [|auto]. cbn. constructor; [|auto].
  intros H. apply X. apply in_map_iff in H. destruct H as (b & E & H). apply filter_In in H. apply in_map_iff. exists b. tauto.
Qed.
Lemma nodup_inj : forall A B (g : A -> B) l a b, NoDup (map g l) -> In a l -> In b l -> g a = g b -> a = b.
Proof.
  intros A B g l a b N. induction l as [|x l IH]; [intros []|]. cbn in N. inversion N as [|? ? X Y]; subst. intros [->|HA] [->|HB] E; auto.
  - exfalso. apply X. rewrite E. apply in_map, HB.
  - exfalso. apply X. rewrite <- E. apply in_map, HA.
Qed.

(* ---- the invariant ---- *)
Definition mapping_of (e : centry) : mapping := Mapping (c_key e) (c_hid e) (c_base e) (c_size e).
Definition seg_of (e : centry) : Z * seg := (c_base e, Seg (c_size e) (k_prov (c_key e)) (c_id e)).

Section Inv.
Variable hsize : Z -> Z -> Z -> Z.
Variables limit one : Z.

Record Inv (s : istate) (v : view) : Prop := {
  i_ids : NoDup (map c_id (i_lru s));
  i_fresh : forall e, In e (i_lru s) -> c_id e < i_next s;
  i_keys : NoDup (map c_key (i_lru s));
  i_count : i_cur s = Z.of_nat (length (i_lru s));
  i_limit : i_max s = limit /\ 0 <= limit;
  i_refs : forall e, In e (i_lru s) -> c_ref e = Z.of_nat (length (filter (holds_key (c_key e)) (v_holds v)));
  i_size : forall e, In e (i_lru s) -> c_base e <> 0 -> c_size e = hsize (k_base (c_key e)) (k_pid (c_key e)) (c_hid e);
  i_maps : forall m, In m (v_maps v) <-> exists e, In e (i_lru s) /\ c_base e <> 0 /\ m = mapping_of e;
  i_segm : forall x, In x (i_segs s) <-> exists e, In e (i_lru s) /\ c_base e <> 0 /\ x = seg_of e;
  i_place : forall m, In m (v_maps v) -> 0 < m_base m /\ 0 < m_size m /\ m_base m + m_size m < U64;
  i_apart : forall m m', In m (v_maps v) -> In m' (v_maps v) -> m = m' \/ mapart (m_base m) (m_size m) m';
  i_hold : forall h, In h (v_holds v) -> exists e, In e (i_lru s) /\ c_key e = h_key h /\ c_hid e = h_hid h /\
             (h_base h <> 0 -> c_base e = h_base h /\ c_size e = h_size h);
  i_one : limit = 0 \/ forall e, In e (i_lru s) -> k_prov (c_key e) = one;
  i_peak : limit = 0 \/ Z.of_nat (length (i_lru s)) <= Z.max limit (v_peak v);
  i_used : subseq (map c_key (i_lru s)) (v_used v);
  i_once : NoDup (v_maps v);
  i_zero : forall e, In e (i_lru s) -> c_base e = 0 -> exists h, In h (v_holds v) /\ h_key h = c_key e
}.

Lemma without_in : forall id l e, In e (without id l) <-> In e l /\ c_id e <> id.
Proof. intros id l e. unfold without. rewrite filter_In. destruct (Z.eqb_spec (c_id e) id) as [E|E]; cbn [negb]; split; intros (X & Y); (split; [exact X|congruence]). Qed.
Lemma without_all : forall id l, (forall e, In e l -> c_id e <> id) -> without id l = l.
Proof.
  intros id l H. unfold without. induction l as [|e l IH]; [reflexivity|]. cbn [filter]. destruct (Z.eqb_spec (c_id e) id) as [X|_]; [destruct (H e (or_introl eq_refl) X)|].
  cbn [negb]. rewrite IH; [reflexivity|]. intros x X. apply H. right. exact X.
Qed.
Lemma without_length : forall l e, NoDup (map c_id l) -> In e l -> length l = S (length (without (c_id e) l)).
Proof.
  induction l as [|x l IH]; intros e N H; [destruct H|]. cbn in N. inversion N as [|? ? X Y]; subst. unfold without. cbn [filter]. destruct H as [->|H].
  - rewrite Z.eqb_refl. cbn [negb]. fold (without (c_id e) l). rewrite without_all; [reflexivity|]. intros y Y1 E. apply X. rewrite <- E. apply in_map, Y1.
  - destruct (Z.eqb_spec (c_id x) (c_id e)) as [E|_]; [exfalso; apply X; rewrite E; apply in_map, H|]. cbn [negb length]. f_equal. exact (IH e Y H).
Qed.

Section St.
Variables (s : istate) (v : view).
Hypothesis I : Inv s v.

Lemma entry_key : forall a b, In a (i_lru s) -> In b (i_lru s) -> c_key a = c_key b -> a = b.
Proof. intros a b. apply nodup_inj. exact (i_keys _ _ I). Qed.
Lemma entry_id : forall a b, In a (i_lru s) -> In b (i_lru s) -> c_id a = c_id b -> a = b.
Proof. intros a b. apply nodup_inj. exact (i_ids _ _ I). Qed.
Lemma entry_map : forall e, In e (i_lru s) -> c_base e <> 0 -> In (mapping_of e) (v_maps v).
Proof. intros e H B. apply (i_maps _ _ I). eauto. Qed.
Lemma entry_apart : forall a b, In a (i_lru s) -> In b (i_lru s) -> c_base a <> 0 -> c_base b <> 0 -> a = b \/ mapart (c_base a) (c_size a) (mapping_of b).
Proof.
  intros a b HA HB BA BB. destruct (i_apart _ _ I _ _ (entry_map a HA BA) (entry_map b HB BB)) as [E|X]; [left|right; exact X].
  apply entry_key; [exact HA|exact HB|]. apply (f_equal m_key) in E. exact E.
Qed.
Lemma entry_place : forall e, In e (i_lru s) -> c_base e <> 0 -> 0 < c_base e /\ 0 < c_size e /\ c_base e + c_size e < U64.
Proof. intros e H B. exact (i_place _ _ I _ (entry_map e H B)). Qed.
Lemma entry_at : forall a b p, In a (i_lru s) -> In b (i_lru s) -> c_base a <> 0 -> c_base b <> 0 ->
  c_base a <= p < c_base a + c_size a -> c_base b <= p < c_base b + c_size b -> a = b.
Proof. intros a b p HA HB BA BB CA CB. destruct (entry_apart a b HA HB BA BB) as [E|X]; [exact E|]. unfold mapart in X. cbn in X. lia. Qed.

(* what a close event removes *)
Lemma after_close : forall e m, In e (i_lru s) ->
  (In m (after_event (v_maps v) (EvClose (k_prov (c_key e)) (c_base e) (c_size e))) <-> In m (v_maps v) /\ m <> mapping_of e).
Proof.
  intros e m H. cbn [after_event]. rewrite filter_In. split.
  - intros (IN & C). split; [exact IN|]. intros ->. unfold closes, mapping_of in C. cbn in C. rewrite !Z.eqb_refl in C. discriminate.
  - intros (IN & N). split; [exact IN|]. destruct (closes (k_prov (c_key e)) (c_base e) (c_size e) m) eqn:C; [exfalso|reflexivity].
    unfold closes in C. rewrite !andb_true_iff, !Z.eqb_eq in C. destruct C as ((_ & C1) & C2). destruct (i_place _ _ I m IN) as (P1 & P2 & _).
    assert (B : c_base e <> 0) by lia. destruct (i_apart _ _ I m _ IN (entry_map e H B)) as [E|X]; [congruence|]. unfold mapart in X. cbn in X. lia.
Qed.

Definition removed (e : centry) : istate :=
  IState (without (c_id e) (i_lru s)) (i_cur s - 1) (i_max s) (fst (ipcOpenedCacheEvictionCallback (i_segs s) (c_key e) (c_base e) (c_size e))) (i_next s).
Definition unmapped (e : centry) : view :=
  View (filter (fun h => negb (key_eqb (h_key h) (c_key e))) (v_holds v))
       (after_event (v_maps v) (EvClose (k_prov (c_key e)) (c_base e) (c_size e))) (v_used v) (v_peak v).
Lemma others_count : forall k k' (H : list hold), k' <> k -> length (filter (holds_key k') (filter (fun h => negb (key_eqb (h_key h) k)) H)) = length (filter (holds_key k') H).
Proof.
  intros k k' H N. induction H as [|h H IH]; [reflexivity|]. cbn [filter]. destruct (key_eqb (h_key h) k) eqn:E; cbn [negb filter].
  - apply key_eqb_eq in E. unfold holds_key at 2. rewrite (proj2 (key_eqb_neq (h_key h) k')) by congruence. exact IH.
  - destruct (holds_key k' h); cbn [length]; congruence.
Qed.

Lemma seg_of_base : forall x, In x (i_segs s) -> fst x <> 0.
Proof. intros x H. apply (i_segm _ _ I) in H. destruct H as (e & _ & B & ->). exact B. Qed.
Lemma seg_inj : forall a b, In a (i_lru s) -> In b (i_lru s) -> c_base a <> 0 -> c_base a = c_base b -> a = b.
Proof.
  intros a b HA HB BA E. assert (BB : c_base b <> 0) by congruence. destruct (entry_place a HA BA). destruct (entry_place b HB BB).
  apply (entry_at a b (c_base a)); auto; lia.
Qed.

Lemma remove_ok : forall e, In e (i_lru s) -> Inv (removed e) (unmapped e).
Proof.
  intros e H. constructor; cbn [removed unmapped i_lru i_cur i_max i_segs i_next v_holds v_maps v_used v_peak].
  - apply NoDup_map_filter. exact (i_ids _ _ I).
  - intros x X. apply without_in in X. apply (i_fresh _ _ I). tauto.
  - apply NoDup_map_filter. exact (i_keys _ _ I).
  - rewrite (i_count _ _ I), (without_length _ e (i_ids _ _ I) H). lia.
  - exact (i_limit _ _ I).
  - intros x X. apply without_in in X. rewrite others_count; [apply (i_refs _ _ I); tauto|]. intros E. apply (proj2 X). f_equal. apply entry_key; tauto.
  - intros x X. apply without_in in X. apply (i_size _ _ I). tauto.
  - intros m. rewrite (after_close e m H), (i_maps _ _ I). split.
    + intros ((x & X & B & ->) & N). exists x. split; [|auto]. apply without_in. split; [exact X|]. intros E. apply N. rewrite (entry_id x e X H E). reflexivity.
    + intros (x & X & B & ->). apply without_in in X. split; [exists x; tauto|]. intros E. apply (proj2 X). f_equal. apply entry_key; [tauto|exact H|].
      apply (f_equal m_key) in E. exact E.
  - intros x. unfold ipcOpenedCacheEvictionCallback. cbn [fst]. destruct (Z.eqb_spec (c_base e) 0) as [Z|B].
    + rewrite (i_segm _ _ I). split; intros (y & Y & BY & ->); exists y; (split; [|auto]).
      * apply without_in. split; [exact Y|]. intros E. rewrite (entry_id y e Y H E) in BY. congruence.
      * apply without_in in Y. tauto.
    + unfold seg_del. rewrite filter_In, (i_segm _ _ I). split.
      * intros ((y & Y & BY & ->) & N). exists y. split; [|auto]. apply without_in. split; [exact Y|]. intros E. rewrite (entry_id y e Y H E) in N.
        cbn in N. rewrite Z.eqb_refl in N. discriminate.
      * intros (y & Y & BY & ->). apply without_in in Y. split; [exists y; tauto|]. cbn. destruct (Z.eqb_spec (c_base y) (c_base e)) as [E|_]; [|reflexivity].
        destruct (proj2 Y). f_equal. apply seg_inj; tauto.
  - intros m M. apply (after_close e m H) in M. apply (i_place _ _ I). tauto.
  - intros m m' M M'. apply (after_close e m H) in M. apply (after_close e m' H) in M'. apply (i_apart _ _ I); tauto.
  - intros h HH. apply filter_In in HH. destruct HH as (HH & N). destruct (i_hold _ _ I h HH) as (x & X & K & R). exists x. split; [|auto]. apply without_in.
    split; [exact X|]. intros E. rewrite (entry_id x e X H E) in K. rewrite (proj2 (key_eqb_eq _ _) (eq_sym K)) in N. discriminate.
  - destruct (i_one _ _ I) as [Z|O]; [left; exact Z|right]. intros x X. apply without_in in X. apply O. tauto.
  - destruct (i_peak _ _ I) as [Z|P]; [left; exact Z|right]. rewrite (without_length _ e (i_ids _ _ I) H) in P. lia.
  - apply sub_map_filter. exact (i_used _ _ I).
  - cbn [after_event]. apply NoDup_filter. exact (i_once _ _ I).
  - intros x X B. apply without_in in X. destruct (i_zero _ _ I x (proj1 X) B) as (h & HH & K). exists h. split; [|exact K]. apply filter_In. split; [exact HH|].
    rewrite K, (proj2 (key_eqb_neq _ _)); [reflexivity|]. intros E. apply (proj2 X). f_equal. apply entry_key; tauto.
Qed.

Definition touch (k : key) (u : list key) : list key := k :: filter (fun x => negb (key_eqb x k)) u.
Definition held (k : key) (hid base size : Z) (M : list mapping) : view :=
  let H := Hold k hid base size :: v_holds v in
  View H M (touch k (v_used v)) (Z.max (v_peak v) (Z.of_nat (length (distinct (map h_key H))))).

Lemma touch_ok : forall k l, subseq (map c_key l) (v_used v) -> (forall e, In e l -> c_key e <> k) -> subseq (k :: map c_key l) (touch k (v_used v)).
Proof.
  intros k l S N. apply sub_take, sub_filter_r; [exact S|]. intros x X. apply in_map_iff in X. destruct X as (e & <- & X).
  destruct (key_eqb (c_key e) k) eqn:E; [|reflexivity]. apply key_eqb_eq in E. destruct (N e X E).
Qed.
Lemma filter_none : forall A (f : A -> bool) l, (forall x, In x l -> f x = false) -> filter f l = [].
Proof. intros A f l. induction l as [|a l IH]; intros H; [reflexivity|]. cbn [filter]. rewrite (H a (or_introl eq_refl)). apply IH. intros x X. apply H. right. exact X. Qed.

Lemma add_ok : forall k hid size id next, (forall e, In e (i_lru s) -> c_key e <> k /\ c_id e <> id) -> id < next -> i_next s <= next ->
  (limit = 0 \/ k_prov k = one) ->
  (limit = 0 \/ Z.of_nat (length (i_lru s)) + 1 <= Z.max limit (Z.max (v_peak v) (Z.of_nat (length (distinct (k :: map h_key (v_holds v))))))) ->
  Inv (IState (CEntry id k 1 hid 0 0 :: i_lru s) (i_cur s + 1) (i_max s) (i_segs s) next) (held k hid 0 size (v_maps v)).
Proof.
  intros k hid size id next N LT NX ON PK.
  assert (NH : forall h, In h (v_holds v) -> h_key h <> k).
  { intros h H E. destruct (i_hold _ _ I h H) as (e & X & K & _). apply (proj1 (N e X)). congruence. }
  constructor; cbn [held i_lru i_cur i_max i_segs i_next v_holds v_maps v_used v_peak map c_id c_key length].
  - constructor; [|exact (i_ids _ _ I)]. intros H. apply in_map_iff in H. destruct H as (e & E & H). destruct (N e H). congruence.
  - intros e [<-|H]; [exact LT|]. pose proof (i_fresh _ _ I e H). lia.
  - constructor; [|exact (i_keys _ _ I)]. intros H. apply in_map_iff in H. destruct H as (e & E & H). destruct (N e H). congruence.
  - rewrite (i_count _ _ I). lia.
  - exact (i_limit _ _ I).
  - intros e [<-|H]; cbn [c_key c_ref filter].
    + unfold holds_key at 1. cbn [h_key]. rewrite (proj2 (key_eqb_eq k k) eq_refl). rewrite filter_none; [reflexivity|].
      intros h HH. unfold holds_key. apply key_eqb_neq. exact (NH h HH).
    + unfold holds_key at 1. cbn [h_key]. rewrite (proj2 (key_eqb_neq k (c_key e))); [exact (i_refs _ _ I e H)|]. intros X. apply (proj1 (N e H)). congruence.
  - intros e [<-|H]; [intros X; cbn in X; congruence|exact (i_size _ _ I e H)].
  - intros m. rewrite (i_maps _ _ I). split.
    + intros (e & H & R). exists e. split; [right; exact H|exact R].
    + intros (e & [<-|H] & B & R); [cbn in B; congruence|exists e; auto].
  - intros m. rewrite (i_segm _ _ I). split.
    + intros (e & H & R). exists e. split; [right; exact H|exact R].
    + intros (e & [<-|H] & B & R); [cbn in B; congruence|exists e; auto].
  - exact (i_place _ _ I).
  - exact (i_apart _ _ I).
  - intros h [<-|H]; [exists (CEntry id k 1 hid 0 0); cbn; intuition congruence|]. destruct (i_hold _ _ I h H) as (e & X & R). exists e. split; [right; exact X|exact R].
  - destruct ON as [Z|O]; [left; exact Z|]. destruct (i_one _ _ I) as [Z|O']; [left; exact Z|]. right. intros e [<-|H]; auto.
  - destruct PK as [Z|P]; [left; exact Z|right]. cbn [h_key]. rewrite Nat2Z.inj_succ. lia.
  - apply touch_ok; [exact (i_used _ _ I)|]. intros e H. exact (proj1 (N e H)).
  - exact (i_once _ _ I).
  - intros e [<-|H] B; [eexists; split; [left; reflexivity|reflexivity]|]. destruct (i_zero _ _ I e H B) as (h & HH & K). exists h. split; [right; exact HH|exact K].
Qed.

Lemma hit_ok : forall e size, In e (i_lru s) ->
  Inv (IState (CEntry (c_id e) (c_key e) (c_ref e + 1) (c_hid e) (c_base e) (c_size e) :: without (c_id e) (i_lru s)) (i_cur s) (i_max s) (i_segs s) (i_next s))
      (held (c_key e) (c_hid e) 0 size (v_maps v)).
Proof.
  intros e size H. set (e' := CEntry (c_id e) (c_key e) (c_ref e + 1) (c_hid e) (c_base e) (c_size e)).
  assert (SW : forall P : centry -> Prop, (P e <-> P e') -> (exists x, In x (i_lru s) /\ P x) <-> (exists x, In x (e' :: without (c_id e) (i_lru s)) /\ P x)).
  { intros P PE. split.
    - intros (x & X & PX). destruct (Z.eq_dec (c_id x) (c_id e)) as [E|N].
      + rewrite (entry_id x e X H E) in PX. exists e'. split; [left; reflexivity|tauto].
      + exists x. split; [right; apply without_in; auto|exact PX].
    - intros (x & [<-|X] & PX); [exists e; tauto|]. apply without_in in X. exists x. tauto. }
  assert (SWI : forall P : centry -> Prop, (P e -> P e') -> (forall x, In x (i_lru s) -> P x) -> forall x, In x (e' :: without (c_id e) (i_lru s)) -> P x).
  { intros P PE A x [<-|X]; [auto|]. apply without_in in X. apply A. tauto. }
  constructor; cbn [held i_lru i_cur i_max i_segs i_next v_holds v_maps v_used v_peak map length].
  - constructor; [|apply NoDup_map_filter; exact (i_ids _ _ I)]. intros X. apply in_map_iff in X. destruct X as (x & E & X). apply without_in in X. destruct (proj2 X). exact E.
  - apply (SWI (fun x => c_id x < i_next s)); [auto|exact (i_fresh _ _ I)].
  - constructor; [|apply NoDup_map_filter; exact (i_keys _ _ I)]. intros X. apply in_map_iff in X. destruct X as (x & E & X). apply without_in in X.
    destruct (proj2 X). f_equal. apply entry_key; tauto.
  - rewrite (i_count _ _ I), (without_length _ e (i_ids _ _ I) H). reflexivity.
  - exact (i_limit _ _ I).
  - intros x [<-|X]; cbn [filter]; unfold holds_key at 1; cbn [h_key].
    + cbn [e' c_key c_ref]. rewrite (proj2 (key_eqb_eq _ _) eq_refl). cbn [length]. rewrite (i_refs _ _ I e H). lia.
    + apply without_in in X. rewrite (proj2 (key_eqb_neq _ _)); [apply (i_refs _ _ I); tauto|]. intros E. apply (proj2 X). f_equal. symmetry. apply entry_key; tauto.
  - apply (SWI (fun x => c_base x <> 0 -> c_size x = _)); [auto|exact (i_size _ _ I)].
  - intros m. rewrite (i_maps _ _ I). apply (SW (fun x => c_base x <> 0 /\ m = mapping_of x)). reflexivity.
  - intros m. rewrite (i_segm _ _ I). apply (SW (fun x => c_base x <> 0 /\ m = seg_of x)). reflexivity.
  - exact (i_place _ _ I).
  - exact (i_apart _ _ I).
  - intros h [<-|HH]; [exists e'; split; [left; reflexivity|]; cbn; intuition congruence|].
    apply (proj1 (SW (fun x => c_key x = h_key h /\ c_hid x = h_hid h /\ (h_base h <> 0 -> c_base x = h_base h /\ c_size x = h_size h)) ltac:(reflexivity))).
    exact (i_hold _ _ I h HH).
  - destruct (i_one _ _ I) as [Z|O]; [left; exact Z|right]. apply (SWI (fun x => k_prov (c_key x) = one)); auto.
  - destruct (i_peak _ _ I) as [Z|P]; [left; exact Z|right]. rewrite (without_length _ e (i_ids _ _ I) H) in P. lia.
  - cbn [e' c_key]. apply touch_ok; [apply sub_map_filter; exact (i_used _ _ I)|]. intros x X E. apply without_in in X. apply (proj2 X). f_equal. apply entry_key; tauto.
  - exact (i_once _ _ I).
  - apply (SWI (fun x => c_base x = 0 -> exists h, In h (Hold (c_key e) (c_hid e) 0 size :: v_holds v) /\ h_key h = c_key x)); [auto|].
    intros x X B. destruct (i_zero _ _ I x X B) as (h & HH & K). exists h. split; [right; exact HH|exact K].
Qed.
End St.

Lemma hold_len : forall K k hid b b' size H, length (filter (holds_key K) (Hold k hid b size :: H)) = length (filter (holds_key K) (Hold k hid b' size :: H)).
Proof. intros. cbn [filter]. change (holds_key K (Hold k hid b size)) with (key_eqb k K). change (holds_key K (Hold k hid b' size)) with (key_eqb k K). destruct (key_eqb k K); reflexivity. Qed.
(* the new entry gets its mapping *)
Lemma map_ok : forall s v H k hid p size e rest u pk,
  Inv s (View (Hold k hid 0 size :: H) (v_maps v) u pk) -> i_lru s = e :: rest -> c_key e = k -> c_hid e = hid -> c_base e = 0 ->
  size = hsize (k_base k) (k_pid k) hid -> 0 < p -> 0 < size -> p + size < U64 -> (forall m, In m (v_maps v) -> mapart p size m) ->
  Inv (IState (set_mapping (c_id e) p size (i_lru s)) (i_cur s) (i_max s) ((p, Seg size (k_prov k) (c_id e)) :: i_segs s) (i_next s))
      (View (Hold k hid p size :: H) (Mapping k hid p size :: v_maps v) u pk).
Proof.
  intros s v H k hid p size e rest u pk I EL EK EH EB SZ P1 P2 P3 AP.
  set (e' := CEntry (c_id e) (c_key e) (c_ref e) (c_hid e) p size).
  assert (SM : set_mapping (c_id e) p size (i_lru s) = e' :: rest).
  { pose proof (i_ids _ _ I) as N. rewrite EL in *. unfold set_mapping. cbn [map]. rewrite Z.eqb_refl. f_equal. cbn in N. inversion N as [|? ? X _]; subst.
    assert (Y : forall x, In x rest -> c_id x <> c_id e) by (intros x IN E; apply X; rewrite <- E; apply in_map, IN). clear - Y. induction rest as [|y r IH]; [reflexivity|].
    cbn [map]. destruct (Z.eqb_spec (c_id y) (c_id e)) as [E|_]; [destruct (Y y (or_introl eq_refl) E)|]. f_equal. apply IH. intros x IN. apply Y. right. exact IN. }
  rewrite SM. pose proof I as [IA IB IC ID IE IF IG IH IJ IK IL IM IN IO IP IQ IR]. rewrite EL in *.
  constructor; cbn [i_lru i_cur i_max i_segs i_next v_holds v_maps v_used v_peak map length] in *.
  - exact IA.
  - intros x [<-|X]; [apply (IB e (or_introl eq_refl))|apply IB; right; exact X].
  - exact IC.
  - exact ID.
  - exact IE.
  - intros x X. rewrite (hold_len _ _ _ p 0). destruct X as [<-|X]; [apply (IF e (or_introl eq_refl))|apply IF; right; exact X].
  - intros x [<-|X] B; [cbn [e' c_size c_key c_hid]; congruence|apply IG; [right; exact X|exact B]].
  - intros m. cbn [In]. rewrite IH. split.
    + intros [<-|(x & [<-|X] & B & ->)].
      * exists e'. split; [left; reflexivity|]. split; [cbn; lia|]. unfold mapping_of. cbn. congruence.
      * congruence.
      * exists x. split; [right; exact X|auto].
    + intros (x & [<-|X] & B & ->); [left; unfold mapping_of; cbn; congruence|right; exists x; split; [right; exact X|auto]].
  - intros m. cbn [In]. rewrite IJ. split.
    + intros [<-|(x & [<-|X] & B & ->)].
      * exists e'. split; [left; reflexivity|]. split; [cbn; lia|]. unfold seg_of. cbn. congruence.
      * congruence.
      * exists x. split; [right; exact X|auto].
    + intros (x & [<-|X] & B & ->); [left; unfold seg_of; cbn; congruence|right; exists x; split; [right; exact X|auto]].
  - intros m [<-|M]; [cbn; auto|exact (IK m M)].
  - intros m m' [<-|M] [<-|M']; [left; reflexivity| | |exact (IL m m' M M')]; right; cbn.
    + exact (AP m' M').
    + pose proof (AP m M) as X. unfold mapart in *. cbn in *. lia.
  - intros h [<-|HH].
    + exists e'. split; [left; reflexivity|]. cbn. split; [congruence|]. split; [congruence|]. auto.
    + destruct (IM h (or_intror HH)) as (x & [<-|X] & K & D & R); [|exists x; split; [right; exact X|auto]].
      exists e'. split; [left; reflexivity|]. split; [exact K|]. split; [exact D|]. intros B. destruct (R B) as (R1 & _). congruence.
  - destruct IN as [Z|O]; [left; exact Z|right]. intros x [<-|X]; [apply (O e (or_introl eq_refl))|apply O; right; exact X].
  - exact IO.
  - exact IP.
  - constructor; [|exact IQ]. intros X. specialize (AP _ X). unfold mapart in AP. cbn in AP. lia.
  - intros x [<-|X] B; [cbn in B; lia|]. destruct (IR x (or_intror X) B) as (h & [<-|HH] & K); [eexists; split; [left; reflexivity|exact K]|exists h; split; [right; exact HH|exact K]].
Qed.

(* when the hold turns out to have a mapping already *)
Lemma rehold_ok : forall s v H k hid size e u pk,
  Inv s (View (Hold k hid 0 size :: H) (v_maps v) u pk) -> In e (i_lru s) -> c_key e = k -> c_hid e = hid -> c_size e = size ->
  Inv s (View (Hold k hid (c_base e) size :: H) (v_maps v) u pk).
Proof.
  intros s v H k hid size e u pk I IN EK EH ES. destruct I as [IA IB IC ID IE IF IG IH IJ IK IL IM IN' IO IP IQ IR].
  constructor; cbn [v_holds v_maps v_used v_peak] in *; auto.
  { intros x X. rewrite (hold_len _ _ _ (c_base e) 0). exact (IF x X). }
  { intros h [<-|HH]; [|apply IM; right; exact HH]. exists e. split; [exact IN|]. cbn. auto. }
  intros x X B. destruct (IR x X B) as (h & [<-|HH] & K); [eexists; split; [left; reflexivity|exact K]|exists h; split; [right; exact HH|exact K]].
Qed.
End Inv.
