(* The invariant of the disjoint pool and its preservation by the parts of an
   allocation and of a free. *)
From Verif Require Import Base Model_Utils Spec_Utils Proof_Utils Model_Disjoint Spec_Disjoint Proof_DisjointClass Proof_DisjointBits.
From Coq Require FinFun.

(* ---- lists ---- *)
Definition lk (l : list slab) (x : Z) : option slab := find (fun sl => s_mem sl =? x) l.
Lemma lk_mem : forall l x sl, lk l x = Some sl -> s_mem sl = x /\ In sl l.
Proof. intros l x sl H. apply find_some in H. destruct H as (A & B). apply Z.eqb_eq in B. auto. Qed.
Lemma lk_none : forall l x, lk l x = None -> ~ In x (map s_mem l).
Proof. intros l x H IN. apply in_map_iff in IN. destruct IN as (y & E & IN). pose proof (find_none _ _ H y IN) as F. cbn in F. apply Z.eqb_neq in F. congruence. Qed.
Lemma lk_in : forall l sl, NoDup (map s_mem l) -> In sl l -> lk l (s_mem sl) = Some sl.
Proof.
  induction l as [|y l IH]; intros sl N IN; [destruct IN|]. cbn in *. inversion N as [|? ? N1 N2]; subst. unfold lk. cbn [find].
  destruct IN as [->|IN]; [rewrite Z.eqb_refl; reflexivity|]. destruct (Z.eqb_spec (s_mem y) (s_mem sl)) as [E|NE]; [|apply IH; assumption].
  destruct N1. rewrite E. apply in_map. exact IN.
Qed.
Lemma lk_cons : forall sl l x, lk (sl :: l) x = if s_mem sl =? x then Some sl else lk l x. Proof. reflexivity. Qed.
Lemma lk_set : forall l sl x, lk (set_slab sl l) x = match lk l x with Some y => if s_mem y =? s_mem sl then Some sl else Some y | None => None end.
Proof.
  induction l as [|y l IH]; intros sl x; [reflexivity|]. unfold lk, set_slab in *. cbn [map find].
  destruct (Z.eqb_spec (s_mem y) (s_mem sl)) as [E|NE].
  - rewrite E. destruct (Z.eqb_spec (s_mem sl) x) as [E2|NE2]; [rewrite E, Z.eqb_refl; reflexivity|apply IH].
  - destruct (Z.eqb_spec (s_mem y) x) as [E2|NE2]; [rewrite (proj2 (Z.eqb_neq _ _) NE); reflexivity|apply IH].
Qed.
Lemma lk_set_eq : forall l sl x old, lk l (s_mem sl) = Some old -> lk (set_slab sl l) x = if x =? s_mem sl then Some sl else lk l x.
Proof.
  intros l sl x old H. rewrite lk_set. destruct (Z.eqb_spec x (s_mem sl)) as [->|NE].
  - rewrite H. destruct (lk_mem _ _ _ H) as (-> & _). rewrite Z.eqb_refl. reflexivity.
  - destruct (lk l x) as [y|] eqn:E; [|reflexivity]. destruct (lk_mem _ _ _ E) as (-> & _). rewrite (proj2 (Z.eqb_neq _ _) NE). reflexivity.
Qed.
Lemma lk_filter : forall l x y, lk (filter (fun z => negb (s_mem z =? x)) l) y = if y =? x then None else lk l y.
Proof.
  induction l as [|z l IH]; intros x y; cbn [filter]; [destruct (y =? x); reflexivity|]. destruct (Z.eqb_spec (s_mem z) x) as [E|NE]; cbn [negb].
  - rewrite IH, lk_cons. destruct (Z.eqb_spec y x) as [->|N2]; [reflexivity|]. destruct (Z.eqb_spec (s_mem z) y); [congruence|reflexivity].
  - rewrite !lk_cons, IH. destruct (Z.eqb_spec (s_mem z) y) as [E2|N2]; [|reflexivity]. destruct (Z.eqb_spec y x); [congruence|reflexivity].
Qed.
Lemma set_keys : forall l sl, map s_mem (set_slab sl l) = map s_mem l.
Proof. induction l as [|y l IH]; intros sl; [reflexivity|]. unfold set_slab in *. cbn [map]. f_equal; [|apply IH]. destruct (Z.eqb_spec (s_mem y) (s_mem sl)); congruence. Qed.
Lemma filter_keys : forall l x, NoDup (map s_mem l) -> NoDup (map s_mem (filter (fun z => negb (s_mem z =? x)) l)).
Proof.
  induction l as [|y l IH]; intros x N; [constructor|]. cbn in N. inversion N as [|? ? N1 N2]; subst. cbn [filter]. destruct (negb (s_mem y =? x)); [|auto].
  cbn. constructor; [|auto]. intros IN. apply N1. apply in_map_iff in IN. destruct IN as (z & E & IN). apply filter_In in IN. rewrite <- E. apply in_map. tauto.
Qed.

(* sums over the slabs *)
Definition wsum (f : slab -> Z) (l : list slab) : Z := fold_right (fun sl n => f sl + n) 0 l.
Lemma wsum_set : forall f l sl old, NoDup (map s_mem l) -> lk l (s_mem sl) = Some old -> wsum f (set_slab sl l) = wsum f l - f old + f sl.
Proof.
  induction l as [|y l IH]; intros sl old N H; [discriminate H|]. cbn in N. inversion N as [|? ? N1 N2]; subst. unfold set_slab in *. rewrite lk_cons in H. cbn [map wsum fold_right].
  destruct (Z.eqb_spec (s_mem y) (s_mem sl)) as [E|NE].
  - injection H as <-. replace (map (fun y0 : slab => if s_mem y0 =? s_mem sl then sl else y0) l) with l; [unfold wsum; lia|].
    clear - N1 E. induction l as [|z l IH]; [reflexivity|]. cbn in *. destruct (Z.eqb_spec (s_mem z) (s_mem sl)) as [E2|]; [destruct N1; left; congruence|]. f_equal. apply IH. tauto.
  - specialize (IH sl old N2 H). unfold wsum in IH. lia.
Qed.
Lemma wsum_filter : forall f l x old, NoDup (map s_mem l) -> lk l x = Some old -> wsum f (filter (fun z => negb (s_mem z =? x)) l) = wsum f l - f old.
Proof.
  induction l as [|y l IH]; intros x old N H; [discriminate H|]. cbn in N. inversion N as [|? ? N1 N2]; subst. rewrite lk_cons in H. cbn [filter].
  destruct (Z.eqb_spec (s_mem y) x) as [E|NE]; cbn [negb].
  - injection H as <-. replace (filter (fun z => negb (s_mem z =? x)) l) with l; [unfold wsum; cbn [fold_right]; lia|].
    clear - N1 E. induction l as [|z l IH]; [reflexivity|]. cbn in *. destruct (Z.eqb_spec (s_mem z) x) as [E2|]; [destruct N1; left; congruence|]. cbn. f_equal. apply IH. tauto.
  - specialize (IH x old N2 H). unfold wsum in *. cbn [fold_right]. lia.
Qed.
Lemma wsum_ext : forall f g l, (forall y, In y l -> f y = g y) -> wsum f l = wsum g l.
Proof. induction l as [|y l IH]; intros E; [reflexivity|]. unfold wsum in *. cbn [fold_right]. rewrite (E y) by (left; reflexivity). rewrite IH; [reflexivity|]. intros. apply E. right. assumption. Qed.
Lemma wsum_nonneg : forall f l, (forall y, In y l -> 0 <= f y) -> 0 <= wsum f l.
Proof. induction l as [|y l IH]; intros E; unfold wsum in *; cbn [fold_right]; [lia|]. pose proof (E y (or_introl eq_refl)). specialize (IH (fun z Z => E z (or_intror Z))). lia. Qed.
Lemma wsum_le : forall f g l, (forall y, In y l -> f y <= g y) -> wsum f l <= wsum g l.
Proof. induction l as [|y l IH]; intros E; unfold wsum in *; cbn [fold_right]; [lia|]. pose proof (E y (or_introl eq_refl)). specialize (IH (fun z Z => E z (or_intror Z))). lia. Qed.
Lemma wsum_ge : forall f l y, (forall z, In z l -> 0 <= f z) -> In y l -> f y <= wsum f l.
Proof.
  induction l as [|z l IH]; intros y E IN; [destruct IN|]. unfold wsum in *; cbn [fold_right]. pose proof (wsum_nonneg f l (fun z Z => E z (or_intror Z))) as NN. unfold wsum in NN.
  destruct IN as [->|IN]; [lia|]. pose proof (E z (or_introl eq_refl)). specialize (IH y (fun z Z => E z (or_intror Z)) IN). lia.
Qed.

Lemma set_nth_length : forall {A} n (l : list A) x, length (set_nth n l x) = length l.
Proof. induction n; destruct l; cbn; intros; congruence. Qed.
Lemma set_nth_get : forall {A} n (l : list A) x m, (n < length l)%nat -> nth_error (set_nth n l x) m = if Nat.eqb m n then Some x else nth_error l m.
Proof. induction n as [|n IH]; intros [|y l] x [|m] L; cbn [length] in L; try lia; cbn [set_nth nth_error Nat.eqb]; try reflexivity. apply IH. lia. Qed.
Lemma set_nth_map : forall {A B} (f : A -> B) n l x y, nth_error l n = Some y -> f x = f y -> map f (set_nth n l x) = map f l.
Proof. induction n as [|n IH]; intros [|z l] x y H E; try discriminate; cbn in *; [injection H as ->; congruence|]. f_equal. eapply IH; eassumption. Qed.
Lemma set_nth_same : forall {A} n (l : list A) x, nth_error l n = Some x -> set_nth n l x = l.
Proof. induction n as [|n IH]; intros [|z l] x H; try discriminate; cbn in *; [congruence|]. f_equal. apply IH. assumption. Qed.

Lemma in_dl : forall x l y, In y (dl_delete x l) <-> In y l /\ y <> x.
Proof. intros. unfold dl_delete. rewrite filter_In. destruct (Z.eqb_spec y x); cbn; intuition congruence. Qed.
Lemma nodup_filter : forall {A} (f : A -> bool) l, NoDup l -> NoDup (filter f l).
Proof. intros A f l N. induction N as [|x l NI N IH]; cbn; [constructor|]. destruct (f x); [|exact IH]. constructor; [|exact IH]. intros X. apply filter_In in X. tauto. Qed.

(* ---- the invariant ---- *)
Notation place := (Z * Z)%type. (* a chunk of a slab, or (address, -1) *)
Definition in_slab (m : Z) (q : place) : bool := (fst q =? m) && (0 <=? snd q).
Definition count (m : Z) (C : list place) : Z := Z.of_nat (length (filter (in_slab m) C)).

Record slab_ok (P : params) (R : list region) (C : list place) (sl : slab) (c : Z) : Prop := SlabOk {
  so_class : nth_error (bucket_table P) (s_bucket sl) = Some c;
  so_size : s_size sl = slab_bytes P c;
  so_total : s_total sl = slab_chunks P c;
  so_region : In (Region (s_mem sl) (s_size sl) (Some c)) R;
  so_words : words_ok (s_chunks sl);
  so_map : forall i, 0 <= i < s_total sl -> in_words (s_chunks sl) i;
  so_bits : forall i, 0 <= i -> (bit (s_chunks sl) i = true <-> i < s_total sl /\ ~ In (s_mem sl, i) C);
  so_alloc : s_alloc sl = count (s_mem sl) C;
  so_max : s_alloc sl <= s_total sl }.

Definition lists_ok (slabs : list slab) (j : nat) (b : bucket) : Prop :=
  NoDup (b_avail b) /\ NoDup (b_unavail b) /\
  (forall x, In x (b_avail b) <-> exists sl, lk slabs x = Some sl /\ s_bucket sl = j /\ s_alloc sl < s_total sl) /\
  (forall x, In x (b_unavail b) <-> exists sl, lk slabs x = Some sl /\ s_bucket sl = j /\ s_alloc sl = s_total sl).

Definition placed (P : params) (slabs : list slab) (R : list region) (l : live) (m i : Z) : Prop :=
  0 < l_size l /\
  ((i = -1 /\ l_ptr l = m /\ In (Region m (l_size l) None) R) \/
   (0 <= i /\ exists sl c, lk slabs m = Some sl /\ nth_error (bucket_table P) (s_bucket sl) = Some c /\ i < s_total sl /\
      m + i * c <= l_ptr l /\ l_ptr l + l_size l <= m + (i + 1) * c /\ l_ptr l < m + slab_min_size P)).

Record Core (P : params) (s : pool) (v : view) (G : list (live * place)) : Prop := CoreI {
  c_keys : NoDup (map s_mem (p_slabs s));
  c_slab : forall x sl, lk (p_slabs s) x = Some sl -> exists c, slab_ok P (v_regions v) (map snd G) sl c;
  c_tab : map b_size (p_buckets s) = bucket_table P;
  c_lists : forall j b, nth_error (p_buckets s) j = Some b -> lists_ok (p_slabs s) j b;
  c_regs : forall g, In g (v_regions v ++ v_lost v) -> 0 < g_base g /\ 0 < g_size g /\ g_base g + g_size g < U64;
  c_nodup : NoDup (map g_base (v_regions v ++ v_lost v));
  c_apart : forall g h, In g (v_regions v ++ v_lost v) -> In h (v_regions v ++ v_lost v) -> g_base g <> g_base h -> apart (g_base g) (g_size g) (g_base h) (g_size h);
  c_page : forall g, In g (v_regions v) -> page_size P <> 0 -> multiple_of (g_base g) (page_size P);
  c_own : forall g, In g (v_regions v) -> match g_class g with Some c => exists sl, lk (p_slabs s) (g_base g) = Some sl | None => exists l, In (l, (g_base g, -1)) G end;
  c_track : forall x, In x (p_regions s) <-> In x (spans v);
  c_live : map fst G = v_live v;
  c_places : NoDup (map snd G);
  c_place : forall l m i, In (l, (m, i)) G -> placed P (p_slabs s) (v_regions v) l m i }.

(* empty slabs of bucket j; bytes in empty slabs *)
Definition empty1 (j : nat) (sl : slab) : Z := if Nat.eqb (s_bucket sl) j && (s_alloc sl =? 0) then 1 else 0.
Definition nempty (j : nat) (l : list slab) : Z := wsum (empty1 j) l.
Definition bytes1 (sl : slab) : Z := if s_alloc sl =? 0 then s_size sl else 0.
Definition pooled (l : list slab) : Z := wsum bytes1 l.

Record Counts (P : params) (s : pool) (v : view) : Prop := CountsI {
  n_inpool : forall j b, nth_error (p_buckets s) j = Some b -> b_inpool b = nempty j (p_slabs s) /\ nempty j (p_slabs s) <= bucket_max_pooled_slabs P (b_size b);
  n_total : p_total s = v_others v + pooled (p_slabs s);
  n_limit : pooled (p_slabs s) <= max_size P;
  n_others : 0 <= v_others v;
  n_space : v_others v + total_size (v_regions v) < U64 }.

(* ---- consequences ---- *)
Section CoreFacts.
Variables (P : params) (s : pool) (v : view) (G : list (live * place)).
Hypothesis (V : valid P) (I : Core P s v G).

Lemma bucket_size_of : forall j b, nth_error (p_buckets s) j = Some b -> nth_error (bucket_table P) j = Some (b_size b).
Proof. intros j b B. rewrite <- (c_tab _ _ _ _ I). rewrite nth_error_map, B. reflexivity. Qed.
Lemma bucket_exists : forall j c, nth_error (bucket_table P) j = Some c -> exists b, nth_error (p_buckets s) j = Some b /\ b_size b = c.
Proof. intros j c B. rewrite <- (c_tab _ _ _ _ I) in B. rewrite nth_error_map in B. destruct (nth_error (p_buckets s) j) as [b|]; [|discriminate]. injection B as <-. eauto. Qed.
Lemma table_class : forall j c, nth_error (bucket_table P) j = Some c -> is_class P c /\ 8 <= c <= 2 ^ 31.
Proof. intros j c N. apply nth_error_In in N. apply (class_in_table P c (valid_bucket P V)) in N. split; [exact N|]. exact (class_bounds P c N). Qed.
Lemma chunks_fit : forall c i, 8 <= c -> 0 <= i < slab_chunks P c -> i * c + c <= slab_bytes P c /\ (i = 0 \/ i * c + c <= slab_min_size P) /\ i * c < slab_min_size P.
Proof.
  intros c i C H. unfold slab_chunks, slab_bytes in *. pose proof (valid_min P V) as M0. destruct (Z_le_gt_dec (slab_min_size P / c) 1) as [L|G0].
  - assert (i = 0) as -> by lia. lia.
  - assert (i <= slab_min_size P / c - 1) by lia. pose proof (Z.mul_div_le (slab_min_size P) c ltac:(lia)). nia.
Qed.
Lemma slab_bytes_pos : forall c, 8 <= c <= 2 ^ 31 -> 8 <= slab_bytes P c < U64 /\ slab_min_size P <= slab_bytes P c /\ 0 < slab_chunks P c.
Proof. intros c C. pose proof (valid_words P V) as (W & _). unfold slab_bytes, slab_chunks, is_word, U64 in *. change (2 ^ 31) with 2147483648 in C. lia. Qed.

Lemma in_base_eq : forall L g h, NoDup (map g_base L) -> In g L -> In h L -> g_base g = g_base h -> g = h.
Proof.
  clear. induction L as [|x L IH]; intros g h N A B E; [destruct A|]. cbn in N. inversion N as [|? ? N1 N2]; subst.
  destruct A as [->|A]; destruct B as [->|B]; [reflexivity| | |apply IH; assumption].
  - destruct N1. rewrite E. apply in_map. exact B.
  - destruct N1. rewrite <- E. apply in_map. exact A.
Qed.
Lemma reg_inj : forall g h, In g (v_regions v) -> In h (v_regions v) -> g_base g = g_base h -> g = h.
Proof. intros g h A B E. apply (in_base_eq (v_regions v ++ v_lost v)); [exact (c_nodup _ _ _ _ I)|apply in_or_app; auto|apply in_or_app; auto|exact E]. Qed.
(* two different regions do not share an address *)
Lemma reg_one : forall g h x, In g (v_regions v ++ v_lost v) -> In h (v_regions v ++ v_lost v) -> g_base g <= x < g_base g + g_size g -> g_base h <= x < g_base h + g_size h -> g = h.
Proof.
  intros g h x A B X Y. destruct (Z.eq_dec (g_base g) (g_base h)) as [E|NE]; [apply (in_base_eq (v_regions v ++ v_lost v)); auto; exact (c_nodup _ _ _ _ I)|].
  pose proof (c_apart _ _ _ _ I g h A B NE) as AP. unfold apart in AP. lia.
Qed.
(* the slab of a live chunk, its region and bounds *)
Lemma slab_facts : forall x sl, lk (p_slabs s) x = Some sl -> exists c, slab_ok P (v_regions v) (map snd G) sl c /\ 8 <= c <= 2 ^ 31 /\ s_mem sl = x /\
  0 < x /\ x + s_size sl < U64 /\ slab_min_size P <= s_size sl /\ 0 < s_total sl.
Proof.
  intros x sl H. destruct (c_slab _ _ _ _ I x sl H) as (c & O). destruct (lk_mem _ _ _ H) as (E & _). exists c. destruct (table_class _ _ (so_class _ _ _ _ _ O)) as (_ & C).
  pose proof (c_regs _ _ _ _ I _ (in_or_app _ _ _ (or_introl (so_region _ _ _ _ _ O)))) as (B1 & B2 & B3). cbn in B1, B2, B3.
  pose proof (slab_bytes_pos c C) as (S1 & S2 & S3). rewrite (so_size _ _ _ _ _ O) in *. rewrite (so_total _ _ _ _ _ O). rewrite E in *. auto 10.
Qed.

Lemma find_le_spec : forall l p, match find_le l p with
  | Some y => In y l /\ s_mem y <= p /\ forall z, In z l -> s_mem z <= p -> s_mem z <= s_mem y
  | None => forall z, In z l -> p < s_mem z end.
Proof.
  clear. induction l as [|y l IH]; intros p; cbn [find_le]; [intros z []|]. specialize (IH p). destruct (find_le l p) as [w|].
  - destruct IH as (A & B & C). destruct ((s_mem y <=? p) && (s_mem w <? s_mem y)) eqn:E.
    + apply andb_true_iff in E. destruct E as (E1 & E2). apply Z.leb_le in E1. apply Z.ltb_lt in E2. split; [left; reflexivity|]. split; [exact E1|].
      intros z [->|Z] L; [lia|]. specialize (C z Z L). lia.
    + split; [right; exact A|]. split; [exact B|]. intros z [->|Z] L; [|auto]. apply andb_false_iff in E. destruct E as [E|E]; [apply Z.leb_gt in E|apply Z.ltb_ge in E]; lia.
  - destruct (Z.leb_spec (s_mem y) p) as [L|G0].
    + split; [left; reflexivity|]. split; [exact L|]. intros z [->|Z] L2; [lia|]. specialize (IH z Z). lia.
    + intros z [->|Z]; [lia|auto].
Qed.
(* the slab found for an address in the searched part of a slab is that slab *)
Lemma slab_of_in : forall x sl p, lk (p_slabs s) x = Some sl -> x <= p < x + slab_min_size P -> slab_of P s p = Some sl.
Proof.
  intros x sl p H R. destruct (slab_facts x sl H) as (c & O & C & E & X0 & X1 & X2 & _). destruct (lk_mem _ _ _ H) as (_ & IN).
  unfold slab_of. pose proof (find_le_spec (p_slabs s) p) as F. destruct (find_le (p_slabs s) p) as [y|].
  - destruct F as (Y & YP & YM). specialize (YM sl IN ltac:(lia)). pose proof (lk_in _ y (c_keys _ _ _ _ I) Y) as LY.
    destruct (slab_facts _ y LY) as (c' & O' & C' & _ & Y0 & Y1 & Y2 & _).
    assert (REQ : Region (s_mem sl) (s_size sl) (Some c) = Region (s_mem y) (s_size y) (Some c')).
    { apply (reg_one _ _ (s_mem y)); [apply in_or_app; left; exact (so_region _ _ _ _ _ O)|apply in_or_app; left; exact (so_region _ _ _ _ _ O')| |]; cbn.
      - rewrite E in *. lia.
      - pose proof (c_regs _ _ _ _ I _ (in_or_app _ _ _ (or_introl (so_region _ _ _ _ _ O')))) as (_ & B2 & _). cbn in B2. lia. }
    injection REQ as E1 _ _. assert (y = sl) as ->. { rewrite <- E1, (lk_in _ sl (c_keys _ _ _ _ I) IN) in LY. congruence. }
    unfold slab_get_end. rewrite wrap_id by (unfold is_word; pose proof (valid_min P V); lia). rewrite (proj2 (Z.leb_gt _ _)) by lia. reflexivity.
  - specialize (F sl IN). lia.
Qed.
(* an address outside the slabs' memory has no slab *)
Lemma slab_of_out : forall p, (forall g c, In g (v_regions v) -> g_class g = Some c -> p < g_base g \/ g_base g + g_size g <= p) -> slab_of P s p = None.
Proof.
  intros p N. unfold slab_of. pose proof (find_le_spec (p_slabs s) p) as F. destruct (find_le (p_slabs s) p) as [y|]; [|reflexivity].
  destruct F as (Y & YP & _). pose proof (lk_in _ y (c_keys _ _ _ _ I) Y) as LY. destruct (slab_facts _ y LY) as (c' & O' & C' & _ & Y0 & Y1 & Y2 & _).
  specialize (N _ c' (so_region _ _ _ _ _ O') eq_refl). cbn in N. unfold slab_get_end. rewrite wrap_id by (unfold is_word; pose proof (valid_min P V); lia).
  rewrite (proj2 (Z.leb_le _ _)) by lia. reflexivity.
Qed.

(* a live allocation of a chunk is found again *)
Lemma live_chunk : forall l m i, In (l, (m, i)) G -> 0 <= i -> exists sl c,
  lk (p_slabs s) m = Some sl /\ slab_ok P (v_regions v) (map snd G) sl c /\ 8 <= c <= 2 ^ 31 /\ s_mem sl = m /\ i < s_total sl /\
  m + i * c <= l_ptr l /\ 0 < l_size l /\ l_ptr l + l_size l <= m + (i + 1) * c /\ slab_of P s (l_ptr l) = Some sl /\ get_chunk_idx c (l_ptr l) sl = i /\ m + (i + 1) * c <= m + s_size sl /\ m + s_size sl < U64 /\ 0 < m.
Proof.
  intros l m i IN I0. destruct (c_place _ _ _ _ I l m i IN) as (L0 & [(E & _)|(_ & sl & c & H & T & IT & A & B & R)]); [lia|].
  destruct (slab_facts m sl H) as (c' & O & C & E & X0 & X1 & X2 & _). assert (c' = c) as -> by (pose proof (so_class _ _ _ _ _ O); congruence).
  exists sl, c. assert (MC : m <= l_ptr l) by nia. pose proof (chunks_fit c i ltac:(lia) ltac:(rewrite <- (so_total _ _ _ _ _ O); lia)) as (F1 & _). rewrite <- (so_size _ _ _ _ _ O) in F1.
  repeat (split; [assumption|]). split; [apply (slab_of_in m sl); [exact H|lia]|].
  split; [|split; [nia|split; assumption]]. unfold get_chunk_idx. rewrite E, wrap_id by (unfold is_word; nia). symmetry. apply (Z.div_unique _ c i (l_ptr l - m - i * c)); [left|]; nia.
Qed.
Lemma live_direct : forall l m, In (l, (m, -1)) G -> l_ptr l = m /\ 0 < m /\ 0 < l_size l /\ In (Region m (l_size l) None) (v_regions v) /\ slab_of P s m = None /\ tracked_size s m = Some (l_size l).
Proof.
  intros l m IN. destruct (c_place _ _ _ _ I l m (-1) IN) as (L0 & [(_ & E & R)|(X & _)]); [|lia].
  assert (RA : In (Region m (l_size l) None) (v_regions v ++ v_lost v)) by (apply in_or_app; auto).
  pose proof (c_regs _ _ _ _ I _ RA) as (B1 & B2 & B3). cbn in B1, B2, B3.
  split; [exact E|]. split; [exact B1|]. split; [exact L0|]. split; [exact R|]. split.
  - apply slab_of_out. intros g c GI GC. destruct (Z_lt_le_dec m (g_base g)) as [|X]; [left; assumption|]. destruct (Z_lt_le_dec m (g_base g + g_size g)) as [Y|]; [|right; assumption].
    assert (g = Region m (l_size l) None) as -> by (apply (reg_one _ _ m); [apply in_or_app; auto|exact RA|lia|cbn; lia]). discriminate GC.
  - unfold tracked_size. destruct (find _ (p_regions s)) as [(q, n)|] eqn:F.
    + apply find_some in F. destruct F as (F1 & F2). cbn in F2. apply (c_track _ _ _ _ I) in F1. unfold spans in F1. apply in_map_iff in F1. destruct F1 as (g & GE & GI). injection GE as <- <-.
      assert (g = Region m (l_size l) None) as -> by (apply (reg_one _ _ m); [exact GI|exact RA|lia|cbn; lia]). reflexivity.
    + exfalso. assert (X : In (m, l_size l) (p_regions s)) by (apply (c_track _ _ _ _ I); unfold spans; apply in_map_iff; eexists; split; [|exact RA]; reflexivity).
      pose proof (find_none _ _ F _ X) as Y. cbn in Y. lia.
Qed.

(* counting *)
Lemma free_chunk_exists : forall x sl, lk (p_slabs s) x = Some sl -> s_alloc sl < s_total sl -> exists i, 0 <= i /\ bit (s_chunks sl) i = true.
Proof.
  intros x sl H LT. destruct (slab_facts x sl H) as (c & O & _ & E & _). pose proof (find_first_spec (s_chunks sl) 0 (so_words _ _ _ _ _ O) ltac:(lia)) as F.
  destruct (slab_find_first_available_chunk_idx (s_chunks sl) 0) as [i|]; [exists i; destruct F as (A & B & _); split; [lia|replace (i - 64 * 0) with i in B by lia; exact B]|].
  exfalso. set (all := map (fun k => (s_mem sl, Z.of_nat k)) (seq 0 (Z.to_nat (s_total sl)))).
  assert (INC : incl all (filter (in_slab (s_mem sl)) (map snd G))).
  { intros q Q. apply in_map_iff in Q. destruct Q as (k & <- & K). apply in_seq in K. apply filter_In. split.
    - specialize (F (Z.of_nat k) ltac:(lia)). destruct (in_dec (fun a b : place => ltac:(decide equality; apply Z.eq_dec) : {a = b} + {a <> b}) (s_mem sl, Z.of_nat k) (map snd G)) as [Y|N]; [exact Y|].
      assert (X : bit (s_chunks sl) (Z.of_nat k) = true) by (apply (so_bits _ _ _ _ _ O); [lia|split; [lia|exact N]]). congruence.
    - unfold in_slab. cbn. rewrite Z.eqb_refl. cbn. lia. }
  assert (ND : NoDup all). { apply FinFun.Injective_map_NoDup; [|apply seq_NoDup]. intros a b EQ. injection EQ as EQ. lia. }
  pose proof (NoDup_incl_length ND INC) as LE. unfold all in LE. rewrite map_length, seq_length in LE. pose proof (so_alloc _ _ _ _ _ O) as A. unfold count in A. lia.
Qed.
Lemma count_zero : forall m C i, count m C = 0 -> 0 <= i -> ~ In (m, i) C.
Proof.
  clear. intros m C i Z0 I0 IN. unfold count in Z0. assert (X : In (m, i) (filter (in_slab m) C)) by (apply filter_In; split; [exact IN|unfold in_slab; cbn; rewrite Z.eqb_refl; cbn; lia]).
  destruct (filter (in_slab m) C); [destruct X|cbn in Z0; lia].
Qed.
Lemma pooled_fits : pooled (p_slabs s) <= total_size (v_regions v).
Proof.
  assert (MONO : forall (L : list region) (ss : list slab), NoDup (map s_mem ss) -> (forall g, In g L -> 0 < g_size g) ->
    (forall y, In y ss -> exists c, In (Region (s_mem y) (s_size y) c) L) -> wsum s_size ss <= total_size L).
  { clear. induction L as [|g L IH]; intros ss N GP H.
    - destruct ss as [|y ss]; [cbn; lia|]. destruct (H y (or_introl eq_refl)) as (c & []).
    - assert (TS : total_size (g :: L) = g_size g + total_size L) by reflexivity. pose proof (GP g (or_introl eq_refl)) as G0.
      destruct (lk ss (g_base g)) as [y|] eqn:LK.
      + destruct (lk_mem _ _ _ LK) as (E & IN). pose proof (wsum_filter s_size ss (g_base g) y N LK) as WF.
        assert (REST : wsum s_size (filter (fun z => negb (s_mem z =? g_base g)) ss) <= total_size L).
        { apply IH; [apply filter_keys; exact N|intros; apply GP; right; assumption|]. intros z Z. apply filter_In in Z. destruct Z as (Z & NE). destruct (H z Z) as (c & [EQ|X]); [|eauto].
          rewrite EQ in NE. cbn in NE. rewrite Z.eqb_refl in NE. discriminate. }
        destruct (H y IN) as (c & [EQ|X]).
        * rewrite EQ in TS, G0. cbn [g_size] in *. rewrite EQ. lia.
        * (* the base occurs twice: only possible if the sizes are summed anyway *)
          assert (KEEP : wsum s_size ss <= total_size L); [|lia]. apply IH; [exact N|intros; apply GP; right; assumption|].
          intros z Z. destruct (H z Z) as (c' & [EQ|X']); [|eauto]. assert (z = y) as -> by (rewrite EQ in LK; cbn [g_base] in LK; rewrite (lk_in ss z N Z) in LK; congruence). eauto.
      + assert (KEEP : wsum s_size ss <= total_size L); [|lia]. apply IH; [exact N|intros; apply GP; right; assumption|].
        intros z Z. destruct (H z Z) as (c' & [EQ|X']); [|eauto]. apply lk_none in LK. rewrite EQ in LK. cbn in LK. destruct LK. apply in_map. exact Z. }
  transitivity (wsum s_size (p_slabs s)).
  - apply wsum_le. intros y Y. pose proof (lk_in _ y (c_keys _ _ _ _ I) Y) as LY. destruct (slab_facts _ y LY) as (c & _ & _ & _ & _ & _ & X & _). unfold bytes1. pose proof (valid_min P V). destruct (s_alloc y =? 0); lia.
  - apply MONO; [exact (c_keys _ _ _ _ I)| |].
    + intros g GI. apply (c_regs _ _ _ _ I g). apply in_or_app. auto.
    + intros y Y. destruct (c_slab _ _ _ _ I _ y (lk_in _ y (c_keys _ _ _ _ I) Y)) as (c & O). exists (Some c). exact (so_region _ _ _ _ _ O).
Qed.
Lemma nempty_small : forall j, 0 <= nempty j (p_slabs s) /\ nempty j (p_slabs s) * 8 <= pooled (p_slabs s).
Proof.
  intros j. split; [apply wsum_nonneg; intros y _; unfold empty1; destruct (_ && _); lia|].
  assert (E : nempty j (p_slabs s) * 8 = wsum (fun y => empty1 j y * 8) (p_slabs s)).
  { unfold nempty. generalize (p_slabs s). clear. induction l as [|y l IH]; [reflexivity|]. unfold wsum in *. cbn [fold_right]. lia. }
  rewrite E. apply wsum_le. intros y Y. pose proof (lk_in _ y (c_keys _ _ _ _ I) Y) as LY. destruct (slab_facts _ y LY) as (c & O & C & _ & _ & _ & X & _). pose proof (slab_bytes_pos c C) as (S1 & _).
  rewrite <- (so_size _ _ _ _ _ O) in S1. unfold empty1, bytes1. destruct (Nat.eqb (s_bucket y) j); destruct (s_alloc y =? 0); cbn [andb]; lia.
Qed.
End CoreFacts.
