From Verif Require Import Base Model_Utils Proof_Utils Model_Critnib.

Lemma pow2_pos : forall n, 0 <= n -> 0 < 2 ^ n.
Proof. intros. apply Z.pow_pos_nonneg; lia. Qed.

Lemma shift_pow : forall s, 0 <= s -> 2 ^ (s + 4) = 16 * 2 ^ s.
Proof. intros s Hs. rewrite Z.pow_add_r by lia. lia. Qed.

Lemma in_slots : forall i, In i slots <-> 0 <= i < 16.
Proof. intros i. unfold slots. cbn [In]. lia. Qed.

(* bits above 64 of a word *)
Lemma testbit_high : forall x i, is_word x -> 64 <= i -> Z.testbit x i = false.
Proof.
  intros x i Hx Hi. unfold is_word, U64 in Hx.
  destruct (Z.eq_dec x 0) as [->|N]; [apply Z.bits_0|].
  apply Z.bits_above_log2; [lia|]. apply Z.log2_lt_pow2; [lia|].
  eapply Z.lt_le_trans; [apply Hx|]. apply Z.pow_le_mono_r; lia.
Qed.

Lemma slice_index_val : forall k s, 0 <= s -> slice_index k s = (k / 2 ^ s) mod 16.
Proof.
  intros k s Hs. unfold slice_index, NIB. rewrite Z.shiftr_div_pow2 by lia.
  change 15 with (2 ^ 4 - 1). rewrite land_low by lia. reflexivity.
Qed.

Lemma slice_range : forall k s, 0 <= s -> 0 <= slice_index k s < 16.
Proof. intros. rewrite slice_index_val by lia. apply Z.mod_pos_bound. lia. Qed.

Lemma slice_in : forall p s key, 0 <= s -> p mod 2 ^ (s + 4) = 0 ->
  p <= key < p + 2 ^ (s + 4) ->
  let i := slice_index key s in
  0 <= i < 16 /\ p + i * 2 ^ s <= key < p + i * 2 ^ s + 2 ^ s.
Proof.
  intros p s key Hs Hp Hk i. subst i. pose proof (slice_range key s Hs).
  split; [assumption|]. rewrite slice_index_val in * by lia.
  rewrite shift_pow in * by lia. pose proof (pow2_pos s Hs) as P.
  set (w := 2 ^ s) in *. 
  pose proof (Z.div_mod p (16 * w) ltac:(lia)) as D. rewrite Hp in D.
  set (q := p / (16 * w)) in *.
  pose proof (Z.div_mod key w ltac:(lia)) as D2.
  pose proof (Z.mod_pos_bound key w P) as B2.
  set (r := key / w) in *.
  assert (16 * q <= r < 16 * q + 16) by nia.
  assert (E : r mod 16 = r - 16 * q).
  { symmetry. apply (Z.mod_unique r 16 q); lia. }
  rewrite E. nia.
Qed.

Lemma slice_unique : forall p s key i, 0 <= s -> p mod 2 ^ (s + 4) = 0 ->
  0 <= i < 16 -> p + i * 2 ^ s <= key < p + i * 2 ^ s + 2 ^ s ->
  slice_index key s = i.
Proof.
  intros p s key i Hs Hp Hi Hk.
  pose proof (pow2_pos s Hs) as P.
  assert (p <= key < p + 2 ^ (s + 4)) by (rewrite shift_pow by lia; nia).
  pose proof (slice_in p s key Hs Hp H) as (H1 & H2). cbv zeta in *.
  set (j := slice_index key s) in *.
  assert (j * 2 ^ s < i * 2 ^ s + 2 ^ s) by lia.
  assert (i * 2 ^ s < j * 2 ^ s + 2 ^ s) by lia. nia.
Qed.

Lemma path_mask_val : forall s, 0 <= s <= 60 -> path_mask s = U64 - 2 ^ (s + 4).
Proof.
  intros s Hs. unfold path_mask, wnot, NIB.
  rewrite Z.shiftl_mul_pow2 by lia. rewrite shift_pow by lia.
  replace ((U64 - 1 - 15) * 2 ^ s) with (U64 - 16 * 2 ^ s + (2 ^ s - 1) * U64) by lia.
  rewrite wrap_add_U64.
  assert (16 * 2 ^ s <= U64).
  { rewrite <- shift_pow by lia. unfold U64. apply Z.pow_le_mono_r; lia. }
  pose proof (pow2_pos s ltac:(lia)).
  apply wrap_id. unfold is_word. lia.
Qed.

Lemma land_path_mask : forall k s, is_word k -> 0 <= s <= 60 ->
  Z.land k (path_mask s) = k - k mod 2 ^ (s + 4).
Proof.
  intros k s Hk Hs. rewrite path_mask_val by lia.
  destruct (Z.eq_dec s 60) as [->|N].
  - change (2 ^ (60 + 4)) with U64. rewrite Z.sub_diag, Z.land_0_r.
    rewrite Z.mod_small by exact Hk. lia.
  - rewrite <- land_high by (try assumption; lia). f_equal. unfold wnot. lia.
Qed.

Lemma path_match : forall k p s, is_word k -> 0 <= s <= 60 ->
  p mod 2 ^ (s + 4) = 0 ->
  (Z.land k (path_mask s) = p <-> p <= k < p + 2 ^ (s + 4)).
Proof.
  intros k p s Hk Hs Hp. rewrite land_path_mask by assumption.
  pose proof (pow2_pos (s + 4) ltac:(lia)) as P.
  set (w := 2 ^ (s + 4)) in *.
  pose proof (Z.mod_pos_bound k w P). split; [lia|].
  intros B. pose proof (Z.div_mod p w ltac:(lia)) as D. rewrite Hp in D.
  assert (E : k mod w = k - p).
  { symmetry. apply (Z.mod_unique k w (p / w)); lia. }
  lia.
Qed.

Lemma outside_false : forall k p s, is_word k -> is_word p -> 0 <= s <= 60 ->
  p mod 2 ^ (s + 4) = 0 ->
  (outside k p s = false <-> p <= k < p + 2 ^ (s + 4)).
Proof.
  intros k p s Hk Hw Hs Hp.
  assert (E : outside k p s = negb (k / 2 ^ (s + 4) =? p / 2 ^ (s + 4))).
  { unfold outside. f_equal.
    assert (Hx : is_word (Z.shiftr (Z.lxor k p) s)).
    { assert (Hl : 0 <= Z.lxor k p).
      { apply Z.lxor_nonneg. unfold is_word in *. lia. }
      split; [apply Z.shiftr_nonneg; exact Hl|].
      rewrite Z.shiftr_div_pow2 by lia.
      apply Z.le_lt_trans with (Z.lxor k p).
      - pose proof (pow2_pos s ltac:(lia)). apply Z.div_le_upper_bound; nia.
      - destruct (Z.eq_dec (Z.lxor k p) 0) as [->|N]; [reflexivity|].
        apply Z.log2_lt_pow2; [lia|].
        destruct (Z_lt_le_dec (Z.log2 (Z.lxor k p)) 64) as [L|L]; [exact L|].
        exfalso. pose proof (Z.bit_log2 (Z.lxor k p) ltac:(lia)) as B.
        rewrite Z.lxor_spec, !testbit_high in B by (try assumption; lia).
        discriminate. }
    unfold NIB. change 15 with (2 ^ 4 - 1) at 1.
    rewrite land_high by (try assumption; lia).
    set (X := Z.shiftr (Z.lxor k p) s) in *.
    assert (EX : X / 2 ^ 4 = Z.lxor (k / 2 ^ (s + 4)) (p / 2 ^ (s + 4))).
    { rewrite <- !Z.shiftr_div_pow2 by lia. unfold X.
      rewrite Z.shiftr_shiftr by lia. apply Z.shiftr_lxor. }
    pose proof (Z.div_mod X (2 ^ 4) ltac:(lia)) as D. rewrite EX in D.
    destruct (Z.eqb_spec (k / 2 ^ (s + 4)) (p / 2 ^ (s + 4))) as [E|E].
    - rewrite E, Z.lxor_nilpotent in D. lia.
    - rewrite <- Z.lxor_eq_0_iff in E. lia. }
  rewrite E, negb_false_iff, Z.eqb_eq.
  pose proof (pow2_pos (s + 4) ltac:(lia)) as P.
  set (w := 2 ^ (s + 4)) in *.
  pose proof (Z.div_mod p w ltac:(lia)) as D. rewrite Hp in D.
  pose proof (Z.div_mod k w ltac:(lia)) as D2.
  pose proof (Z.mod_pos_bound k w P).
  split; intros H1.
  - rewrite <- H1 in D. lia.
  - symmetry. apply (Z.div_unique k w (p / w) (k - p)); lia.
Qed.

(* Where two different numbers first differ, as a multiple-of-4 shift. *)
Lemma msb_shift : forall a b, is_word a -> is_word b -> a <> b ->
  let sh := Z.land (utils_msb64 (Z.lxor a b)) (255 - (SLICE - 1)) in
  0 <= sh <= 60 /\ sh mod 4 = 0 /\
  a / 2 ^ (sh + 4) = b / 2 ^ (sh + 4) /\
  (a / 2 ^ sh) mod 16 <> (b / 2 ^ sh) mod 16 /\
  (forall S, 0 <= S -> S mod 4 = 0 -> a / 2 ^ S = b / 2 ^ S -> sh + 4 <= S) /\
  (forall S, 0 <= S -> S mod 4 = 0 -> a / 2 ^ S <> b / 2 ^ S -> S <= sh).
Proof.
  intros a b Ha Hb Hab sh.
  set (x := Z.lxor a b) in *.
  assert (Hx : 0 < x).
  { assert (x <> 0) by (unfold x; rewrite Z.lxor_eq_0_iff; assumption).
    assert (0 <= x) by (apply Z.lxor_nonneg; unfold is_word in *; lia). lia. }
  set (m := Z.log2 x) in *.
  assert (Hm : 0 <= m < 64).
  { split; [apply Z.log2_nonneg|].
    destruct (Z_lt_le_dec m 64) as [L|L]; [exact L|].
    exfalso. pose proof (Z.bit_log2 x Hx) as B. fold m in B. unfold x in B.
    rewrite Z.lxor_spec, !testbit_high in B by (try assumption; lia).
    discriminate. }
  assert (Esh : sh = m - m mod 4).
  { unfold sh, utils_msb64, SLICE. fold m. change (255 - (4 - 1)) with (Z.ldiff (Z.ones 8) (Z.ones 2)).
    assert (E : Z.land m (Z.ldiff (Z.ones 8) (Z.ones 2)) = Z.ldiff m (Z.ones 2)).
    { apply Z.bits_inj'. intros i Hi. rewrite Z.land_spec, !Z.ldiff_spec.
      rewrite !Z.testbit_ones by lia. destruct (Z.ltb_spec i 8).
      - replace (0 <=? i) with true by lia. reflexivity.
      - assert (Z.testbit m i = false) as ->; [|reflexivity].
        destruct (Z.eq_dec m 0) as [->|N]; [apply Z.bits_0|].
        apply Z.bits_above_log2; [lia|]. apply Z.log2_lt_pow2; [lia|].
        eapply Z.lt_le_trans; [apply Hm|].
        change 64 with (2 ^ 6). apply Z.pow_le_mono_r; lia. }
    rewrite E, Z.ldiff_ones_r, Z.shiftl_mul_pow2, Z.shiftr_div_pow2 by lia.
    change (2 ^ 2) with 4. clear - Hm. dlia. }
  assert (DX : forall S, 0 <= S -> Z.lxor (a / 2 ^ S) (b / 2 ^ S) = x / 2 ^ S).
  { intros S HS. rewrite <- !Z.shiftr_div_pow2 by lia. unfold x.
    symmetry. apply Z.shiftr_lxor. }
  assert (EQ : forall S, 0 <= S -> (a / 2 ^ S = b / 2 ^ S <-> m < S)).
  { intros S HS. rewrite <- Z.lxor_eq_0_iff, DX by lia.
    pose proof (pow2_pos S HS). rewrite Z.div_small_iff by lia.
    unfold m. split.
    - intros [Q|Q]; [|lia]. apply Z.log2_lt_pow2; lia.
    - intros Q. left. split; [lia|]. apply Z.log2_lt_pow2; lia. }
  assert (Hsh : 0 <= sh <= 60 /\ sh mod 4 = 0 /\ sh <= m < sh + 4) by (clear - Hm Esh; dlia).
  repeat split; try lia.
  - apply EQ; lia.
  - intros C.
    assert (E1 : a / 2 ^ sh = b / 2 ^ sh).
    { assert (E4 : a / 2 ^ (sh + 4) = b / 2 ^ (sh + 4)) by (apply EQ; lia).
      rewrite Z.pow_add_r in E4 by lia.
      pose proof (pow2_pos sh ltac:(lia)).
      rewrite <- !Z.div_div in E4 by lia. change (2 ^ 4) with 16 in E4.
      pose proof (Z.div_mod (a / 2 ^ sh) 16 ltac:(lia)).
      pose proof (Z.div_mod (b / 2 ^ sh) 16 ltac:(lia)). lia. }
    apply EQ in E1; lia.
  - intros S HS HS4 E1. apply EQ in E1; [|lia]. clear - Hsh HS4 E1. dlia.
  - intros S HS HS4 E1. rewrite EQ in E1 by lia. clear - Hsh HS4 E1. dlia.
Qed.

Section Tree.
Context {V : Type}.
Implicit Types t : tree V.

(* [t] only holds keys of the aligned interval [lo, lo + 2^S). *)
Fixpoint wf (lo S : Z) (t : tree V) : Prop :=
  match t with
  | Nil => True
  | Leaf k _ => lo <= k < lo + 2 ^ S
  | Node p s ch =>
      0 <= s /\ s mod 4 = 0 /\ s + 4 <= S /\ p mod 2 ^ (s + 4) = 0 /\
      lo <= p < lo + 2 ^ S /\
      (exists i j, 0 <= i < 16 /\ 0 <= j < 16 /\ i <> j /\
                   is_nil (ch i) = false /\ is_nil (ch j) = false) /\
      (forall i, 0 <= i < 16 -> wf (p + i * 2 ^ s) s (ch i))
  end.

(* alignment of the interval itself *)
Definition ival (lo S : Z) : Prop :=
  0 <= S <= 64 /\ S mod 4 = 0 /\ lo mod 2 ^ S = 0 /\ 0 <= lo /\ lo + 2 ^ S <= U64.

Lemma in_node : forall p s (ch : Z -> tree V) e,
  In e (entries (Node p s ch)) <-> exists i, 0 <= i < 16 /\ In e (entries (ch i)).
Proof.
  intros p s ch e. cbn [entries]. rewrite in_flat_map. split.
  - intros (i & Hi & He). exists i. rewrite in_slots in Hi. tauto.
  - intros (i & Hi & He). exists i. rewrite in_slots. tauto.
Qed.

(* the slot interval of an aligned node lies inside the parent's interval *)
Lemma node_fits : forall lo S p w, ival lo S -> 0 <= w <= S ->
  p mod 2 ^ w = 0 -> lo <= p < lo + 2 ^ S -> p + 2 ^ w <= lo + 2 ^ S.
Proof.
  intros lo S p w (HS & _ & Hlo & _ & _) Hw Hp Hr.
  replace S with (w + (S - w)) in * by lia.
  rewrite Z.pow_add_r in * by lia.
  pose proof (pow2_pos w ltac:(lia)). pose proof (pow2_pos (S - w) ltac:(lia)).
  set (a := 2 ^ w) in *. set (b := 2 ^ (S - w)) in *.
  pose proof (Z.div_mod p a ltac:(lia)) as D1. rewrite Hp in D1.
  pose proof (Z.div_mod lo (a * b) ltac:(nia)) as D2. rewrite Hlo in D2.
  set (x := p / a) in *. set (y := lo / (a * b)) in *.
  assert (x < (y + 1) * b) by nia. nia.
Qed.

Lemma ival_child : forall lo S p s i, ival lo S -> 0 <= s -> s mod 4 = 0 ->
  s + 4 <= S -> p mod 2 ^ (s + 4) = 0 -> lo <= p < lo + 2 ^ S -> 0 <= i < 16 ->
  ival (p + i * 2 ^ s) s /\ lo <= p + i * 2 ^ s /\
  p + i * 2 ^ s + 2 ^ s <= lo + 2 ^ S.
Proof.
  intros lo S p s i HI Hs Hs4 HsS Hp Hr Hi.
  pose proof (node_fits lo S p (s + 4) HI ltac:(lia) Hp Hr) as F.
  destruct HI as (HS & _ & _ & Hlo & HU).
  pose proof (pow2_pos s Hs) as P. rewrite shift_pow in * by lia.
  set (w := 2 ^ s) in *.
  split; [|nia]. unfold ival. fold w. repeat split; try lia; try nia.
  pose proof (Z.div_mod p (16 * w) ltac:(lia)) as D. rewrite Hp in D.
  replace (p + i * w) with ((16 * (p / (16 * w)) + i) * w) by lia.
  apply Z.mod_mul. lia.
Qed.

Lemma ival_word : forall lo S k, ival lo S -> lo <= k < lo + 2 ^ S -> is_word k.
Proof. unfold ival, is_word. intros. lia. Qed.

Lemma entries_in : forall t lo S, ival lo S -> wf lo S t ->
  forall k v, In (k, v) (entries t) -> lo <= k < lo + 2 ^ S.
Proof.
  induction t as [|k0 v0|p s ch IH]; intros lo S HI W k v Hin.
  - destruct Hin.
  - cbn in Hin. destruct Hin as [E|[]]. injection E as -> ->. exact W.
  - apply in_node in Hin. destruct Hin as (i & Hi & Hin).
    destruct W as (Hs & Hs4 & HsS & Hp & Hr & _ & Hch).
    pose proof (ival_child lo S p s i HI Hs Hs4 HsS Hp Hr Hi) as (HI' & L & U).
    pose proof (IH i _ _ HI' (Hch i Hi) k v Hin). lia.
Qed.

Lemma is_nil_false : forall t, is_nil t = false <-> t <> Nil.
Proof. intros [| |]; cbn; split; congruence. Qed.

Lemma nonempty : forall t lo S, ival lo S -> wf lo S t -> is_nil t = false ->
  exists e, In e (entries t).
Proof.
  induction t as [|k0 v0|p s ch IH]; intros lo S HI W HN.
  - discriminate.
  - exists (k0, v0). cbn. auto.
  - destruct W as (Hs & Hs4 & HsS & Hp & Hr & (i & j & Hi & _ & _ & N & _) & Hch).
    destruct (IH i _ _ (proj1 (ival_child lo S p s i HI Hs Hs4 HsS Hp Hr Hi)) (Hch i Hi) N) as (e & He).
    exists e. apply in_node. eauto.
Qed.

(* membership in a node, for a key: only the slot of the key matters *)
Lemma in_node_key : forall lo S p s (ch : Z -> tree V) k v, ival lo S ->
  wf lo S (Node p s ch) ->
  (In (k, v) (entries (Node p s ch)) <-> In (k, v) (entries (ch (slice_index k s)))
                                      /\ p <= k < p + 2 ^ (s + 4)).
Proof.
  intros lo S p s ch k v HI W. rewrite in_node.
  destruct W as (Hs & Hs4 & HsS & Hp & Hr & _ & Hch).
  split.
  - intros (i & Hi & Hin).
    pose proof (ival_child lo S p s i HI Hs Hs4 HsS Hp Hr Hi) as (HI' & L & U).
    pose proof (entries_in _ _ _ HI' (Hch i Hi) k v Hin) as B.
    rewrite (slice_unique p s k i Hs Hp Hi B). split; [exact Hin|].
    rewrite shift_pow by lia. pose proof (pow2_pos s Hs). nia.
  - intros (Hin & B). exists (slice_index k s). split; [apply slice_range; lia|exact Hin].
Qed.

Lemma get_leaf_spec : forall t lo S key, ival lo S -> wf lo S t ->
  forall k v, get_leaf t key = Some (k, v) <-> k = key /\ In (key, v) (entries t).
Proof.
  induction t as [|k0 v0|p s ch IH]; intros lo S key HI W k v.
  - cbn. split; [discriminate|tauto].
  - cbn. destruct (Z.eqb_spec k0 key) as [->|N].
    + split; [intros E; injection E as <- <-; auto|].
      intros (-> & [E|[]]). congruence.
    + split; [discriminate|]. intros (-> & [E|[]]). congruence.
  - cbn [get_leaf]. pose proof W as W'.
    destruct W as (Hs & Hs4 & HsS & Hp & Hr & _ & Hch).
    pose proof (slice_range key s Hs) as Hi.
    pose proof (ival_child lo S p s _ HI Hs Hs4 HsS Hp Hr Hi) as (HI' & _ & _).
    rewrite (IH _ _ _ key HI' (Hch _ Hi) k v).
    rewrite (in_node_key lo S p s ch key v HI W').
    split; [|tauto]. intros (-> & Hin). split; [reflexivity|]. split; [exact Hin|].
    pose proof (entries_in _ _ _ HI' (Hch _ Hi) _ _ Hin) as B.
    rewrite shift_pow by lia. pose proof (pow2_pos s Hs). nia.
Qed.

Lemma entries_fun : forall t lo S, ival lo S -> wf lo S t ->
  forall k v1 v2, In (k, v1) (entries t) -> In (k, v2) (entries t) -> v1 = v2.
Proof.
  intros t lo S HI W k v1 v2 H1 H2.
  assert (A : get_leaf t k = Some (k, v1)) by (apply (get_leaf_spec t lo S k HI W); auto).
  assert (B : get_leaf t k = Some (k, v2)) by (apply (get_leaf_spec t lo S k HI W); auto).
  congruence.
Qed.

Lemma div_same : forall lo S x y, ival lo S ->
  lo <= x < lo + 2 ^ S -> lo <= y < lo + 2 ^ S -> x / 2 ^ S = y / 2 ^ S.
Proof.
  intros lo S x y (HS & _ & Hlo & _ & _) Hx Hy.
  pose proof (pow2_pos S ltac:(lia)).
  pose proof (Z.div_mod lo (2 ^ S) ltac:(lia)) as D. rewrite Hlo in D.
  set (w := 2 ^ S) in *.
  rewrite <- (Z.div_unique x w (lo / w) (x - lo)) by lia.
  rewrite <- (Z.div_unique y w (lo / w) (y - lo)) by lia. reflexivity.
Qed.

(* what the tree must satisfy after an insert attempt *)
Definition ins_post (node_ok update : bool) (key : Z) (v : V) (t t' : tree V)
           (c : ins_code) : Prop :=
  match c with
  | INS_OK =>
      (update = true \/ forall v0, ~ In (key, v0) (entries t)) /\
      forall k v', In (k, v') (entries t') <->
                   (k = key /\ v' = v) \/ (k <> key /\ In (k, v') (entries t))
  | INS_EEXIST => update = false /\ (exists v0, In (key, v0) (entries t)) /\
                  forall e, In e (entries t') <-> In e (entries t)
  | INS_ENOMEM => node_ok = false /\ (forall v0, ~ In (key, v0) (entries t)) /\
                  forall e, In e (entries t') <-> In e (entries t)
  | INS_ASSERT => False
  end.

(* divergence from a leaf or node [n] whose keys all share [path] above [w] *)
Lemma diverge_spec : forall node_ok n path w key v update lo S,
  ival lo S -> is_nil n = false -> 0 <= w <= S -> w mod 4 = 0 -> path mod 2 ^ w = 0 ->
  lo <= path < lo + 2 ^ S -> lo <= key < lo + 2 ^ S ->
  key / 2 ^ w <> path / 2 ^ w ->
  (forall lo' S', ival lo' S' -> w <= S' -> lo' <= path < lo' + 2 ^ S' -> wf lo' S' n) ->
  forall t' c, ins_diverge node_ok n path key v update = (t', c) ->
  wf lo S t' /\ is_nil t' = false /\ ins_post node_ok update key v n t' c.
Proof.
  intros node_ok n path w key v update lo S HI HN Hw Hw4 Hpath Hr Hk Hne Hwf t' c Hins.
  assert (Wp : is_word path) by (eapply ival_word; eauto).
  assert (Wk : is_word key) by (eapply ival_word; eauto).
  assert (Hneq : path <> key) by congruence.
  pose proof (msb_shift path key Wp Wk Hneq) as M. cbv zeta in M.
  unfold ins_diverge in Hins. cbv zeta in Hins.
  set (sh := Z.land (utils_msb64 (Z.lxor path key)) (255 - (SLICE - 1))) in *.
  destruct M as (Hsh & Hsh4 & Hsame & Hdiff & Hup & Hlow).
  assert (HwS : wf lo S n) by (apply Hwf; [exact HI|lia|exact Hr]).
  assert (Habs : forall v0, ~ In (key, v0) (entries n)).
  { intros v0 Hin.
    assert (HI2 : ival path w).
    { destruct HI as (A1 & A2 & A3 & A4 & A5).
      pose proof (node_fits lo S path w (conj A1 (conj A2 (conj A3 (conj A4 A5)))) Hw Hpath Hr).
      unfold ival. repeat split; try assumption; lia. }
    pose proof (pow2_pos w ltac:(lia)).
    pose proof (entries_in n path w HI2 (Hwf path w HI2 ltac:(lia) ltac:(lia)) key v0 Hin) as B.
    apply Hne. eapply div_same; [exact HI2|exact B|lia]. }
  destruct (Z.eqb_spec (Z.lxor path key) 0) as [E|E].
  { rewrite Z.lxor_eq_0_iff in E. congruence. }
  assert (HshS : sh + 4 <= S).
  { apply Hup; [|apply HI|].
    - destruct HI; lia.
    - eapply div_same; eauto. }
  assert (Hwsh : w <= sh) by (apply Hlow; [lia|exact Hw4|congruence]).
  destruct node_ok.
  2:{ injection Hins as <- <-. split; [exact HwS|]. split; [exact HN|].
      cbn. split; [reflexivity|]. split; [exact Habs|]. tauto. }
  injection Hins as <- <-.
  (* path of the new node *)
  rewrite land_path_mask by (try assumption; lia).
  pose proof (pow2_pos (sh + 4) ltac:(lia)) as P4.
  pose proof (pow2_pos sh ltac:(lia)) as P.
  set (q := key - key mod 2 ^ (sh + 4)).
  assert (Hq : q mod 2 ^ (sh + 4) = 0).
  { unfold q. rewrite Zminus_mod_idemp_r, Z.sub_diag. reflexivity. }
  assert (Hkq : q <= key < q + 2 ^ (sh + 4)).
  { unfold q. pose proof (Z.mod_pos_bound key (2 ^ (sh + 4)) P4). lia. }
  assert (Hpq : q <= path < q + 2 ^ (sh + 4)).
  { pose proof (Z.div_mod path (2 ^ (sh + 4)) ltac:(lia)).
    pose proof (Z.div_mod key (2 ^ (sh + 4)) ltac:(lia)).
    pose proof (Z.mod_pos_bound path (2 ^ (sh + 4)) P4).
    unfold q. rewrite Hsame in *. lia. }
  assert (Hqlo : lo <= q < lo + 2 ^ S).
  { split; [|lia].
    (* lo is a multiple of 2^(sh+4) *)
    destruct HI as (A1 & A2 & A3 & A4 & A5).
    replace S with ((sh + 4) + (S - (sh + 4))) in A3 by lia.
    rewrite Z.pow_add_r in A3 by lia.
    pose proof (pow2_pos (S - (sh + 4)) ltac:(lia)) as PB.
    set (a := 2 ^ (sh + 4)) in *. set (b := 2 ^ (S - (sh + 4))) in *.
    pose proof (Z.div_mod lo (a * b) ltac:(nia)) as D. rewrite A3 in D.
    pose proof (Z.div_mod q a ltac:(lia)) as D2. rewrite Hq in D2.
    assert (lo < q + a) by lia.
    set (y := lo / (a * b)) in *. set (x := q / a) in *.
    assert (y * b < x + 1) by nia. nia. }
  set (ik := slice_index key sh). set (ip := slice_index path sh).
  pose proof (slice_in q sh key ltac:(lia) Hq Hkq) as (Bk & Ik). cbv zeta in Bk, Ik. fold ik in Bk, Ik.
  pose proof (slice_in q sh path ltac:(lia) Hq Hpq) as (Bp & Ip). cbv zeta in Bp, Ip. fold ip in Bp, Ip.
  assert (Hik : ik <> ip).
  { unfold ik, ip. rewrite !slice_index_val by lia. congruence. }
  set (ch := upd (upd (fun _ : Z => Nil) ik (Leaf key v)) ip n).
  assert (Ck : ch ik = Leaf key v).
  { unfold ch, upd. rewrite (proj2 (Z.eqb_neq ik ip) Hik), Z.eqb_refl. reflexivity. }
  assert (Cp : ch ip = n) by (unfold ch, upd; rewrite Z.eqb_refl; reflexivity).
  assert (Co : forall i, i <> ik -> i <> ip -> ch i = Nil).
  { intros i N1 N2. unfold ch, upd.
    rewrite (proj2 (Z.eqb_neq _ _) N1), (proj2 (Z.eqb_neq _ _) N2). reflexivity. }
  assert (Hent : forall e, In e (entries (Node q sh ch)) <-> e = (key, v) \/ In e (entries n)).
  { intros e. rewrite in_node. split.
    - intros (i & Hi & Hin). destruct (Z.eq_dec i ik) as [->|N1].
      + rewrite Ck in Hin. cbn in Hin. destruct Hin as [E1|[]]. left. congruence.
      + destruct (Z.eq_dec i ip) as [->|N2].
        * rewrite Cp in Hin. right. exact Hin.
        * rewrite (Co i N1 N2) in Hin. destruct Hin.
    - intros [->|Hin].
      + exists ik. split; [exact Bk|]. rewrite Ck. cbn. auto.
      + exists ip. split; [exact Bp|]. rewrite Cp. exact Hin. }
  split; [|split; [reflexivity|]].
  - cbn [wf]. repeat split; try assumption; try lia.
    + exists ik, ip. rewrite Ck, Cp. repeat split; try lia; try assumption.
    + intros i Hi. destruct (Z.eq_dec i ik) as [->|N1].
      * rewrite Ck. cbn [wf]. exact Ik.
      * destruct (Z.eq_dec i ip) as [->|N2].
        -- rewrite Cp. apply Hwf; [|exact Hwsh|exact Ip].
           refine (proj1 (ival_child lo S q sh ip HI ltac:(lia) Hsh4 HshS Hq Hqlo Bp)).
        -- rewrite (Co i N1 N2). exact I.
  - cbn [ins_post]. split.
    + right. exact Habs.
    + intros k v'. rewrite Hent. split.
      * intros [E1|Hin]; [left; split; congruence|].
        right. split; [|exact Hin]. intros ->. exact (Habs _ Hin).
      * intros [(-> & ->)|(_ & Hin)]; auto.
Qed.

Lemma wf_leaf_any : forall k (v : V) lo S, lo <= k < lo + 2 ^ S -> wf lo S (Leaf k v).
Proof. intros. cbn. assumption. Qed.

Lemma ins_spec : forall n node_ok key v update lo S,
  ival lo S -> wf lo S n -> lo <= key < lo + 2 ^ S ->
  forall t' c, ins node_ok n key v update = (t', c) ->
  wf lo S t' /\ is_nil t' = false /\ ins_post node_ok update key v n t' c.
Proof.
  induction n as [|k0 v0|p s ch IH]; intros node_ok key v update lo S HI W Hk t' c Hins.
  - cbn in Hins. injection Hins as <- <-. split; [exact Hk|]. split; [reflexivity|].
    cbn. split; [right; tauto|]. intros k v'. split.
    + intros [E|[]]. injection E as -> ->. auto.
    + intros [(-> & ->)|(_ & [])]. auto.
  - cbn [ins] in Hins. destruct (Z.eq_dec k0 key) as [->|N].
    + unfold ins_diverge in Hins. cbv zeta in Hins. rewrite Z.lxor_nilpotent in Hins.
      cbn [Z.eqb] in Hins. destruct update; injection Hins as <- <-.
      * split; [exact W|]. split; [reflexivity|]. cbn. split; [auto|].
        intros k v'. split.
        -- intros [E|[]]. injection E as -> ->. auto.
        -- intros [(-> & ->)|(N & [E|[]])]; [auto|congruence].
      * split; [exact W|]. split; [reflexivity|]. cbn. split; [reflexivity|].
        split; [eauto|tauto].
    + eapply (diverge_spec node_ok (Leaf k0 v0) k0 0 key v update lo S); eauto.
      * destruct HI; lia.
      * apply Z.mod_1_r.
      * cbn. rewrite !Z.div_1_r. congruence.
  - pose proof W as W'. destruct W as (Hs & Hs4 & HsS & Hp & Hr & (i1 & i2 & L1 & L2 & L12 & N1 & N2) & Hch).
    assert (HS60 : 0 <= s <= 60) by (destruct HI; lia).
    assert (Wk : is_word key) by (eapply ival_word; eauto).
    cbn [ins] in Hins. cbv zeta in Hins.
    destruct (Z.eqb_spec (Z.land key (path_mask s)) p) as [E|E].
    + rewrite path_match in E by assumption.
      pose proof (slice_in p s key Hs Hp E) as (Bi & Ii). cbv zeta in Bi, Ii.
      set (i := slice_index key s) in *.
      destruct (ins node_ok (ch i) key v update) as [t c0] eqn:HR.
      injection Hins as <- <-.
      pose proof (ival_child lo S p s i HI Hs Hs4 HsS Hp Hr Bi) as (HI' & _ & _).
      destruct (IH i node_ok key v update _ _ HI' (Hch i Bi) Ii t c0 HR) as (Wt & Nt & Pt).
      assert (Wn : wf lo S (Node p s (upd ch i t))).
      { cbn [wf]. repeat split; try assumption; try lia.
        - exists i1, i2. repeat split; try lia; unfold upd.
          + destruct (i1 =? i); assumption.
          + destruct (i2 =? i); assumption.
        - intros j Hj. unfold upd. destruct (Z.eqb_spec j i) as [->|]; [exact Wt|apply Hch; exact Hj]. }
      split; [exact Wn|]. split; [reflexivity|].
      assert (Ue : forall e, In e (entries (Node p s (upd ch i t))) <->
                   In e (entries t) \/ exists j, 0 <= j < 16 /\ j <> i /\ In e (entries (ch j))).
      { intros e. rewrite in_node. split.
        - intros (j & Hj & Hin). unfold upd in Hin. destruct (Z.eqb_spec j i) as [->|NJ]; eauto.
        - intros [Hin|(j & Hj & NJ & Hin)].
          + exists i. split; [exact Bi|]. unfold upd. rewrite Z.eqb_refl. exact Hin.
          + exists j. split; [exact Hj|]. unfold upd. rewrite (proj2 (Z.eqb_neq _ _) NJ). exact Hin. }
      assert (Oe : forall e, In e (entries (Node p s ch)) <->
                   In e (entries (ch i)) \/ exists j, 0 <= j < 16 /\ j <> i /\ In e (entries (ch j))).
      { intros e. rewrite in_node. split.
        - intros (j & Hj & Hin). destruct (Z.eq_dec j i) as [->|NJ]; eauto.
        - intros [Hin|(j & Hj & NJ & Hin)]; eauto. }
      assert (Ke : forall j v', 0 <= j < 16 -> j <> i -> ~ In (key, v') (entries (ch j))).
      { intros j v' Hj NJ Hin. apply NJ.
        pose proof (ival_child lo S p s j HI Hs Hs4 HsS Hp Hr Hj) as (HIj & _ & _).
        pose proof (entries_in _ _ _ HIj (Hch j Hj) _ _ Hin) as B.
        unfold i. rewrite (slice_unique p s key j Hs Hp Hj B). reflexivity. }
      destruct c0; cbn [ins_post] in *.
      * destruct Pt as (PA & PB). split.
        -- destruct PA as [PA|PA]; [auto|]. right. intros v0 Hin. apply Oe in Hin.
           destruct Hin as [Hin|(j & Hj & NJ & Hin)]; [exact (PA _ Hin)|exact (Ke j v0 Hj NJ Hin)].
        -- intros k v'. rewrite Ue, Oe, PB. split.
           ++ intros [[?|(? & ?)]|(j & Hj & NJ & Hin)]; [auto| |].
              ** right. auto.
              ** right. split; [intros ->; exact (Ke j v' Hj NJ Hin)|]. eauto.
           ++ intros [?|(? & [?|?])]; auto.
      * destruct Pt as (PA & (v0 & PB) & PC). split; [exact PA|]. split.
        -- exists v0. apply Oe. auto.
        -- intros e. rewrite Ue, Oe, PC. tauto.
      * destruct Pt as (PA & PB & PC). split; [exact PA|]. split.
        -- intros v0 Hin. apply Oe in Hin.
           destruct Hin as [Hin|(j & Hj & NJ & Hin)]; [exact (PB _ Hin)|exact (Ke j v0 Hj NJ Hin)].
        -- intros e. rewrite Ue, Oe, PC. tauto.
      * exact Pt.
    + eapply (diverge_spec node_ok (Node p s ch) p (s + 4) key v update lo S); eauto; try lia.
      * clear - Hs4. rewrite Z.add_mod, Hs4 by lia. reflexivity.
      * intros C. apply E. apply path_match; try assumption.
        pose proof (pow2_pos (s + 4) ltac:(lia)).
        pose proof (Z.div_mod p (2 ^ (s + 4)) ltac:(lia)) as D. rewrite Hp in D.
        pose proof (Z.div_mod key (2 ^ (s + 4)) ltac:(lia)) as D2.
        pose proof (Z.mod_pos_bound key (2 ^ (s + 4)) ltac:(lia)). rewrite C in D2. lia.
      * intros lo' S' HI' HS' Hr'. cbn [wf]. repeat split; try assumption; try lia.
        exists i1, i2. auto.
Qed.

Lemma wf_widen : forall t lo S lo' S', wf lo' S' t -> S' <= S ->
  lo <= lo' -> lo' + 2 ^ S' <= lo + 2 ^ S -> wf lo S t.
Proof.
  intros [|k v|p s ch] lo S lo' S' W HS HL HU; cbn [wf] in *; [exact I|lia|].
  destruct W as (A1 & A2 & A3 & A4 & A5 & A6 & A7).
  repeat split; try assumption; lia.
Qed.

Lemma in_live : forall (ch : Z -> tree V) i,
  In i (live_slots ch) <-> 0 <= i < 16 /\ is_nil (ch i) = false.
Proof.
  intros ch i. unfold live_slots. rewrite filter_In, in_slots, negb_true_iff. tauto.
Qed.

Lemma slots_nodup : NoDup slots.
Proof. unfold slots. repeat (constructor; [cbn; lia|]). constructor. Qed.

Lemma rem_spec : forall n key lo S, ival lo S -> wf lo S n ->
  exists t r, rem n key = Some (t, r) /\ wf lo S t /\
    (forall v, r = Some v <-> In (key, v) (entries n)) /\
    (forall e, In e (entries t) <-> In e (entries n) /\ fst e <> key) /\
    (forall p s ch, n = Node p s ch -> is_nil t = false).
Proof.
  induction n as [|k0 v0|p s ch IH]; intros key lo S HI W.
  - exists Nil, None. cbn. split; [reflexivity|]. split; [exact I|].
    split; [intros v; split; [discriminate|tauto]|].
    split; [tauto|discriminate].
  - cbn [rem]. destruct (Z.eqb_spec k0 key) as [->|N].
    + exists Nil, (Some v0). split; [reflexivity|]. split; [exact I|].
      split; [intros v; cbn; split; [intros E; left; congruence|intros [E|[]]; congruence]|].
      split; [|discriminate]. intros e. cbn. split; [tauto|].
      intros ([<-|[]] & H2). cbn in H2. congruence.
    + exists (Leaf k0 v0), None. split; [reflexivity|]. split; [exact W|].
      split; [intros v; cbn; split; [discriminate|intros [E|[]]; congruence]|].
      split; [|discriminate]. intros e. cbn. split; [|tauto].
      intros [<-|[]]. auto.
  - pose proof W as W'.
    destruct W as (Hs & Hs4 & HsS & Hp & Hr & (i1 & i2 & L1 & L2 & L12 & N1 & N2) & Hch).
    cbn [rem]. cbv zeta.
    pose proof (slice_range key s Hs) as Bi.
    set (i := slice_index key s) in *.
    pose proof (ival_child lo S p s i HI Hs Hs4 HsS Hp Hr Bi) as (HI' & _ & _).
    pose proof (Hch i Bi) as Wi.
    assert (Key : forall j v', 0 <= j < 16 -> In (key, v') (entries (ch j)) -> j = i).
    { intros j v' Hj Hin.
      pose proof (ival_child lo S p s j HI Hs Hs4 HsS Hp Hr Hj) as (HIj & _ & _).
      pose proof (entries_in _ _ _ HIj (Hch j Hj) _ _ Hin) as B.
      unfold i. rewrite (slice_unique p s key j Hs Hp Hj B). reflexivity. }
    assert (Oe : forall v', In (key, v') (entries (Node p s ch)) <-> In (key, v') (entries (ch i))).
    { intros v'. rewrite in_node. split.
      - intros (j & Hj & Hin). rewrite <- (Key j v' Hj Hin). exact Hin.
      - eauto. }
    (* replacing slot i by a tree holding the same keys except [key] *)
    assert (Ue : forall t, (forall e, In e (entries t) <-> In e (entries (ch i)) /\ fst e <> key) ->
       forall e, In e (entries (Node p s (upd ch i t))) <-> In e (entries (Node p s ch)) /\ fst e <> key).
    { intros t Ht e. rewrite !in_node. split.
      - intros (j & Hj & Hin). unfold upd in Hin. destruct (Z.eqb_spec j i) as [->|NJ].
        + apply Ht in Hin. destruct Hin. eauto.
        + split; [eauto|]. destruct e as [k v']. cbn. intros ->. apply NJ. eauto.
      - intros ((j & Hj & Hin) & Hk). exists j. split; [exact Hj|]. unfold upd.
        destruct (Z.eqb_spec j i) as [->|NJ]; [apply Ht; auto|exact Hin]. }
    destruct (ch i) as [|k1 v1|p1 s1 ch1] eqn:Ci.
    + exists (Node p s ch), None. split; [reflexivity|]. split; [exact W'|].
      split; [intros v'; rewrite Oe; split; [discriminate|intros []]|].
      split; [|intros; reflexivity].
      intros e. split; [|tauto]. intros Hin. split; [exact Hin|]. destruct e as [k v'].
      cbn. intros ->. apply Oe in Hin. destruct Hin.
    + destruct (Z.eqb_spec k1 key) as [->|NK].
      * set (ch' := upd ch i Nil).
        assert (E' : forall e, In e (entries (Node p s ch')) <-> In e (entries (Node p s ch)) /\ fst e <> key).
        { apply Ue. intros e. cbn. split; [tauto|]. intros ([<-|[]] & H2). cbn in H2. congruence. }
        assert (LV : exists o, In o (live_slots ch')).
        { destruct (Z.eq_dec i1 i) as [->|NI].
          - exists i2. apply in_live. split; [exact L2|]. unfold ch', upd.
            rewrite (proj2 (Z.eqb_neq _ _) (not_eq_sym L12)). exact N2.
          - exists i1. apply in_live. split; [exact L1|]. unfold ch', upd.
            rewrite (proj2 (Z.eqb_neq _ _) NI). exact N1. }
        assert (Wc : forall j, 0 <= j < 16 -> wf (p + j * 2 ^ s) s (ch' j)).
        { intros j Hj. unfold ch', upd. destruct (Z.eqb_spec j i); [exact I|]. apply Hch; exact Hj. }
        unfold rem_collapse. destruct (live_slots ch') as [|o1 [|o2 l]] eqn:LS.
        -- destruct LV as (o & []).
        -- assert (Ho : 0 <= o1 < 16 /\ is_nil (ch' o1) = false).
           { apply in_live. rewrite LS. left; reflexivity. }
           exists (ch' o1), (Some v1). split; [reflexivity|].
           pose proof (ival_child lo S p s o1 HI Hs Hs4 HsS Hp Hr (proj1 Ho)) as (HIo & Lo & Uo).
           split; [eapply wf_widen; [apply Wc, Ho|lia|exact Lo|exact Uo]|].
           split.
           { intros v'. rewrite Oe. cbn. split; [intros E; injection E as ->; auto|].
             intros [E|[]]. congruence. }
           split; [|intros; apply Ho].
           intros e. rewrite <- E'. rewrite in_node. split; [eauto|].
           { exists o1. split; [apply Ho|assumption]. }
           intros (j & Hj & Hin).
           assert (HJ : In j (live_slots ch')).
           { apply in_live. split; [exact Hj|]. destruct (ch' j); [destruct Hin|reflexivity|reflexivity]. }
           rewrite LS in HJ. destruct HJ as [->|[]]. exact Hin.
        -- exists (Node p s ch'), (Some v1). split; [reflexivity|].
           assert (H1 : In o1 (live_slots ch')) by (rewrite LS; left; reflexivity).
           assert (H2 : In o2 (live_slots ch')) by (rewrite LS; right; left; reflexivity).
           assert (ND : NoDup (live_slots ch')) by (apply NoDup_filter, slots_nodup).
           rewrite LS in ND. inversion ND as [|? ? NI ND' ]. 
           apply in_live in H1. apply in_live in H2.
           split.
           { cbn [wf]. repeat split; try assumption; try lia.
             exists o1, o2. repeat split; try apply H1; try apply H2.
             intros ->. apply NI. left; reflexivity. }
           split.
           { intros v'. rewrite Oe. cbn. split; [intros E; injection E as ->; auto|].
             intros [E|[]]. congruence. }
           split; [exact E'|reflexivity].
      * exists (Node p s ch), None. split; [reflexivity|]. split; [exact W'|].
        split; [intros v'; rewrite Oe; cbn; split; [discriminate|intros [E|[]]; congruence]|].
        split; [|intros; reflexivity].
        intros e. split; [|tauto]. intros Hin. split; [exact Hin|]. destruct e as [k v'].
        cbn. intros ->. apply Oe in Hin. cbn in Hin. destruct Hin as [E|[]]. congruence.
    + rewrite <- Ci in *.
      destruct (IH i key _ _ HI' Wi) as (t & r & ER & Wt & Rt & Et & Nt).
      rewrite ER. exists (Node p s (upd ch i t)), r. split; [reflexivity|].
      specialize (Nt _ _ _ Ci).
      split.
      { cbn [wf]. repeat split; try assumption; try lia.
        - exists i1, i2. repeat split; try lia; unfold upd.
          + destruct (i1 =? i); assumption.
          + destruct (i2 =? i); assumption.
        - intros j Hj. unfold upd. destruct (Z.eqb_spec j i) as [->|]; [exact Wt|apply Hch; exact Hj]. }
      split; [intros v'; rewrite Oe; apply Rt|].
      split; [|reflexivity]. apply Ue. exact Et.
Qed.

(* neighbour specification over the stored entries *)
Definition is_le (t : tree V) (key : Z) (r : option (Z * V)) : Prop :=
  match r with
  | Some (k, v) => In (k, v) (entries t) /\ k <= key /\
                   forall k' v', In (k', v') (entries t) -> k' <= key -> k' <= k
  | None => forall k' v', In (k', v') (entries t) -> ~ k' <= key
  end.
Definition is_ge (t : tree V) (key : Z) (r : option (Z * V)) : Prop :=
  match r with
  | Some (k, v) => In (k, v) (entries t) /\ key <= k /\
                   forall k' v', In (k', v') (entries t) -> key <= k' -> k <= k'
  | None => forall k' v', In (k', v') (entries t) -> ~ key <= k'
  end.

Lemma find_first : forall (f : Z -> bool) l r, find f l = r ->
  match r with
  | Some i => exists l1 l2, l = l1 ++ i :: l2 /\ f i = true /\ forall j, In j l1 -> f j = false
  | None => forall j, In j l -> f j = false
  end.
Proof.
  induction l as [|x l IH]; intros r E; cbn in E.
  - subst r. intros j [].
  - destruct (f x) eqn:Fx.
    + subst r. exists [], l. cbn. repeat split; auto. intros j [].
    + specialize (IH r E). destruct r as [i|].
      * destruct IH as (l1 & l2 & -> & Fi & Hl). exists (x :: l1), l2.
        repeat split; auto. intros j [<-|Hj]; auto.
      * intros j [<-|Hj]; auto.
Qed.

Fixpoint increasing (l : list Z) : Prop :=
  match l with
  | [] => True
  | x :: l' => (forall y, In y l' -> x < y) /\ increasing l'
  end.
Lemma increasing_split : forall l1 x l2, increasing (l1 ++ x :: l2) ->
  (forall y, In y l1 -> y < x) /\ (forall y, In y l2 -> x < y).
Proof.
  induction l1 as [|a l1 IH]; cbn [app increasing]; intros x l2 (H1 & H2).
  - split; [intros y []|]. exact H1.
  - destruct (IH _ _ H2) as (A & B). split; [|exact B].
    intros y [<-|Hy]; [|auto]. apply H1. rewrite in_app_iff. right. left. reflexivity.
Qed.
Lemma increasing_slots : increasing slots.
Proof. unfold slots. cbn [increasing]. repeat split; cbn; intros; lia. Qed.
Lemma increasing_filter : forall f l, increasing l -> increasing (filter f l).
Proof.
  induction l as [|x l IH]; cbn; [auto|]. intros (H1 & H2).
  destruct (f x); cbn; [|auto]. split; [|auto]. intros y Hy. apply filter_In in Hy. apply H1, Hy.
Qed.

(* the largest / smallest live slot among those satisfying g *)
Lemma pick_low : forall (ch : Z -> tree V) g r,
  find (fun i => negb (is_nil (ch i))) (filter g slots) = r ->
  match r with
  | Some i => 0 <= i < 16 /\ g i = true /\ is_nil (ch i) = false /\
              forall j, 0 <= j < 16 -> g j = true -> is_nil (ch j) = false -> i <= j
  | None => forall j, 0 <= j < 16 -> g j = true -> is_nil (ch j) = true
  end.
Proof.
  intros ch g r E. apply find_first in E. destruct r as [i|].
  - destruct E as (l1 & l2 & El & Fi & Hl).
    assert (Hi : In i (filter g slots)) by (rewrite El, in_app_iff; right; left; reflexivity).
    apply filter_In in Hi. destruct Hi as (Hi & Gi). apply in_slots in Hi.
    apply negb_true_iff in Fi. repeat split; try lia; auto.
    intros j Hj Gj Nj.
    assert (HJ : In j (filter g slots)) by (apply filter_In; rewrite in_slots; auto).
    pose proof (increasing_filter g _ increasing_slots) as INC. rewrite El in *.
    apply increasing_split in INC. rewrite in_app_iff in HJ. destruct HJ as [HJ|[->|HJ]].
    + apply Hl in HJ. rewrite Nj in HJ. discriminate.
    + lia.
    + apply INC in HJ. lia.
  - intros j Hj Gj. assert (HJ : In j (filter g slots)) by (apply filter_In; rewrite in_slots; auto).
    apply E in HJ. apply negb_false_iff in HJ. exact HJ.
Qed.
Lemma pick_high : forall (ch : Z -> tree V) g r,
  find (fun i => negb (is_nil (ch i))) (filter g (rev slots)) = r ->
  match r with
  | Some i => 0 <= i < 16 /\ g i = true /\ is_nil (ch i) = false /\
              forall j, 0 <= j < 16 -> g j = true -> is_nil (ch j) = false -> j <= i
  | None => forall j, 0 <= j < 16 -> g j = true -> is_nil (ch j) = true
  end.
Proof.
  assert (FR : forall (g : Z -> bool) l, filter g (rev l) = rev (filter g l)).
  { induction l as [|x l IH]; [reflexivity|]. cbn. rewrite filter_app, IH. cbn.
    destruct (g x); cbn; [reflexivity|apply app_nil_r]. }
  intros ch g r E. rewrite FR in E. apply find_first in E. destruct r as [i|].
  - destruct E as (l1 & l2 & El & Fi & Hl).
    assert (El' : filter g slots = rev l2 ++ i :: rev l1).
    { rewrite <- (rev_involutive (filter g slots)), El, rev_app_distr. cbn.
      rewrite <- app_assoc. reflexivity. }
    assert (Hi : In i (filter g slots)) by (rewrite El', in_app_iff; right; left; reflexivity).
    apply filter_In in Hi. destruct Hi as (Hi & Gi). apply in_slots in Hi.
    apply negb_true_iff in Fi. repeat split; try lia; auto.
    intros j Hj Gj Nj.
    assert (HJ : In j (filter g slots)) by (apply filter_In; rewrite in_slots; auto).
    pose proof (increasing_filter g _ increasing_slots) as INC. rewrite El' in *.
    apply increasing_split in INC. rewrite in_app_iff in HJ. destruct HJ as [HJ|[->|HJ]].
    + apply INC in HJ. lia.
    + lia.
    + apply in_rev in HJ. apply Hl in HJ. rewrite Nj in HJ. discriminate.
  - intros j Hj Gj. assert (HJ : In j (rev (filter g slots))).
    { rewrite <- in_rev. apply filter_In; rewrite in_slots; auto. }
    apply E in HJ. apply negb_false_iff in HJ. exact HJ.
Qed.

Lemma filter_true : forall l : list Z, filter (fun _ => true) l = l.
Proof. induction l; cbn; congruence. Qed.

Lemma not_nil_entries : forall t e, In e (entries t) -> is_nil t = false.
Proof. intros [| |] e H; [destruct H|reflexivity|reflexivity]. Qed.

(* entries of a lower slot are below entries of a higher slot *)
Lemma slot_order : forall lo S p s (ch : Z -> tree V), ival lo S -> wf lo S (Node p s ch) ->
  forall i j ki vi kj vj, 0 <= i < 16 -> 0 <= j < 16 -> i < j ->
  In (ki, vi) (entries (ch i)) -> In (kj, vj) (entries (ch j)) -> ki < kj.
Proof.
  intros lo S p s ch HI (Hs & Hs4 & HsS & Hp & Hr & _ & Hch) i j ki vi kj vj Hi Hj Hij Hin1 Hin2.
  pose proof (ival_child lo S p s i HI Hs Hs4 HsS Hp Hr Hi) as (HIi & _ & _).
  pose proof (ival_child lo S p s j HI Hs Hs4 HsS Hp Hr Hj) as (HIj & _ & _).
  pose proof (entries_in _ _ _ HIi (Hch i Hi) _ _ Hin1).
  pose proof (entries_in _ _ _ HIj (Hch j Hj) _ _ Hin2).
  pose proof (pow2_pos s Hs). nia.
Qed.

Lemma pred_spec : forall t lo S, ival lo S -> wf lo S t -> is_nil t = false ->
  exists k v, find_predecessor t = Some (k, v) /\ In (k, v) (entries t) /\
  forall k' v', In (k', v') (entries t) -> k' <= k.
Proof.
  induction t as [|k0 v0|p s ch IH]; intros lo S HI W HN.
  - discriminate.
  - exists k0, v0. cbn. repeat split; auto. intros k' v' [E|[]]. injection E as -> ->. lia.
  - pose proof W as W'.
    destruct W as (Hs & Hs4 & HsS & Hp & Hr & (i1 & i2 & L1 & L2 & L12 & N1 & N2) & Hch).
    cbn [find_predecessor]. unfold rightmost.
    pose proof (pick_high ch (fun _ => true) _ eq_refl) as PH.
    rewrite filter_true in PH.
    destruct (find _ (rev slots)) as [i|].
    + destruct PH as (Hi & _ & Ni & Hmax).
      pose proof (ival_child lo S p s i HI Hs Hs4 HsS Hp Hr Hi) as (HIi & _ & _).
      destruct (IH i _ _ HIi (Hch i Hi) Ni) as (k & v & E & Hin & Hk).
      exists k, v. split; [exact E|]. split; [apply in_node; eauto|].
      intros k' v' Hin'. apply in_node in Hin'. destruct Hin' as (j & Hj & Hin').
      pose proof (Hmax j Hj eq_refl (not_nil_entries _ _ Hin')) as Hle.
      destruct (Z.eq_dec j i) as [->|NJ]; [eapply Hk; eauto|].
      pose proof (slot_order lo S p s ch HI W' j i k' v' k v Hj Hi ltac:(lia) Hin' Hin). lia.
    + rewrite (PH i1 L1 eq_refl) in N1. discriminate.
Qed.
Lemma succ_spec : forall t lo S, ival lo S -> wf lo S t -> is_nil t = false ->
  exists k v, find_successor t = Some (k, v) /\ In (k, v) (entries t) /\
  forall k' v', In (k', v') (entries t) -> k <= k'.
Proof.
  induction t as [|k0 v0|p s ch IH]; intros lo S HI W HN.
  - discriminate.
  - exists k0, v0. cbn. repeat split; auto. intros k' v' [E|[]]. injection E as -> ->. lia.
  - pose proof W as W'.
    destruct W as (Hs & Hs4 & HsS & Hp & Hr & (i1 & i2 & L1 & L2 & L12 & N1 & N2) & Hch).
    cbn [find_successor]. unfold leftmost.
    pose proof (pick_low ch (fun _ => true) _ eq_refl) as PH.
    rewrite filter_true in PH.
    destruct (find _ slots) as [i|].
    + destruct PH as (Hi & _ & Ni & Hmax).
      pose proof (ival_child lo S p s i HI Hs Hs4 HsS Hp Hr Hi) as (HIi & _ & _).
      destruct (IH i _ _ HIi (Hch i Hi) Ni) as (k & v & E & Hin & Hk).
      exists k, v. split; [exact E|]. split; [apply in_node; eauto|].
      intros k' v' Hin'. apply in_node in Hin'. destruct Hin' as (j & Hj & Hin').
      pose proof (Hmax j Hj eq_refl (not_nil_entries _ _ Hin')) as Hle.
      destruct (Z.eq_dec j i) as [->|NJ]; [eapply Hk; eauto|].
      pose proof (slot_order lo S p s ch HI W' i j k v k' v' Hi Hj ltac:(lia) Hin Hin'). lia.
    + rewrite (PH i1 L1 eq_refl) in N1. discriminate.
Qed.

Lemma find_le_spec : forall t key lo S, ival lo S -> wf lo S t -> is_word key ->
  is_le t key (find_le t key).
Proof.
  induction t as [|k0 v0|p s ch IH]; intros key lo S HI W Wk.
  - cbn. intros k' v' [].
  - cbn [find_le]. destruct (Z.leb_spec k0 key); cbn.
    + repeat split; auto. intros k' v' [E|[]] _. injection E as -> ->. lia.
    + intros k' v' [E|[]]. injection E as -> ->. lia.
  - pose proof W as W'.
    destruct W as (Hs & Hs4 & HsS & Hp & Hr & (i1 & i2 & L1 & L2 & L12 & N1 & N2) & Hch).
    assert (HS60 : 0 <= s <= 60) by (destruct HI; lia).
    assert (Wp : is_word p) by (eapply ival_word; eauto).
    assert (Rng : forall k v, In (k, v) (entries (Node p s ch)) -> p <= k < p + 2 ^ (s + 4)).
    { intros k v Hin. apply (in_node_key lo S p s ch k v HI W') in Hin. apply Hin. }
    change (find_le (Node p s ch) key) with
      (if outside key p s then if p <? key then find_predecessor (Node p s ch) else None
       else match find_le (ch (slice_index key s)) key with
            | Some e => Some e
            | None => match find (fun i => negb (is_nil (ch i))) (slots_below (slice_index key s)) with
                      | Some i => find_predecessor (ch i) | None => None end end).
    pose proof (outside_false key p s Wk Wp HS60 Hp) as OF.
    destruct (outside key p s).
    + assert (NI : ~ (p <= key < p + 2 ^ (s + 4))) by (intros C; apply OF in C; discriminate).
      destruct (Z.ltb_spec p key).
      * destruct (pred_spec (Node p s ch) lo S HI W' eq_refl) as (k & v & E & Hin & Hmax).
        rewrite E. cbn [is_le]. split; [exact Hin|]. split; [|eauto].
        pose proof (Rng k v Hin). lia.
      * cbn [is_le]. intros k' v' Hin. pose proof (Rng k' v' Hin). lia.
    + assert (IN : p <= key < p + 2 ^ (s + 4)) by (apply OF; reflexivity).
      pose proof (slice_in p s key Hs Hp IN) as (Bi & Ii). cbv zeta in Bi, Ii.
      set (nib := slice_index key s) in *.
      pose proof (ival_child lo S p s nib HI Hs Hs4 HsS Hp Hr Bi) as (HIn & _ & _).
      pose proof (IH nib key _ _ HIn (Hch nib Bi) Wk) as R.
      assert (Above : forall j k v, 0 <= j < 16 -> nib < j -> In (k, v) (entries (ch j)) -> key < k).
      { intros j k v Hj Hn Hin.
        pose proof (ival_child lo S p s j HI Hs Hs4 HsS Hp Hr Hj) as (HIj & _ & _).
        pose proof (entries_in _ _ _ HIj (Hch j Hj) _ _ Hin).
        pose proof (pow2_pos s Hs). nia. }
      destruct (find_le (ch nib) key) as [[k v]|].
      * cbn [is_le] in *. destruct R as (Hin & Hle & Hmax).
        split; [apply in_node; eauto|]. split; [exact Hle|].
        intros k' v' Hin' Hle'. apply in_node in Hin'. destruct Hin' as (j & Hj & Hin').
        destruct (Z.eq_dec j nib) as [->|NJ]; [eapply Hmax; eauto|].
        destruct (Z_lt_le_dec nib j) as [L|L].
        -- pose proof (Above j k' v' Hj L Hin'). lia.
        -- pose proof (slot_order lo S p s ch HI W' j nib k' v' k v Hj Bi ltac:(lia) Hin' Hin). lia.
      * pose proof (pick_high ch (fun i => i <? nib) _ eq_refl) as PH.
        fold (slots_below nib) in PH.
        destruct (find _ (slots_below nib)) as [i|].
        -- destruct PH as (Hi & Gi & Ni & Hmax).
           pose proof (ival_child lo S p s i HI Hs Hs4 HsS Hp Hr Hi) as (HIi & _ & _).
           destruct (pred_spec (ch i) _ _ HIi (Hch i Hi) Ni) as (k & v & E & Hin & Hk).
           rewrite E. cbn [is_le]. split; [apply in_node; eauto|]. split.
           ++ pose proof (entries_in _ _ _ HIi (Hch i Hi) _ _ Hin). pose proof (pow2_pos s Hs). nia.
           ++ intros k' v' Hin' Hle'. apply in_node in Hin'. destruct Hin' as (j & Hj & Hin').
              destruct (Z.eq_dec j i) as [->|NJ]; [eapply Hk; eauto|].
              destruct (Z_lt_le_dec j nib) as [L|L].
              ** pose proof (Hmax j Hj ltac:(lia) (not_nil_entries _ _ Hin')).
                 pose proof (slot_order lo S p s ch HI W' j i k' v' k v Hj Hi ltac:(lia) Hin' Hin). lia.
              ** destruct (Z.eq_dec j nib) as [->|NJ2].
                 --- exfalso. cbn [is_le] in R. exact (R k' v' Hin' Hle').
                 --- pose proof (Above j k' v' Hj ltac:(lia) Hin'). lia.
        -- cbn [is_le]. intros k' v' Hin' Hle'. apply in_node in Hin'. destruct Hin' as (j & Hj & Hin').
           destruct (Z_lt_le_dec j nib) as [L|L].
           ++ pose proof (PH j Hj ltac:(lia)) as C. rewrite (not_nil_entries _ _ Hin') in C. discriminate.
           ++ destruct (Z.eq_dec j nib) as [->|NJ2].
              ** cbn [is_le] in R. exact (R k' v' Hin' Hle').
              ** pose proof (Above j k' v' Hj ltac:(lia) Hin'). lia.
Qed.

Lemma find_ge_spec : forall t key lo S, ival lo S -> wf lo S t -> is_word key ->
  is_ge t key (find_ge t key).
Proof.
  induction t as [|k0 v0|p s ch IH]; intros key lo S HI W Wk.
  - cbn. intros k' v' [].
  - cbn [find_ge]. destruct (Z.geb_spec k0 key); cbn.
    + repeat split; auto. intros k' v' [E|[]] _. injection E as -> ->. lia.
    + intros k' v' [E|[]]. injection E as -> ->. lia.
  - pose proof W as W'.
    destruct W as (Hs & Hs4 & HsS & Hp & Hr & (i1 & i2 & L1 & L2 & L12 & N1 & N2) & Hch).
    assert (HS60 : 0 <= s <= 60) by (destruct HI; lia).
    assert (Wp : is_word p) by (eapply ival_word; eauto).
    assert (Rng : forall k v, In (k, v) (entries (Node p s ch)) -> p <= k < p + 2 ^ (s + 4)).
    { intros k v Hin. apply (in_node_key lo S p s ch k v HI W') in Hin. apply Hin. }
    change (find_ge (Node p s ch) key) with
      (if outside key p s then if p >? key then find_successor (Node p s ch) else None
       else match find_ge (ch (slice_index key s)) key with
            | Some e => Some e
            | None => match find (fun i => negb (is_nil (ch i))) (slots_above (slice_index key s)) with
                      | Some i => find_successor (ch i) | None => None end end).
    pose proof (outside_false key p s Wk Wp HS60 Hp) as OF.
    destruct (outside key p s).
    + assert (NI : ~ (p <= key < p + 2 ^ (s + 4))) by (intros C; apply OF in C; discriminate).
      destruct (Z.gtb_spec p key).
      * destruct (succ_spec (Node p s ch) lo S HI W' eq_refl) as (k & v & E & Hin & Hmax).
        rewrite E. cbn [is_ge]. split; [exact Hin|]. split; [|eauto].
        pose proof (Rng k v Hin). lia.
      * cbn [is_ge]. intros k' v' Hin. pose proof (Rng k' v' Hin). lia.
    + assert (IN : p <= key < p + 2 ^ (s + 4)) by (apply OF; reflexivity).
      pose proof (slice_in p s key Hs Hp IN) as (Bi & Ii). cbv zeta in Bi, Ii.
      set (nib := slice_index key s) in *.
      pose proof (ival_child lo S p s nib HI Hs Hs4 HsS Hp Hr Bi) as (HIn & _ & _).
      pose proof (IH nib key _ _ HIn (Hch nib Bi) Wk) as R.
      assert (Below : forall j k v, 0 <= j < 16 -> j < nib -> In (k, v) (entries (ch j)) -> k < key).
      { intros j k v Hj Hn Hin.
        pose proof (ival_child lo S p s j HI Hs Hs4 HsS Hp Hr Hj) as (HIj & _ & _).
        pose proof (entries_in _ _ _ HIj (Hch j Hj) _ _ Hin).
        pose proof (pow2_pos s Hs). nia. }
      destruct (find_ge (ch nib) key) as [[k v]|].
      * cbn [is_ge] in *. destruct R as (Hin & Hle & Hmax).
        split; [apply in_node; eauto|]. split; [exact Hle|].
        intros k' v' Hin' Hle'. apply in_node in Hin'. destruct Hin' as (j & Hj & Hin').
        destruct (Z.eq_dec j nib) as [->|NJ]; [eapply Hmax; eauto|].
        destruct (Z_lt_le_dec j nib) as [L|L].
        -- pose proof (Below j k' v' Hj L Hin'). lia.
        -- pose proof (slot_order lo S p s ch HI W' nib j k v k' v' Bi Hj ltac:(lia) Hin Hin'). lia.
      * pose proof (pick_low ch (fun i => nib <? i) _ eq_refl) as PH.
        fold (slots_above nib) in PH.
        destruct (find _ (slots_above nib)) as [i|].
        -- destruct PH as (Hi & Gi & Ni & Hmax).
           pose proof (ival_child lo S p s i HI Hs Hs4 HsS Hp Hr Hi) as (HIi & _ & _).
           destruct (succ_spec (ch i) _ _ HIi (Hch i Hi) Ni) as (k & v & E & Hin & Hk).
           rewrite E. cbn [is_ge]. split; [apply in_node; eauto|]. split.
           ++ pose proof (entries_in _ _ _ HIi (Hch i Hi) _ _ Hin). pose proof (pow2_pos s Hs). nia.
           ++ intros k' v' Hin' Hle'. apply in_node in Hin'. destruct Hin' as (j & Hj & Hin').
              destruct (Z.eq_dec j i) as [->|NJ]; [eapply Hk; eauto|].
              destruct (Z_lt_le_dec nib j) as [L|L].
              ** pose proof (Hmax j Hj ltac:(lia) (not_nil_entries _ _ Hin')).
                 pose proof (slot_order lo S p s ch HI W' i j k v k' v' Hi Hj ltac:(lia) Hin Hin'). lia.
              ** destruct (Z.eq_dec j nib) as [->|NJ2].
                 --- exfalso. cbn [is_ge] in R. exact (R k' v' Hin' Hle').
                 --- pose proof (Below j k' v' Hj ltac:(lia) Hin'). lia.
        -- cbn [is_ge]. intros k' v' Hin' Hle'. apply in_node in Hin'. destruct Hin' as (j & Hj & Hin').
           destruct (Z_lt_le_dec nib j) as [L|L].
           ++ pose proof (PH j Hj ltac:(lia)) as C. rewrite (not_nil_entries _ _ Hin') in C. discriminate.
           ++ destruct (Z.eq_dec j nib) as [->|NJ2].
              ** cbn [is_ge] in R. exact (R k' v' Hin' Hle').
              ** pose proof (Below j k' v' Hj ltac:(lia) Hin'). lia.
Qed.
End Tree.
