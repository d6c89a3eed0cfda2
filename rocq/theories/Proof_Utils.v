From Verif Require Import Base Model_Utils.

Definition pow2 (a : Z) : Prop := exists n, 0 <= n < 64 /\ a = 2 ^ n.

Lemma U64_val : U64 = 18446744073709551616. Proof. reflexivity. Qed.
Lemma pow2_range : forall a, pow2 a -> 1 <= a < U64.
Proof.
  intros a (n & Hn & ->). split.
  - assert (0 < 2 ^ n) by (apply Z.pow_pos_nonneg; lia). lia.
  - apply Z.pow_lt_mono_r; lia.
Qed.

Lemma wrap_id : forall x, is_word x -> wrap x = x.
Proof. intros x H. unfold wrap. apply Z.mod_small. exact H. Qed.
Lemma wrap_word : forall x, is_word (wrap x).
Proof. intros x. unfold wrap, is_word. apply Z.mod_pos_bound. reflexivity. Qed.
Lemma wrap_add_U64 : forall x k, wrap (x + k * U64) = wrap x.
Proof. intros. unfold wrap. rewrite Z_mod_plus_full. reflexivity. Qed.
Lemma wrap_over : forall x, U64 <= x < 2 * U64 -> wrap x = x - U64.
Proof.
  intros x H. rewrite <- (wrap_add_U64 x (-1)). unfold wrap.
  rewrite Z.mod_small; lia.
Qed.
Lemma wrap_under : forall x, - U64 <= x < 0 -> wrap x = x + U64.
Proof.
  intros x H. rewrite <- (wrap_add_U64 x 1). unfold wrap.
  rewrite Z.mod_small; lia.
Qed.

Lemma pow2_mask : forall n, 0 <= n < 64 -> wrap (2 ^ n - 1) = 2 ^ n - 1.
Proof.
  intros n Hn. apply wrap_id. unfold is_word.
  assert (0 < 2 ^ n) by (apply Z.pow_pos_nonneg; lia).
  assert (2 ^ n < 2 ^ 64) by (apply Z.pow_lt_mono_r; lia).
  unfold U64. lia.
Qed.

Lemma land_low : forall x n, 0 <= n -> Z.land x (2 ^ n - 1) = x mod 2 ^ n.
Proof.
  intros x n Hn. rewrite <- Z.land_ones by lia.
  rewrite Z.ones_equiv, <- Z.sub_1_r. reflexivity.
Qed.

Lemma land_high : forall x n, 0 <= n < 64 -> is_word x ->
  Z.land x (wnot (2 ^ n - 1)) = x - x mod 2 ^ n.
Proof.
  intros x n Hn Hx.
  assert (E : wnot (2 ^ n - 1) = Z.ldiff (Z.ones 64) (Z.ones n)).
  { rewrite <- Z.sub_nocarry_ldiff.
    - unfold wnot, U64. rewrite !Z.ones_equiv. lia.
    - apply Z.bits_inj'. intros i Hi. rewrite Z.ldiff_spec, Z.bits_0.
      rewrite !Z.testbit_ones by lia. lia. }
  rewrite E.
  assert (E2 : Z.land x (Z.ldiff (Z.ones 64) (Z.ones n)) = Z.ldiff x (Z.ones n)).
  { apply Z.bits_inj'. intros i Hi.
    rewrite Z.land_spec, !Z.ldiff_spec. rewrite !Z.testbit_ones by lia.
    destruct (Z.ltb_spec i 64).
    - replace (0 <=? i) with true by lia. cbn. reflexivity.
    - assert (Z.testbit x i = false) as ->; [|reflexivity].
      destruct (Z.eq_dec x 0) as [->|Hnz]; [apply Z.bits_0|].
      apply Z.bits_above_log2; [unfold is_word in Hx; lia|].
      unfold is_word, U64 in Hx. apply Z.log2_lt_pow2; [lia|].
      eapply Z.lt_le_trans; [apply Hx|]. apply Z.pow_le_mono_r; lia. }
  rewrite E2. rewrite Z.ldiff_ones_r by lia.
  rewrite Z.shiftl_mul_pow2, Z.shiftr_div_pow2 by lia.
  assert (0 < 2 ^ n) by (apply Z.pow_pos_nonneg; lia).
  pose proof (Z.div_mod x (2 ^ n)). lia.
Qed.

Lemma is_pow2_spec : forall v, is_word v ->
  (IS_POWER_OF_2 v = true <-> pow2 v).
Proof.
  intros v Hv. unfold IS_POWER_OF_2. split.
  - intros H. apply andb_true_iff in H. destruct H as [H1 H2].
    apply negb_true_iff, Z.eqb_neq in H1. apply Z.eqb_eq in H2.
    unfold is_word in Hv.
    rewrite wrap_id in H2 by (unfold is_word; lia).
    exists (Z.log2 v). pose proof (Z.log2_nonneg v).
    assert (Hl : Z.log2 v < 64).
    { apply Z.log2_lt_pow2; [lia|]. exact (proj2 Hv). }
    split; [lia|].
    destruct (Z.eq_dec v (2 ^ Z.log2 v)) as [E|E]; [exact E|exfalso].
    pose proof (Z.log2_spec v ltac:(lia)) as Hs.
    assert (L : Z.log2 (v - 1) = Z.log2 v).
    { apply Z.log2_unique; lia. }
    assert (B : Z.testbit (Z.land v (v - 1)) (Z.log2 v) = true).
    { rewrite Z.land_spec. rewrite Z.bit_log2 by lia.
      rewrite <- L at 1. rewrite Z.bit_log2; [reflexivity|].
      assert (0 < 2 ^ Z.log2 v) by (apply Z.pow_pos_nonneg; lia). lia. }
    rewrite H2, Z.bits_0 in B. discriminate.
  - intros (n & Hn & ->).
    assert (0 < 2 ^ n) by (apply Z.pow_pos_nonneg; lia).
    apply andb_true_iff. split; [lia|].
    rewrite pow2_mask by lia. rewrite land_low by lia.
    rewrite Z.mod_same by lia. reflexivity.
Qed.

Lemma is_aligned_spec : forall v a, pow2 a ->
  (IS_ALIGNED v a = true <-> v mod a = 0).
Proof.
  intros v a (n & Hn & ->). unfold IS_ALIGNED.
  assert (0 < 2 ^ n) by (apply Z.pow_pos_nonneg; lia).
  rewrite pow2_mask, land_low by lia.
  replace (2 ^ n =? 0) with false by lia. cbn [orb].
  rewrite Z.eqb_eq. reflexivity.
Qed.
Lemma is_not_aligned_spec : forall v a, IS_NOT_ALIGNED v a = negb (IS_ALIGNED v a).
Proof.
  intros. unfold IS_NOT_ALIGNED, IS_ALIGNED. rewrite negb_orb. reflexivity.
Qed.

Lemma align_down_val : forall v a, pow2 a -> is_word v ->
  ALIGN_DOWN v a = v - v mod a.
Proof.
  intros v a (n & Hn & ->) Hv. unfold ALIGN_DOWN.
  rewrite pow2_mask by lia. apply land_high; assumption.
Qed.

(* value without wrap *)
Lemma align_up_val : forall v a, pow2 a -> 0 <= v -> v + a - 1 < U64 ->
  ALIGN_UP v a = (v + a - 1) - (v + a - 1) mod a.
Proof.
  intros v a Ha Hv Hs. pose proof (pow2_range _ Ha).
  assert (E : wrap (wrap (v + a) - 1) = v + a - 1).
  { destruct (Z.eq_dec (v + a) U64) as [E|E].
    - rewrite E. change (wrap (wrap U64 - 1) = U64 - 1). reflexivity.
    - rewrite (wrap_id (v + a)) by (unfold is_word; lia).
      apply wrap_id. unfold is_word; lia. }
  unfold ALIGN_UP. rewrite E. destruct Ha as (n & Hn & ->).
  rewrite pow2_mask by lia. apply land_high; [lia|]. unfold is_word; lia.
Qed.

Lemma align_up_wraps : forall v a, pow2 a -> is_word v -> U64 <= v + a - 1 ->
  ALIGN_UP v a = 0.
Proof.
  intros v a Ha Hv Hs. pose proof (pow2_range _ Ha). unfold is_word in Hv.
  assert (E : wrap (wrap (v + a) - 1) = v + a - 1 - U64).
  { rewrite (wrap_over (v + a)) by lia. rewrite wrap_id; [lia|].
    unfold is_word; lia. }
  unfold ALIGN_UP. rewrite E. destruct Ha as (n & Hn & ->).
  rewrite pow2_mask by lia. rewrite land_high; [|lia|unfold is_word; lia].
  rewrite Z.mod_small; lia.
Qed.

(* least multiple of [a] not below [v] *)
Lemma round_up_least : forall v a, 0 < a ->
  let r := (v + a - 1) - (v + a - 1) mod a in
  r mod a = 0 /\ v <= r < v + a /\ (forall m, m mod a = 0 -> v <= m -> r <= m).
Proof.
  intros v a Ha r. subst r. 
  pose proof (Z.mod_pos_bound (v + a - 1) a Ha).
  pose proof (Z.div_mod (v + a - 1) a ltac:(lia)) as D.
  set (q := (v + a - 1) / a) in *. set (m0 := (v + a - 1) mod a) in *.
  assert (E : v + a - 1 - m0 = q * a) by lia.
  rewrite E. split; [apply Z.mod_mul; lia|]. split; [lia|].
  intros m Hm Hv. pose proof (Z.div_mod m a ltac:(lia)) as D2.
  rewrite Hm in D2. set (q2 := m / a) in *.
  assert (q <= q2); [|nia].
  destruct (Z_lt_le_dec q2 q); [|assumption]. nia.
Qed.

Lemma align_up_safe_word : forall v a, pow2 a -> is_word v ->
  ALIGN_UP_SAFE v a = if U64 <=? v + a - 1 then 0 else (v + a - 1) - (v + a - 1) mod a.
Proof.
  intros v a Ha Hv. pose proof (pow2_range _ Ha). unfold is_word in Hv. unfold ALIGN_UP_SAFE.
  replace (a =? 0) with false by lia.
  destruct (Z.leb_spec U64 (v + a - 1)) as [L|L].
  - rewrite (wrap_over (v + a)) by lia. rewrite wrap_id by (unfold is_word; lia).
    replace (v + a - U64 - 1 <? v) with true by lia. reflexivity.
  - destruct (Z.eq_dec (v + a) U64) as [E|E].
    + replace (wrap (wrap (v + a) - 1)) with (U64 - 1) by (rewrite E; reflexivity).
      replace (U64 - 1 <? v) with false by lia. apply align_up_val; [exact Ha|lia|lia].
    + rewrite (wrap_id (v + a)) by (unfold is_word; lia).
      rewrite (wrap_id (v + a - 1)) by (unfold is_word; lia).
      replace (v + a - 1 <? v) with false by lia. apply align_up_val; [exact Ha|lia|lia].
Qed.

Lemma U64_multiple : forall a, pow2 a -> U64 mod a = 0.
Proof.
  intros a (n & Hn & ->). unfold U64. replace 64 with ((64 - n) + n) by lia.
  rewrite Z.pow_add_r by lia. apply Z.mod_mul.
  assert (0 < 2 ^ n) by (apply Z.pow_pos_nonneg; lia). lia.
Qed.

(* multiples of a that are not below v are all >= U64 when v + a - 1 >= U64 *)
Lemma no_multiple : forall v a m, pow2 a -> U64 <= v + a - 1 -> m mod a = 0 -> v <= m -> U64 <= m.
Proof.
  intros v a m Ha Hs Hm Hv. pose proof (pow2_range _ Ha) as R. pose proof (U64_multiple a Ha) as U.
  pose proof (Z.div_mod m a ltac:(lia)) as D. rewrite Hm in D.
  pose proof (Z.div_mod U64 a ltac:(lia)) as D2. rewrite U in D2.
  destruct (Z_lt_le_dec m U64); [|assumption]. exfalso.
  set (q := m / a) in *. set (q2 := U64 / a) in *.
  assert (q < q2) by nia. nia.
Qed.

(* (p, s) -> inner range *)
Lemma ptr_up_size_down_val : forall p s a, pow2 a -> is_word p -> is_word s ->
  p + a - 1 < U64 ->
  let p' := (p + a - 1) - (p + a - 1) mod a in
  p' - p <= s ->
  utils_align_ptr_up_size_down p s a = (p', s - (p' - p)).
Proof.
  intros p s a Ha Hp Hs Ho p' Hle. unfold utils_align_ptr_up_size_down.
  pose proof (pow2_range _ Ha) as R.
  pose proof (round_up_least p a ltac:(lia)) as (A & B & C). fold p' in A, B, C.
  assert (M : Z.land p (wrap (a - 1)) = p mod a).
  { destruct Ha as (n & Hn & ->). rewrite pow2_mask, land_low by lia. reflexivity. }
  cbv zeta. rewrite M. pose proof (Z.mod_pos_bound p a ltac:(lia)) as PB.
  pose proof (Z.div_mod p a ltac:(lia)) as D.
  destruct (Z.eqb_spec (p mod a) 0) as [E|E].
  - assert (p' = p) as ->; [|f_equal; lia]. specialize (C p E ltac:(lia)). lia.
  - assert (E' : p' = p + (a - p mod a)).
    { assert (L1 : p' <= p + (a - p mod a)).
      { apply C; [|lia]. replace (p + (a - p mod a)) with ((p / a + 1) * a) by lia. apply Z.mod_mul. lia. }
      pose proof (Z.div_mod p' a ltac:(lia)) as D2. rewrite A in D2.
      assert (p / a < p' / a); [|nia].
      destruct (Z_lt_le_dec (p / a) (p' / a)); [assumption|]. nia. }
    rewrite align_up_val by (try assumption; unfold is_word in *; lia). fold p'.
    unfold is_word in *.
    rewrite (wrap_id (a - p mod a)) by (unfold is_word; lia).
    rewrite wrap_id by (unfold is_word; lia). f_equal. lia.
Qed.

(* (p, s) -> outer range *)
Lemma ptr_down_size_up_val : forall p s a, pow2 a -> is_word p -> is_word s ->
  s + p mod a + a - 1 < U64 ->
  let s1 := s + p mod a in
  utils_align_ptr_down_size_up p s a = (p - p mod a, (s1 + a - 1) - (s1 + a - 1) mod a).
Proof.
  intros p s a Ha Hp Hs Ho s1. unfold utils_align_ptr_down_size_up.
  pose proof (pow2_range _ Ha) as R.
  assert (M : Z.land p (wrap (a - 1)) = p mod a).
  { destruct Ha as (n & Hn & ->). rewrite pow2_mask, land_low by lia. reflexivity. }
  cbv zeta. rewrite M. pose proof (Z.mod_pos_bound p a ltac:(lia)) as PB.
  unfold is_word in *.
  destruct (Z.eqb_spec (p mod a) 0) as [E|E].
  - subst s1. rewrite E in *. f_equal; [lia|].
    rewrite align_up_val by (try assumption; lia). f_equal; [lia|]. f_equal. lia.
  - rewrite align_down_val by (try assumption; unfold is_word; lia).
    rewrite (wrap_id (s + p mod a)) by (unfold is_word; lia).
    rewrite align_up_val by (try assumption; lia). reflexivity.
Qed.

Lemma mod_multiple : forall m a, 0 < a -> (m mod a = 0 <-> exists q, m = q * a).
Proof.
  intros m a Ha. split.
  - intros E. exists (m / a). pose proof (Z.div_mod m a ltac:(lia)). lia.
  - intros (q & ->). apply Z.mod_mul. lia.
Qed.
