From Verif Require Import Base Model_Utils Spec_Utils Proof_Utils Proof_Flags.

Lemma alignment_tests_lemma : forall v a, is_word v ->
  (IS_POWER_OF_2 v = true <-> power_of_two v) /\
  (power_of_two a -> (IS_ALIGNED v a = true <-> multiple_of v a) /\
                     (IS_NOT_ALIGNED v a = true <-> ~ multiple_of v a)).
Proof.
  intros v a Hv. split; [exact (is_pow2_spec v Hv)|]. intros Ha. pose proof (pow2_range a Ha).
  pose proof (mod_multiple v a ltac:(lia)) as M. unfold multiple_of. split.
  - rewrite is_aligned_spec by assumption. exact M.
  - rewrite is_not_aligned_spec, negb_true_iff, <- M, <- (is_aligned_spec v a Ha). destruct (IS_ALIGNED v a); intuition congruence.
Qed.

Lemma align_down_lemma : forall v a, is_word v -> power_of_two a ->
  greatest_multiple_below v a (ALIGN_DOWN v a).
Proof.
  intros v a Hv Ha. rewrite align_down_val by assumption. pose proof (pow2_range a Ha).
  pose proof (Z.div_mod v a ltac:(lia)) as D. pose proof (Z.mod_pos_bound v a ltac:(lia)).
  split; [exists (v / a); lia|]. split; [lia|]. intros m' (q & ->) L.
  set (k := v / a) in *. set (r := v mod a) in *. assert (q <= k) by nia. nia.
Qed.

Lemma align_up_safe_lemma : forall v a, is_word v -> power_of_two a ->
  exists m, least_multiple_above v a m /\
    (is_word m -> ALIGN_UP_SAFE v a = m /\ ALIGN_UP v a = m) /\
    (~ is_word m -> ALIGN_UP_SAFE v a = 0 /\ ALIGN_UP v a = 0) /\
    (ALIGN_UP_SAFE v a = 0 <-> v = 0 \/ ~ is_word m).
Proof.
  intros v a Hv Ha. pose proof (pow2_range a Ha) as R.
  set (m := (v + a - 1) - (v + a - 1) mod a).
  destruct (round_up_least v a ltac:(lia)) as (M1 & M2 & M3). fold m in M1, M2, M3.
  assert (MM : m < v + a) by (unfold m; pose proof (Z.mod_pos_bound (v + a - 1) a ltac:(lia)); lia).
  exists m. split.
  { split; [apply mod_multiple; [lia|exact M1]|]. split; [lia|]. intros m' Hm' L. apply M3; [apply mod_multiple; [lia|exact Hm']|lia]. }
  rewrite align_up_safe_word by assumption. fold m. unfold is_word in Hv.
  destruct (Z.leb_spec U64 (v + a - 1)) as [L|L].
  - pose proof (no_multiple v a m Ha L M1 ltac:(lia)) as NM.
    split; [unfold is_word; lia|]. split.
    + intros _. split; [reflexivity|]. apply align_up_wraps; assumption.
    + unfold is_word. split; [lia|]. reflexivity.
  - pose proof (Z.mod_pos_bound (v + a - 1) a ltac:(lia)).
    assert (m < U64) by lia.
    split; [intros _; split; [reflexivity|apply align_up_val; [assumption|unfold is_word; lia|lia]]|].
    split; [unfold is_word; lia|]. unfold is_word. split; [lia|]. intros [->|?]; [|lia].
    unfold m. rewrite Z.mod_small by lia. lia.
Qed.

Lemma ptr_up_lemma : forall p s a p' s',
  is_word p -> is_word s -> power_of_two a ->
  p + s < U64 -> a <= s + 1 ->
  utils_align_ptr_up_size_down p s a = (p', s') ->
  multiple_of p' a /\ p' + s' = p + s /\ s - s' < a /\
  forall x, in_range x p' s' -> in_range x p s.
Proof.
  intros p s a p' s' Hp Hs Ha Hps Has E. pose proof (pow2_range a Ha) as R.
  destruct (round_up_least p a ltac:(lia)) as (M1 & M2 & M3).
  pose proof (Z.mod_pos_bound (p + a - 1) a ltac:(lia)).
  rewrite ptr_up_size_down_val in E; try assumption; try lia.
  injection E as <- <-. unfold in_range.
  split; [apply mod_multiple; [lia|exact M1]|]. split; [lia|]. split; [lia|]. intros x Hx. lia.
Qed.

Lemma ptr_down_lemma : forall p s a p' s',
  is_word p -> is_word s -> power_of_two a -> s + 2 * a <= U64 ->
  utils_align_ptr_down_size_up p s a = (p', s') ->
  multiple_of p' a /\ multiple_of s' a /\
  (forall x, in_range x p s -> in_range x p' s') /\
  (forall p2 s2, multiple_of p2 a -> multiple_of s2 a -> p2 <= p -> p + s <= p2 + s2 ->
     p2 <= p' /\ p' + s' <= p2 + s2).
Proof.
  intros p s a p' s' Hp Hs Ha Hb E. pose proof (pow2_range a Ha) as R.
  pose proof (Z.mod_pos_bound p a ltac:(lia)) as PB. pose proof (Z.div_mod p a ltac:(lia)) as D.
  destruct (round_up_least (s + p mod a) a ltac:(lia)) as (M1 & M2 & M3).
  rewrite ptr_down_size_up_val in E; try assumption; try lia.
  injection E as <- <-. set (s1 := s + p mod a) in *. set (z := s1 + a - 1 - (s1 + a - 1) mod a) in *.
  split; [exists (p / a); lia|]. split; [apply mod_multiple; [lia|exact M1]|]. unfold in_range.
  split; [intros x Hx; lia|]. intros p2 s2 (q & ->) (q2 & ->) L1 L2.
  set (k := p / a) in *. set (r := p mod a) in *.
  assert (q <= k) by nia. split; [nia|].
  assert (z <= (q + q2 - k) * a); [|nia]. apply M3; [apply mod_multiple; [lia|eauto]|]. nia.
Qed.

Lemma protection_flags_lemma : forall f, 0 <= f < 2 ^ 32 ->
  exists r out, utils_translate_mem_protection_flags f = Some (r, out) /\
    (r = SUCCESS <-> forall k, 0 <= k -> flag_set f k -> k <= 3) /\
    (r <> SUCCESS -> r = ERR_INVALID_ARGUMENT) /\
    (r = SUCCESS -> forall i, 0 <= i ->
       (flag_set out i <-> (i = 0 /\ flag_set f 1) \/ (i = 1 /\ flag_set f 2) \/ (i = 2 /\ flag_set f 3))).
Proof.
  intros f Hf. rewrite prot_flags by assumption. unfold flag_set.
  destruct (Z.ltb_spec f 16) as [L|L].
  - eexists _, _. split; [reflexivity|]. split; [|split].
    + split; [|reflexivity]. intros _ k Hk B. destruct (Z_le_gt_dec k 3); [assumption|].
      rewrite Z.bits_above_log2 in B; [discriminate|lia|].
      destruct (Z.eq_dec f 0) as [->|N]; [cbn; lia|].
      apply Z.log2_lt_pow2; [lia|]. apply Z.lt_le_trans with (2 ^ 4); [lia|]. apply Z.pow_le_mono_r; lia.
    + congruence.
    + intros _ i Hi. rewrite !Z.lor_spec, !orb_true_iff.
      assert (B : forall (b : bool) n, 0 <= n -> (Z.testbit (if b then 2 ^ n else 0) i = true <-> i = n /\ b = true)).
      { intros b n Hn. destruct b; [|rewrite Z.bits_0; split; [discriminate|intros [_ C]; discriminate]].
        rewrite Z.pow2_bits_eqb by lia. rewrite Z.eqb_eq. split; intros; [split; congruence|]. symmetry; tauto. }
      change PROT_READ with (2 ^ 0). change PROT_WRITE with (2 ^ 1). change PROT_EXEC with (2 ^ 2).
      rewrite !B by lia. tauto.
  - eexists _, _. split; [reflexivity|]. split; [|split].
    + split; [discriminate|]. intros A. exfalso.
      assert (K : 4 <= Z.log2 f) by (apply Z.log2_le_pow2; lia).
      specialize (A (Z.log2 f) ltac:(lia) (Z.bit_log2 f ltac:(lia))). lia.
    + reflexivity.
    + discriminate.
Qed.
