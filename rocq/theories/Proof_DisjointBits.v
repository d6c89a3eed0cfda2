(* The bitmap of a slab as a set of free chunk numbers. *)
From Verif Require Import Base Model_Utils Proof_Utils Model_Disjoint.

Definition words_ok (ws : list Z) : Prop := Forall (fun w => 0 <= w < U64) ws.
Definition in_words (ws : list Z) (i : Z) : Prop := 0 <= i < 64 * Z.of_nat (length ws).
Notation bit := slab_read_chunk_bit.

Lemma ctz_spec : forall p, 0 <= pos_ctz p /\ Z.testbit (Zpos p) (pos_ctz p) = true.
Proof.
  induction p as [p IH|p IH|]; cbn [pos_ctz]; try (split; [lia|reflexivity]).
  destruct IH as (A & B). split; [lia|]. change (Zpos p~0) with (2 * Zpos p). replace (1 + pos_ctz p) with (Z.succ (pos_ctz p)) by lia.
  rewrite Z.testbit_even_succ by lia. exact B.
Qed.
Lemma lsb_spec : forall w, 0 < w < U64 -> 0 <= utils_lsb64 w < 64 /\ Z.testbit w (utils_lsb64 w) = true.
Proof.
  intros w W. destruct w as [|p|p]; try lia. cbn [utils_lsb64]. destruct (ctz_spec p) as (A & B). split; [|exact B]. split; [exact A|].
  destruct (Z_lt_le_dec (pos_ctz p) 64) as [|G]; [assumption|]. exfalso.
  assert (L : Z.log2 (Zpos p) < 64) by (apply Z.log2_lt_pow2; [lia|]; unfold U64 in W; lia).
  rewrite Z.bits_above_log2 in B by lia. discriminate.
Qed.

Lemma read_nth : forall ws i, bit ws i = Z.testbit (nth (Z.to_nat (i / 64)) ws 0) (i mod 64).
Proof. reflexivity. Qed.
Lemma bit_range : forall ws i, 0 <= i -> bit ws i = true -> in_words ws i.
Proof.
  intros ws i I B. rewrite read_nth in B. split; [exact I|].
  destruct (Z_lt_le_dec i (64 * Z.of_nat (length ws))) as [|G]; [assumption|].
  rewrite nth_overflow in B; [rewrite Z.bits_0 in B; discriminate|].
  assert (Z.of_nat (length ws) <= i / 64) by (apply Z.div_le_lower_bound; lia). lia.
Qed.
Lemma bit_cons : forall w ws i, 0 <= i -> bit (w :: ws) i = if i <? 64 then Z.testbit w i else bit ws (i - 64).
Proof.
  intros w ws i I. rewrite !read_nth. destruct (Z.ltb_spec i 64) as [L|G].
  - rewrite Z.div_small, Z.mod_small by lia. reflexivity.
  - replace i with (i - 64 + 1 * 64) at 1 2 by lia. rewrite Z.div_add, Z.mod_add by lia.
    assert (0 <= (i - 64) / 64) by (apply Z.div_pos; lia). rewrite Z.add_1_r, Z2Nat.inj_succ by lia. reflexivity.
Qed.

Lemma find_first_spec : forall ws k, words_ok ws -> 0 <= k ->
  match slab_find_first_available_chunk_idx ws k with
  | Some i => 64 * k <= i /\ bit ws (i - 64 * k) = true /\ forall j, 64 * k <= j < i -> bit ws (j - 64 * k) = false
  | None => forall i, 0 <= i -> bit ws i = false
  end.
Proof.
  induction ws as [|w ws IH]; intros k W K; cbn [slab_find_first_available_chunk_idx].
  - intros i I. rewrite read_nth. destruct (Z.to_nat (i / 64)); apply Z.bits_0.
  - inversion W as [|? ? W0 W1]; subst. destruct (Z.eqb_spec w 0) as [->|NZ]; cbn [negb].
    + specialize (IH (k + 1) W1 ltac:(lia)). destruct (slab_find_first_available_chunk_idx ws (k + 1)) as [i|].
      * destruct IH as (A & B & C). split; [lia|]. split.
        { rewrite bit_cons by lia. rewrite (proj2 (Z.ltb_ge _ _)) by lia. replace (i - 64 * k - 64) with (i - 64 * (k + 1)) by lia. exact B. }
        intros j J. rewrite bit_cons by lia. destruct (Z.ltb_spec (j - 64 * k) 64) as [X|X]; [apply Z.bits_0|].
        replace (j - 64 * k - 64) with (j - 64 * (k + 1)) by lia. apply C. lia.
      * intros i I. rewrite bit_cons by lia. destruct (Z.ltb_spec i 64) as [X|X]; [apply Z.bits_0|apply IH; lia].
    + destruct (lsb_spec w ltac:(lia)) as (A & B). unfold CHUNK_BITMAP_SIZE. split; [lia|]. replace (k * 64 + utils_lsb64 w - 64 * k) with (utils_lsb64 w) by lia.
      split; [rewrite bit_cons by lia; rewrite (proj2 (Z.ltb_lt _ _)) by lia; exact B|].
      intros j J. rewrite bit_cons by lia. rewrite (proj2 (Z.ltb_lt _ _)) by lia.
      destruct w as [|p|p]; try lia. cbn [utils_lsb64] in J. clear - J. assert (X : forall p j, 0 <= j < pos_ctz p -> Z.testbit (Zpos p) j = false).
      { clear. induction p as [p IH|p IH|]; cbn [pos_ctz]; intros j J; try lia. change (Zpos p~0) with (2 * Zpos p).
        destruct (Z.eq_dec j 0) as [->|]; [apply Z.testbit_even_0|]. replace j with (Z.succ (j - 1)) by lia. rewrite Z.testbit_even_succ by lia. apply IH. lia. }
      apply X. lia.
Qed.

Lemma set_word_length : forall n ws w, length (set_word n ws w) = length ws.
Proof. induction n; destruct ws; cbn; intros; congruence. Qed.
Lemma set_word_nth : forall n ws w m, (n < length ws)%nat -> nth m (set_word n ws w) 0 = if Nat.eqb m n then w else nth m ws 0.
Proof.
  induction n as [|n IH]; intros [|x ws] w [|m] L; cbn [length] in *; try lia; cbn [set_word nth Nat.eqb]; try reflexivity.
  apply IH. lia.
Qed.
Lemma set_word_ok : forall n ws w, words_ok ws -> 0 <= w < U64 -> words_ok (set_word n ws w).
Proof. induction n as [|n IH]; intros [|x ws] w W B; cbn [set_word]; inversion W; subst; constructor; auto. apply IH; assumption. Qed.
Lemma word_range : forall ws i, words_ok ws -> 0 <= word ws i < U64.
Proof.
  intros ws i W. unfold word. destruct (Nat.lt_ge_cases (Z.to_nat (i / CHUNK_BITMAP_SIZE)) (length ws)) as [L|G].
  - unfold words_ok in W. rewrite Forall_forall in W. apply W. apply nth_In. exact L.
  - rewrite nth_overflow by exact G. unfold U64. lia.
Qed.
Lemma low_bits : forall w, 0 <= w < U64 <-> (0 <= w /\ forall k, 64 <= k -> Z.testbit w k = false).
Proof.
  intros w. split.
  - intros W. split; [lia|]. intros k K. destruct (Z.eq_dec w 0) as [->|]; [apply Z.bits_0|]. apply Z.bits_above_log2; [lia|].
    assert (Z.log2 w < 64) by (apply Z.log2_lt_pow2; [lia|]; unfold U64 in W; lia). lia.
  - intros (W & B). split; [exact W|]. destruct (Z.eq_dec w 0) as [->|]; [unfold U64; lia|]. unfold U64.
    destruct (Z_lt_le_dec w (2 ^ 64)) as [|G]; [assumption|]. exfalso. apply Z.log2_le_pow2 in G; [|lia].
    pose proof (Z.bit_log2 w ltac:(lia)) as X. rewrite B in X by lia. discriminate.
Qed.
Lemma wnot_bits : forall w k, 0 <= w < U64 -> 0 <= k < 64 -> Z.testbit (wnot w) k = negb (Z.testbit w k).
Proof.
  intros w k W K. unfold wnot. replace (U64 - 1 - w) with (Z.lnot w + 2 ^ 64) by (unfold Z.lnot, U64; lia).
  rewrite <- Z.lnot_spec by lia. rewrite <- (Z.mod_pow2_bits_low (Z.lnot w + 2 ^ 64) 64 k) by lia.
  rewrite <- (Z.mod_pow2_bits_low (Z.lnot w) 64 k) by lia. f_equal. replace (Z.lnot w + 2 ^ 64) with (Z.lnot w + 1 * 2 ^ 64) by lia. apply Z.mod_add. lia.
Qed.

Lemma set_bit_ok : forall ws i v, words_ok ws -> words_ok (slab_set_chunk_bit ws i v).
Proof.
  intros ws i v W. unfold slab_set_chunk_bit. apply set_word_ok; [exact W|]. pose proof (word_range ws i W) as R. pose proof (Z.mod_pos_bound i CHUNK_BITMAP_SIZE ltac:(unfold CHUNK_BITMAP_SIZE; lia)) as MB.
  unfold CHUNK_BITMAP_SIZE in *. assert (P2 : 0 <= 2 ^ (i mod 64) < U64) by (split; [apply Z.pow_nonneg; lia|unfold U64; apply Z.pow_lt_mono_r; lia]).
  destruct v; apply low_bits.
  - split; [apply Z.lor_nonneg; lia|]. intros k K. rewrite Z.lor_spec. apply low_bits in R. rewrite (proj2 R) by lia. apply Z.pow2_bits_false. lia.
  - split; [apply Z.land_nonneg; lia|]. intros k K. rewrite Z.land_spec. apply low_bits in R. rewrite (proj2 R) by lia. reflexivity.
Qed.
Lemma set_bit_length : forall ws i v, length (slab_set_chunk_bit ws i v) = length ws.
Proof. intros. apply set_word_length. Qed.
Lemma set_bit_read : forall ws i v j, words_ok ws -> in_words ws i -> 0 <= j -> bit (slab_set_chunk_bit ws i v) j = if j =? i then v else bit ws j.
Proof.
  intros ws i v j W (I & L) J. rewrite !read_nth. unfold slab_set_chunk_bit, CHUNK_BITMAP_SIZE in *.
  assert (DI : 0 <= i / 64 < Z.of_nat (length ws)) by (split; [apply Z.div_pos; lia|apply Z.div_lt_upper_bound; lia]).
  assert (DJ : 0 <= j / 64) by (apply Z.div_pos; lia).
  rewrite set_word_nth by lia. pose proof (Z.mod_pos_bound i 64 ltac:(lia)) as MI. pose proof (Z.mod_pos_bound j 64 ltac:(lia)) as MJ.
  pose proof (Z.div_mod i 64 ltac:(lia)) as EI. pose proof (Z.div_mod j 64 ltac:(lia)) as EJ.
  destruct (Nat.eqb_spec (Z.to_nat (j / 64)) (Z.to_nat (i / 64))) as [E|NE].
  - assert (E' : j / 64 = i / 64) by lia. pose proof (word_range ws i W) as R.
    assert (P2 : 0 <= 2 ^ (i mod 64) < U64) by (split; [apply Z.pow_nonneg; lia|unfold U64; apply Z.pow_lt_mono_r; lia]).
    destruct (Z.eqb_spec j i) as [->|NJ].
    + destruct v; [rewrite Z.lor_spec, Z.pow2_bits_true by lia; apply orb_true_r|].
      rewrite Z.land_spec, wnot_bits, Z.pow2_bits_true by lia. apply andb_false_r.
    + assert (MD : j mod 64 <> i mod 64) by lia. unfold word, CHUNK_BITMAP_SIZE. rewrite E'. destruct v.
      * rewrite Z.lor_spec, Z.pow2_bits_false by lia. apply orb_false_r.
      * rewrite Z.land_spec, wnot_bits, Z.pow2_bits_false by lia. apply andb_true_r.
  - destruct (Z.eqb_spec j i) as [->|NJ]; [congruence|]. reflexivity.
Qed.

Lemma repeat_words : forall n, words_ok (repeat (U64 - 1) n).
Proof. induction n; constructor; auto. unfold U64. lia. Qed.
Lemma ones_bit : forall n k, 0 <= n -> 0 <= k -> Z.testbit (2 ^ n - 1) k = (k <? n).
Proof.
  intros n k N K. replace (2 ^ n - 1) with (Z.ones n) by (rewrite Z.ones_equiv; lia).
  destruct (Z.ltb_spec k n); [apply Z.ones_spec_low; lia|apply Z.ones_spec_high; lia].
Qed.
Lemma repeat_bit : forall n i, 0 <= i -> bit (repeat (U64 - 1) n) i = (i <? 64 * Z.of_nat n).
Proof.
  induction n as [|n IH]; intros i I; cbn [repeat].
  - rewrite read_nth. destruct (Z.to_nat (i / 64)); rewrite Z.bits_0; symmetry; apply Z.ltb_ge; lia.
  - rewrite bit_cons by lia. destruct (Z.ltb_spec i 64) as [L|G].
    + unfold U64. rewrite ones_bit by lia. rewrite (proj2 (Z.ltb_lt i 64)) by lia. symmetry. apply Z.ltb_lt. lia.
    + rewrite IH by lia. destruct (Z.ltb_spec (i - 64) (64 * Z.of_nat n)); symmetry; [apply Z.ltb_lt|apply Z.ltb_ge]; lia.
Qed.
Lemma new_chunks_spec : forall n, 0 < n ->
  words_ok (new_chunks n) /\ (forall i, 0 <= i < n -> in_words (new_chunks n) i) /\ (forall i, 0 <= i -> bit (new_chunks n) i = (i <? n)).
Proof.
  intros n N. unfold new_chunks, CHUNK_BITMAP_SIZE. set (w := (n + 64 - 1) / 64). cbv zeta.
  pose proof (Z.mod_pos_bound n 64 ltac:(lia)) as MB. pose proof (Z.div_mod n 64 ltac:(lia)) as DM.
  destruct (Z.eqb_spec (n mod 64) 0) as [M|M].
  - assert (W : n = 64 * w). { unfold w. replace (n + 64 - 1) with (63 + (n / 64) * 64) by lia. rewrite Z.div_add by lia. change (63 / 64) with 0. lia. }
    split; [apply repeat_words|]. split.
    + intros i I. unfold in_words. rewrite repeat_length. lia.
    + intros i I. rewrite repeat_bit by lia. f_equal. lia.
  - assert (W : w = n / 64 + 1). { unfold w. replace (n + 64 - 1) with (n mod 64 - 1 + (n / 64 + 1) * 64) by lia. rewrite Z.div_add by lia. rewrite Z.div_small by lia. lia. }
    assert (D0 : 0 <= n / 64) by (apply Z.div_pos; lia).
    split; [apply set_word_ok; [apply repeat_words|]; split; [pose proof (Z.pow_pos_nonneg 2 (n mod 64) ltac:(lia) ltac:(lia)); lia|]; assert (2 ^ (n mod 64) < 2 ^ 64) by (apply Z.pow_lt_mono_r; lia); unfold U64; lia|]. split.
    + intros i I. unfold in_words. rewrite set_word_length, repeat_length. lia.
    + intros i I. rewrite read_nth, set_word_nth by (rewrite repeat_length; lia).
      pose proof (Z.mod_pos_bound i 64 ltac:(lia)) as MI. pose proof (Z.div_mod i 64 ltac:(lia)) as DI. assert (0 <= i / 64) by (apply Z.div_pos; lia).
      destruct (Nat.eqb_spec (Z.to_nat (i / 64)) (Z.to_nat (w - 1))) as [E|NE].
      * rewrite ones_bit by lia. assert (i / 64 = n / 64) by lia. destruct (Z.ltb_spec (i mod 64) (n mod 64)); symmetry; [apply Z.ltb_lt|apply Z.ltb_ge]; lia.
      * rewrite <- read_nth, repeat_bit by lia. destruct (Z.ltb_spec i (64 * Z.of_nat (Z.to_nat w))); symmetry; [apply Z.ltb_lt|apply Z.ltb_ge]; nia.
Qed.
