(* C41, C42: alignment helpers and flag translation (src/utils). *)
From Verif Require Import Base Model_Utils Spec_Utils Proof_Utils Proof_UtilsProps Proof_Flags.

(* C41. Power-of-two and alignment tests. *)
Theorem alignment_tests_exact : forall v a, is_word v ->
  (IS_POWER_OF_2 v = true <-> power_of_two v) /\
  (power_of_two a -> (IS_ALIGNED v a = true <-> multiple_of v a) /\
                     (IS_NOT_ALIGNED v a = true <-> ~ multiple_of v a)).
Proof. exact alignment_tests_lemma. Qed.
Print Assumptions alignment_tests_exact.

(* C41. Rounding down is always exact. *)
Theorem align_down_exact : forall v a, is_word v -> power_of_two a ->
  greatest_multiple_below v a (ALIGN_DOWN v a).
Proof. exact align_down_lemma. Qed.
Print Assumptions align_down_exact.

(* C41. The overflow-checked rounding returns the least multiple if a word can
   hold it; otherwise it returns 0 (0 is otherwise returned only for v = 0).
   The unchecked form agrees with it exactly in the first case, and wraps to 0
   in the second. *)
Theorem align_up_safe_exact : forall v a, is_word v -> power_of_two a ->
  exists m, least_multiple_above v a m /\
    (is_word m -> ALIGN_UP_SAFE v a = m /\ ALIGN_UP v a = m) /\
    (~ is_word m -> ALIGN_UP_SAFE v a = 0 /\ ALIGN_UP v a = 0) /\
    (ALIGN_UP_SAFE v a = 0 <-> v = 0 \/ ~ is_word m).
Proof. exact align_up_safe_lemma. Qed.
Print Assumptions align_up_safe_exact.

(* C41. Shrinking a range to an aligned start: the result is aligned, ends where
   the range ended, loses fewer than a bytes and lies inside the range. *)
Theorem ptr_up_size_down_inner : forall p s a p' s',
  is_word p -> is_word s -> power_of_two a ->
  p + s < U64 -> a <= s + 1 ->
  utils_align_ptr_up_size_down p s a = (p', s') ->
  multiple_of p' a /\ p' + s' = p + s /\ s - s' < a /\
  forall x, in_range x p' s' -> in_range x p s.
Proof. exact ptr_up_lemma. Qed.
Print Assumptions ptr_up_size_down_inner.

(* C41. Growing a range to aligned start and size: covers the range and is the
   smallest such aligned range. *)
Theorem ptr_down_size_up_outer : forall p s a p' s',
  is_word p -> is_word s -> power_of_two a -> s + 2 * a <= U64 ->
  utils_align_ptr_down_size_up p s a = (p', s') ->
  multiple_of p' a /\ multiple_of s' a /\
  (forall x, in_range x p s -> in_range x p' s') /\
  (forall p2 s2, multiple_of p2 a -> multiple_of s2 a -> p2 <= p -> p + s <= p2 + s2 ->
     p2 <= p' /\ p' + s' <= p2 + s2).
Proof. exact ptr_down_lemma. Qed.
Print Assumptions ptr_down_size_up_outer.

(* C42. Generic translation: terminates, succeeds exactly when every set bit is
   below the limit and known to the one-flag translator, and then the output
   is exactly the union of the translated bits.  (For every failure the C
   function leaves the caller's output alone; the model returns 0 there.) *)
Theorem translate_flags_exact : forall in_f max tr, 0 <= in_f < 2 ^ 32 -> max <= 2 ^ 31 ->
  exists r out, utils_translate_flags in_f max tr = Some (r, out) /\
    (r = SUCCESS <-> forall k, 0 <= k -> flag_set in_f k -> 2 ^ k < max /\ fst (tr (2 ^ k)) = SUCCESS) /\
    (r = SUCCESS -> forall i, 0 <= i ->
       (flag_set out i <-> exists k, 0 <= k < 32 /\ flag_set in_f k /\ flag_set (snd (tr (2 ^ k))) i)).
Proof. exact translate_flags_ok. Qed.
Print Assumptions translate_flags_exact.

(* C42. Protection flags, all 2^32 words: accepted exactly when only the four
   defined flags are set, and each output bit mirrors its input flag. *)
Theorem protection_flags_exact : forall f, 0 <= f < 2 ^ 32 ->
  exists r out, utils_translate_mem_protection_flags f = Some (r, out) /\
    (r = SUCCESS <-> forall k, 0 <= k -> flag_set f k -> k <= 3) /\
    (r <> SUCCESS -> r = ERR_INVALID_ARGUMENT) /\
    (r = SUCCESS -> forall i, 0 <= i ->
       (flag_set out i <-> (i = 0 /\ flag_set f 1) \/ (i = 1 /\ flag_set f 2) \/ (i = 2 /\ flag_set f 3))).
Proof. exact protection_flags_lemma. Qed.
Print Assumptions protection_flags_exact.

(* C42, boundary: with a limit above 2^31 (never used by the library) the loop
   does not end on an empty flag word, whatever the number of steps. *)
Theorem translate_flags_large_max_diverges : forall fuel max tr, 2 ^ 31 < max ->
  translate_loop fuel 1 max 0 0 tr = None.
Proof. exact translate_diverges. Qed.
Print Assumptions translate_flags_large_max_diverges.

(* The hypotheses are met by ordinary values. *)
Example utils_cases :
  ALIGN_UP_SAFE 4097 4096 = 8192 /\ ALIGN_UP_SAFE (U64 - 1) 4096 = 0 /\
  utils_align_ptr_up_size_down 4100 10000 4096 = (8192, 5908) /\
  utils_align_ptr_down_size_up 4100 10000 4096 = (4096, 12288) /\
  utils_translate_mem_protection_flags 6 = Some (SUCCESS, 3) /\
  utils_translate_mem_protection_flags 16 = Some (ERR_INVALID_ARGUMENT, 0).
Proof. repeat split; vm_compute; reflexivity. Qed.
