(* Size classes: the table built at initialisation and the index computation. *)
From Verif Require Import Base Model_Utils Spec_Utils Proof_Utils Model_Disjoint Spec_Disjoint.

Definition exp_ok (e : Z) : Prop := 3 <= e <= 31.
Lemma max_val : forall a b, utils_max a b = Z.max a b. Proof. intros. unfold utils_max. destruct (Z.gtb_spec a b); lia. Qed.
Lemma min_val : forall a b, utils_min a b = Z.min a b. Proof. intros. unfold utils_min. destruct (Z.ltb_spec a b); lia. Qed.

Lemma first_size : forall P, power_of_two (min_bucket_size P) ->
  exists e, smallest_class P e /\ exp_ok e /\ first_bucket_size P = 2 ^ e.
Proof.
  intros P (n & N & E). unfold first_bucket_size, CutOff, MIN_BUCKET_DEFAULT_SIZE. rewrite max_val, min_val.
  destruct (Z_lt_le_dec n 3) as [L|L].
  - exists 3. assert (min_bucket_size P <= 8) by (rewrite E; change 8 with (2 ^ 3); apply Z.pow_le_mono_r; lia).
    split; [split; [lia|left; lia]|]. split; [unfold exp_ok; lia|]. lia.
  - destruct (Z_lt_le_dec 31 n) as [G|G].
    + exists 31. assert (2 ^ 31 <= min_bucket_size P) by (rewrite E; apply Z.pow_le_mono_r; lia).
      split; [split; [lia|right; right; lia]|]. split; [unfold exp_ok; lia|]. lia.
    + exists n. assert (2 ^ 3 <= min_bucket_size P) by (rewrite E; apply Z.pow_le_mono_r; lia).
      assert (min_bucket_size P <= 2 ^ 31) by (rewrite E; apply Z.pow_le_mono_r; lia).
      split; [split; [lia|right; left; split; [lia|exact E]]|]. split; [unfold exp_ok; lia|]. rewrite <- E. lia.
Qed.
Lemma smallest_unique : forall P e e', smallest_class P e -> smallest_class P e' -> e = e'.
Proof.
  intros P e e' (E0 & E) (E0' & E').
  assert (INJ : forall a b, 0 <= a -> 0 <= b -> 2 ^ a = 2 ^ b -> a = b) by (intros; apply (Z.pow_inj_r 2); lia).
  destruct E as [(A & ->)|[(A & B)|(A & ->)]]; destruct E' as [(C & ->)|[(C & D)|(C & ->)]]; try lia.
  all: apply INJ; [lia|lia|]; change (2 ^ 3) with 8 in *; change (2 ^ 31) with 2147483648 in *; lia.
Qed.

Lemma half : forall k, 1 <= k -> 2 ^ k + 2 ^ k / 2 = 3 * 2 ^ (k - 1).
Proof. intros k K. replace k with (Z.succ (k - 1)) at 1 2 by lia. rewrite Z.pow_succ_r by lia. rewrite (Z.mul_comm 2), Z.div_mul by lia. lia. Qed.
Lemma table_nth : forall f k, 1 <= k <= 31 -> 31 - k < Z.of_nat f ->
  let l := bucket_sizes f (2 ^ k) (3 * 2 ^ (k - 1)) in
  (forall p, k <= p <= 31 -> nth_error l (Z.to_nat ((p - k) * 2)) = Some (2 ^ p)) /\
  (forall p, k <= p < 31 -> nth_error l (Z.to_nat ((p - k) * 2 + 1)) = Some (3 * 2 ^ (p - 1))) /\
  Z.of_nat (length l) = (31 - k) * 2 + 1.
Proof.
  induction f as [|f IH]; intros k K F; [lia|]. cbn [bucket_sizes].
  destruct (Z.eq_dec k 31) as [->|NE].
  - change (3 * 2 ^ (31 - 1) <? CutOff) with false. cbv iota zeta. split; [|split]; [intros p Hp|intros p Hp; lia|reflexivity].
    replace p with 31 by lia. reflexivity.
  - assert (C : 3 * 2 ^ (k - 1) < CutOff).
    { assert (2 ^ (k - 1) <= 2 ^ 29) by (apply Z.pow_le_mono_r; lia). unfold CutOff. change (2 ^ 31) with (4 * 2 ^ 29). change (2 ^ 29) with 536870912 in *. lia. }
    rewrite (proj2 (Z.ltb_lt _ _) C). replace (2 ^ k * 2) with (2 ^ (k + 1)) by (rewrite Z.pow_add_r by lia; change (2 ^ 1) with 2; lia).
    replace (3 * 2 ^ (k - 1) * 2) with (3 * 2 ^ (k + 1 - 1)) by (replace (k + 1 - 1) with (Z.succ (k - 1)) by lia; rewrite Z.pow_succ_r by lia; lia).
    destruct (IH (k + 1) ltac:(lia) ltac:(lia)) as (A & B & L). cbv zeta. split; [|split].
    + intros p Hp. destruct (Z.eq_dec p k) as [->|]; [rewrite Z.sub_diag; reflexivity|].
      replace (Z.to_nat ((p - k) * 2)) with (S (S (Z.to_nat ((p - (k + 1)) * 2)))) by lia. cbn [nth_error]. apply A. lia.
    + intros p Hp. destruct (Z.eq_dec p k) as [->|]; [rewrite Z.sub_diag; reflexivity|].
      replace (Z.to_nat ((p - k) * 2 + 1)) with (S (S (Z.to_nat ((p - (k + 1)) * 2 + 1)))) by lia. cbn [nth_error]. apply B. lia.
    + cbn [length]. lia.
Qed.
Lemma table_facts : forall P e, exp_ok e -> first_bucket_size P = 2 ^ e ->
  (forall p, e <= p <= 31 -> nth_error (bucket_table P) (Z.to_nat ((p - e) * 2)) = Some (2 ^ p)) /\
  (forall p, e <= p < 31 -> nth_error (bucket_table P) (Z.to_nat ((p - e) * 2 + 1)) = Some (3 * 2 ^ (p - 1))) /\
  Z.of_nat (length (bucket_table P)) = (31 - e) * 2 + 1.
Proof. intros P e E F. unfold bucket_table. cbv zeta. rewrite F. rewrite half by (unfold exp_ok in E; lia). unfold exp_ok in E. apply table_nth; lia. Qed.

Lemma three_halves : forall k, 1 <= k -> 2 ^ k + 2 ^ (k - 1) = 3 * 2 ^ (k - 1).
Proof. intros k K. replace k with (Z.succ (k - 1)) at 1 by lia. rewrite Z.pow_succ_r by lia. lia. Qed.
(* a number is a class exactly if it is in the table *)
Lemma class_in_table : forall P c, power_of_two (min_bucket_size P) -> (is_class P c <-> In c (bucket_table P)).
Proof.
  intros P c PW. destruct (first_size P PW) as (e & SM & EX & F). destruct (table_facts P e EX F) as (A & B & L). split.
  - intros (e' & k & SM' & K & C). rewrite (smallest_unique P e' e SM' SM) in K.
    destruct C as [->|(K' & ->)]; [eapply nth_error_In; apply A; lia|].
    rewrite three_halves by (unfold exp_ok in EX; lia). eapply nth_error_In; apply B; lia.
  - intros IN. apply In_nth_error in IN. destruct IN as (n & N).
    assert (LN : (n < length (bucket_table P))%nat) by (apply nth_error_Some; congruence).
    exists e. destruct (Z.Even_or_Odd (Z.of_nat n)) as [(m & M)|(m & M)].
    + exists (e + m). split; [exact SM|]. split; [lia|]. left. specialize (A (e + m) ltac:(lia)).
      replace (Z.to_nat ((e + m - e) * 2)) with n in A by lia. congruence.
    + exists (e + m). split; [exact SM|]. split; [lia|]. right. specialize (B (e + m) ltac:(lia)).
      replace (Z.to_nat ((e + m - e) * 2 + 1)) with n in B by lia. split; [lia|]. rewrite three_halves by (unfold exp_ok in EX; lia). congruence.
Qed.

Lemma land_pow2_bit : forall x n, 0 <= n -> (Z.land x (2 ^ n) =? 0) = negb (Z.testbit x n).
Proof.
  intros x n N. destruct (Z.testbit x n) eqn:T; cbn [negb].
  - apply Z.eqb_neq. intros E. assert (X : Z.testbit (Z.land x (2 ^ n)) n = true) by (rewrite Z.land_spec, T, Z.pow2_bits_true by lia; reflexivity).
    rewrite E, Z.bits_0 in X. discriminate.
  - apply Z.eqb_eq. apply Z.bits_inj'. intros k K. rewrite Z.land_spec, Z.bits_0. destruct (Z.eq_dec k n) as [->|]; [rewrite T; reflexivity|].
    rewrite Z.pow2_bits_false by lia. apply andb_false_r.
Qed.
(* bit p-1 of x, with 2^p <= x < 2^(p+1) *)
Lemma second_bit : forall x p, 1 <= p -> 2 ^ p <= x < 2 ^ (p + 1) -> (Z.testbit x (p - 1) = true <-> 3 * 2 ^ (p - 1) <= x).
Proof.
  intros x p Hp R. rewrite Z.testbit_true by lia.
  assert (E1 : 2 ^ p = 2 * 2 ^ (p - 1)) by (replace p with (Z.succ (p - 1)) at 1 by lia; apply Z.pow_succ_r; lia).
  assert (E2 : 2 ^ (p + 1) = 2 * 2 ^ p) by (apply Z.pow_succ_r; lia).
  assert (POS : 0 < 2 ^ (p - 1)) by (apply Z.pow_pos_nonneg; lia).
  set (h := 2 ^ (p - 1)) in *. assert (Q : x / h = 2 \/ x / h = 3).
  { assert (2 <= x / h) by (apply Z.div_le_lower_bound; lia). assert (x / h < 4) by (apply Z.div_lt_upper_bound; lia). lia. }
  pose proof (Z.div_mod x h ltac:(lia)) as DM. pose proof (Z.mod_pos_bound x h POS) as MB.
  split.
  - intros M. destruct Q as [Q|Q]; rewrite Q in M; [discriminate M|]. rewrite Q in DM. lia.
  - intros G. assert (3 <= x / h) by (apply Z.div_le_lower_bound; lia). assert (x / h = 3) as -> by lia. reflexivity.
Qed.

Lemma class_cases : forall P e c, smallest_class P e -> exp_ok e -> is_class P c -> exists k, e <= k <= 31 /\ (c = 2 ^ k \/ (k < 31 /\ c = 3 * 2 ^ (k - 1))).
Proof.
  intros P e c SM EX (e' & k & SM' & K & C). rewrite (smallest_unique P e' e SM' SM) in K. exists k. split; [exact K|].
  destruct C as [->|(K' & ->)]; [left; reflexivity|right]. split; [exact K'|]. apply three_halves. unfold exp_ok in EX. lia.
Qed.
Lemma pow_le : forall a b, 0 <= a <= b -> 2 ^ a <= 2 ^ b. Proof. intros. apply Z.pow_le_mono_r; lia. Qed.
Lemma pow_S : forall k, 0 <= k -> 2 ^ (k + 1) = 2 * 2 ^ k. Proof. intros. rewrite Z.pow_add_r by lia. change (2 ^ 1) with 2. lia. Qed.
Lemma pow_P : forall k, 1 <= k -> 2 ^ k = 2 * 2 ^ (k - 1). Proof. intros. replace k with (k - 1 + 1) at 1 by lia. apply pow_S. lia. Qed.

Theorem idx_class : forall dbg P size, power_of_two (min_bucket_size P) -> 0 < size <= 2 ^ 31 ->
  exists i c, size_to_idx dbg P size = Some i /\ nth_error (bucket_table P) i = Some c /\ class_for P size c.
Proof.
  intros dbg P size PW SZ. destruct (first_size P PW) as (e & SM & EX & F). destruct (table_facts P e EX F) as (A & B & L).
  assert (EE : min_bucket_size_exp P = e) by (unfold min_bucket_size_exp, utils_msb64; rewrite F; apply Z.log2_pow2; unfold exp_ok in EX; lia).
  unfold size_to_idx. rewrite EE. replace (dbg && ((CutOff <? size) || (size =? 0))) with false
    by (rewrite (proj2 (Z.ltb_ge CutOff size)) by (unfold CutOff; lia); rewrite (proj2 (Z.eqb_neq size 0)) by lia; rewrite andb_false_r; reflexivity).
  unfold exp_ok in EX. destruct (Z.ltb_spec size (2 ^ e)) as [LT|GE].
  - exists O, (2 ^ e). split; [reflexivity|]. split; [specialize (A e ltac:(lia)); rewrite Z.sub_diag in A; exact A|]. split; [|split; [lia|]].
    + exists e, e. split; [exact SM|]. split; [lia|]. left; reflexivity.
    + intros c' CL _. destruct (class_cases P e c' SM EX CL) as (k & K & [->|(_ & ->)]); pose proof (pow_le e k ltac:(lia)); [lia|].
      pose proof (pow_P k ltac:(lia)). pose proof (Z.pow_pos_nonneg 2 (k - 1) ltac:(lia) ltac:(lia)). lia.
  - cbv zeta. unfold utils_msb64. set (p := Z.log2 size). assert (PS : 2 ^ p <= size < 2 ^ (p + 1)) by (apply Z.log2_spec; lia).
    assert (PR : e <= p <= 31). { split; [apply Z.log2_le_pow2; lia|]. change 31 with (Z.log2 (2 ^ 31)). apply Z.log2_le_mono. lia. }
    assert (PW2 : IS_POWER_OF_2 size = true <-> size = 2 ^ p).
    { rewrite is_pow2_spec by (split; [lia|unfold U64; change (2 ^ 31) with 2147483648 in SZ; lia]). split.
      - intros (n & N & X). unfold p. rewrite X, Z.log2_pow2 by lia. reflexivity.
      - intros X. exists p. split; [lia|exact X]. }
    destruct (IS_POWER_OF_2 size) eqn:IP.
    + cbn [negb andb]. rewrite !Z.add_0_r. eexists _, _. split; [reflexivity|]. split; [apply A; lia|]. pose proof (proj1 PW2 eq_refl) as SE.
      split; [|split; [lia|intros; lia]]. exists e, p. split; [exact SM|]. split; [lia|left; reflexivity].
    + assert (NE : size <> 2 ^ p) by (intros X; apply PW2 in X; discriminate). cbn [negb andb].
      assert (P31 : p < 31). { destruct (Z.eq_dec p 31) as [X|]; [rewrite X in PS, NE; lia|lia]. }
      rewrite land_pow2_bit, negb_involutive by lia. pose proof (second_bit (size - 1) p ltac:(lia) ltac:(lia)) as SB.
      pose proof (pow_P p ltac:(lia)) as PP. pose proof (pow_S p ltac:(lia)) as PS1. pose proof (Z.pow_pos_nonneg 2 (p - 1) ltac:(lia) ltac:(lia)) as POS.
      destruct (Z.testbit (size - 1) (p - 1)) eqn:T.
      * pose proof (proj1 SB eq_refl) as G. exists (Z.to_nat ((p - e) * 2 + 1 + 1)), (2 ^ (p + 1)). split; [reflexivity|]. split.
        { specialize (A (p + 1) ltac:(lia)). replace ((p + 1 - e) * 2) with ((p - e) * 2 + 1 + 1) in A by lia. exact A. }
        split; [exists e, (p + 1); split; [exact SM|]; split; [lia|left; reflexivity]|]. split; [lia|].
        intros c' CL LE. destruct (class_cases P e c' SM EX CL) as (k & K & [->|(K31 & ->)]).
        -- destruct (Z_le_gt_dec (p + 1) k) as [X|X]; [apply pow_le; lia|]. pose proof (pow_le k p ltac:(lia)). lia.
        -- destruct (Z_le_gt_dec (p + 1) k) as [X|X]; [pose proof (pow_le (p + 1) k ltac:(lia)); pose proof (pow_P k ltac:(lia)); lia|].
           pose proof (pow_le (k - 1) (p - 1) ltac:(lia)). lia.
      * assert (G : size - 1 < 3 * 2 ^ (p - 1)) by (destruct (Z_lt_le_dec (size - 1) (3 * 2 ^ (p - 1))) as [|X]; [assumption|apply SB in X; discriminate]).
        rewrite Z.add_0_r. exists (Z.to_nat ((p - e) * 2 + 1)), (3 * 2 ^ (p - 1)). split; [reflexivity|]. split; [apply B; lia|].
        split; [exists e, p; split; [exact SM|]; split; [lia|right; split; [lia|rewrite three_halves by lia; reflexivity]]|]. split; [lia|].
        intros c' CL LE. destruct (class_cases P e c' SM EX CL) as (k & K & [->|(K31 & ->)]).
        -- destruct (Z_le_gt_dec (p + 1) k) as [X|X]; [pose proof (pow_le (p + 1) k ltac:(lia)); lia|]. pose proof (pow_le k p ltac:(lia)). lia.
        -- destruct (Z_le_gt_dec p k) as [X|X]; [pose proof (pow_le (p - 1) (k - 1) ltac:(lia)); lia|].
           pose proof (pow_le (k - 1 + 1) (p - 1) ltac:(lia)). pose proof (pow_S (k - 1) ltac:(lia)). lia.
Qed.

Lemma class_unique : forall P n c c', class_for P n c -> class_for P n c' -> c = c'.
Proof. intros P n c c' (A & B & C) (A' & B' & C'). pose proof (C c' A' B'). pose proof (C' c A B). lia. Qed.
Lemma class_bounds : forall P c, is_class P c -> 8 <= c <= 2 ^ 31.
Proof.
  intros P c CL. destruct CL as (e & k & SM & K & C).
  assert (3 <= e). { destruct SM as (E0 & [(A & ->)|[(A & B)|(A & ->)]]); try lia. destruct (Z_le_gt_dec 3 e); [lia|]. pose proof (pow_le e 2 ltac:(lia)). change (2 ^ 2) with 4 in *. lia. }
  pose proof (pow_le 3 k ltac:(lia)). pose proof (pow_le k 31 ltac:(lia)). pose proof (Z.pow_pos_nonneg 2 (k - 1) ltac:(lia) ltac:(lia)). change (2 ^ 3) with 8 in *.
  destruct C as [->|(K' & ->)]; [lia|]. pose proof (pow_P k ltac:(lia)). pose proof (pow_le (k + 1) 31 ltac:(lia)). pose proof (pow_S k ltac:(lia)). lia.
Qed.

(* the class of a request that is a multiple of a power of two is a multiple too *)
Lemma class_multiple : forall P n c a, power_of_two (min_bucket_size P) -> power_of_two a -> 0 < n -> n mod a = 0 -> class_for P n c -> c mod a = 0.
Proof.
  intros P n c a PW (m & M & ->) N0 NM (CL & LE & _MIN). destruct (first_size P PW) as (e & SM & EX & F).
  pose proof (Z.pow_pos_nonneg 2 m ltac:(lia) ltac:(lia)) as PM.
  assert (AN : 2 ^ m <= n). { apply Z.mod_divide in NM; [|lia]. destruct NM as (q & E). clear - E N0 PM. set (a := 2 ^ m) in *. destruct (Z_lt_le_dec q 1); nia. }
  destruct (class_cases P e c SM EX CL) as (k & K & [->|(K31 & ->)]); unfold exp_ok in EX.
  - assert (m <= k) by (destruct (Z_le_gt_dec m k) as [X|X]; [lia|]; pose proof (Z.pow_lt_mono_r 2 k m ltac:(lia) ltac:(lia) ltac:(lia)); lia).
    replace k with (k - m + m) by lia. rewrite Z.pow_add_r by lia. apply Z.mod_mul. lia.
  - destruct (Z_le_gt_dec m (k - 1)) as [X|X].
    + replace (k - 1) with (k - 1 - m + m) by lia. rewrite Z.pow_add_r, Z.mul_assoc by lia. apply Z.mod_mul. lia.
    + exfalso. pose proof (pow_P k ltac:(lia)) as E1. pose proof (Z.pow_pos_nonneg 2 (k - 1) ltac:(lia) ltac:(lia)).
      assert (m = k) as ->. { destruct (Z.eq_dec m k); [assumption|]. pose proof (pow_le (k + 1) m ltac:(lia)). pose proof (pow_S k ltac:(lia)). lia. }
      apply Z.mod_divide in NM; [|lia]. destruct NM as (q & E).
      (* n = q * 2^k <= 3 * 2^(k-1), so q = 1 and 2^k would do *)
      assert (q = 1) by (clear - E LE AN E1 H; set (h := 2 ^ (k - 1)) in *; nia). subst q. specialize (_MIN (2 ^ k)).
      assert (is_class P (2 ^ k)) as CK by (exists e, k; split; [exact SM|]; split; [lia|left; reflexivity]). specialize (_MIN CK). lia.
Qed.
