From Verif Require Import Base Model_Utils Proof_Utils.

(* bit i of the union of the translated set bits *)
Definition union_bit (in_f : Z) (tr : Z -> result * Z) (i : Z) : Prop :=
  exists k, 0 <= k < 32 /\ Z.testbit in_f k = true /\ Z.testbit (snd (tr (2 ^ k))) i = true.
Definition all_known (in_f max : Z) (tr : Z -> result * Z) : Prop :=
  forall k, 0 <= k -> Z.testbit in_f k = true -> 2 ^ k < max /\ fst (tr (2 ^ k)) = SUCCESS.

Lemma testbit_land_pow : forall x k, 0 <= k -> (Z.land x (2 ^ k) =? 0) = negb (Z.testbit x k).
Proof.
  intros x k Hk. destruct (Z.testbit x k) eqn:B; cbn.
  - apply Z.eqb_neq. intros E.
    assert (C : Z.testbit (Z.land x (2 ^ k)) k = true).
    { rewrite Z.land_spec, B, Z.pow2_bits_true by lia. reflexivity. }
    rewrite E, Z.bits_0 in C. discriminate.
  - apply Z.eqb_eq. apply Z.bits_inj'. intros i Hi. rewrite Z.land_spec, Z.bits_0.
    destruct (Z.eq_dec i k) as [->|N]; [rewrite B; reflexivity|].
    rewrite Z.pow2_bits_false by lia. apply andb_false_r.
Qed.

Lemma clear_bit : forall x k i, 0 <= x < 2 ^ 32 -> 0 <= k < 32 -> 0 <= i ->
  Z.testbit (Z.land x (2 ^ 32 - 1 - 2 ^ k)) i = Z.testbit x i && negb (i =? k).
Proof.
  intros x k i Hx Hk Hi.
  assert (E : 2 ^ 32 - 1 - 2 ^ k = Z.ldiff (Z.ones 32) (2 ^ k)).
  { rewrite <- Z.sub_nocarry_ldiff.
    - rewrite Z.ones_equiv. lia.
    - apply Z.bits_inj'. intros j Hj. rewrite Z.ldiff_spec, Z.bits_0.
      rewrite Z.testbit_ones by lia. destruct (Z.eq_dec j k) as [->|N].
      + rewrite Z.pow2_bits_true by lia. lia.
      + rewrite Z.pow2_bits_false by lia. reflexivity. }
  rewrite E, Z.land_spec, Z.ldiff_spec, Z.testbit_ones by lia.
  destruct (Z.ltb_spec i 32).
  - replace (0 <=? i) with true by lia. cbn [andb].
    destruct (Z.eqb_spec i k) as [->|N].
    + rewrite Z.pow2_bits_true by lia. reflexivity.
    + rewrite Z.pow2_bits_false by lia. reflexivity.
  - assert (Z.testbit x i = false) as ->; [|reflexivity].
    destruct (Z.eq_dec x 0) as [->|N]; [apply Z.bits_0|].
    apply Z.bits_above_log2; [lia|]. apply Z.log2_lt_pow2; [lia|].
    eapply Z.lt_le_trans; [apply Hx|]. apply Z.pow_le_mono_r; lia.
Qed.

Lemma land_small : forall x y, 0 <= x < 2 ^ 32 -> 0 <= y -> 0 <= Z.land x y < 2 ^ 32.
Proof.
  intros x y Hx Hy. split; [apply Z.land_nonneg; lia|].
  assert (E : Z.land x y = Z.land x y mod 2 ^ 32).
  { rewrite <- Z.land_ones by lia. rewrite (Z.land_comm x y), <- Z.land_assoc.
    rewrite Z.land_ones by lia. rewrite (Z.mod_small x) by lia. reflexivity. }
  rewrite E. apply Z.mod_pos_bound. lia.
Qed.


Lemma next_pow : forall k, 0 <= k <= 30 -> Z.shiftl (2 ^ k) 1 mod 2 ^ 32 = 2 ^ (k + 1).
Proof.
  intros k Hk. rewrite Z.shiftl_mul_pow2 by lia. rewrite <- Z.pow_add_r by lia.
  apply Z.mod_small. split; [apply Z.pow_nonneg; lia|]. apply Z.pow_lt_mono_r; lia.
Qed.

(* loop invariant: at bit k *)
Lemma loop_spec : forall fuel k max in_f out_f tr,
  0 <= k <= 31 -> max <= 2 ^ 31 -> 0 <= in_f < 2 ^ 32 ->
  32 - k <= Z.of_nat fuel ->
  (forall j, 0 <= j < k -> Z.testbit in_f j = false) ->
  exists r o, translate_loop fuel (2 ^ k) max in_f out_f tr = Some (r, o) /\
    (r = SUCCESS <-> all_known in_f max tr) /\
    (r = SUCCESS -> forall i, 0 <= i ->
       (Z.testbit o i = true <-> Z.testbit out_f i = true \/ union_bit in_f tr i)).
Proof.
  induction fuel as [|fuel IH]; intros k max in_f out_f tr Hk Hmax Hin Hf Hlow; [lia|].
  cbn [translate_loop]. destruct (Z.ltb_spec (2 ^ k) max) as [L|L].
  - assert (Hk30 : k <= 30).
    { destruct (Z.eq_dec k 31) as [->|]; [|lia]. exfalso. lia. }
    rewrite next_pow by lia. rewrite testbit_land_pow, negb_involutive by lia.
    destruct (Z.testbit in_f k) eqn:B.
    + destruct (tr (2 ^ k)) as [r0 flag] eqn:T.
      set (in' := Z.land in_f (2 ^ 32 - 1 - 2 ^ k)).
      assert (P32 : 2 ^ k < 2 ^ 32) by (apply Z.pow_lt_mono_r; lia).
      assert (Hin' : 0 <= in' < 2 ^ 32) by (apply land_small; lia).
      assert (Hlow' : forall j, 0 <= j < k + 1 -> Z.testbit in' j = false).
      { intros j Hj. unfold in'. rewrite clear_bit by lia.
        destruct (Z.eqb_spec j k) as [->|N]; [apply andb_false_r|]. rewrite Hlow by lia. reflexivity. }
      assert (Hin'b : forall j, 0 <= j -> (Z.testbit in' j = true <-> Z.testbit in_f j = true /\ j <> k)).
      { intros j Hj. unfold in'. rewrite clear_bit by lia. rewrite andb_true_iff, negb_true_iff, Z.eqb_neq. tauto. }
      assert (ERR : r0 <> SUCCESS -> (r0 = SUCCESS <-> all_known in_f max tr)).
      { intros N. split; [congruence|]. intros A. destruct (A k ltac:(lia) B) as (_ & A2).
        rewrite T in A2. exact A2. }
      destruct r0; try (eexists _, _; split; [reflexivity|]; split; [apply ERR; discriminate|discriminate]).
      destruct (IH (k + 1) max in' (Z.lor out_f flag) tr ltac:(lia) Hmax Hin' ltac:(lia) Hlow') as (r & o & E & R1 & R2).
      exists r, o. split; [exact E|]. split.
      * rewrite R1. unfold all_known. split; intros A j Hj BJ.
        -- destruct (Z.eq_dec j k) as [->|N]; [rewrite T; auto|].
           apply A; [exact Hj|]. apply Hin'b; auto.
        -- apply Hin'b in BJ; [|exact Hj]. apply A; [exact Hj|apply BJ].
      * intros S i Hi. rewrite (R2 S i Hi), Z.lor_spec, orb_true_iff. unfold union_bit. split.
        -- intros [[?|?]|(j & Hj & B1 & B2)]; [auto| |].
           ++ right. exists k. rewrite T. split; [lia|auto].
           ++ apply Hin'b in B1; [|lia]. right. exists j. split; [lia|]. split; [apply B1|exact B2].
        -- intros [?|(j & Hj & B1 & B2)]; [auto|]. destruct (Z.eq_dec j k) as [->|N].
           ++ rewrite T in B2. auto.
           ++ right. exists j. split; [lia|]. split; [apply Hin'b; [lia|auto]|exact B2].
    + apply (IH (k + 1) max in_f out_f tr ltac:(lia) Hmax Hin ltac:(lia)).
      intros j Hj. destruct (Z.eq_dec j k) as [->|N]; [exact B|apply Hlow; lia].
  - destruct (Z.eqb_spec in_f 0) as [->|N].
    + exists SUCCESS, out_f. split; [reflexivity|]. split.
      * split; [|reflexivity]. intros _ j Hj B. rewrite Z.bits_0 in B. discriminate.
      * intros _ i Hi. split; [auto|]. intros [?|(j & _ & B & _)]; [assumption|].
        rewrite Z.bits_0 in B. discriminate.
    + exists ERR_INVALID_ARGUMENT, 0. split; [reflexivity|]. split; [|discriminate].
      split; [discriminate|]. intros A. exfalso.
      assert (B : Z.testbit in_f (Z.log2 in_f) = true) by (apply Z.bit_log2; lia).
      pose proof (Z.log2_nonneg in_f) as LN.
      destruct (A _ LN B) as (A1 & _).
      assert (LT : 2 ^ Z.log2 in_f < 2 ^ k) by lia.
      apply Z.pow_lt_mono_r_iff in LT; [|lia|lia].
      rewrite Hlow in B by lia. discriminate.
Qed.

Lemma translate_flags_ok : forall in_f max tr, 0 <= in_f < 2 ^ 32 -> max <= 2 ^ 31 ->
  exists r out, utils_translate_flags in_f max tr = Some (r, out) /\
    (r = SUCCESS <-> all_known in_f max tr) /\
    (r = SUCCESS -> forall i, 0 <= i -> (Z.testbit out i = true <-> union_bit in_f tr i)).
Proof.
  intros in_f max tr Hin Hmax.
  destruct (loop_spec 64 0 max in_f 0 tr ltac:(lia) Hmax Hin ltac:(lia) ltac:(intros; lia)) as (r & o & E & R1 & R2).
  exists r, o. split; [exact E|]. split; [exact R1|]. intros S i Hi. rewrite (R2 S i Hi), Z.bits_0.
  split; [intros [C|?]; [discriminate|assumption]|auto].
Qed.

Lemma prot_known : forall f, 0 <= f < 2 ^ 32 ->
  (all_known f UMF_PROTECTION_MAX utils_translate_mem_protection_one_flag <-> f < 16).
Proof.
  intros f Hf. split.
  - intros A. destruct (Z.eq_dec f 0) as [->|N]; [lia|].
    pose proof (Z.log2_nonneg f).
    destruct (A (Z.log2 f) (Z.log2_nonneg f) (Z.bit_log2 f ltac:(lia))) as (A1 & _).
    unfold UMF_PROTECTION_MAX in A1.
    assert (Z.log2 f < 4).
    { apply (Z.pow_lt_mono_r_iff 2); [lia|lia|]. change (2 ^ 4) with 16. lia. }
    apply (Z.log2_lt_pow2 f 4); lia.
  - intros L k Hk B.
    assert (k < 4).
    { destruct (Z_lt_le_dec k 4); [assumption|]. rewrite Z.bits_above_log2 in B; [discriminate|lia|].
      destruct (Z.eq_dec f 0) as [->|N]; [cbn; lia|].
      apply Z.log2_lt_pow2; [lia|]. apply Z.lt_le_trans with (2 ^ 4); [lia|]. apply Z.pow_le_mono_r; lia. }
    assert (k = 0 \/ k = 1 \/ k = 2 \/ k = 3) as [-> | [-> | [-> | ->]]] by lia;
      split; reflexivity.
Qed.

Lemma prot_flags : forall f, 0 <= f < 2 ^ 32 ->
  utils_translate_mem_protection_flags f =
  Some (if f <? 16 then (SUCCESS, Z.lor (if Z.testbit f 1 then PROT_READ else 0)
                                 (Z.lor (if Z.testbit f 2 then PROT_WRITE else 0)
                                        (if Z.testbit f 3 then PROT_EXEC else 0)))
        else (ERR_INVALID_ARGUMENT, 0)).
Proof.
  intros f Hf. destruct (Z.ltb_spec f 16) as [L|L].
  - assert (C : forallb (fun x => match utils_translate_mem_protection_flags x with
        | Some (SUCCESS, o) => o =? Z.lor (if Z.testbit x 1 then PROT_READ else 0)
                                 (Z.lor (if Z.testbit x 2 then PROT_WRITE else 0)
                                        (if Z.testbit x 3 then PROT_EXEC else 0))
        | _ => false end) (map Z.of_nat (seq 0 16)) = true) by (vm_compute; reflexivity).
    rewrite forallb_forall in C. specialize (C f).
    assert (I : In f (map Z.of_nat (seq 0 16))).
    { apply in_map_iff. exists (Z.to_nat f). split; [lia|]. apply in_seq. lia. }
    specialize (C I). destruct (utils_translate_mem_protection_flags f) as [[[] o]|]; try discriminate.
    apply Z.eqb_eq in C. rewrite C. reflexivity.
  - unfold utils_translate_mem_protection_flags, utils_translate_flags.
    assert (G : forall fuel k in_f o, (5 <= fuel)%nat -> 0 <= k <= 4 -> 0 <= in_f < 2 ^ 32 ->
       (exists j, 4 <= j /\ Z.testbit in_f j = true) -> 5 - k <= Z.of_nat fuel ->
       translate_loop fuel (2 ^ k) UMF_PROTECTION_MAX in_f o utils_translate_mem_protection_one_flag
         = Some (ERR_INVALID_ARGUMENT, 0)).
    2:{ apply (G 64%nat 0); try lia. exists (Z.log2 f). split; [|apply Z.bit_log2; lia].
        apply Z.log2_le_pow2; [lia|]. exact L. }
    clear f Hf L. 
    assert (G : forall fuel k in_f o, 0 <= k <= 4 -> 0 <= in_f < 2 ^ 32 ->
       (exists j, 4 <= j /\ Z.testbit in_f j = true) -> 5 - k <= Z.of_nat fuel ->
       translate_loop fuel (2 ^ k) UMF_PROTECTION_MAX in_f o utils_translate_mem_protection_one_flag
         = Some (ERR_INVALID_ARGUMENT, 0)).
    2:{ intros; apply G; auto. }
    induction fuel as [|fuel IH]; intros k in_f o Hk Hin (j & Hj & BJ) Hf; [lia|].
    cbn [translate_loop]. unfold UMF_PROTECTION_MAX.
    destruct (Z.ltb_spec (2 ^ k) 9) as [L|L].
    + assert (k < 4).
      { destruct (Z.eq_dec k 4) as [->|]; [|lia]. exfalso. change (2 ^ 4) with 16 in L. lia. }
      rewrite next_pow by lia. rewrite testbit_land_pow, negb_involutive by lia.
      destruct (Z.testbit in_f k) eqn:B.
      * assert (T : exists fl, utils_translate_mem_protection_one_flag (2 ^ k) = (SUCCESS, fl)).
        { assert (k = 0 \/ k = 1 \/ k = 2 \/ k = 3) as [-> | [-> | [-> | ->]]] by lia; eexists; reflexivity. }
        destruct T as (fl & ->). apply IH; try lia.
        -- assert (2 ^ k < 2 ^ 32) by (apply Z.pow_lt_mono_r; lia). apply land_small; lia.
        -- exists j. split; [exact Hj|]. rewrite clear_bit, BJ by lia. lia.
      * apply IH; try lia. eauto.
    + destruct (Z.eqb_spec in_f 0) as [->|N]; [rewrite Z.bits_0 in BJ; discriminate|reflexivity].
Qed.

(* For max > 2^31 the C loop never ends on a flag word without set bits. *)
Lemma zero_stuck : forall fuel max tr o, 0 < max -> translate_loop fuel 0 max 0 o tr = None.
Proof.
  induction fuel as [|fuel IH]; intros; cbn [translate_loop]; [reflexivity|].
  replace (0 <? max) with true by lia. rewrite Z.land_0_l. cbn [Z.eqb negb].
  change (Z.shiftl 0 1 mod 2 ^ 32) with 0. apply IH. assumption.
Qed.
Lemma translate_diverges : forall fuel max tr, 2 ^ 31 < max -> translate_loop fuel 1 max 0 0 tr = None.
Proof.
  intros fuel max tr Hm.
  assert (G : forall fuel k, 0 <= k <= 31 -> translate_loop fuel (2 ^ k) max 0 0 tr = None).
  { clear fuel. induction fuel as [|fuel IH]; intros k Hk; cbn [translate_loop]; [reflexivity|].
    assert (2 ^ k <= 2 ^ 31) by (apply Z.pow_le_mono_r; lia).
    replace (2 ^ k <? max) with true by lia. rewrite Z.land_0_l. cbn [Z.eqb negb].
    destruct (Z.eq_dec k 31) as [->|N].
    - change (Z.shiftl (2 ^ 31) 1 mod 2 ^ 32) with 0. apply zero_stuck. lia.
    - rewrite next_pow by lia. apply IH. lia. }
  apply (G fuel 0). lia.
Qed.
