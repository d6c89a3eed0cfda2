(* The chunk allocator: free list and live chunks together are all chunks. *)
From Verif Require Import Base Model_Utils Spec_Utils Proof_Utils Model_BaseAlloc Spec_BaseAlloc.
From Coq Require FinFun.

Lemma nodup_app : forall {A} (l m : list A), NoDup l -> NoDup m -> (forall x, In x l -> ~ In x m) -> NoDup (l ++ m).
Proof.
  intros A l m L M D. induction L as [|x l N L IH]; [exact M|]. cbn [app]. constructor; [|apply IH; intros y Y; apply D; right; exact Y].
  rewrite in_app_iff. intros [X|X]; [exact (N X)|exact (D x (or_introl eq_refl) X)].
Qed.
(* ---- carving ---- *)
Lemma carve_in : forall chunk f d left x, 0 < chunk -> left < Z.of_nat f * chunk -> (In x (carve f d left chunk) <-> exists i, 0 <= i /\ (i + 1) * chunk <= left /\ x = d + i * chunk).
Proof.
  intros chunk f. induction f as [|f IH]; intros d left x C L; cbn [carve].
  - split; [intros []|]. intros (i & A & B & _). nia.
  - destruct (Z.leb_spec chunk left) as [G|G].
    + cbn [In]. rewrite IH by (try assumption; nia). split.
      * intros [<-|(i & A & B & ->)]; [exists 0; lia|]. exists (i + 1). lia.
      * intros (i & A & B & ->). destruct (Z.eq_dec i 0) as [->|N]; [left; lia|]. right. exists (i - 1). lia.
    + split; [intros []|]. intros (i & A & B & _). nia.
Qed.
Lemma carve_nodup : forall chunk f d left, 0 < chunk -> left < Z.of_nat f * chunk -> NoDup (carve f d left chunk).
Proof.
  intros chunk f. induction f as [|f IH]; intros d left C L; cbn [carve]; [constructor|]. destruct (Z.leb_spec chunk left) as [G|G]; [|constructor].
  constructor; [|apply IH; [assumption|nia]]. rewrite carve_in by (try assumption; nia). intros (i & A & B & E). nia.
Qed.
Lemma carve_length : forall chunk f d left, 0 < chunk -> 0 <= left -> left < Z.of_nat f * chunk -> Z.of_nat (length (carve f d left chunk)) = left / chunk.
Proof.
  intros chunk f. induction f as [|f IH]; intros d left C L0 L; cbn [carve]; [nia|]. destruct (Z.leb_spec chunk left) as [G|G].
  - cbn [length]. rewrite Nat2Z.inj_succ, IH by (try assumption; nia). replace left with ((left - chunk) + 1 * chunk) at 2 by lia. rewrite Z.div_add by lia. lia.
  - cbn [length]. symmetry. apply Z.div_small. lia.
Qed.
Lemma fuel_enough : forall left chunk, 0 < chunk -> 0 <= left -> left < Z.of_nat (S (Z.to_nat (left / chunk))) * chunk.
Proof. intros left chunk C L. pose proof (Z.div_mod left chunk ltac:(lia)). pose proof (Z.mod_pos_bound left chunk C). pose proof (Z.div_pos left chunk L C). nia. Qed.

(* all chunks of a pool at p whose data starts at offset off *)
Definition places (size chunk off p : Z) : list Z := carve (S (Z.to_nat ((size - off) / chunk))) (p + off) (size - off) chunk.
Definition all_places (c : consts) (b : ba) : list Z :=
  concat (map (places (b_size b) (b_chunk b) 8) (b_pools b)) ++ places (b_size b) (b_chunk b) (k_header c) (b_base b).
Definition regs (b : ba) : list (Z * Z) := map (fun p => (p, b_size b)) (b_pools b) ++ [(b_base b, b_size b)].

Record ok (c : consts) (b : ba) (live : list Z) : Prop := Ok {
  o_chunk : 0 < b_chunk b /\ b_chunk b mod 8 = 0;
  o_size : k_header c + 2 * b_chunk b <= b_size b /\ multiple_of (b_size b) (k_page c);
  o_perm : Permutation (b_free b ++ live) (all_places c b);
  o_allocs : b_allocs b = Z.of_nat (length live);
  o_chunks : b_nchunks b = Z.of_nat (length (all_places c b));
  o_pools : b_npools b = Z.of_nat (S (length (b_pools b)));
  o_regs : forall p n, In (p, n) (regs b) -> 0 < p /\ p + n < U64 /\ multiple_of p (k_page c);
  o_nodup : NoDup (b_pools b ++ [b_base b]);
  o_apart : forall p n q m, In (p, n) (regs b) -> In (q, m) (regs b) -> p <> q -> apart p n q m;
  o_total : held_bytes (regs b) < U64 }.

Lemma places_in : forall size chunk off p x, 0 < chunk -> 0 <= size - off -> (In x (places size chunk off p) <-> exists i, 0 <= i /\ off + (i + 1) * chunk <= size /\ x = p + off + i * chunk).
Proof. intros size chunk off p x C L. unfold places. rewrite carve_in by (auto using fuel_enough). split; intros (i & A & B & ->); exists i; lia. Qed.
Lemma all_in : forall c b live x, ok c b live -> (In x (all_places c b) <-> exists p off i, (In p (b_pools b) /\ off = 8 \/ p = b_base b /\ off = k_header c) /\ 0 <= i /\ off + (i + 1) * b_chunk b <= b_size b /\ x = p + off + i * b_chunk b).
Proof.
  intros c b live x O. destruct O. destruct o_chunk0 as (C & _). destruct o_size0 as (S1 & _). unfold all_places. rewrite in_app_iff, in_concat. split.
  - intros [(l & L & X)|X].
    + apply in_map_iff in L. destruct L as (p & <- & P). destruct (Z_le_gt_dec 0 (b_size b - 8)) as [G|G].
      * apply places_in in X; [|assumption|lia]. destruct X as (i & X). exists p, 8, i. intuition.
      * exfalso. unfold places in X. destruct (Z.to_nat ((b_size b - 8) / b_chunk b)); cbn in X; destruct (Z.leb_spec (b_chunk b) (b_size b - 8)); try lia; destruct X.
    + destruct (Z_le_gt_dec 0 (b_size b - k_header c)) as [G|G]; [|lia]. apply places_in in X; [|assumption|lia]. destruct X as (i & X). exists (b_base b), (k_header c), i. intuition.
  - intros (p & off & i & [(P & ->)|(-> & ->)] & A & B & E).
    + left. exists (places (b_size b) (b_chunk b) 8 p). split; [apply in_map; exact P|]. apply places_in; [assumption|nia|]. exists i. auto.
    + right. apply places_in; [assumption|nia|]. exists i. auto.
Qed.
Lemma reg_in : forall b p, In (p, b_size b) (regs b) <-> In p (b_pools b) \/ p = b_base b.
Proof.
  intros b p. unfold regs. rewrite in_app_iff, in_map_iff. cbn. split.
  - intros [(q & E & Q)|[E|[]]]; [injection E as ->; auto|injection E as ->; auto].
  - intros [P| ->]; [left; eauto|right; left; reflexivity].
Qed.
Lemma reg_size : forall b p n, In (p, n) (regs b) -> n = b_size b.
Proof. intros b p n H. unfold regs in H. apply in_app_iff in H. destruct H as [H|[H|[]]]; [apply in_map_iff in H; destruct H as (q & E & _)|]; congruence. Qed.

(* a chunk: its region, and the header in front of it *)
Lemma place_bounds : forall c b live x, machine c -> ok c b live -> In x (all_places c b) ->
  exists p, In (p, b_size b) (regs b) /\ p + 8 <= x /\ x + b_chunk b <= p + b_size b /\ (In p (b_pools b) \/ p = b_base b /\ p + k_header c <= x) /\ x mod 8 = 0.
Proof.
  intros c b live x M O X. pose proof X as X0. apply (all_in c b live x O) in X. destruct X as (p & off & i & P & A & B & ->). exists p.
  destruct (header_ok c M) as (h & H1 & H2). destruct (page_pow c M) as ((k & K & PK) & PG). destruct (o_chunk _ _ _ O) as (C & C8).
  assert (R : In (p, b_size b) (regs b)) by (apply reg_in; tauto). split; [exact R|]. destruct (o_regs _ _ _ O p _ R) as (P0 & PU & (q & PQ)).
  assert (O8 : 8 <= off) by (destruct P as [(_ & ->)|(_ & ->)]; lia).
  assert (8 * (off / 8) = off) by (destruct P as [(_ & ->)|(_ & ->)]; dlia). split; [nia|]. split; [nia|]. split; [destruct P as [(P & _)|(P & ->)]; [left; exact P|right; split; [exact P|nia]]|].
  assert (PM : p mod 8 = 0). { rewrite PQ, PK. replace k with (3 + (k - 3)) by lia. assert (3 <= k). { destruct (Z_lt_le_dec k 3); [|lia]. assert (k = 0 \/ k = 1 \/ k = 2) as [->|[->| ->]] by lia; cbn in PK; lia. } rewrite Z.pow_add_r by lia. change (2 ^ 3) with 8. replace (q * (8 * 2 ^ (k - 3))) with (q * 2 ^ (k - 3) * 8) by ring. apply Z.mod_mul. lia. }
  clear - PM C8 H. pose proof (Z.div_mod p 8 ltac:(lia)). pose proof (Z.div_mod (b_chunk b) 8 ltac:(lia)). rewrite PM in *. rewrite C8 in *.
  replace (p + off + i * b_chunk b) with ((p / 8 + off / 8 + i * (b_chunk b / 8)) * 8) by nia. apply Z.mod_mul. lia.
Qed.
Lemma places_apart : forall c b live x y, machine c -> ok c b live -> In x (all_places c b) -> In y (all_places c b) -> x <> y -> apart x (b_chunk b) y (b_chunk b).
Proof.
  intros c b live x y M O X Y N. apply (all_in c b live x O) in X. apply (all_in c b live y O) in Y. destruct X as (p & off & i & P & A & B & ->). destruct Y as (q & off' & j & Q & A' & B' & ->).
  destruct (o_chunk _ _ _ O) as (C & _). destruct (header_ok c M) as (h & H1 & H2). unfold apart. assert (O1 : 8 <= off) by (destruct P as [(_ & ->)|(_ & ->)]; lia). assert (O2 : 8 <= off') by (destruct Q as [(_ & ->)|(_ & ->)]; lia).
  destruct (Z.eq_dec p q) as [<-|D].
  - assert (off = off') as <-.
    { pose proof (o_nodup _ _ _ O) as ND. apply NoDup_remove_2 in ND. rewrite app_nil_r in ND. destruct P as [(P & ->)|(P & ->)]; destruct Q as [(Q & ->)|(Q & ->)]; try reflexivity; exfalso; apply ND; congruence. }
    assert (i <> j) by congruence. clear - C H. assert (i < j \/ j < i) as [L|L] by lia; nia.
  - assert (R1 : In (p, b_size b) (regs b)) by (apply reg_in; tauto). assert (R2 : In (q, b_size b) (regs b)) by (apply reg_in; tauto).
    pose proof (o_apart _ _ _ O p _ q _ R1 R2 D) as AP. unfold apart in AP. clear - AP A A' B B' C O1 O2. nia.
Qed.
Lemma all_nodup : forall c b live, machine c -> ok c b live -> NoDup (all_places c b).
Proof.
  intros c b live M O. destruct (o_chunk _ _ _ O) as (C & _). destruct (o_size _ _ _ O) as (S1 & _). destruct (header_ok c M) as (h & H1 & H2).
  assert (IN : forall p off x, (In p (b_pools b) /\ off = 8 \/ p = b_base b /\ off = k_header c) -> In x (places (b_size b) (b_chunk b) off p) -> p <= x < p + b_size b /\ In (p, b_size b) (regs b)).
  { intros p off x P X. assert (0 <= b_size b - off) by (destruct P as [(_ & ->)|(_ & ->)]; lia). apply places_in in X; [|assumption|assumption]. destruct X as (i & A & B & ->). split; [destruct P as [(_ & ->)|(_ & ->)]; nia|apply reg_in; tauto]. }
  assert (ND1 : forall p off, 0 <= b_size b - off -> NoDup (places (b_size b) (b_chunk b) off p)) by (intros; unfold places; apply carve_nodup; auto using fuel_enough).
  pose proof (o_nodup _ _ _ O) as ND. unfold all_places.
  assert (G : forall l, NoDup l -> incl l (b_pools b) -> NoDup (concat (map (places (b_size b) (b_chunk b) 8) l))).
  { induction l as [|p l IH]; intros N I; cbn [map concat]; [constructor|]. inversion N as [|? ? N1 N2]; subst.
    apply nodup_app; [apply ND1; lia|apply IH; [exact N2|intros z Z; apply I; right; exact Z]|].
    intros x X1 X2. apply in_concat in X2. destruct X2 as (l' & L' & X2). apply in_map_iff in L'. destruct L' as (q & <- & Q).
    destruct (IN p 8 x ltac:(left; split; [apply I; left; reflexivity|reflexivity]) X1) as (B1 & R1). destruct (IN q 8 x ltac:(left; split; [apply I; right; exact Q|reflexivity]) X2) as (B2 & R2).
    assert (p <> q) by (intros ->; tauto). pose proof (o_apart _ _ _ O p _ q _ R1 R2 H) as AP. unfold apart in AP. lia. }
  apply nodup_app; [apply G; [apply NoDup_remove_1 in ND; rewrite app_nil_r in ND; exact ND|apply incl_refl]|apply ND1; lia|].
  intros x X1 X2. apply in_concat in X1. destruct X1 as (l' & L' & X1). apply in_map_iff in L'. destruct L' as (q & <- & Q).
  destruct (IN q 8 x ltac:(left; auto) X1) as (B1 & R1). destruct (IN (b_base b) (k_header c) x ltac:(right; auto) X2) as (B2 & R2).
  assert (q <> b_base b). { intros ->. apply NoDup_remove_2 in ND. rewrite app_nil_r in ND. tauto. } pose proof (o_apart _ _ _ O q _ (b_base b) _ R1 R2 H) as AP. unfold apart in AP. lia.
Qed.
