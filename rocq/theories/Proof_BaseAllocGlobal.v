(* The global allocator: five pools of chunks and memory taken directly. *)
From Verif Require Import Base Model_Utils Spec_Utils Proof_Utils Model_BaseAlloc Spec_BaseAlloc Proof_BaseAlloc Proof_BaseAllocStep Proof_BaseAllocLinear.

(* ---- classes ---- *)
Lemma class_of : forall n, 0 < n < U64 -> 0 <= ba_size_to_idx n /\ n <= 2 ^ (4 + ba_size_to_idx n).
Proof.
  intros n N. unfold ba_size_to_idx. destruct (Z.leb_spec n 16) as [L|L]; [split; [lia|exact L]|]. unfold utils_msb64.
  destruct (Z.log2_spec n ltac:(lia)) as (A & B). assert (K : 4 <= Z.log2 n) by (change 4 with (Z.log2 16); apply Z.log2_le_mono; lia).
  destruct (Z.eqb_spec (Z.land n (n - 1)) 0) as [E|E].
  - split; [lia|]. replace (4 + (Z.log2 n + 0 - 4)) with (Z.log2 n) by lia. destruct (Z.eq_dec n (2 ^ Z.log2 n)) as [Q|Q]; [lia|exfalso].
    assert (T : Z.testbit (Z.land n (n - 1)) (Z.log2 n) = true).
    { rewrite Z.land_spec. apply andb_true_iff. split; [apply Z.bit_log2; lia|]. assert (E2 : Z.log2 (n - 1) = Z.log2 n) by (apply Z.log2_unique; lia). rewrite <- E2. apply Z.bit_log2. lia. }
    rewrite E, Z.bits_0 in T. discriminate.
  - split; [lia|]. replace (4 + (Z.log2 n + 1 - 4)) with (Z.succ (Z.log2 n)) by lia. lia.
Qed.
Definition cls (total : Z) : nat := Z.to_nat (ba_size_to_idx total).
Lemma class_small : forall n, 0 < n < U64 -> n <= ac_size (cls n).
Proof. intros n N. destruct (class_of n N) as (A & B). unfold ac_size, cls. rewrite Z2Nat.id by exact A. exact B. Qed.
Lemma class_big : forall n, 0 < n < U64 -> (Z.of_nat NUM_ALLOCATION_CLASSES <=? ba_size_to_idx n) = (5 <=? cls n)%nat.
Proof. intros n N. destruct (class_of n N) as (A & _). unfold cls, NUM_ALLOCATION_CLASSES. destruct (Nat.leb_spec 5 (Z.to_nat (ba_size_to_idx n))); lia. Qed.
Lemma ac_size_8 : forall i, ac_size i mod 8 = 0 /\ 16 <= ac_size i.
Proof.
  intros i. unfold ac_size. replace (4 + Z.of_nat i) with (1 + Z.of_nat i + 3) by lia. rewrite Z.pow_add_r by lia. change (2 ^ 3) with 8. split; [apply Z.mod_mul; lia|].
  rewrite Z.pow_add_r by lia. pose proof (Z.pow_pos_nonneg 2 (Z.of_nat i) ltac:(lia) ltac:(lia)). change (2 ^ 1) with 2. lia.
Qed.
Lemma ac_fits : forall c i, machine c -> (i < 5)%nat -> fits c (ac_size i).
Proof.
  intros c i M I. pose proof (page_8 c M) as PG. destruct (header_ok c M) as (h & _ & H). pose proof (mutex_small c M). destruct (ac_size_8 i) as (_ & A).
  assert (B : ac_size i <= 256) by (unfold ac_size; change 256 with (2 ^ 8); apply Z.pow_le_mono_r; lia). unfold fits, U64. change (2 ^ 40) with 1099511627776 in PG. lia.
Qed.
Lemma chunk_is : forall i k, chunk_bytes (ac_size i) k -> k = ac_size i.
Proof.
  intros i k (A & B & C). destruct (ac_size_8 i) as (D & _). assert (X : k <= ac_size i) by (apply C; [apply mod_multiple; [lia|exact D]|lia]). lia.
Qed.

(* ---- metadata ---- *)
Lemma meta_word : forall total off, 0 <= total < 2 ^ 32 -> 0 <= off < 2 ^ 32 -> let w := Z.lor total (wrap (off * 2 ^ 32)) in Z.land w (2 ^ 32 - 1) = total /\ w / 2 ^ 32 = off.
Proof.
  intros t o T O. cbv zeta. assert (W : wrap (o * 2 ^ 32) = o * 2 ^ 32) by (apply wrap_id; unfold U64; change (2 ^ 32) with 4294967296 in *; lia). rewrite W.
  rewrite <- (Z.shiftl_mul_pow2 o 32) by lia. change (2 ^ 32 - 1) with (Z.ones 32). split.
  - rewrite Z.land_lor_distr_l, !Z.land_ones by lia. rewrite (Z.mod_small t) by exact T. rewrite Z.shiftl_mul_pow2, Z.mod_mul by lia. apply Z.lor_0_r.
  - rewrite <- Z.shiftr_div_pow2 by lia. rewrite Z.shiftr_lor, Z.shiftr_shiftl_l by lia. rewrite Z.shiftr_div_pow2, Z.div_small by lia. rewrite Z.lor_0_l. apply Z.shiftl_0_r.
Qed.

Definition total_of (size al : Z) : Z := if ALLOC_METADATA_SIZE <? al then size + 8 + al else size + 8.
Lemma add_meta : forall dbg p size al, 0 < p -> p mod 8 = 0 -> p + total_of size al < U64 -> 0 < size -> power_of_two al -> size + 8 + al < 2 ^ 32 ->
  exists u w, add_metadata_and_align dbg p (total_of size al) al = Some (u, w) /\ multiple_of u al /\ p + 8 <= u /\ u + size <= p + total_of size al /\ u <> 0 /\
    Z.land w (2 ^ 32 - 1) = total_of size al /\ w / 2 ^ 32 = u - p.
Proof.
  intros dbg p size al P0 P8 PU S0 PO SB. assert (PW : pow2 al) by exact PO. pose proof (pow2_range _ PW) as AR. assert (UU : U64 = 18446744073709551616) by reflexivity. change (2 ^ 32) with 4294967296 in *.
  assert (TB : 0 < total_of size al < 4294967296) by (unfold total_of, ALLOC_METADATA_SIZE; destruct (8 <? al); lia).
  unfold add_metadata_and_align. rewrite (proj2 (Z.eqb_neq p 0)) by lia. rewrite (proj2 (Z.leb_gt _ (total_of size al))) by (change (2 ^ 32) with 4294967296; lia). rewrite (proj2 (Z.leb_gt _ al)) by (change (2 ^ 32) with 4294967296; lia). cbn [orb]. rewrite andb_false_r. cbv zeta.
  unfold ALLOC_METADATA_SIZE in *. rewrite (wrap_id (p + 8)) by (unfold total_of, ALLOC_METADATA_SIZE in *; destruct (8 <? al); lia).
  assert (X : exists u, (if al <=? 8 then p + 8 else ALIGN_UP_SAFE (p + 8) al) = u /\ multiple_of u al /\ p + 8 <= u /\ u + size <= p + total_of size al).
  { unfold total_of, ALLOC_METADATA_SIZE in *. destruct (Z.leb_spec al 8) as [L|L].
    - exists (p + 8). split; [reflexivity|]. rewrite (proj2 (Z.ltb_ge 8 al)) in * by lia. split; [|lia]. apply mod_multiple; [lia|]. destruct PW as (k & K & ->). assert (K3 : k <= 3) by (destruct (Z_le_gt_dec k 3) as [Q|Q]; [exact Q|exfalso; pose proof (Z.pow_le_mono_r 2 4 k ltac:(lia) ltac:(lia)); change (2 ^ 4) with 16 in *; lia]).
      apply Z.mod_divide in P8; [|lia]. destruct P8 as (q & ->). replace (q * 8 + 8) with ((q + 1) * 2 ^ (3 - k) * 2 ^ k) by (rewrite <- Z.mul_assoc, <- Z.pow_add_r by lia; replace (3 - k + k) with 3 by lia; change (2 ^ 3) with 8; lia). apply Z.mod_mul. lia.
    - rewrite (proj2 (Z.ltb_lt 8 al)) in * by lia. destruct (round_up (p + 8) al PW ltac:(lia) ltac:(lia)) as (r & E & R1 & R2 & _). exists r. split; [exact E|]. split; [apply mod_multiple; [lia|exact R1]|]. lia. }
  destruct X as (u & E & MU & B1 & B2). rewrite E. rewrite (proj2 (Z.eqb_neq u 0)) by lia. rewrite andb_false_r. rewrite (wrap_id (u - p)) by lia. rewrite (proj2 (Z.leb_gt _ (u - p))) by (change (2 ^ 32) with 4294967296; lia). rewrite andb_false_r.
  eexists _, _. split; [reflexivity|]. repeat (split; [first [assumption|lia]|]). apply meta_word; change (2 ^ 32) with 4294967296; lia.
Qed.

(* ---- the invariant ---- *)
Record own := Own { w_user : Z; w_size : Z; w_al : Z; w_orig : Z; w_total : Z; w_word : Z }.
Definition pub (e : own) : Z * Z * Z := (w_user e, w_size e, w_al e).
Definition direct (ac : list (option ba)) (e : own) : bool := match nth_error ac (cls (w_total e)) with Some (Some _) => false | _ => true end.
Definition in_class (i : nat) (e : own) : bool := (cls (w_total e) =? i)%nat.
Definition clive (i : nat) (W : list own) : list Z := map w_orig (filter (in_class i) W).
Definition tagged (i : nat) (T : list (nat * (Z * Z))) : list (Z * Z) := map snd (filter (fun x => (fst x =? i)%nat) T).
Definition raw (e : own) : Z * Z := (w_orig e, w_total e).

Record good (e : own) : Prop := Good {
  e_size : 0 < w_size e; e_al : multiple_of (w_user e) (w_al e); e_low : w_orig e + 8 <= w_user e; e_high : w_user e + w_size e <= w_orig e + w_total e;
  e_total : w_total e < 2 ^ 32; e_orig : 0 < w_orig e; e_word : w_orig e + w_total e < U64;
  e_m1 : Z.land (w_word e) (2 ^ 32 - 1) = w_total e; e_m2 : w_word e / 2 ^ 32 = w_user e - w_orig e }.

Record ginv (c : consts) (g : global) (mem : list (Z * Z)) (live : list (Z * Z * Z)) (T : list (nat * (Z * Z))) (W : list own) : Prop := GInv {
  v_mem : mem = map snd T;
  v_live : live = map pub W;
  v_len : length (g_ac g) = 5%nat;
  v_class : forall i b, nth_error (g_ac g) i = Some (Some b) -> ok c b (clive i W) /\ b_chunk b = ac_size i /\ regs b = tagged i T;
  v_direct : tagged 5 T = map raw (filter (direct (g_ac g)) W);
  v_meta : g_meta g = map (fun e => (w_user e - 8, w_word e)) W;
  v_own : forall e, In e W -> good e;
  v_nodup : NoDup (map w_user W);
  v_apart : forall e e', In e W -> In e' W -> w_user e <> w_user e' -> apart (w_orig e) (w_total e) (w_orig e') (w_total e');
  v_regs : forall p n, In (p, n) mem -> 0 < p /\ 0 < n /\ p + n < U64;
  v_regnodup : NoDup (map fst mem);
  v_regapart : forall p n q m, In (p, n) mem -> In (q, m) mem -> p <> q -> apart p n q m }.

Lemma tagged_in : forall i T r, In r (tagged i T) <-> In (i, r) T.
Proof.
  intros i T r. unfold tagged. rewrite in_map_iff. split.
  - intros ((j & x) & E & X). cbn in E. subst x. apply filter_In in X. destruct X as (X & Y). cbn in Y. apply Nat.eqb_eq in Y. subst j. exact X.
  - intros X. exists (i, r). split; [reflexivity|]. apply filter_In. split; [exact X|]. apply Nat.eqb_refl.
Qed.
Lemma tag_unique : forall T t r t' r', NoDup (map fst (map (@snd nat (Z * Z)) T)) -> In (t, r) T -> In (t', r') T -> fst r = fst r' -> t = t' /\ r = r'.
Proof.
  induction T as [|x T IH]; intros t r t' r' N A B E; [destruct A|]. cbn in N. inversion N as [|? ? N1 N2]; subst.
  assert (K : forall u q, In (u, q) T -> In (fst q) (map fst (map snd T))) by (intros u q X; apply in_map; apply (in_map snd) in X; exact X).
  destruct A as [->|A]; destruct B as [B|B]; [injection B as -> ->; auto| | |eauto]; exfalso; apply N1; [cbn; rewrite E; exact (K _ _ B)|subst x; cbn; rewrite <- E; exact (K _ _ A)].
Qed.

Section G.
Variables (c : consts) (g : global) (mem : list (Z * Z)) (live : list (Z * Z * Z)) (T : list (nat * (Z * Z))) (W : list own).
Hypothesis M : machine c.
Hypothesis I : ginv c g mem live T W.

Lemma total_word : forall e, In e W -> 0 < w_total e < U64.
Proof. intros e E. destruct (v_own _ _ _ _ _ _ I e E) as [A1 A2 A3 A4 A5 A6 A7 A8 A9]. lia. Qed.
Lemma own_place : forall e b, In e W -> nth_error (g_ac g) (cls (w_total e)) = Some (Some b) -> In (w_orig e) (all_places c b) /\ w_total e <= b_chunk b.
Proof.
  intros e b E N. destruct (v_class _ _ _ _ _ _ I _ b N) as (O & K & _). split; [|rewrite K; apply class_small; exact (total_word e E)].
  apply (live_place c b (clive (cls (w_total e)) W) _ O). unfold clive. apply in_map. apply filter_In. split; [exact E|]. apply Nat.eqb_refl.
Qed.
Lemma own_region : forall e, In e W -> exists t r, In (t, r) T /\ fst r <= w_orig e /\ w_orig e + w_total e <= fst r + snd r /\ (direct (g_ac g) e = true -> t = 5%nat /\ r = raw e) /\ (direct (g_ac g) e = false -> t = cls (w_total e)).
Proof.
  intros e E. destruct (direct (g_ac g) e) eqn:D.
  - exists 5%nat, (raw e). split; [|cbn; split; [lia|]; split; [lia|]; split; [auto|discriminate]]. apply tagged_in. rewrite (v_direct _ _ _ _ _ _ I). apply in_map. apply filter_In. auto.
  - unfold direct in D. destruct (nth_error (g_ac g) (cls (w_total e))) as [[b|]|] eqn:N; try discriminate. destruct (own_place e b E N) as (P & Q). destruct (v_class _ _ _ _ _ _ I _ b N) as (O & _ & R).
    destruct (place_bounds c b _ _ M O P) as (p & PR & B1 & B2 & _). rewrite R in PR. apply tagged_in in PR. exists (cls (w_total e)), (p, b_size b). split; [exact PR|]. cbn [fst snd]. split; [lia|]. split; [lia|]. split; [discriminate|auto].
Qed.
Lemma cls_lt : forall i b, nth_error (g_ac g) i = Some (Some b) -> (i < 5)%nat.
Proof. intros i b N. rewrite <- (v_len _ _ _ _ _ _ I). apply nth_error_Some. congruence. Qed.
End G.

Lemma set_ac_nth : forall i l b j, (i < length l)%nat -> nth_error (set_ac i l b) j = if (j =? i)%nat then Some (Some b) else nth_error l j.
Proof.
  intros i l b. revert i. induction l as [|x l IH]; intros i j L; [cbn in L; lia|]. destruct i as [|i].
  - destruct j; reflexivity.
  - cbn in L. destruct j as [|j]; [reflexivity|]. change (set_ac (S i) (x :: l) b) with (x :: set_ac i l b). cbn [nth_error]. rewrite IH by lia. reflexivity.
Qed.
Lemma set_ac_len : forall i l b, (i < length l)%nat -> length (set_ac i l b) = length l.
Proof. intros i l b L. unfold set_ac. rewrite app_length, firstn_length. cbn [length]. rewrite skipn_length. lia. Qed.
Lemma direct_set : forall i l b b' e, nth_error l i = Some (Some b) -> direct (set_ac i l b') e = direct l e.
Proof.
  intros i l b b' e N. unfold direct. rewrite set_ac_nth by (apply nth_error_Some; congruence). destruct (Nat.eqb_spec (cls (w_total e)) i) as [->|D]; [rewrite N; reflexivity|reflexivity].
Qed.

(* ---- a new allocation ---- *)
Lemma add_class : forall c g mem live T W i b b' T' e, machine c -> ginv c g mem live T W -> nth_error (g_ac g) i = Some (Some b) -> good e -> cls (w_total e) = i ->
  ok c b' (w_orig e :: clive i W) -> b_chunk b' = b_chunk b -> incl T T' -> (forall j, j <> i -> tagged j T' = tagged j T) -> regs b' = tagged i T' ->
  (forall p n, In (p, n) (map snd T') -> 0 < p /\ 0 < n /\ p + n < U64) -> NoDup (map fst (map snd T')) -> (forall p n q m, In (p, n) (map snd T') -> In (q, m) (map snd T') -> p <> q -> apart p n q m) ->
  ginv c (Global (set_ac i (g_ac g) b') ((w_user e - 8, w_word e) :: g_meta g)) (map snd T') (pub e :: live) T' (e :: W).
Proof.
  intros c g mem live T W i b b' T' e M I N G EC O K IN TG RG R1 R2 R3. assert (L : (i < length (g_ac g))%nat) by (apply nth_error_Some; congruence). pose proof (cls_lt _ _ _ _ _ _ I _ _ N) as I5.
  destruct (v_class _ _ _ _ _ _ I _ b N) as (O0 & K0 & RG0).
  assert (TB : 0 < w_total e < U64) by (destruct G as [A1 A2 A3 A4 A5 A6 A7 A8 A9]; lia).
  assert (PL : In (w_orig e) (all_places c b')) by (apply (live_place c b' _ _ O); left; reflexivity). destruct (place_bounds c b' _ _ M O PL) as (p & PR & B1 & B2 & _). rewrite RG in PR. apply tagged_in in PR.
  assert (TC : w_total e <= b_chunk b') by (rewrite K, K0, <- EC; apply class_small; exact TB).
  assert (AP : forall x, In x W -> apart (w_orig e) (w_total e) (w_orig x) (w_total x)).
  { intros x X. destruct (own_region c g mem live T W M I x X) as (t & r & TR & X1 & X2 & X3 & X4).
    destruct (Nat.eq_dec t i) as [->|D].
    - destruct (direct (g_ac g) x) eqn:DX; [destruct (X3 eq_refl); lia|]. specialize (X4 eq_refl).
      assert (OX : In (w_orig x) (clive i W)) by (unfold clive; apply in_map; apply filter_In; split; [exact X|unfold in_class; rewrite <- X4; apply Nat.eqb_refl]).
      pose proof (proj1 (live_nodup c b' _ M O)) as ND. inversion ND as [|? ? ND1 _]; subst. assert (OX' : In (w_orig x) (all_places c b')) by (apply (live_place c b' _ _ O); right; exact OX).
      assert (NE : w_orig e <> w_orig x) by (intros E; apply ND1; rewrite E; exact OX). pose proof (places_apart c b' _ _ _ M O PL OX' NE) as A. pose proof (class_small (w_total x) (total_word _ _ _ _ _ _ I x X)) as CX. rewrite <- X4 in CX. unfold apart in *. lia.
    - destruct (Z.eq_dec p (fst r)) as [E|E]; [destruct (tag_unique T' i (p, b_size b') t r R2 PR (IN _ TR) E); congruence|]. destruct r as (q, m). cbn [fst snd] in *.
      pose proof (R3 p (b_size b') q m ltac:(apply (in_map snd) in PR; exact PR) ltac:(apply IN in TR; apply (in_map snd) in TR; exact TR) E) as A. pose proof (total_word _ _ _ _ _ _ I x X). unfold apart in *. lia. }
  assert (NU : ~ In (w_user e) (map w_user W)). { intros X. apply in_map_iff in X. destruct X as (x & E & X). pose proof (AP x X) as A. destruct (v_own _ _ _ _ _ _ I x X) as [A1 A2 A3 A4 A5 A6 A7 A8 A9]. destruct G as [G1 G2 G3 G4 G5 G6 G7 G8 G9]. unfold apart in A. lia. }
  split.
  - reflexivity.
  - rewrite (v_live _ _ _ _ _ _ I). reflexivity.
  - cbn [g_ac]. rewrite set_ac_len by exact L. exact (v_len _ _ _ _ _ _ I).
  - cbn [g_ac]. intros j bj Nj. rewrite set_ac_nth in Nj by exact L. unfold clive. cbn [filter]. unfold in_class at 1. rewrite EC. destruct (Nat.eqb_spec j i) as [->|D].
    + injection Nj as <-. rewrite Nat.eqb_refl. cbn [map]. split; [exact O|]. split; [congruence|exact RG].
    + rewrite (proj2 (Nat.eqb_neq i j)) by congruence. destruct (v_class _ _ _ _ _ _ I _ bj Nj) as (Oj & Kj & Rj). split; [exact Oj|]. split; [exact Kj|]. rewrite TG by exact D. exact Rj.
  - cbn [g_ac filter]. rewrite (direct_set i _ b b' e N). unfold direct at 1. rewrite EC, N. rewrite TG by lia. rewrite (v_direct _ _ _ _ _ _ I). f_equal. apply filter_ext. intros x. symmetry. exact (direct_set i _ b b' x N).
  - cbn [g_meta map]. rewrite (v_meta _ _ _ _ _ _ I). reflexivity.
  - intros x [<-|X]; [exact G|exact (v_own _ _ _ _ _ _ I x X)].
  - cbn [map]. constructor; [exact NU|exact (v_nodup _ _ _ _ _ _ I)].
  - intros x y [<-|X] [<-|Y] D; [congruence|exact (AP y Y)| |exact (v_apart _ _ _ _ _ _ I x y X Y D)]. pose proof (AP x X) as A. unfold apart in *. lia.
  - exact R1.
  - exact R2.
  - exact R3.
Qed.

Lemma fresh_regs : forall page T t p n, (forall q m, In (q, m) (map (@snd nat (Z * Z)) T) -> 0 < q /\ 0 < m /\ q + m < U64) -> NoDup (map fst (map snd T)) -> (forall q m r k, In (q, m) (map snd T) -> In (r, k) (map snd T) -> q <> r -> apart q m r k) ->
  fresh_mem page (map snd T) p n -> 0 < n -> let T' := (t, (p, n)) :: T in
  (forall q m, In (q, m) (map snd T') -> 0 < q /\ 0 < m /\ q + m < U64) /\ NoDup (map fst (map snd T')) /\ (forall q m r k, In (q, m) (map snd T') -> In (r, k) (map snd T') -> q <> r -> apart q m r k).
Proof.
  intros page T t p n R1 R2 R3 (F1 & F2 & _ & F4 & _) N0. cbn [map snd fst]. split; [|split].
  - intros q m [E|X]; [injection E as <- <-; lia|auto].
  - constructor; [|exact R2]. intros X. apply in_map_iff in X. destruct X as ((q, m) & E & X). cbn in E. subst q. pose proof (F4 p m X) as A. destruct (R1 p m X). unfold apart in A. lia.
  - intros q m r k [E|X] [E'|X'] D; [congruence| | |exact (R3 q m r k X X' D)].
    + injection E as <- <-. exact (F4 r k X').
    + injection E' as <- <-. pose proof (F4 q m X) as A. unfold apart in *. lia.
Qed.

Lemma add_direct : forall c g mem live T W e, machine c -> ginv c g mem live T W -> good e -> direct (g_ac g) e = true -> fresh_mem (k_page c) mem (w_orig e) (w_total e) ->
  ginv c (Global (g_ac g) ((w_user e - 8, w_word e) :: g_meta g)) (raw e :: mem) (pub e :: live) ((5%nat, raw e) :: T) (e :: W).
Proof.
  intros c g mem live T W e M I G D FM.
  assert (TB : 0 < w_total e < U64) by (destruct G as [A1 A2 A3 A4 A5 A6 A7 A8 A9]; lia).
  destruct (fresh_regs (k_page c) T 5%nat (w_orig e) (w_total e)) as (R1 & R2 & R3); try (rewrite <- (v_mem _ _ _ _ _ _ I)); [exact (v_regs _ _ _ _ _ _ I)|exact (v_regnodup _ _ _ _ _ _ I)|exact (v_regapart _ _ _ _ _ _ I)|exact FM|lia|].
  assert (AP : forall x, In x W -> apart (w_orig e) (w_total e) (w_orig x) (w_total x)).
  { intros x X. destruct (own_region c g mem live T W M I x X) as (t & (q, m) & TR & X1 & X2 & _). cbn [fst snd] in *. destruct FM as (_ & _ & _ & F4 & _). pose proof (F4 q m ltac:(rewrite (v_mem _ _ _ _ _ _ I); apply (in_map snd) in TR; exact TR)) as A. pose proof (total_word _ _ _ _ _ _ I x X). unfold apart in *. lia. }
  assert (NU : ~ In (w_user e) (map w_user W)). { intros X. apply in_map_iff in X. destruct X as (x & E & X). pose proof (AP x X) as A. destruct (v_own _ _ _ _ _ _ I x X) as [A1 A2 A3 A4 A5 A6 A7 A8 A9]. destruct G as [G1 G2 G3 G4 G5 G6 G7 G8 G9]. unfold apart in A. lia. }
  split.
  - cbn [map snd]. rewrite (v_mem _ _ _ _ _ _ I). reflexivity.
  - rewrite (v_live _ _ _ _ _ _ I). reflexivity.
  - exact (v_len _ _ _ _ _ _ I).
  - cbn [g_ac]. intros i b N. destruct (v_class _ _ _ _ _ _ I i b N) as (O & K & R). pose proof (cls_lt _ _ _ _ _ _ I _ _ N) as I5. unfold clive. cbn [filter]. unfold in_class at 1.
    destruct (Nat.eqb_spec (cls (w_total e)) i) as [E|_]; [unfold direct in D; rewrite E, N in D; discriminate|]. split; [exact O|]. split; [exact K|]. unfold tagged. cbn [filter fst]. rewrite (proj2 (Nat.eqb_neq 5 i)) by lia. exact R.
  - unfold tagged. cbn [filter fst g_ac Nat.eqb map snd]. rewrite D. cbn [map]. f_equal. exact (v_direct _ _ _ _ _ _ I).
  - cbn [g_meta map]. rewrite (v_meta _ _ _ _ _ _ I). reflexivity.
  - intros x [<-|X]; [exact G|exact (v_own _ _ _ _ _ _ I x X)].
  - cbn [map]. constructor; [exact NU|exact (v_nodup _ _ _ _ _ _ I)].
  - intros x y [<-|X] [<-|Y] DD; [congruence|exact (AP y Y)| |exact (v_apart _ _ _ _ _ _ I x y X Y DD)]. pose proof (AP x X) as A. unfold apart in *. lia.
  - intros p n X. apply R1. cbn [map snd]. rewrite <- (v_mem _ _ _ _ _ _ I). exact X.
  - cbn [map snd] in R2. rewrite <- (v_mem _ _ _ _ _ _ I) in R2. exact R2.
  - cbn [map snd] in R3. rewrite <- (v_mem _ _ _ _ _ _ I) in R3. exact R3.
Qed.

(* ---- free ---- *)
Definition others (p : Z) (W : list own) : list own := filter (fun e => negb (w_user e =? p)) W.
Lemma others_in : forall p W e, In e (others p W) <-> In e W /\ w_user e <> p.
Proof. intros p W e. unfold others. rewrite filter_In. destruct (Z.eqb_spec (w_user e) p); cbn; intuition congruence. Qed.
Lemma others_pub : forall p W, filter (fun x => negb (g_ptr x =? p)) (map pub W) = map pub (others p W).
Proof. intros p W. induction W as [|e W IH]; [reflexivity|]. unfold others. cbn [map filter]. change (g_ptr (pub e)) with (w_user e). destruct (negb (w_user e =? p)); cbn [map]; rewrite IH; reflexivity. Qed.
Lemma others_meta : forall p W, filter (fun x => negb (fst x =? p - 8)) (map (fun e => (w_user e - 8, w_word e)) W) = map (fun e => (w_user e - 8, w_word e)) (others p W).
Proof.
  intros p W. induction W as [|e W IH]; [reflexivity|]. unfold others. cbn [map filter fst]. replace (w_user e - 8 =? p - 8) with (w_user e =? p) by (destruct (Z.eqb_spec (w_user e) p); lia). destruct (negb (w_user e =? p)); cbn [map]; rewrite IH; reflexivity.
Qed.
Lemma meta_found : forall e W, NoDup (map w_user W) -> In e W -> meta_at (map (fun x => (w_user x - 8, w_word x)) W) (w_user e - 8) = Some (w_word e).
Proof.
  intros e W N IN. unfold meta_at. induction W as [|x W IH]; [destruct IN|]. cbn in N. inversion N as [|? ? N1 N2]; subst. cbn [map find fst]. destruct (Z.eqb_spec (w_user x - 8) (w_user e - 8)) as [E|E].
  - destruct IN as [->|IN]; [reflexivity|]. exfalso. apply N1. replace (w_user x) with (w_user e) by lia. apply in_map. exact IN.
  - destruct IN as [->|IN]; [lia|]. exact (IH N2 IN).
Qed.
Lemma clive_out : forall i p W, (forall e, In e W -> w_user e = p -> in_class i e = false) -> clive i (others p W) = clive i W.
Proof.
  intros i p W H. unfold clive. f_equal. unfold others. induction W as [|x W IH]; [reflexivity|]. cbn [filter]. destruct (Z.eqb_spec (w_user x) p) as [E|E]; cbn [negb filter].
  - rewrite (H x (or_introl eq_refl) E). apply IH. intros y Y. apply H. right. exact Y.
  - destruct (in_class i x); [f_equal|]; apply IH; intros y Y; apply H; right; exact Y.
Qed.
Lemma clive_remove : forall i e W, (forall x, In x W -> w_orig x = w_orig e <-> w_user x = w_user e) -> remove Z.eq_dec (w_orig e) (clive i W) = clive i (others (w_user e) W).
Proof.
  intros i e W H. unfold clive, others. induction W as [|x W IH]; [reflexivity|]. specialize (IH ltac:(intros y Y; apply H; right; exact Y)). pose proof (H x (or_introl eq_refl)) as HX. cbn [filter]. destruct (Z.eqb_spec (w_user x) (w_user e)) as [E|E]; cbn [negb filter].
  - destruct (in_class i x); [|exact IH]. cbn [map remove]. destruct (Z.eq_dec (w_orig e) (w_orig x)) as [Q|Q]; [exact IH|]. apply HX in E. congruence.
  - destruct (in_class i x); [|exact IH]. cbn [map remove]. destruct (Z.eq_dec (w_orig e) (w_orig x)) as [Q|Q]; [symmetry in Q; apply HX in Q; congruence|]. f_equal. exact IH.
Qed.
Lemma raw_user : forall c g mem live T W e x, ginv c g mem live T W -> In e W -> In x W -> (w_orig x = w_orig e <-> w_user x = w_user e).
Proof.
  intros c g mem live T W e x I E X. split; intros Q.
  - destruct (Z.eq_dec (w_user x) (w_user e)) as [D|D]; [exact D|]. pose proof (v_apart _ _ _ _ _ _ I x e X E D) as A. pose proof (total_word _ _ _ _ _ _ I x X). pose proof (total_word _ _ _ _ _ _ I e E). unfold apart in A. lia.
  - assert (x = e) as ->; [|reflexivity]. pose proof (v_nodup _ _ _ _ _ _ I) as N. clear - N E X Q. induction W as [|y W IH]; [destruct E|]. cbn in N. inversion N as [|? ? N1 N2]; subst.
    destruct E as [->|E]; destruct X as [->|X]; [reflexivity| | |auto]; exfalso; apply N1; [rewrite <- Q|rewrite Q]; apply in_map; assumption.
Qed.

Lemma free_class : forall c g mem live T W i b b' e, machine c -> ginv c g mem live T W -> In e W -> nth_error (g_ac g) i = Some (Some b) -> cls (w_total e) = i ->
  ok c b' (remove Z.eq_dec (w_orig e) (clive i W)) -> regs b' = regs b -> b_chunk b' = b_chunk b ->
  ginv c (Global (set_ac i (g_ac g) b') (filter (fun x => negb (fst x =? w_user e - 8)) (g_meta g))) mem (filter (fun x => negb (g_ptr x =? w_user e)) live) T (others (w_user e) W).
Proof.
  intros c g mem live T W i b b' e M I E N EC O RG K. assert (L : (i < length (g_ac g))%nat) by (apply nth_error_Some; congruence). destruct (v_class _ _ _ _ _ _ I i b N) as (O0 & K0 & R0).
  rewrite (clive_remove i e W) in O by (intros x X; exact (raw_user c g mem live T W e x I E X)).
  split.
  - exact (v_mem _ _ _ _ _ _ I).
  - rewrite (v_live _ _ _ _ _ _ I). apply others_pub.
  - cbn [g_ac]. rewrite set_ac_len by exact L. exact (v_len _ _ _ _ _ _ I).
  - cbn [g_ac]. intros j bj Nj. rewrite set_ac_nth in Nj by exact L. destruct (Nat.eqb_spec j i) as [->|D].
    + injection Nj as <-. split; [exact O|]. split; [congruence|]. rewrite RG. exact R0.
    + rewrite clive_out; [exact (v_class _ _ _ _ _ _ I j bj Nj)|]. intros x X Q. assert (w_orig x = w_orig e) by (apply (raw_user c g mem live T W e x I E X); exact Q). assert (x = e) as ->; [|unfold in_class; rewrite EC; apply Nat.eqb_neq; congruence].
      pose proof (v_nodup _ _ _ _ _ _ I) as NN. clear - NN E X Q. induction W as [|y W IH]; [destruct E|]. cbn in NN. inversion NN as [|? ? N1 N2]; subst. destruct E as [->|E]; destruct X as [->|X]; [reflexivity| | |auto]; exfalso; apply N1; [rewrite <- Q|rewrite Q]; apply in_map; assumption.
  - cbn [g_ac]. rewrite (v_direct _ _ _ _ _ _ I). f_equal. rewrite (filter_ext (direct (set_ac i (g_ac g) b')) (direct (g_ac g))) by (intros x; exact (direct_set i _ b b' x N)).
    assert (DE : direct (g_ac g) e = false) by (unfold direct; rewrite EC, N; reflexivity). pose proof (v_nodup _ _ _ _ _ _ I) as NN. clear - NN E DE. unfold others. induction W as [|y W IH]; [destruct E|]. cbn in NN. inversion NN as [|? ? N1 N2]; subst. cbn [filter]. destruct E as [->|E].
    + rewrite Z.eqb_refl, DE. cbn [negb]. assert (Q : filter (fun x => negb (w_user x =? w_user e)) W = W); [|rewrite Q; reflexivity]. clear - N1. induction W as [|x W IH]; [reflexivity|]. cbn [filter]. destruct (Z.eqb_spec (w_user x) (w_user e)) as [Q|Q]; [exfalso; apply N1; left; exact Q|]. cbn [negb]. f_equal. apply IH. intros X. apply N1. right. exact X.
    + destruct (Z.eqb_spec (w_user y) (w_user e)) as [Q|Q]; [exfalso; apply N1; rewrite Q; apply in_map; exact E|]. cbn [negb filter]. rewrite (IH E N2). reflexivity.
  - cbn [g_meta]. rewrite (v_meta _ _ _ _ _ _ I). apply others_meta.
  - intros x X. apply others_in in X. exact (v_own _ _ _ _ _ _ I x (proj1 X)).
  - apply nodup_map_filter2. exact (v_nodup _ _ _ _ _ _ I).
  - intros x y X Y D. apply others_in in X. apply others_in in Y. exact (v_apart _ _ _ _ _ _ I x y (proj1 X) (proj1 Y) D).
  - exact (v_regs _ _ _ _ _ _ I).
  - exact (v_regnodup _ _ _ _ _ _ I).
  - exact (v_regapart _ _ _ _ _ _ I).
Qed.

Definition without (e : own) (T : list (nat * (Z * Z))) : list (nat * (Z * Z)) := filter (fun x => negb (fst (snd x) =? w_orig e)) T.
Lemma release_without : forall mem p n, In (p, n) mem -> (forall q m, In (q, m) mem -> 0 < q /\ 0 < m /\ q + m < U64) -> (forall q m, In (q, m) mem -> q <> p -> apart q m p n) -> NoDup (map fst mem) ->
  release p n mem = filter (fun x => negb (fst x =? p)) mem.
Proof.
  intros mem p n IN R AP ND. assert (X : forall l, incl l mem -> release p n l = filter (fun x => negb (fst x =? p)) l).
  { induction l as [|(q, m) l IH]; intros IC; [reflexivity|]. cbn [release flat_map filter fst snd]. fold (release p n l). rewrite IH by (intros y Y; apply IC; right; exact Y). assert (Q : In (q, m) mem) by (apply IC; left; reflexivity). destruct (Z.eqb_spec q p) as [->|D]; cbn [negb].
    - assert (m = n) as ->. { clear - ND IN Q. induction mem as [|z l IH]; [destruct IN|]. cbn in ND. inversion ND as [|? ? N1 N2]; subst. destruct IN as [->|IN]; destruct Q as [Q|Q]; [congruence| | |auto]; exfalso; apply N1; [apply (in_map fst) in Q; exact Q|subst z; apply (in_map fst) in IN; exact IN]. }
      rewrite Z.eqb_refl. reflexivity.
    - cbn [andb]. pose proof (AP q m Q D) as A. destruct (R q m Q). destruct (R p n IN). unfold apart in A. replace ((q <? p) && (q + m =? p + n)) with false by lia. reflexivity. }
  apply X. apply incl_refl.
Qed.
Lemma filter_map_c : forall {A B} (f : A -> B) p l, filter p (map f l) = map f (filter (fun x => p (f x)) l).
Proof. intros A B f p l. induction l as [|x l IH]; [reflexivity|]. cbn [map filter]. destruct (p (f x)); cbn [map]; rewrite IH; reflexivity. Qed.

Lemma free_direct : forall c g mem live T W e, machine c -> ginv c g mem live T W -> In e W -> direct (g_ac g) e = true ->
  ginv c (Global (g_ac g) (filter (fun x => negb (fst x =? w_user e - 8)) (g_meta g))) (release (w_orig e) (w_total e) mem) (filter (fun x => negb (g_ptr x =? w_user e)) live) (without e T) (others (w_user e) W) /\ In (raw e) mem.
Proof.
  intros c g mem live T W e M I E D. assert (TE : In (5%nat, raw e) T) by (apply tagged_in; rewrite (v_direct _ _ _ _ _ _ I); apply in_map; apply filter_In; auto).
  assert (RE : In (raw e) mem) by (rewrite (v_mem _ _ _ _ _ _ I); apply (in_map snd) in TE; exact TE). split; [|exact RE].
  assert (RM : release (w_orig e) (w_total e) mem = map snd (without e T)).
  { rewrite release_without; [|exact RE|exact (v_regs _ _ _ _ _ _ I)|intros q m Q N; exact (v_regapart _ _ _ _ _ _ I q m _ _ Q RE N)|exact (v_regnodup _ _ _ _ _ _ I)]. rewrite (v_mem _ _ _ _ _ _ I). exact (filter_map_c (@snd nat (Z * Z)) (fun x => negb (fst x =? w_orig e)) T). }
  assert (SUB : forall r, In r (release (w_orig e) (w_total e) mem) -> In r mem). { intros r R. rewrite RM in R. apply in_map_iff in R. destruct R as (x & <- & X). unfold without in X. apply filter_In in X. rewrite (v_mem _ _ _ _ _ _ I). apply (in_map snd). exact (proj1 X). }
  assert (KEEP : forall j, j <> 5%nat -> tagged j (without e T) = tagged j T).
  { intros j J. unfold tagged, without. assert (X : forall l, incl l T -> filter (fun x : nat * (Z * Z) => (fst x =? j)%nat) (filter (fun x => negb (fst (snd x) =? w_orig e)) l) = filter (fun x => (fst x =? j)%nat) l).
    { induction l as [|(t, r) l IH]; intros IC; [reflexivity|]. specialize (IH ltac:(intros y Y; apply IC; right; exact Y)). cbn [filter fst snd]. destruct (Z.eqb_spec (fst r) (w_orig e)) as [Q|Q]; cbn [negb filter fst].
      - assert (TU : t = 5%nat). { pose proof (v_regnodup _ _ _ _ _ _ I) as RN. rewrite (v_mem _ _ _ _ _ _ I) in RN. exact (proj1 (tag_unique T t r 5%nat (raw e) RN (IC _ (or_introl eq_refl)) TE Q)). } subst t. rewrite (proj2 (Nat.eqb_neq 5 j)) by congruence. exact IH.
      - rewrite IH. reflexivity. }
    rewrite X by apply incl_refl. reflexivity. }
  split.
  - exact RM.
  - rewrite (v_live _ _ _ _ _ _ I). apply others_pub.
  - exact (v_len _ _ _ _ _ _ I).
  - cbn [g_ac]. intros j bj Nj. pose proof (cls_lt _ _ _ _ _ _ I _ _ Nj) as J5. rewrite KEEP by lia. rewrite clive_out; [exact (v_class _ _ _ _ _ _ I j bj Nj)|]. intros x X Q.
    assert (x = e) as ->. { pose proof (v_nodup _ _ _ _ _ _ I) as NN. clear - NN E X Q. induction W as [|y W IH]; [destruct E|]. cbn in NN. inversion NN as [|? ? N1 N2]; subst. destruct E as [->|E]; destruct X as [->|X]; [reflexivity| | |auto]; exfalso; apply N1; [rewrite <- Q|rewrite Q]; apply in_map; assumption. }
    unfold in_class. destruct (Nat.eqb_spec (cls (w_total e)) j) as [Q2|Q2]; [|reflexivity]. unfold direct in D. rewrite Q2, Nj in D. discriminate.
  - cbn [g_ac]. assert (X : tagged 5 (without e T) = filter (fun x => negb (fst x =? w_orig e)) (tagged 5 T)).
    { unfold tagged, without. rewrite filter_map_c. f_equal. clear. induction T as [|x l IH]; [reflexivity|]. cbn [filter]. destruct (negb (fst (snd x) =? w_orig e)) eqn:P; cbn [filter]; destruct (fst x =? 5)%nat; cbn [filter]; rewrite ?P, IH; reflexivity. }
    rewrite X, (v_direct _ _ _ _ _ _ I), filter_map_c. f_equal. unfold raw, others. cbn [fst].
    assert (Y : forall l, incl l W -> filter (fun x => negb (w_orig x =? w_orig e)) (filter (direct (g_ac g)) l) = filter (direct (g_ac g)) (filter (fun x => negb (w_user x =? w_user e)) l)).
    { induction l as [|x l IH]; intros IC; [reflexivity|]. specialize (IH ltac:(intros y Y; apply IC; right; exact Y)). pose proof (raw_user c g mem live T W e x I E (IC x (or_introl eq_refl))) as Q. cbn [filter].
      assert (QB : (w_orig x =? w_orig e) = (w_user x =? w_user e)) by (destruct (Z.eqb_spec (w_orig x) (w_orig e)); destruct (Z.eqb_spec (w_user x) (w_user e)); tauto).
      destruct (direct (g_ac g) x) eqn:DX; cbn [filter]; rewrite ?QB; destruct (w_user x =? w_user e); cbn [negb filter]; rewrite ?DX, IH; reflexivity. }
    apply Y. apply incl_refl.
  - cbn [g_meta]. rewrite (v_meta _ _ _ _ _ _ I). apply others_meta.
  - intros x X. apply others_in in X. exact (v_own _ _ _ _ _ _ I x (proj1 X)).
  - apply nodup_map_filter2. exact (v_nodup _ _ _ _ _ _ I).
  - intros x y X Y DD. apply others_in in X. apply others_in in Y. exact (v_apart _ _ _ _ _ _ I x y (proj1 X) (proj1 Y) DD).
  - intros p n P. exact (v_regs _ _ _ _ _ _ I p n (SUB _ P)).
  - rewrite RM. unfold without. rewrite map_map. apply nodup_map_filter2. rewrite <- map_map, <- (v_mem _ _ _ _ _ _ I). exact (v_regnodup _ _ _ _ _ _ I).
  - intros p n q m P Q DD. exact (v_regapart _ _ _ _ _ _ I p n q m (SUB _ P) (SUB _ Q) DD).
Qed.

(* ---- creation ---- *)
Lemma os_ok_app : forall page ev ev' mem, os_ok page mem (ev ++ ev') <-> os_ok page mem ev /\ os_ok page (held_after mem ev) ev'.
Proof.
  intros page ev ev'. induction ev as [|e r IH]; intros mem; [cbn; tauto|]. destruct e; cbn [app os_ok held_after fold_left os_step].
  - rewrite IH. unfold held_after. tauto.
  - apply IH.
  - apply IH.
Qed.
Lemma held_after_app : forall ev ev' mem, held_after mem (ev ++ ev') = held_after (held_after mem ev) ev'.
Proof. intros. unfold held_after. apply fold_left_app. Qed.
Lemma create_first : forall dbg c size p lock ev b mem, machine c -> fits c size -> umf_ba_create dbg c size (Some p) lock = Some (ev, b) -> os_ok (k_page c) mem ev -> multiple_of p (k_page c).
Proof.
  intros dbg c size p lock ev b mem M F H OK. destruct (create_ok dbg c size None lock M F ltac:(discriminate)) as (n & _ & _ & HN). unfold umf_ba_create in H, HN. cbv zeta in *.
  destruct (_ =? 0); [discriminate|]. destruct (_ =? 0); [discriminate|]. destruct (utils_align_ptr_up_size_down _ _ _) as (d, l). destruct (negb lock); [injection H as <- <-|destruct (ba_divide_memory_into_chunks _ _ _ _); [injection H as <- <-|discriminate]]; cbn [os_ok] in OK; destruct OK as ((_ & _ & PM & _) & _); exact PM.
Qed.
Definition regs_fine (T : list (nat * (Z * Z))) : Prop :=
  (forall p n, In (p, n) (map snd T) -> 0 < p /\ 0 < n /\ p + n < U64) /\ NoDup (map fst (map snd T)) /\ (forall p n q m, In (p, n) (map snd T) -> In (q, m) (map snd T) -> p <> q -> apart p n q m).
Lemma held_pos : forall (l : list (Z * Z)), (forall p n, In (p, n) l -> 0 < p /\ 0 < n /\ p + n < U64) -> 0 <= held_bytes l.
Proof. induction l as [|(p, n) l IH]; intros H; [cbn; lia|]. unfold held_bytes in *. cbn [fold_right snd]. pose proof (H p n (or_introl eq_refl)). specialize (IH ltac:(intros q m Q; apply H; right; exact Q)). lia. Qed.

Lemma create_all : forall dbg c os i T ev bs, machine c -> (i + length os <= 5)%nat -> regs_fine T -> (forall j, (i <= j)%nat -> tagged j T = []) ->
  create_classes dbg c i os = Some (ev, bs) -> os_ok (k_page c) (map snd T) ev ->
  exists T', held_after (map snd T) ev = map snd T' /\ regs_fine T' /\ length bs = length os /\ (forall j, (j < i \/ i + length os <= j)%nat -> tagged j T' = tagged j T) /\
    (forall j b, nth_error bs j = Some (Some b) -> ok c b [] /\ b_chunk b = ac_size (i + j) /\ regs b = tagged (i + j) T').
Proof.
  intros dbg c os. induction os as [|(o, lock) os IH]; intros i T ev bs M L RF E0 H OK; cbn [create_classes] in H.
  - injection H as <- <-. exists T. split; [reflexivity|]. split; [exact RF|]. split; [reflexivity|]. split; [auto|]. intros j b X. destruct j; discriminate.
  - cbn [length] in L. destruct (umf_ba_create dbg c (ac_size i) o lock) as [(ev1, b1)|] eqn:C; [|discriminate]. destruct (create_classes dbg c (S i) os) as [(ev2, bs2)|] eqn:C2; [|discriminate]. injection H as <- <-.
    apply os_ok_app in OK. destruct OK as (OK1 & OK2). pose proof (ac_fits c i M ltac:(lia)) as F.
    assert (PM : forall p, o = Some p -> multiple_of p (k_page c)) by (intros p ->; exact (create_first _ _ _ _ _ _ _ _ M F C OK1)).
    destruct (create_ok dbg c (ac_size i) o lock M F PM) as (n & _ & NB & CO). destruct (ac_size_8 i) as (_ & A16).
    assert (STEP : exists T1, held_after (map snd T) ev1 = map snd T1 /\ regs_fine T1 /\ (forall j, j <> i -> tagged j T1 = tagged j T) /\ (forall b, b1 = Some b -> ok c b [] /\ b_chunk b = ac_size i /\ regs b = tagged i T1)).
    { destruct o as [p|].
      - destruct lock.
        + destruct CO as (b & CO & RG & CB & O). rewrite CO in C. injection C as <- <-. cbn [os_ok] in OK1. destruct OK1 as (FM & _). destruct RF as (R1 & R2 & R3).
          exists ((i, (p, n)) :: T). split; [reflexivity|]. split; [exact (fresh_regs (k_page c) T i p n R1 R2 R3 FM ltac:(lia))|]. split.
          { intros j J. unfold tagged. cbn [filter fst]. rewrite (proj2 (Nat.eqb_neq i j)) by congruence. reflexivity. }
          intros b2 B2. injection B2 as <-. split; [apply O|]. { destruct FM as (Q1 & Q2 & Q3 & _ & Q5). split; [exact Q1|]. split; [exact Q2|]. split; [exact Q3|]. split; [intros q m []|]. pose proof (held_pos _ R1). change (held_bytes []) with 0. lia. }
          split; [exact (chunk_is i _ CB)|]. rewrite RG. unfold tagged. cbn [filter fst]. rewrite Nat.eqb_refl. cbn [map snd]. f_equal. symmetry. exact (E0 i ltac:(lia)).
        + rewrite CO in C. injection C as <- <-. cbn [os_ok] in OK1. destruct OK1 as (FM & _). destruct RF as (R1 & R2 & R3). exists T. split.
          { cbn [held_after fold_left os_step]. cbn [release flat_map fst snd]. rewrite !Z.eqb_refl. cbn [andb app]. destruct FM as (Q1 & Q2 & _ & Q4 & _). fold (release p n (map snd T)).
            assert (X : forall l, incl l (map snd T) -> release p n l = l). { induction l as [|(q, m) l IHl]; intros IC; [reflexivity|]. cbn [release flat_map fst snd]. fold (release p n l). rewrite IHl by (intros y Y; apply IC; right; exact Y). pose proof (IC _ (or_introl eq_refl)) as Q. pose proof (Q4 q m Q) as A. destruct (R1 q m Q). unfold apart in A.
              replace ((q =? p) && (m =? n)) with false by lia. replace ((q <? p) && (q + m =? p + n)) with false by lia. reflexivity. }
            apply X. apply incl_refl. }
          split; [exact (conj R1 (conj R2 R3))|]. split; [auto|discriminate].
      - rewrite CO in C. injection C as <- <-. exists T. split; [reflexivity|]. split; [exact RF|]. split; [auto|discriminate]. }
    destruct STEP as (T1 & H1 & RF1 & TG1 & B1). rewrite H1 in OK2.
    destruct (IH (S i) T1 ev2 bs2 M ltac:(lia) RF1 ltac:(intros j J; rewrite TG1 by lia; apply E0; lia) C2 OK2) as (T2 & H2 & RF2 & LN & TG2 & B2).
    exists T2. split; [rewrite held_after_app, H1; exact H2|]. split; [exact RF2|]. split; [cbn [length]; congruence|]. split.
    + intros j J. rewrite TG2 by (cbn [length] in J; lia). apply TG1. cbn [length] in J. lia.
    + intros j b X. destruct j as [|j]; cbn [nth_error] in X.
      * injection X as ->. destruct (B1 b eq_refl) as (O & K & R). replace (i + 0)%nat with i by lia. split; [exact O|]. split; [exact K|]. rewrite TG2 by lia. exact R.
      * destruct (B2 j b X) as (O & K & R). replace (i + S j)%nat with (S i + j)%nat by lia. auto.
Qed.

(* ---- the steps ---- *)
Lemma held_tagged : forall T i, (forall p n, In (p, n) (map snd T) -> 0 < p /\ 0 < n /\ p + n < U64) -> held_bytes (tagged i T) <= held_bytes (map snd T).
Proof.
  induction T as [|(t, (p, n)) T IH]; intros i H; [cbn; lia|]. specialize (IH i ltac:(intros q m Q; apply H; right; exact Q)). pose proof (H p n (or_introl eq_refl)). unfold tagged, held_bytes in *. cbn [filter fst map snd fold_right]. destruct (t =? i)%nat; cbn [map snd fold_right]; lia.
Qed.

(* what an allocation of a positive size does *)
Lemma galloc_cases : forall dbg c g v T W size al os, machine c -> ginv c g (gv_mem v) (gv_live v) T W -> 0 < size -> power_of_two al -> size + 8 + al < 2 ^ 32 ->
  (forall ptr ev g', umf_ba_global_aligned_alloc dbg g size al os = Some (ptr, ev, g') -> os_ok (k_page c) (gv_mem v) ev ->
     ptr <> 0 /\ exists T' W', ginv c g' (held_after (gv_mem v) ev) ((ptr, size, al) :: gv_live v) T' W') /\
  (forall p, os = Some p -> os_answer c p -> exists ptr ev g', umf_ba_global_aligned_alloc dbg g size al os = Some (ptr, ev, g') /\ (ev = [] \/ exists n, ev = [OsAlloc p n])).
Proof.
  intros dbg c g v T W size al os M I S0 PO SB. assert (UU : U64 = 18446744073709551616) by reflexivity. change (2 ^ 32) with 4294967296 in SB. pose proof (pow2_range al PO) as AR. pose proof (page_8 c M) as PG.
  set (t := total_of size al). assert (TB : 8 < t < 4294967296) by (unfold t, total_of, ALLOC_METADATA_SIZE; destruct (8 <? al); lia).
  assert (UNF : umf_ba_global_aligned_alloc dbg g size al os =
     let finish p ev ac := match add_metadata_and_align dbg p t al with None => None | Some (user, w) => Some (user, ev, Global ac (if user =? 0 then g_meta g else (user - 8, w) :: g_meta g)) end in
     let direct := match os with Some p => finish p [OsAlloc p t] (g_ac g) | None => finish 0 [OsFail t] (g_ac g) end in
     if (5 <=? cls t)%nat then direct else match nth_error (g_ac g) (cls t) with None => None | Some None => direct | Some (Some b) => match umf_ba_alloc dbg b os with None => None | Some (p, ev, b') => finish p ev (set_ac (cls t) (g_ac g) b') end end).
  { unfold umf_ba_global_aligned_alloc. rewrite (proj2 (Z.eqb_neq size 0)) by lia. unfold ALLOC_METADATA_SIZE. rewrite (proj2 (Z.ltb_ge (U64 - 1 - 8) size)) by lia. cbv zeta. rewrite (proj2 (Z.ltb_ge (U64 - 1 - al) (size + 8))) by lia. rewrite andb_false_r. fold (total_of size al). change (if 8 <? al then size + 8 + al else size + 8) with (total_of size al). fold t. rewrite class_big by lia. reflexivity. }
  rewrite UNF. clear UNF. cbv zeta.
  assert (GD : forall p u w, 0 < p -> p mod 8 = 0 -> p + t < U64 -> add_metadata_and_align dbg p t al = Some (u, w) -> u <> 0 /\ good (Own u size al p t w)).
  { intros p u w P0 P8 PU A. destruct (add_meta dbg p size al P0 P8 PU S0 PO ltac:(change (2 ^ 32) with 4294967296; lia)) as (u' & w' & A' & X1 & X2 & X3 & X4 & X5 & X6). fold t in A', X3, X5. rewrite A in A'. injection A' as <- <-. split; [exact X4|]. split; cbn; auto; change (2 ^ 32) with 4294967296; lia. }
  assert (AM : forall p, 0 < p -> p mod 8 = 0 -> p + t < U64 -> exists u w, add_metadata_and_align dbg p t al = Some (u, w)).
  { intros p P0 P8 PU. destruct (add_meta dbg p size al P0 P8 PU S0 PO ltac:(change (2 ^ 32) with 4294967296; lia)) as (u' & w' & A' & _). eauto. }
  assert (NUL : add_metadata_and_align dbg 0 t al = None) by reflexivity.
  pose proof (v_len _ _ _ _ _ _ I) as LEN.
  (* memory taken directly *)
  assert (DIRECT : (5 <= cls t)%nat \/ nth_error (g_ac g) (cls t) = Some None ->
    (forall ptr ev g', match os with Some p => match add_metadata_and_align dbg p t al with None => None | Some (user, w) => Some (user, [OsAlloc p t], Global (g_ac g) (if user =? 0 then g_meta g else (user - 8, w) :: g_meta g)) end | None => match add_metadata_and_align dbg 0 t al with None => None | Some (user, w) => Some (user, [OsFail t], Global (g_ac g) (if user =? 0 then g_meta g else (user - 8, w) :: g_meta g)) end end = Some (ptr, ev, g') ->
       os_ok (k_page c) (gv_mem v) ev -> ptr <> 0 /\ exists T' W', ginv c g' (held_after (gv_mem v) ev) ((ptr, size, al) :: gv_live v) T' W') /\
    (forall p, os = Some p -> os_answer c p -> exists ptr ev g', match os with Some p => match add_metadata_and_align dbg p t al with None => None | Some (user, w) => Some (user, [OsAlloc p t], Global (g_ac g) (if user =? 0 then g_meta g else (user - 8, w) :: g_meta g)) end | None => match add_metadata_and_align dbg 0 t al with None => None | Some (user, w) => Some (user, [OsFail t], Global (g_ac g) (if user =? 0 then g_meta g else (user - 8, w) :: g_meta g)) end end = Some (ptr, ev, g') /\ (ev = [] \/ exists n, ev = [OsAlloc p n]))).
  { intros DD. split.
    - intros ptr ev g' H OK. destruct os as [p|]; [|rewrite NUL in H; discriminate]. destruct (add_metadata_and_align dbg p t al) as [(u, w)|] eqn:A; [|discriminate]. injection H as <- <- <-. cbn [os_ok] in OK. destruct OK as (FM & _). pose proof FM as (P0 & PU & PM & _).
      destruct (GD p u w P0 (mod8_mult c p M PM) PU A) as (U0 & G). split; [exact U0|]. rewrite (proj2 (Z.eqb_neq _ _) U0). eexists _, _. apply (add_direct c g (gv_mem v) (gv_live v) T W (Own u size al p t w) M I G); [|exact FM].
      unfold direct. cbn [w_total]. destruct DD as [D|D]; [rewrite (proj2 (nth_error_None _ _)) by lia; reflexivity|rewrite D; reflexivity].
    - intros p -> (P0 & PM & PU). change (2 ^ 32) with 4294967296 in PU. destruct (AM p P0 (mod8_mult c p M PM) ltac:(lia)) as (u & w & A). rewrite A. eexists _, _, _. split; [reflexivity|]. right. eauto. }
  destruct (Nat.leb_spec 5 (cls t)) as [BIG|SMALL]; [apply DIRECT; left; exact BIG|].
  destruct (nth_error (g_ac g) (cls t)) as [[b|]|] eqn:N; [|apply DIRECT; right; reflexivity|apply nth_error_None in N; lia].
  clear DIRECT. destruct (v_class _ _ _ _ _ _ I _ b N) as (O & K & RG).
  split.
  - intros ptr ev g' H OK. destruct (umf_ba_alloc dbg b os) as [[[p ev0] b']|] eqn:A; [|discriminate]. destruct (add_metadata_and_align dbg p t al) as [(u, w)|] eqn:AD; [|discriminate]. injection H as <- <- <-.
    assert (PM : b_free b = [] -> forall p, os = Some p -> multiple_of p (k_page c)). { intros E q ->. rewrite (alloc_event _ _ _ _ _ _ A E) in OK. cbn [os_ok] in OK. destruct OK as ((_ & _ & PM & _) & _). exact PM. }
    destruct (alloc_ok dbg c b (clive (cls t) W) os M O PM) as (p2 & ev2 & b2 & A2 & K1 & K2 & CS). rewrite A in A2. injection A2 as <- <- <-.
    assert (FIN : forall T', ok c b' (p :: clive (cls t) W) -> held_after (gv_mem v) ev0 = map snd T' -> incl T T' -> (forall j, j <> cls t -> tagged j T' = tagged j T) -> regs b' = tagged (cls t) T' -> regs_fine T' ->
      u <> 0 /\ exists T' W', ginv c (Global (set_ac (cls t) (g_ac g) b') (if u =? 0 then g_meta g else (u - 8, w) :: g_meta g)) (held_after (gv_mem v) ev0) ((u, size, al) :: gv_live v) T' W').
    { intros T' O' HM IC TG RG' (R1 & R2 & R3). pose proof (live_place c b' _ p O' (or_introl eq_refl)) as PL. destruct (place_bounds c b' _ p M O' PL) as (q & QR & B1 & B2 & _ & P8). destruct (o_regs _ _ _ O' _ _ QR) as (Q0 & QU & _).
      pose proof (class_small t ltac:(lia)) as CS2. destruct (GD p u w ltac:(lia) P8 ltac:(lia) AD) as (U0 & G). split; [exact U0|]. rewrite (proj2 (Z.eqb_neq _ _) U0). rewrite HM. exists T', (Own u size al p t w :: W).
      apply (add_class c g (gv_mem v) (gv_live v) T W (cls t) b b' T' (Own u size al p t w) M I N G eq_refl O'); auto. }
    destruct CS as [(_ & -> & PN & O' & RG')|[(_ & _ & -> & _ & _)|(_ & q & -> & -> & -> & RG' & O')]].
    + apply (FIN T); auto; [exact (v_mem _ _ _ _ _ _ I)|apply incl_refl|congruence|]. unfold regs_fine. rewrite <- (v_mem _ _ _ _ _ _ I). split; [|split]; [exact (v_regs _ _ _ _ _ _ I)|exact (v_regnodup _ _ _ _ _ _ I)|exact (v_regapart _ _ _ _ _ _ I)].
    + rewrite NUL in AD. discriminate.
    + cbn [os_ok] in OK. destruct OK as (FM & _). pose proof (v_mem _ _ _ _ _ _ I) as VM. pose proof (v_regs _ _ _ _ _ _ I) as VR. pose proof (v_regnodup _ _ _ _ _ _ I) as VN. pose proof (v_regapart _ _ _ _ _ _ I) as VA. rewrite VM in VR, VN, VA. destruct (o_size _ _ _ O) as (SZ & _). destruct (o_chunk _ _ _ O) as (CH & _). destruct (header_ok c M) as (h & _ & HB).
      apply (FIN ((cls t, (q, b_size b)) :: T)).
      * apply O'. destruct FM as (Q1 & Q2 & Q3 & Q4 & Q5). split; [exact Q1|]. split; [exact Q2|]. split; [exact Q3|]. split.
        { intros r m RM. apply Q4. rewrite RG in RM. apply tagged_in in RM. rewrite VM. apply (in_map snd) in RM. exact RM. }
        rewrite RG. pose proof (held_tagged T (cls t) VR) as HT. rewrite <- VM in HT. lia.
      * cbn [held_after fold_left os_step map snd]. rewrite VM. reflexivity.
      * intros x X. right. exact X.
      * intros j J. unfold tagged. cbn [filter fst]. rewrite (proj2 (Nat.eqb_neq (cls t) j)) by congruence. reflexivity.
      * rewrite RG', RG. unfold tagged. cbn [filter fst]. rewrite Nat.eqb_refl. reflexivity.
      * rewrite VM in FM. exact (fresh_regs (k_page c) T (cls t) q (b_size b) VR VN VA FM ltac:(lia)).
  - intros p -> (P0 & PM & PU). change (2 ^ 32) with 4294967296 in PU. destruct (alloc_ok dbg c b (clive (cls t) W) (Some p) M O ltac:(intros _ q Q; injection Q as <-; exact PM)) as (p2 & ev2 & b2 & A2 & K1 & K2 & CS). rewrite A2.
    destruct CS as [(_ & -> & PN & O' & RG')|[(_ & X & _)|(_ & q & Q & -> & -> & RG' & O')]]; [|discriminate|].
    + pose proof (live_place c b2 _ p2 O' (or_introl eq_refl)) as PL. destruct (place_bounds c b2 _ p2 M O' PL) as (q & QR & B1 & B2 & _ & P8). destruct (o_regs _ _ _ O' _ _ QR) as (Q0 & QU & _). pose proof (class_small t ltac:(lia)) as CS2. rewrite K1, K in B2.
      destruct (AM p2 ltac:(lia) P8 ltac:(lia)) as (u & w & A). rewrite A. eexists _, _, _. split; [reflexivity|left; reflexivity].
    + injection Q as <-. assert (T256 : t <= 256) by (pose proof (class_small t ltac:(lia)) as X; assert (ac_size (cls t) <= 256) by (unfold ac_size; change 256 with (2 ^ 8); apply Z.pow_le_mono_r; lia); lia).
      destruct (AM (p + 8) ltac:(lia) ltac:(apply mod8_add; [exact (mod8_mult c p M PM)|reflexivity]) ltac:(lia)) as (u & w & A). rewrite A. eexists _, _, _. split; [reflexivity|right; eauto].
Qed.

Lemma get_orig : forall c g mem live T W e, ginv c g mem live T W -> In e W -> get_original_alloc (g_meta g) (w_user e) = Some (w_orig e, w_total e, w_orig e + w_total e - w_user e).
Proof.
  intros c g mem live T W e I E. unfold get_original_alloc, ALLOC_METADATA_SIZE. rewrite (v_meta _ _ _ _ _ _ I), (meta_found e W (v_nodup _ _ _ _ _ _ I) E). cbv zeta. destruct (v_own _ _ _ _ _ _ I e E) as [A1 A2 A3 A4 A5 A6 A7 A8 A9]. rewrite A8, A9.
  rewrite (wrap_id (w_user e - (w_user e - w_orig e))) by lia. rewrite (wrap_id (w_total e - (w_user e - w_orig e))) by lia. f_equal. f_equal; [f_equal|]; lia.
Qed.
Lemma user_own : forall c g mem live T W p, ginv c g mem live T W -> In p (map g_ptr live) -> exists e, In e W /\ w_user e = p.
Proof. intros c g mem live T W p I L. rewrite (v_live _ _ _ _ _ _ I), map_map in L. apply in_map_iff in L. destruct L as (e & E & X). exists e. auto. Qed.

Lemma gfree_ok : forall dbg c g v T W p, machine c -> ginv c g (gv_mem v) (gv_live v) T W -> In p (map g_ptr (gv_live v)) ->
  exists ev g', umf_ba_global_free dbg c g p = Some (ev, g') /\ (exists T' W', ginv c g' (held_after (gv_mem v) ev) (filter (fun x => negb (g_ptr x =? p)) (gv_live v)) T' W') /\
    (ev = [] \/ exists q n, ev = [OsFree q n] /\ In (q, n) (gv_mem v) /\ q + 8 <= p < q + n /\ (forall e, In e W -> w_user e <> p -> apart q n (w_orig e) (w_total e))).
Proof.
  intros dbg c g v T W p M I L. destruct (user_own _ _ _ _ _ _ _ I L) as (e & E & <-). pose proof (v_own _ _ _ _ _ _ I e E) as [A1 A2 A3 A4 A5 A6 A7 A8 A9]. pose proof (total_word _ _ _ _ _ _ I e E) as TW. pose proof (v_len _ _ _ _ _ _ I) as LEN.
  unfold umf_ba_global_free. rewrite (proj2 (Z.eqb_neq (w_user e) 0)) by lia. rewrite (get_orig _ _ _ _ _ _ e I E). cbv zeta. rewrite class_big by exact TW. fold (cls (w_total e)). unfold ALLOC_METADATA_SIZE.
  assert (DIR : direct (g_ac g) e = true -> (exists T' W', ginv c (Global (g_ac g) (filter (fun x => negb (fst x =? w_user e - 8)) (g_meta g))) (held_after (gv_mem v) [OsFree (w_orig e) (w_total e)]) (filter (fun x => negb (g_ptr x =? w_user e)) (gv_live v)) T' W') /\
     ([OsFree (w_orig e) (w_total e)] = [] \/ exists q n, [OsFree (w_orig e) (w_total e)] = [OsFree q n] /\ In (q, n) (gv_mem v) /\ q + 8 <= w_user e < q + n /\ (forall x, In x W -> w_user x <> w_user e -> apart q n (w_orig x) (w_total x)))).
  { intros D. destruct (free_direct c g _ _ T W e M I E D) as (J & R). split; [eexists _, _; exact J|]. right. exists (w_orig e), (w_total e). split; [reflexivity|]. split; [exact R|]. split; [lia|]. intros x X N. apply (v_apart _ _ _ _ _ _ I e x E X). congruence. }
  destruct (Nat.leb_spec 5 (cls (w_total e))) as [BIG|SMALL].
  - eexists _, _. split; [reflexivity|]. apply DIR. unfold direct. rewrite (proj2 (nth_error_None _ _)) by lia. reflexivity.
  - destruct (nth_error (g_ac g) (cls (w_total e))) as [[b|]|] eqn:N; [| |apply nth_error_None in N; lia].
    + destruct (v_class _ _ _ _ _ _ I _ b N) as (O & K & RG). destruct (free_ok dbg c b _ (w_orig e) M O) as (b' & F & O' & RG' & K'); [unfold clive; apply in_map; apply filter_In; split; [exact E|apply Nat.eqb_refl]|].
      rewrite F. eexists _, _. split; [reflexivity|]. split; [|left; reflexivity]. exists T, (others (w_user e) W). cbn [held_after fold_left]. exact (free_class c g _ _ T W _ b b' e M I E N eq_refl O' RG' K').
    + eexists _, _. split; [reflexivity|]. apply DIR. unfold direct. rewrite N. reflexivity.
Qed.

(* ---- all histories ---- *)
Lemma greached_inv : forall dbg c g v, machine c -> greached dbg c g v -> exists T W, ginv c g (gv_mem v) (gv_live v) T W.
Proof.
  intros dbg c g v M R. induction R as [os ev g LEN H OK|g v k ptr ev g' R IH EN ST OK].
  - unfold umf_ba_create_global in H. destruct (create_classes dbg c 0 os) as [(ev0, bs)|] eqn:C; [|discriminate]. injection H as <- <-.
    destruct (create_all dbg c os 0 [] ev0 bs M ltac:(lia)) as (T & HM & (R1 & R2 & R3) & LB & TG & B); [|reflexivity|exact C|exact OK|].
    { split; [intros p n []|]. split; [constructor|intros p n q m []]. }
    exists T, []. cbn [gv_mem gv_live]. change (@nil (Z * Z)) with (map snd (@nil (nat * (Z * Z)))). rewrite HM. split.
    + reflexivity.
    + reflexivity.
    + cbn [g_ac]. lia.
    + cbn [g_ac]. intros i b N. exact (B i b N).
    + rewrite TG by lia. reflexivity.
    + reflexivity.
    + intros e [].
    + constructor.
    + intros e e' [].
    + exact R1.
    + exact R2.
    + exact R3.
  - destruct IH as (T & W & I). destruct k as [size al os|p]; cbn [gstep gobserve genv gv_mem gv_live] in *.
    + destruct EN as (S0 & PO & SB). destruct (Z.eq_dec size 0) as [->|SN].
      { unfold umf_ba_global_aligned_alloc in ST. cbn in ST. injection ST as <- <- <-. exists T, W. exact I. }
      destruct (proj1 (galloc_cases dbg c g v T W size al os M I ltac:(lia) PO SB) ptr ev g' ST OK) as (PN & J). rewrite (proj2 (Z.eqb_neq _ _) PN). exact J.
    + destruct EN as [->|L].
      * unfold umf_ba_global_free in ST. cbn in ST. injection ST as <- <- <-. exists T, W. cbn [held_after fold_left]. assert (E : filter (fun x => negb (g_ptr x =? 0)) (gv_live v) = gv_live v); [|rewrite E; exact I].
        pose proof (v_own _ _ _ _ _ _ I) as G. rewrite (v_live _ _ _ _ _ _ I). clear - G. induction W as [|e W IH]; [reflexivity|]. cbn [map filter]. change (g_ptr (pub e)) with (w_user e). destruct (G e (or_introl eq_refl)) as [A1 A2 A3 A4 A5 A6 A7 A8 A9]. rewrite (proj2 (Z.eqb_neq (w_user e) 0)) by lia. cbn [negb]. f_equal. apply IH. intros x X. apply G. right. exact X.
      * destruct (gfree_ok dbg c g v T W p M I L) as (ev2 & g2 & F & J & _). rewrite F in ST. injection ST as <- <- <-. exact J.
Qed.

Lemma own_of_live : forall c g mem live T W u s al, ginv c g mem live T W -> In (u, s, al) live -> exists e, In e W /\ w_user e = u /\ w_size e = s /\ w_al e = al.
Proof. intros c g mem live T W u s al I L. rewrite (v_live _ _ _ _ _ _ I) in L. apply in_map_iff in L. destruct L as (e & E & X). unfold pub in E. injection E as E1 E2 E3. exists e. auto. Qed.
Lemma usable_is : forall c g mem live T W e, ginv c g mem live T W -> In e W -> umf_ba_global_malloc_usable_size g (w_user e) = Some (w_orig e + w_total e - w_user e).
Proof.
  intros c g mem live T W e I E. unfold umf_ba_global_malloc_usable_size. destruct (v_own _ _ _ _ _ _ I e E) as [A1 A2 A3 A4 A5 A6 A7 A8 A9]. rewrite (proj2 (Z.eqb_neq (w_user e) 0)) by lia. rewrite (get_orig _ _ _ _ _ _ e I E). reflexivity.
Qed.
Lemma gmain_live : forall dbg c g v, machine c -> greached dbg c g v ->
  NoDup (map g_ptr (gv_live v)) /\
  (forall u s al, In (u, s, al) (gv_live v) -> multiple_of u al /\ exists n, umf_ba_global_malloc_usable_size g u = Some n /\ s <= n /\ exists p m, In (p, m) (gv_mem v) /\ p + 8 <= u /\ u + n <= p + m) /\
  (forall u s al u' s' al' n n', In (u, s, al) (gv_live v) -> In (u', s', al') (gv_live v) -> u <> u' -> umf_ba_global_malloc_usable_size g u = Some n -> umf_ba_global_malloc_usable_size g u' = Some n' -> apart (u - 8) (n + 8) (u' - 8) (n' + 8)).
Proof.
  intros dbg c g v M R. destruct (greached_inv dbg c g v M R) as (T & W & I). split; [|split].
  - rewrite (v_live _ _ _ _ _ _ I), map_map. exact (v_nodup _ _ _ _ _ _ I).
  - intros u s al L. destruct (own_of_live _ _ _ _ _ _ _ _ _ I L) as (e & E & <- & <- & <-). destruct (v_own _ _ _ _ _ _ I e E) as [A1 A2 A3 A4 A5 A6 A7 A8 A9]. split; [exact A2|]. eexists. split; [exact (usable_is _ _ _ _ _ _ e I E)|]. split; [lia|].
    destruct (own_region c g _ _ T W M I e E) as (t & (p, m) & TR & X1 & X2 & _). exists p, m. split; [rewrite (v_mem _ _ _ _ _ _ I); apply (in_map snd) in TR; exact TR|]. cbn [fst snd] in *. lia.
  - intros u s al u' s' al' n n' L L' D N N'. destruct (own_of_live _ _ _ _ _ _ _ _ _ I L) as (e & E & <- & _). destruct (own_of_live _ _ _ _ _ _ _ _ _ I L') as (e' & E' & <- & _).
    rewrite (usable_is _ _ _ _ _ _ e I E) in N. rewrite (usable_is _ _ _ _ _ _ e' I E') in N'. injection N as <-. injection N' as <-. pose proof (v_apart _ _ _ _ _ _ I e e' E E' D) as A. destruct (v_own _ _ _ _ _ _ I e E) as [A1 A2 A3 A4 A5 A6 A7 A8 A9]. destruct (v_own _ _ _ _ _ _ I e' E') as [B1 B2 B3 B4 B5 B6 B7 B8 B9]. unfold apart in *. lia.
Qed.
Lemma gmain_alloc : forall dbg c g v size al p, machine c -> greached dbg c g v -> 0 <= size -> power_of_two al -> size + 8 + al < 2 ^ 32 -> os_answer c p ->
  exists ptr ev g', gstep dbg c g (GAlloc size al (Some p)) = Some (ptr, ev, g') /\ (ev = [] \/ exists n, ev = [OsAlloc p n]) /\ (size = 0 -> ptr = 0 /\ ev = [] /\ g' = g) /\
    (0 < size -> os_ok (k_page c) (gv_mem v) ev -> ptr <> 0 /\ ~ In ptr (map g_ptr (gv_live v))).
Proof.
  intros dbg c g v size al p M R S0 PO SB PA. destruct (greached_inv dbg c g v M R) as (T & W & I). cbn [gstep]. destruct (Z.eq_dec size 0) as [->|SN].
  { exists 0, [], g. split; [reflexivity|]. split; [left; reflexivity|]. split; [auto|lia]. }
  destruct (galloc_cases dbg c g v T W size al (Some p) M I ltac:(lia) PO SB) as (C1 & C2). destruct (C2 p eq_refl PA) as (ptr & ev & g' & H & EV). exists ptr, ev, g'. split; [exact H|]. split; [exact EV|]. split; [lia|]. intros _ OK. destruct (C1 ptr ev g' H OK) as (PN & T' & W' & J). split; [exact PN|].
  pose proof (v_nodup _ _ _ _ _ _ J) as N. pose proof (v_live _ _ _ _ _ _ J) as VL. assert (Q : map w_user W' = map g_ptr ((ptr, size, al) :: gv_live v)) by (rewrite VL, map_map; reflexivity). rewrite Q in N. cbn [map] in N. inversion N. assumption.
Qed.
Lemma gmain_free : forall dbg c g v p, machine c -> greached dbg c g v -> In p (map g_ptr (gv_live v)) ->
  exists ev g', gstep dbg c g (GFree p) = Some (0, ev, g') /\
    (ev = [] \/ exists q n, ev = [OsFree q n] /\ In (q, n) (gv_mem v) /\ q + 8 <= p < q + n /\ (forall u s al m, In (u, s, al) (gv_live v) -> u <> p -> umf_ba_global_malloc_usable_size g u = Some m -> apart q n (u - 8) (m + 8))).
Proof.
  intros dbg c g v p M R L. destruct (greached_inv dbg c g v M R) as (T & W & I). cbn [gstep]. destruct (gfree_ok dbg c g v T W p M I L) as (ev & g' & F & _ & D). rewrite F. exists ev, g'. split; [reflexivity|]. destruct D as [D|(q & n & E & Q & B & A)]; [left; exact D|right]. exists q, n. split; [exact E|]. split; [exact Q|]. split; [exact B|].
  intros u s al m LU N US. destruct (own_of_live _ _ _ _ _ _ _ _ _ I LU) as (e & EE & <- & _). rewrite (usable_is _ _ _ _ _ _ e I EE) in US. injection US as <-. pose proof (A e EE N) as AA. destruct (v_own _ _ _ _ _ _ I e EE) as [A1 A2 A3 A4 A5 A6 A7 A8 A9]. unfold apart in *. lia.
Qed.
