(* Calls of the chunk allocator keep the invariant. *)
From Verif Require Import Base Model_Utils Spec_Utils Proof_Utils Model_BaseAlloc Spec_BaseAlloc Proof_BaseAlloc.

Lemma round_up : forall v a, pow2 a -> 0 <= v -> v + a - 1 < U64 ->
  exists r, ALIGN_UP_SAFE v a = r /\ r mod a = 0 /\ v <= r < v + a /\ forall m, m mod a = 0 -> v <= m -> r <= m.
Proof.
  intros v a P V U. pose proof (pow2_range _ P) as R. destruct (round_up_least v a ltac:(lia)) as (A & B & C). eexists. split; [|split; [exact A|split; [exact B|exact C]]].
  rewrite align_up_safe_word by (try assumption; unfold is_word; lia). rewrite (proj2 (Z.leb_gt _ _)) by lia. reflexivity.
Qed.
Lemma pow2_8 : pow2 8. Proof. exists 3. split; [lia|reflexivity]. Qed.
Lemma page_is : forall c, machine c -> pow2 (k_page c) /\ k_page c mod 8 = 0.
Proof.
  intros c M. destruct (page_pow c M) as ((k & K & E) & G). split; [exists k; auto|]. assert (3 <= k). { destruct (Z_lt_le_dec k 3); [|lia]. assert (k = 0 \/ k = 1 \/ k = 2) as [->|[->| ->]] by lia; cbn in E; lia. }
  rewrite E. replace k with ((k - 3) + 3) by lia. rewrite Z.pow_add_r by lia. apply Z.mod_mul. lia.
Qed.
Lemma mod8_mult : forall c p, machine c -> multiple_of p (k_page c) -> p mod 8 = 0.
Proof. intros c p M (q & ->). destruct (page_is c M) as (_ & E). rewrite Z.mul_mod by lia. rewrite E, Z.mul_0_r. reflexivity. Qed.
Lemma mod8_add : forall a b, a mod 8 = 0 -> b mod 8 = 0 -> (a + b) mod 8 = 0.
Proof. intros a b A B. rewrite Z.add_mod, A, B by lia. reflexivity. Qed.
Lemma no_shift : forall p s, p mod 8 = 0 -> utils_align_ptr_up_size_down p s MEMORY_ALIGNMENT = (p, s).
Proof.
  intros p s E. unfold utils_align_ptr_up_size_down, MEMORY_ALIGNMENT. change (wrap (8 - 1)) with (2 ^ 3 - 1). rewrite land_low by lia. change (2 ^ 3) with 8. rewrite E. reflexivity.
Qed.

Lemma sum_app : forall l m, held_bytes (l ++ m) = held_bytes l + held_bytes m.
Proof. unfold held_bytes. induction l as [|x l IH]; intros m; cbn [app fold_right]; [lia|]. rewrite IH. lia. Qed.
Lemma held_regs : forall b, held_bytes (regs b) = Z.of_nat (S (length (b_pools b))) * b_size b.
Proof.
  intros b. unfold regs. rewrite sum_app. assert (E : forall l, held_bytes (map (fun p : Z => (p, b_size b)) l) = Z.of_nat (length l) * b_size b).
  { induction l as [|x l IH]; [reflexivity|]. cbn [map held_bytes fold_right snd length]. fold (held_bytes (map (fun p : Z => (p, b_size b)) l)). rewrite IH. lia. } rewrite E. unfold held_bytes. cbn [fold_right snd]. lia.
Qed.
(* there are fewer chunks than bytes *)
Lemma all_few : forall c b live, machine c -> ok c b live -> Z.of_nat (length (all_places c b)) < U64.
Proof.
  intros c b live M O. destruct (o_chunk _ _ _ O) as (C & _). destruct (o_size _ _ _ O) as (S1 & _). destruct (header_ok c M) as (h & H1 & H2). pose proof (o_total _ _ _ O) as T. rewrite held_regs in T.
  assert (L : forall off p, 8 <= off <= k_header c -> Z.of_nat (length (places (b_size b) (b_chunk b) off p)) <= b_size b).
  { intros off p OF. unfold places. rewrite carve_length by (auto using fuel_enough; try apply fuel_enough; lia). apply Z.div_le_upper_bound; [lia|nia]. }
  unfold all_places. rewrite app_length, Nat2Z.inj_add. pose proof (L (k_header c) (b_base b) ltac:(lia)) as LB.
  assert (G : forall l, Z.of_nat (length (concat (map (places (b_size b) (b_chunk b) 8) l))) <= Z.of_nat (length l) * b_size b).
  { induction l as [|x l IH]; [cbn; lia|]. cbn [map concat length]. rewrite app_length, Nat2Z.inj_add. pose proof (L 8 x ltac:(lia)). lia. }
  specialize (G (b_pools b)). lia.
Qed.
Lemma checks_ok : forall c b live, machine c -> ok c b live -> ba_debug_checks b = true.
Proof.
  intros c b live M O. unfold ba_debug_checks. rewrite (o_pools _ _ _ O), Z.eqb_refl. cbn [andb]. rewrite (o_chunks _ _ _ O), (o_allocs _ _ _ O), <- (Permutation_length (o_perm _ _ _ O)), app_length.
  pose proof (all_few c b live M O) as F. rewrite <- (Permutation_length (o_perm _ _ _ O)), app_length in F. rewrite wrap_id by (unfold is_word; lia). lia.
Qed.

Lemma create_ok : forall dbg c size (os : option Z) (lock : bool), machine c -> fits c size -> (forall p, os = Some p -> multiple_of p (k_page c)) ->
  exists n, n mod k_page c = 0 /\ size <= n < U64 /\
  match os with
  | None => umf_ba_create dbg c size os lock = Some ([OsFail n], None)
  | Some p =>
      if lock then exists b, umf_ba_create dbg c size os lock = Some ([OsAlloc p n], Some b) /\ regs b = [(p, n)] /\ chunk_bytes size (b_chunk b) /\ (fresh_mem (k_page c) [] p n -> ok c b [])
      else umf_ba_create dbg c size os lock = Some ([OsAlloc p n; OsFree p n], None)
  end.
Proof.
  intros dbg c size os lock M (S0 & F) OS. destruct (header_ok c M) as (h & H1 & H2). pose proof (mutex_small c M) as MU. destruct (page_is c M) as (PP & P8). pose proof (pow2_range _ PP) as PR. destruct (page_pow c M) as (_ & PG).
  assert (UU : U64 = 18446744073709551616) by reflexivity.
  destruct (round_up size 8 pow2_8 ltac:(lia) ltac:(lia)) as (ch & E1 & C8 & CB & CL). unfold umf_ba_create. cbv zeta. unfold MEMORY_ALIGNMENT. rewrite E1. rewrite (proj2 (Z.eqb_neq _ _)) by lia.
  set (s := k_header c + k_mutex c + 128 * ch). assert (W : wrap s = s) by (apply wrap_id; unfold is_word, s; lia).
  assert (E2 : exists n, ba_pool_size c ch = n /\ n mod k_page c = 0 /\ s <= n < U64).
  { unfold ba_pool_size. cbv zeta. change MINIMUM_CHUNK_COUNT with 128. fold s. rewrite W. destruct (Z.ltb_spec s (k_page c)) as [L|L].
    - destruct (round_up (k_page c) (k_page c) PP ltac:(lia) ltac:(lia)) as (n & E & A & B & LM). exists n. rewrite E. split; [reflexivity|]. split; [exact A|]. pose proof (LM (k_page c) ltac:(apply Z.mod_same; lia) ltac:(lia)). lia.
    - destruct (round_up s (k_page c) PP ltac:(lia) ltac:(unfold s; lia)) as (n & E & A & B & _). exists n. rewrite E. split; [reflexivity|]. split; [exact A|]. unfold s in *. lia. }
  destruct E2 as (n & -> & NM & NB). exists n. split; [exact NM|]. split; [unfold s in *; lia|]. rewrite (proj2 (Z.eqb_neq _ _)) by (unfold s in NB; lia). destruct os as [p|]; [|reflexivity].
  specialize (OS p eq_refl). pose proof (mod8_mult c p M OS) as P8'.
  fold MEMORY_ALIGNMENT. rewrite no_shift by (apply mod8_add; [exact P8'|rewrite H1, Z.mul_comm; apply Z.mod_mul; lia]). destruct lock; cbn [negb]; [|reflexivity].
  unfold ba_divide_memory_into_chunks. cbn [b_free b_chunk b_base b_size b_allocs b_pools b_npools b_nchunks negb orb]. rewrite (proj2 (Z.leb_gt _ _)) by (unfold s in NB; lia). rewrite andb_false_r.
  set (l := carve (S (Z.to_nat ((n - k_header c) / ch))) (p + k_header c) (n - k_header c) ch). assert (LE : l = places n ch (k_header c) p) by reflexivity.
  assert (NE : match l with [] => [p + k_header c] | _ => l end = l). { unfold l. cbn [carve]. rewrite (proj2 (Z.leb_le _ _)) by (unfold s in NB; lia). reflexivity. }
  rewrite NE. eexists. split; [reflexivity|]. split; [reflexivity|]. cbn [b_chunk].
  split. { unfold chunk_bytes, least_multiple_above. split; [apply mod_multiple in C8; [exact C8|lia]|]. split; [lia|]. intros m' MM. apply CL. apply mod_multiple; [lia|exact MM]. }
  intros (FP & FU & FM & _ & FT). split; unfold regs, all_places; cbn [b_chunk b_size b_free b_allocs b_nchunks b_pools b_npools b_base map concat app length].
  - split; [lia|exact C8].
  - split; [unfold s in NB; lia|]. apply mod_multiple in NM; [exact NM|lia].
  - rewrite app_nil_r, <- LE. apply Permutation_refl.
  - reflexivity.
  - rewrite <- LE. lia.
  - reflexivity.
  - intros q m [E|[]]. injection E as <- <-. auto.
  - repeat constructor; intros [].
  - intros q m q' m' [E|[]] [E'|[]] D. congruence.
  - cbn in *. lia.
Qed.

Lemma take_ok : forall dbg c b live ev x r, machine c -> ok c b live -> b_free b = x :: r ->
  exists b', ba_take dbg b ev = Some (x, ev, b') /\ ok c b' (x :: live) /\ regs b' = regs b /\ b_chunk b' = b_chunk b.
Proof.
  intros dbg c b live ev x r M O E. unfold ba_take. rewrite E. cbv zeta. set (b' := Ba _ _ _ _ _ _ _ _).
  assert (O' : ok c b' (x :: live)).
  { destruct O as [o_chunk0 o_size0 o_perm0 o_allocs0 o_chunks0 o_pools0 o_regs0 o_nodup0 o_apart0 o_total0]. unfold b'. split; unfold regs, all_places in *; cbn [b_chunk b_size b_free b_allocs b_nchunks b_pools b_npools b_base] in *; try assumption.
    - rewrite E in o_perm0. rewrite <- o_perm0. cbn [app]. apply Permutation_sym, Permutation_middle.
    - cbn [length]. lia. }
  rewrite (checks_ok c b' _ M O'). rewrite andb_false_r. exists b'. split; [reflexivity|]. split; [exact O'|]. split; reflexivity.
Qed.

(* ---- umf_ba_alloc ---- *)
Lemma alloc_ok : forall dbg c b live (os : option Z), machine c -> ok c b live -> (b_free b = [] -> forall p, os = Some p -> multiple_of p (k_page c)) ->
  exists ptr ev b', umf_ba_alloc dbg b os = Some (ptr, ev, b') /\ b_chunk b' = b_chunk b /\ b_size b' = b_size b /\
   ((b_free b <> [] /\ ev = [] /\ ptr <> 0 /\ ok c b' (ptr :: live) /\ regs b' = regs b) \/
    (b_free b = [] /\ os = None /\ ptr = 0 /\ ev = [OsFail (b_size b)] /\ b' = b) \/
    (b_free b = [] /\ exists p, os = Some p /\ ev = [OsAlloc p (b_size b)] /\ ptr = p + 8 /\ regs b' = (p, b_size b) :: regs b /\ (fresh_mem (k_page c) (regs b) p (b_size b) -> ok c b' (ptr :: live)))).
Proof.
  intros dbg c b live os M O OS. unfold umf_ba_alloc. destruct (header_ok c M) as (h & H1 & H2). destruct (b_free b) as [|x r] eqn:E.
  - destruct os as [p|].
    + specialize (OS eq_refl p eq_refl). pose proof (mod8_mult c p M OS) as P8. rewrite no_shift by (apply mod8_add; [exact P8|reflexivity]).
      destruct (o_chunk _ _ _ O) as (C & C8). destruct (o_size _ _ _ O) as (S1 & S2).
      unfold ba_divide_memory_into_chunks. cbn [b_free b_chunk b_base b_size b_allocs b_pools b_npools b_nchunks negb orb]. rewrite (proj2 (Z.leb_gt _ _)) by lia. rewrite andb_false_r.
      set (l := carve (S (Z.to_nat ((b_size b - 8) / b_chunk b))) (p + 8) (b_size b - 8) (b_chunk b)). assert (LE : l = places (b_size b) (b_chunk b) 8 p) by reflexivity.
      assert (NE : exists r, l = p + 8 :: r). { unfold l. cbn [carve]. rewrite (proj2 (Z.leb_le _ _)) by lia. eauto. } destruct NE as (r & NE).
      replace (match l with [] => [p + 8] | _ => l end) with l by (rewrite NE; reflexivity). set (b2 := Ba _ _ _ _ _ _ _ _).
      assert (FR : b_free b2 = p + 8 :: r) by exact NE.
      assert (OK2 : fresh_mem (k_page c) (regs b) p (b_size b) -> ok c b2 live).
      { intros (FP & FU & FM & FA & FT). pose proof (o_perm _ _ _ O) as PE. rewrite E in PE. cbn [app] in PE. assert (PR : forall q m, In (q, m) (regs b) -> q <> p). { intros q m Q ->. specialize (FA p m Q). rewrite (reg_size b p m Q) in FA. unfold apart in FA. lia. }
        assert (R2 : regs b2 = (p, b_size b) :: regs b) by reflexivity.
        split; rewrite ?R2; try (unfold b2; cbn [b_chunk b_size b_free b_allocs b_nchunks b_pools b_npools b_base]).
        - auto.
        - auto.
        - unfold all_places. cbn [b_chunk b_size b_pools b_base map concat]. rewrite <- app_assoc, LE. apply Permutation_app_head. exact PE.
        - exact (o_allocs _ _ _ O).
        - rewrite (o_chunks _ _ _ O). unfold all_places. cbn [b_chunk b_size b_pools b_base map concat]. rewrite <- app_assoc, <- LE, (app_length l). lia.
        - rewrite (o_pools _ _ _ O). cbn [length]. lia.
        - intros q m [Q|Q]; [injection Q as <- <-; auto|exact (o_regs _ _ _ O q m Q)].
        - cbn [app]. constructor; [|exact (o_nodup _ _ _ O)]. intros Q. apply (PR p (b_size b)); [|reflexivity]. apply reg_in. apply in_app_iff in Q. cbn in Q. intuition.
        - intros q m q' m' [Q|Q] [Q'|Q'] D.
          + congruence.
          + injection Q as <- <-. exact (FA _ _ Q').
          + injection Q' as <- <-. pose proof (FA _ _ Q) as X. unfold apart in *. lia.
          + exact (o_apart _ _ _ O _ _ _ _ Q Q' D).
        - cbn [held_bytes fold_right snd]. fold (held_bytes (regs b)). lia. }
      unfold ba_take. rewrite FR. cbv zeta. set (b' := Ba _ _ _ r _ _ _ _).
      assert (CK : dbg && negb (ba_debug_checks b') = false).
      { destruct dbg; [|reflexivity]. cbn [andb]. apply negb_false_iff. unfold ba_debug_checks, b', b2. cbn [b_chunk b_size b_free b_allocs b_nchunks b_pools b_npools b_base]. rewrite (o_pools _ _ _ O), (o_allocs _ _ _ O), (o_chunks _ _ _ O).
        rewrite <- (Permutation_length (o_perm _ _ _ O)), E. cbn [app]. assert (LL : Z.of_nat (length l) = Z.of_nat (length r) + 1) by (rewrite NE; cbn [length]; lia).
        assert (LB : Z.of_nat (length l) <= b_size b). { rewrite LE. unfold places. rewrite carve_length by (auto using fuel_enough; try apply fuel_enough; lia). apply Z.div_le_upper_bound; [lia|nia]. }
        pose proof (o_total _ _ _ O) as T. rewrite held_regs in T. assert (SU : b_size b < U64) by (clear - T S1 C H2; nia). assert (LS : length (b_free b ++ live) = length live) by (rewrite E; reflexivity). rewrite wrap_id by (unfold is_word; cbn [length]; lia). cbn [length]; lia. }
      rewrite CK. exists (p + 8), [OsAlloc p (b_size b)], b'. split; [reflexivity|]. split; [reflexivity|]. split; [reflexivity|]. right. right. split; [reflexivity|]. exists p. split; [reflexivity|]. split; [reflexivity|]. split; [reflexivity|]. split; [reflexivity|].
      intros FM. destruct (take_ok dbg c b2 live [] (p + 8) r M (OK2 FM) FR) as (b3 & T1 & T2 & _). unfold ba_take in T1. rewrite FR in T1. cbv zeta in T1. fold b' in T1. rewrite CK in T1. injection T1 as <-. exact T2.
    + exists 0, [OsFail (b_size b)], b. repeat (split; [reflexivity|]). right. left. auto.
  - destruct (take_ok dbg c b live [] x r M O E) as (b' & T & O' & R & K). exists x, [], b'. split; [exact T|]. split; [exact K|].
    assert (X : In x (all_places c b)) by (apply (Permutation_in _ (o_perm _ _ _ O)); rewrite E; left; reflexivity). destruct (place_bounds c b live x M O X) as (p & PR & B1 & _). destruct (o_regs _ _ _ O _ _ PR) as (P0 & _).
    split. { unfold ba_take in T. rewrite E in T. cbv zeta in T. destruct (dbg && _); [discriminate|]. injection T as <-. reflexivity. }
    left. split; [discriminate|]. split; [reflexivity|]. split; [lia|]. auto.
Qed.

(* ---- umf_ba_free ---- *)
Lemma perm_remove : forall p l, NoDup l -> In p l -> Permutation l (p :: remove Z.eq_dec p l).
Proof.
  intros p l N I. induction N as [|x l NI N IH]; [destruct I|]. cbn [remove]. destruct (Z.eq_dec p x) as [<-|D].
  - rewrite notin_remove by exact NI. apply Permutation_refl.
  - destruct I as [E|I]; [congruence|]. rewrite (IH I) at 1. apply perm_swap.
Qed.
Lemma nodup_right : forall {A} (l m : list A), NoDup (l ++ m) -> NoDup m.
Proof. intros A l m. induction l as [|x l IH]; intros N; [exact N|]. cbn in N. inversion N. auto. Qed.
Lemma live_nodup : forall c b live, machine c -> ok c b live -> NoDup live /\ NoDup (b_free b ++ live).
Proof. intros c b live M O. pose proof (all_nodup c b live M O) as N. apply (Permutation_NoDup (Permutation_sym (o_perm _ _ _ O))) in N. split; [apply nodup_right in N; exact N|exact N]. Qed.
Lemma live_place : forall c b live x, ok c b live -> In x live -> In x (all_places c b).
Proof. intros c b live x O L. apply (Permutation_in _ (o_perm _ _ _ O)). apply in_or_app. right. exact L. Qed.
Lemma free_ok : forall dbg c b live p, machine c -> ok c b live -> In p live ->
  exists b', umf_ba_free dbg c b p = Some b' /\ ok c b' (remove Z.eq_dec p live) /\ regs b' = regs b /\ b_chunk b' = b_chunk b.
Proof.
  intros dbg c b live p M O L. pose proof (live_place c b live p O L) as X. destruct (place_bounds c b live p M O X) as (q & QR & B1 & B2 & B3 & _). destruct (o_regs _ _ _ O _ _ QR) as (Q0 & _). destruct (o_chunk _ _ _ O) as (C & _).
  unfold umf_ba_free. rewrite (proj2 (Z.eqb_neq p 0)) by lia.
  assert (PC : pool_contains_pointer c b p = true). { unfold pool_contains_pointer. apply orb_true_iff. destruct B3 as [B3|(-> & B3)]; [right; apply existsb_exists; exists q; split; [exact B3|lia]|left; lia]. }
  rewrite PC, andb_false_r. cbv zeta. set (b' := Ba _ _ _ _ _ _ _ _).
  pose proof (perm_remove p live (proj1 (live_nodup c b live M O)) L) as PR.
  assert (O' : ok c b' (remove Z.eq_dec p live)).
  { pose proof (all_few c b live M O) as FW. rewrite <- (Permutation_length (o_perm _ _ _ O)), app_length in FW. destruct O as [o_chunk0 o_size0 o_perm0 o_allocs0 o_chunks0 o_pools0 o_regs0 o_nodup0 o_apart0 o_total0]. unfold b'. split; unfold regs, all_places in *; cbn [b_chunk b_size b_free b_allocs b_nchunks b_pools b_npools b_base] in *; try assumption.
    - rewrite <- o_perm0. cbn [app]. rewrite PR at 2. apply Permutation_middle.
    - rewrite o_allocs0. pose proof (Permutation_length PR) as LN. cbn [length] in LN. rewrite wrap_id by (unfold is_word; lia). lia. }
  rewrite (checks_ok c b' _ M O'), andb_false_r. exists b'. auto.
Qed.
Lemma destroy_ok : forall dbg proxy c b live, machine c -> ok c b live -> exists evs, umf_ba_destroy dbg proxy b = Some evs /\ ((proxy = false \/ live = []) -> evs = map (fun x => OsFree (fst x) (snd x)) (regs b)) /\ (proxy = true -> live <> [] -> evs = []).
Proof.
  intros dbg proxy c b live M O. unfold umf_ba_destroy. rewrite (checks_ok c b live M O), andb_false_r, (o_allocs _ _ _ O). unfold regs. rewrite map_app, map_map. cbn [map fst snd].
  destruct live as [|x l]; cbn [length].
  - cbn. eexists. split; [reflexivity|]. split; [reflexivity|congruence].
  - rewrite (proj2 (Z.eqb_neq _ _)) by lia. destruct proxy; cbn [negb andb]; eexists; (split; [reflexivity|]); split; try reflexivity; try discriminate. intros [X|X]; discriminate.
Qed.

(* ---- all histories ---- *)
Lemma alloc_event : forall dbg b p ptr ev b', umf_ba_alloc dbg b (Some p) = Some (ptr, ev, b') -> b_free b = [] -> ev = [OsAlloc p (b_size b)].
Proof.
  intros dbg b p ptr ev b' H E. unfold umf_ba_alloc in H. rewrite E in H. destruct (utils_align_ptr_up_size_down _ _ _) as (d, l). destruct (ba_divide_memory_into_chunks _ _ _ _) as [b2|]; [|discriminate].
  unfold ba_take in H. destruct (b_free b2); [injection H as _ <- _; reflexivity|]. destruct (dbg && _); [discriminate|]. injection H as _ <- _. reflexivity.
Qed.
Lemma create_event : forall dbg c size p ev b, umf_ba_create dbg c size (Some p) true = Some (ev, Some b) -> exists n, ev = [OsAlloc p n].
Proof.
  intros dbg c size p ev b H. unfold umf_ba_create in H. cbv zeta in H. destruct (_ =? 0); [discriminate|]. destruct (_ =? 0); [discriminate|]. destruct (utils_align_ptr_up_size_down _ _ _) as (d, l). cbn [negb] in H.
  destruct (ba_divide_memory_into_chunks _ _ _ _) as [b2|]; [|discriminate]. injection H as <- _. eauto.
Qed.
Lemma breached_inv : forall dbg c size b v, machine c -> fits c size -> breached dbg c size b v -> ok c b (bv_live v) /\ regs b = bv_mem v /\ chunk_bytes size (b_chunk b).
Proof.
  intros dbg c size b v M F R. induction R as [os ev b H OK|b v k ptr ev b' R IH EN ST OK].
  - destruct os as [p|].
    + destruct (create_event _ _ _ _ _ _ H) as (n & ->). cbn [os_ok] in OK. destruct OK as (FM & _). pose proof FM as (_ & _ & PM & _).
      destruct (create_ok dbg c size (Some p) true M F ltac:(intros q Q; injection Q as <-; exact PM)) as (n' & _ & _ & b2 & H2 & RG & CB & O). rewrite H in H2. injection H2 as <- <-. split; [apply O; exact FM|]. auto.
    + destruct (create_ok dbg c size None true M F ltac:(discriminate)) as (n' & _ & _ & H2). congruence.
  - destruct IH as (O & RG & CB). destruct k as [os|p]; cbn [bstep bobserve bv_live bv_mem] in *.
    + assert (PM : b_free b = [] -> forall p, os = Some p -> multiple_of p (k_page c)).
      { intros E p ->. rewrite (alloc_event _ _ _ _ _ _ ST E) in OK. cbn [os_ok] in OK. destruct OK as ((_ & _ & PM & _) & _). exact PM. }
      destruct (alloc_ok dbg c b (bv_live v) os M O PM) as (ptr' & ev' & b2 & H & K1 & K2 & CASES). rewrite ST in H. injection H as <- <- <-. rewrite K1.
      destruct CASES as [(_ & -> & PN & O' & RG')|[(_ & _ & -> & -> & ->)|(_ & p & -> & -> & PE & RG' & O')]].
      * rewrite (proj2 (Z.eqb_neq _ _) PN). cbn. rewrite RG'. auto.
      * cbn. auto.
      * cbn [os_ok] in OK. destruct OK as (FM & _). rewrite <- RG in FM. specialize (O' FM). destruct FM as (P0 & _). rewrite (proj2 (Z.eqb_neq ptr 0)) by lia. cbn. rewrite RG', RG. auto.
    + destruct EN as [->|L].
      * unfold umf_ba_free in ST. cbn in ST. injection ST as <- <- <-. cbn. split; [|auto]. rewrite notin_remove; [exact O|]. intros L. destruct (place_bounds c b _ 0 M O (live_place c b _ 0 O L)) as (q & QR & B & _). destruct (o_regs _ _ _ O _ _ QR). lia.
      * destruct (free_ok dbg c b (bv_live v) p M O L) as (b2 & H & O' & RG' & K). rewrite H in ST. injection ST as <- <- <-. cbn. rewrite RG', K. auto.
Qed.

Lemma bmain_live : forall dbg c size b v k, machine c -> fits c size -> breached dbg c size b v -> chunk_bytes size k ->
  NoDup (bv_live v) /\
  (forall x, In x (bv_live v) -> multiple_of x 8 /\ exists p n, In (p, n) (bv_mem v) /\ p + 8 <= x /\ x + k <= p + n) /\
  (forall x y, In x (bv_live v) -> In y (bv_live v) -> x <> y -> apart x k y k).
Proof.
  intros dbg c size b v k M F R CB. destruct (breached_inv dbg c size b v M F R) as (O & RG & CB').
  assert (k = b_chunk b) as -> by (destruct CB as (A1 & A2 & A3); destruct CB' as (B1 & B2 & B3); pose proof (A3 _ B1 B2); pose proof (B3 _ A1 A2); lia).
  split; [exact (proj1 (live_nodup c b _ M O))|]. split.
  - intros x L. destruct (place_bounds c b _ x M O (live_place c b _ x O L)) as (p & PR & B1 & B2 & _ & B3). split; [apply mod_multiple; [lia|exact B3]|]. exists p, (b_size b). rewrite <- RG. auto.
  - intros x y X Y N. exact (places_apart c b _ x y M O (live_place c b _ x O X) (live_place c b _ y O Y) N).
Qed.
Lemma bmain_total : forall dbg c size b v k, machine c -> fits c size -> breached dbg c size b v -> benv v k -> (forall p, k = BAlloc (Some p) -> multiple_of p (k_page c)) ->
  exists ptr ev b', bstep dbg c b k = Some (ptr, ev, b') /\
    (os_ok (k_page c) (bv_mem v) ev ->
     match k with BFree _ => ev = [] | BAlloc os => (ptr = 0 <-> exists n, ev = [OsFail n]) /\ ((exists n, ev = [OsFail n]) -> os = None) /\ (ptr <> 0 -> ~ In ptr (bv_live v)) end).
Proof.
  intros dbg c size b v k M F R EN PM. destruct (breached_inv dbg c size b v M F R) as (O & RG & CB). destruct k as [os|p]; cbn [bstep].
  - destruct (alloc_ok dbg c b (bv_live v) os M O ltac:(intros _ p ->; auto)) as (ptr & ev & b' & H & _ & _ & CASES). exists ptr, ev, b'. split; [exact H|]. intros OK.
    destruct CASES as [(_ & -> & PN & O' & _)|[(_ & -> & -> & -> & _)|(E & p & -> & -> & -> & _ & O')]].
    + split; [split; [congruence|intros (n & X); discriminate]|]. split; [intros (n & X); discriminate|]. intros _. pose proof (proj1 (live_nodup c b' _ M O')) as N. inversion N. assumption.
    + split; [split; [eauto|reflexivity]|]. split; [reflexivity|congruence].
    + cbn [os_ok] in OK. destruct OK as (FM & _). rewrite <- RG in FM. specialize (O' FM). destruct FM as (P0 & _). split; [split; [lia|intros (n & X); discriminate]|]. split; [intros (n & X); discriminate|]. intros _. pose proof (proj1 (live_nodup c b' _ M O')) as N. inversion N. assumption.
  - destruct EN as [->|L]; [exists 0, [], b; split; [reflexivity|auto]|]. destruct (free_ok dbg c b (bv_live v) p M O L) as (b2 & -> & _). exists 0, [], b2. auto.
Qed.
Lemma bmain_reuse : forall dbg c size b v k os ptr ev b' p n, machine c -> fits c size -> breached dbg c size b v -> chunk_bytes size k ->
  bstep dbg c b (BAlloc os) = Some (ptr, ev, b') -> ev <> [] -> In (p, n) (bv_mem v) -> n < k_header c + (Z.of_nat (length (filter (fun x => in_mem x (p, n)) (bv_live v))) + 1) * k.
Proof.
  intros dbg c size b v k os ptr ev b' p n M F R CB ST EV IN. destruct (breached_inv dbg c size b v M F R) as (O & RG & CB').
  assert (k = b_chunk b) as -> by (destruct CB as (A1 & A2 & A3); destruct CB' as (B1 & B2 & B3); pose proof (A3 _ B1 B2); pose proof (B3 _ A1 A2); lia).
  assert (E : b_free b = []). { cbn [bstep] in ST. unfold umf_ba_alloc in ST. destruct (b_free b) as [|x r] eqn:E; [reflexivity|]. unfold ba_take in ST. rewrite E in ST. destruct (dbg && _); [discriminate|]. injection ST as _ <- _. congruence. }
  rewrite <- RG in IN. pose proof (reg_size b p n IN) as ->. apply reg_in in IN. destruct (header_ok c M) as (h & H1 & H2). destruct (o_chunk _ _ _ O) as (C & _). destruct (o_size _ _ _ O) as (S1 & _).
  assert (X : exists off, 8 <= off <= k_header c /\ (In p (b_pools b) /\ off = 8 \/ p = b_base b /\ off = k_header c)) by (destruct IN as [IN|IN]; [exists 8|exists (k_header c)]; split; auto; lia).
  destruct X as (off & OF & P). assert (LN : Z.of_nat (length (places (b_size b) (b_chunk b) off p)) = (b_size b - off) / b_chunk b) by (unfold places; apply carve_length; auto using fuel_enough; try apply fuel_enough; lia).
  assert (LE : (length (places (b_size b) (b_chunk b) off p) <= length (filter (fun x => in_mem x (p, b_size b)) (bv_live v)))%nat).
  { apply NoDup_incl_length; [unfold places; apply carve_nodup; auto using fuel_enough; try apply fuel_enough; lia|]. intros x X. apply filter_In.
    apply places_in in X; [|assumption|lia]. destruct X as (i & A & B & ->). split.
    - assert (Y : In (p + off + i * b_chunk b) (all_places c b)) by (apply (all_in c b _ _ O); exists p, off, i; auto). apply (Permutation_in _ (Permutation_sym (o_perm _ _ _ O))) in Y. rewrite E in Y. exact Y.
    - unfold in_mem. cbn [fst snd]. clear - A B C OF. nia. }
  pose proof (Z.div_mod (b_size b - off) (b_chunk b) ltac:(lia)) as D. pose proof (Z.mod_pos_bound (b_size b - off) (b_chunk b) C). clear - LN LE D H OF C. nia.
Qed.
Lemma bmain_destroy : forall dbg proxy c size b v, machine c -> fits c size -> breached dbg c size b v ->
  NoDup (map fst (bv_mem v)) /\ exists evs, umf_ba_destroy dbg proxy b = Some evs /\ ((proxy = false \/ bv_live v = []) -> evs = map (fun x => OsFree (fst x) (snd x)) (bv_mem v)) /\ (proxy = true -> bv_live v <> [] -> evs = []).
Proof.
  intros dbg proxy c size b v M F R. destruct (breached_inv dbg c size b v M F R) as (O & RG & CB). rewrite <- RG. split; [|exact (destroy_ok dbg proxy c b _ M O)].
  unfold regs. rewrite map_app, map_map. cbn [map fst]. rewrite map_id. exact (o_nodup _ _ _ O).
Qed.
