From Verif Require Import Base Model_Utils Spec_Utils Proof_Utils Model_OsNuma Spec_OsNuma Proof_OsNumaSplit.

(* ---------------- parameters ---------------- *)
Lemma find_target_sep : forall nodes t, existsb (fun n => n =? t) nodes = true -> find_target nodes (map (fun n => [n]) nodes) t = Some [t].
Proof.
  induction nodes as [|n r IH]; intros t H; cbn [existsb] in H; [discriminate|]. cbn [map find_target].
  destruct (Z.eqb_spec n t) as [->|]; [reflexivity|]. apply IH. now destruct (n =? t).
Qed.
Lemma fill_parts_sep : forall nodes ps, forallb (fun x => negb (fst x =? 0) && existsb (fun n => n =? snd x) nodes) ps = true ->
  fill_parts nodes (map (fun n => [n]) nodes) ps = Some (map (fun x => (fst x, [snd x])) ps).
Proof.
  induction ps as [|[w t] r IH]; intros H; cbn [forallb fst snd] in H; [reflexivity|].
  apply andb_true_iff in H. destruct H as [H1 H2]. apply andb_true_iff in H1. cbn [fill_parts map fst snd].
  rewrite find_target_sep by tauto. now rewrite IH.
Qed.
Lemma translate_defined : forall page all q, translate_params page all q <> None.
Proof.
  intros page all q. unfold translate_params.
  destruct (negb (validate_numa_mode _ _)) eqn:V; [discriminate|].
  destruct (validatePartitions q) eqn:VP; cbn [negb]; [|discriminate].
  destruct (mode_eqb _ _ && _); [discriminate|].
  unfold initializePartitions, dedicated_node_bind. destruct (q_mode q) eqn:M; try discriminate.
  destruct (q_nodes q) as [|n0 r] eqn:N; [discriminate|]. cbn [initialize_nodeset].
  destruct (q_parts q) eqn:Q; [discriminate|]. rewrite <- Q. rewrite fill_parts_sep; [discriminate|].
  unfold validatePartitions in VP. now rewrite N in VP.
Qed.

Definition wt (q : params) : list Z := map fst (shares q).
Lemma fold_wrap : forall (l : list (Z * Z)) a, 0 <= a -> (forall w, In w (map fst l) -> 0 < w) -> a + total (map fst l) < U64 ->
  fold_left (fun a x => wrap (a + fst x)) l a = a + total (map fst l).
Proof.
  induction l as [|[w t] r IH]; intros a A H B; cbn [map fst total fold_left] in *; [lia|].
  assert (R : forall x, In x (map fst r) -> 0 < x) by (intros; apply H; now right).
  pose proof (H w (or_introl eq_refl)). pose proof (total_nonneg _ R).
  assert (W : wrap (a + w) = a + w) by (unfold wrap; apply Z.mod_small; lia).
  rewrite W, IH; [lia|lia|exact R|lia].
Qed.
Lemma total_ones : forall (l : list Z), total (map fst (map (fun n => (1, n)) l)) = Z.of_nat (length l).
Proof. induction l as [|a r IH]; [reflexivity|]. cbn [map fst total length]. rewrite IH. lia. Qed.

Lemma translate_split : forall page all q u, translate_params page all q = Some (SUCCESS, Some u) -> q_mode q = M_SPLIT ->
  (forall w, In w (wt q) -> 0 <= w) -> total (wt q) < U64 ->
  nu_mode u = M_SPLIT /\ q_nodes q <> [] /\ nu_nodeset u = map (fun n => [n]) (q_nodes q) /\
  nu_parts u = map (fun x => (fst x, [snd x])) (shares q) /\ nu_wsum u = total (wt q) /\
  (forall w, In w (wt q) -> 0 < w) /\ (forall x, In x (shares q) -> In (snd x) (q_nodes q)) /\ shares q <> [].
Proof.
  intros page all q u T M W0 TB. unfold translate_params in T. rewrite M in T. cbn [validate_numa_mode mode_eqb andb] in T.
  destruct (q_nodes q) as [|n0 r] eqn:N; [discriminate|]. cbn [negb] in T.
  destruct (validatePartitions q) eqn:VP; cbn [negb] in T; [|discriminate].
  unfold initializePartitions, dedicated_node_bind in T. rewrite M in T. cbn [initialize_nodeset] in T.
  unfold validatePartitions in VP. rewrite N in VP, T.
  unfold wt in *. destruct (q_parts q) as [|p0 pr] eqn:Q.
  - assert (SH : shares q = map (fun n => (1, n)) (n0 :: r)) by (unfold shares; now rewrite Q, N). rewrite SH in *.
    injection T as <-. cbn [nu_mode nu_nodeset nu_parts nu_wsum].
    split; [reflexivity|]. split; [discriminate|]. split; [reflexivity|].
    split. { rewrite firstn_all2 by (rewrite map_length; cbn [length]; lia). rewrite map_map. cbn [map]. f_equal. now rewrite map_map. }
    split. { now rewrite total_ones. }
    split. { intros w IN. rewrite map_map in IN. apply in_map_iff in IN. destruct IN as (x & <- & _). cbn. lia. }
    split; [|discriminate].
    intros x IN. apply in_map_iff in IN. destruct IN as (y & <- & IN). exact IN.
  - assert (SH : shares q = p0 :: pr) by (unfold shares; now rewrite Q). rewrite SH in *.
    change ([n0] :: map (fun n => [n]) r) with (map (fun n : Z => [n]) (n0 :: r)) in T. rewrite fill_parts_sep in T by exact VP. injection T as <-. cbn [nu_mode nu_nodeset nu_parts nu_wsum].
    assert (POS : forall w, In w (map fst (p0 :: pr)) -> 0 < w).
    { intros w IN. specialize (W0 w IN). apply in_map_iff in IN. destruct IN as (x & <- & IN). rewrite forallb_forall in VP. specialize (VP x IN). lia. }
    split; [reflexivity|]. split; [discriminate|]. split; [reflexivity|]. split; [reflexivity|].
    split. { pose proof (fold_wrap (p0 :: pr) 0 (Z.le_refl 0) POS TB) as F. exact F. }
    split; [exact POS|]. split; [|discriminate].
    intros x IN. rewrite forallb_forall in VP. specialize (VP x IN). apply andb_true_iff in VP. destruct VP as [_ VP].
    apply existsb_exists in VP. destruct VP as (n & IN2 & E). assert (n = snd x) by lia. now subst.
Qed.

(* ---------------- histories ---------------- *)
Lemma os_bind_keeps : forall u addr size page calls u', os_bind u addr size page = Some (calls, u') ->
  nu_mode u' = nu_mode u /\ nu_nodeset u' = nu_nodeset u /\ nu_part u' = nu_part u /\ nu_parts u' = nu_parts u /\ nu_wsum u' = nu_wsum u /\
  (nu_mode u <> M_INTERLEAVE \/ (exists s, nu_nodeset u = [s]) -> u' = u) /\
  (nu_mode u = M_INTERLEAVE -> (forall s, nu_nodeset u <> [s]) -> nu_sum u' = wrap (nu_sum u + size)).
Proof.
  intros u addr size page calls u' E. unfold os_bind in E.
  assert (FST : forall m v, membindFirst u addr size page = Some (m, v) ->
    nu_mode v = nu_mode u /\ nu_nodeset v = nu_nodeset u /\ nu_part v = nu_part u /\ nu_parts v = nu_parts u /\ nu_wsum v = nu_wsum u /\
    (nu_mode u <> M_INTERLEAVE \/ (exists s, nu_nodeset u = [s]) -> v = u) /\
    (nu_mode u = M_INTERLEAVE -> (forall s, nu_nodeset u <> [s]) -> nu_sum v = wrap (nu_sum u + size))).
  { intros m v EM. unfold membindFirst in EM.
    assert (D : (exists s, nu_nodeset u = [s] /\ v = u) \/ ((forall s, nu_nodeset u <> [s]) /\
       (nu_mode u = M_INTERLEAVE /\ v = set_sum u (wrap (nu_sum u + size)) \/ nu_mode u <> M_INTERLEAVE /\ v = u))).
    { destruct (nu_nodeset u) as [|s [|s2 r]] eqn:NS.
      - right. split; [discriminate|]. destruct (nu_mode u); try discriminate.
        + left. destruct (nu_part u =? 0); [discriminate|]. destruct (nth_set _ _); [|discriminate]. injection EM as <- <-. auto.
        + right. destruct (nextBind _ _); [|discriminate]. injection EM as <- <-. split; [discriminate|reflexivity].
      - left. exists s. injection EM as <- <-. auto.
      - right. split; [discriminate|]. destruct (nu_mode u); try discriminate.
        + left. destruct (nu_part u =? 0); [discriminate|]. destruct (nth_set _ _); [|discriminate]. injection EM as <- <-. auto.
        + right. destruct (nextBind _ _); [|discriminate]. injection EM as <- <-. split; [discriminate|reflexivity]. }
    destruct D as [(s & NS & ->)|[NS [[MI ->]|[MI ->]]]].
    - do 5 (split; [reflexivity|]). split; [reflexivity|]. intros _ X. exfalso. now apply (X s).
    - cbn [set_sum nu_mode nu_nodeset nu_part nu_parts nu_wsum nu_sum]. do 5 (split; [reflexivity|]). split; [|reflexivity].
      intros [X|(s & X)]; [now destruct X|exfalso; now apply (NS s)].
    - do 5 (split; [reflexivity|]). split; [reflexivity|]. intros X. now destruct MI. }
  destruct (policy_default (nu_mode u)) eqn:PD.
  - injection E as <- <-. do 5 (split; [reflexivity|]). split; [reflexivity|]. intros X. rewrite X in PD. discriminate.
  - destruct (membindFirst u addr size page) as [[m v]|] eqn:EM; [|discriminate]. destruct (bind_calls _ v m) as [l|]; [|discriminate].
    injection E as <- <-. exact (FST m v eq_refl).
Qed.
Lemma total_app1 : forall l x, total (l ++ [x]) = total l + x.
Proof. induction l as [|a r IH]; intros x; cbn [app total]; [lia|]. rewrite IH. lia. Qed.
Lemma allocations_keep : forall page u h u', allocations page u h u' ->
  nu_mode u' = nu_mode u /\ nu_nodeset u' = nu_nodeset u /\ nu_part u' = nu_part u /\ nu_parts u' = nu_parts u /\ nu_wsum u' = nu_wsum u /\
  (nu_mode u <> M_INTERLEAVE -> u' = u) /\
  (nu_mode u = M_INTERLEAVE -> (forall s, nu_nodeset u <> [s]) -> is_word (nu_sum u) -> nu_sum u' = wrap (nu_sum u + total h)).
Proof.
  intros page u h u' A. induction A as [u|u h u1 addr size calls u2 A IH SZ SM E].
  - do 5 (split; [reflexivity|]). split; [reflexivity|]. intros _ _ W. cbn [total]. rewrite Z.add_0_r. symmetry. now apply Z.mod_small.
  - destruct IH as (H1 & H2 & H3 & H4 & H5 & H6 & H7). destruct (os_bind_keeps _ _ _ _ _ _ E) as (G1 & G2 & G3 & G4 & G5 & G6 & G7).
    do 5 (split; [congruence|]). split.
    + intros X. rewrite G6; [apply H6, X|]. left. now rewrite H1.
    + intros X Y W. rewrite G7; [|congruence|intros s; rewrite H2; apply Y]. rewrite H7 by assumption. rewrite total_app1.
      unfold wrap. rewrite Zplus_mod_idemp_l. f_equal. lia.
Qed.
Lemma total_pos_app : forall page u h u', allocations page u h u' -> 0 <= total h.
Proof. intros page u h u' A. induction A; cbn [total]; [lia|]. rewrite total_app1. lia. Qed.

(* ---------------- coverage ---------------- *)
Lemma tiles_cover : forall l a s x, tiles a s l -> a <= x < a + s -> exists c, In c l /\ c_addr c <= x < c_addr c + c_len c.
Proof.
  induction l as [|c r IH]; intros a s x T X; cbn [tiles] in T; [lia|]. destruct T as (T1 & T2 & T3).
  destruct (Z.lt_ge_cases x (a + c_len c)) as [L|G].
  - exists c. split; [now left|]. lia.
  - destruct (IH _ _ x T3) as (c' & IN & B); [lia|]. exists c'. split; [now right|exact B].
Qed.

(* ---------------- one bind call ---------------- *)
Lemma os_bind_single : forall u s addr size page, nu_nodeset u = [s] -> nu_mode u <> M_DEFAULT -> 0 < size < U64 ->
  os_bind u addr size page = Some ([Bind addr size s], u).
Proof.
  intros u s addr size page NS MD SZ. unfold os_bind.
  assert (P : policy_default (nu_mode u) = false) by (destruct (nu_mode u); try reflexivity; now destruct MD).
  rewrite P. unfold membindFirst. rewrite NS. cbn [bind_calls]. unfold membindNext. cbn [mb_alloc mb_bind].
  rewrite Z.sub_diag. cbn [wrap]. change (wrap 0) with 0. cbn [Z.eqb mb_alloc Z.ltb Z.compare]. reflexivity.
Qed.

(* ---------------- interleaving ---------------- *)
Section Interleave.
Variable u : numa.
Variables page B : Z.
Let n := Z.of_nat (length (nu_nodeset u)).
Hypothesis PZ : 0 < page.
Hypothesis BE : ALIGN_UP (nu_part u) page = B.
Hypothesis BM : B mod page = 0.
Hypothesis BP : 0 < B.
Hypothesis MODE : nu_mode u = M_INTERLEAVE.
Hypothesis MANY : forall s, nu_nodeset u <> [s].
Hypothesis NE : nu_nodeset u <> [].

Lemma n_pos : 0 < n.
Proof using PZ BE BM BP MODE MANY NE. unfold n. destruct (nu_nodeset u); [now destruct NE|]. cbn [length]. lia. Qed.
Lemma nth_set_ok : forall i, 0 <= i < n -> exists s, nth_set u i = Some s.
Proof using PZ BE BM BP MODE MANY NE.
  intros i I. unfold nth_set. destruct (nth_error (nu_nodeset u) (Z.to_nat i)) as [s|] eqn:E; [now exists s|].
  apply nth_error_None in E. unfold n in I. lia.
Qed.
Lemma interleave_calls : forall fuel m, mb_page m = page -> 0 < mb_alloc m < U64 -> mb_alloc m mod page = 0 ->
  mb_bind m = Z.min B (mb_alloc m) -> Z.of_nat (mb_node m) < n -> nth_set u (Z.of_nat (mb_node m)) = Some (mb_set m) ->
  (Z.to_nat (mb_alloc m / page) < fuel)%nat ->
  exists l, bind_calls fuel u m = Some l /\ tiles (mb_addr m) (mb_alloc m) l /\
    forall c, In c l -> exists j, 0 <= j /\ c_addr c = mb_addr m + j * B /\ c_len c = Z.min B (mb_alloc m - j * B) /\
      nth_set u ((Z.of_nat (mb_node m) + j) mod n) = Some (c_nodes c).
Proof using PZ BE BM BP MODE MANY NE.
  pose proof n_pos as NP.
  induction fuel as [|f IH]; intros m PG AL AM BI ND NS F; [lia|].
  cbn [bind_calls]. set (c := Bind (mb_addr m) (mb_bind m) (mb_set m)).
  assert (CC : exists j, 0 <= j /\ c_addr c = mb_addr m + j * B /\ c_len c = Z.min B (mb_alloc m - j * B) /\
      nth_set u ((Z.of_nat (mb_node m) + j) mod n) = Some (c_nodes c)).
  { exists 0. cbn [c c_addr c_len c_nodes]. split; [lia|]. split; [lia|]. split; [rewrite BI; f_equal; lia|].
    rewrite Z.add_0_r, Z.mod_small by lia. exact NS. }
  assert (NSQ : forall (A : Type) (x y : A), match nu_nodeset u with [_] => x | _ => y end = y).
  { intros. destruct (nu_nodeset u) as [|s [|s2 r]] eqn:E; try reflexivity. exfalso. now apply (MANY s). }
  unfold membindNext.
  assert (AW : wrap (mb_alloc m - mb_bind m) = mb_alloc m - mb_bind m) by (unfold wrap; apply Z.mod_small; clear - BI BP AL; lia).
  rewrite AW. destruct (Z.eqb_spec (mb_alloc m - mb_bind m) 0) as [Z0|Z0].
  - cbn [mb_alloc]. rewrite Z.ltb_irrefl. exists [c]. split; [reflexivity|]. split.
    + cbn [tiles c c_addr c_len]. split; [reflexivity|]. lia.
    + intros c' [<-|[]]. exact CC.
  - assert (BB : mb_bind m = B) by (clear - BI Z0; lia).
    assert (REM : 0 < mb_alloc m - B) by (clear - BI BB Z0; lia).
    rewrite NSQ, MODE. fold n.
    set (nd := Z.of_nat (S (mb_node m)) mod n).
    assert (NDB : 0 <= nd < n) by (apply Z.mod_pos_bound; lia).
    destruct (nth_set_ok nd NDB) as [s ES]. rewrite ES. cbn [mb_alloc].
    rewrite BB. assert (LT : 0 <? mb_alloc m - B = true) by lia. rewrite LT.
    set (m' := Membind s (interleave_bind u (mb_page m) (mb_alloc m - B)) (mb_addr m + B) (mb_alloc m - B) (Z.to_nat nd) (mb_page m) (mb_rest m) (mb_pages m) (mb_left m)).
    destruct (IH m') as (l & EL & TL & CL).
    + exact PG.
    + cbn [m' mb_alloc]. lia.
    + cbn [m' mb_alloc]. rewrite Zminus_mod, AM, BM, Z.sub_diag. apply Zmod_0_l.
    + cbn [m' mb_alloc mb_bind]. unfold interleave_bind. rewrite PG, BE. destruct (Z.ltb_spec (mb_alloc m - B) B); lia.
    + cbn [m' mb_node]. lia.
    + cbn [m' mb_node mb_set]. rewrite Z2Nat.id by lia. exact ES.
    + cbn [m' mb_alloc]. assert (mb_alloc m / page = (mb_alloc m - B) / page + B / page).
      { rewrite (Z.div_mod B page) at 1 by lia. rewrite BM, Z.add_0_r.
        replace (mb_alloc m - page * (B / page)) with (mb_alloc m + (- (B / page)) * page) by lia. rewrite Z.div_add by lia. lia. }
      assert (1 <= B / page). { apply Z.div_le_lower_bound; [lia|]. rewrite Z.mul_1_r. destruct (Z.lt_ge_cases B page) as [X|X]; [|exact X]. rewrite Z.mod_small in BM; lia. }
      assert (0 <= (mb_alloc m - B) / page) by (apply Z.div_pos; lia). clear - F H H0 H1. lia.
    + rewrite EL. exists (c :: l). split; [reflexivity|]. split.
      * cbn [tiles c c_addr c_len]. split; [reflexivity|]. rewrite BB. split; [exact BP|]. exact TL.
      * intros c' [<-|IN]; [exact CC|]. destruct (CL c' IN) as (j & J0 & JA & JL & JN). exists (j + 1).
        cbn [m' mb_addr mb_alloc mb_node] in JA, JL, JN. split; [lia|]. split; [lia|]. split; [rewrite JL; f_equal; lia|].
        rewrite Z2Nat.id in JN by lia. rewrite <- JN. f_equal. unfold nd. rewrite Zplus_mod_idemp_l. f_equal. lia.
Qed.

Lemma os_bind_interleave : forall addr size, nu_part u <> 0 -> 0 < size < U64 -> size mod page = 0 ->
  exists l, os_bind u addr size page = Some (l, set_sum u (wrap (nu_sum u + size))) /\ tiles addr size l /\
    forall c, In c l -> exists j, 0 <= j /\ c_addr c = addr + j * B /\ c_len c = Z.min B (size - j * B) /\
      nth_set u ((nu_sum u / nu_part u + j) mod n) = Some (c_nodes c).
Proof using PZ BE BM BP MODE MANY NE.
  intros addr size PN SZ SM. pose proof n_pos as NP. unfold os_bind. rewrite MODE. cbn [policy_default]. unfold membindFirst.
  assert (NSQ : forall (A : Type) (x : list Z -> A) (y : A), match nu_nodeset u with [s] => x s | _ => y end = y).
  { intros. destruct (nu_nodeset u) as [|s [|s2 r]] eqn:E; try reflexivity. exfalso. now apply (MANY s). }
  rewrite NSQ, MODE. assert (P0 : nu_part u =? 0 = false) by lia. rewrite P0. fold n.
  set (nd := nu_sum u / nu_part u mod n). assert (NDB : 0 <= nd < n) by (apply Z.mod_pos_bound; lia).
  destruct (nth_set_ok nd NDB) as [s ES]. rewrite ES.
  set (v := set_sum u (wrap (nu_sum u + size))).
  set (m := Membind s (interleave_bind u page size) addr size (Z.to_nat nd) page 0 (size / page) 0).
  assert (V : forall f mm, bind_calls f v mm = bind_calls f u mm).
  { assert (V1 : forall mm, membindNext v mm = membindNext u mm).
    { intros mm. unfold membindNext. cbn [v set_sum nu_nodeset nu_mode]. rewrite !NSQ || idtac. rewrite MODE. reflexivity. }
    induction f as [|f IH]; intros mm; [reflexivity|]. cbn [bind_calls]. rewrite V1. destruct (membindNext u mm); [|reflexivity]. now rewrite IH. }
  rewrite V. destruct (interleave_calls (S (Z.to_nat (size / page))) m) as (l & EL & TL & CL); cbn [m mb_page mb_alloc mb_bind mb_node mb_set mb_addr]; try assumption; try lia; try reflexivity.
  - unfold interleave_bind. rewrite BE. destruct (Z.ltb_spec size B); lia.
  - rewrite Z2Nat.id by lia. exact ES.
  - rewrite EL. exists l. split; [reflexivity|]. split; [exact TL|].
    intros c IN. destruct (CL c IN) as (j & J0 & JA & JL & JN). cbn [m mb_page mb_alloc mb_bind mb_node mb_set mb_addr] in *.
    exists j. split; [exact J0|]. split; [exact JA|]. split; [exact JL|]. rewrite <- JN. f_equal. rewrite Z2Nat.id by lia. unfold nd. now rewrite Zplus_mod_idemp_l.
Qed.
End Interleave.

(* ---------------- the statements ---------------- *)
Lemma translate_other : forall page all q u, translate_params page all q = Some (SUCCESS, Some u) -> q_mode q <> M_SPLIT ->
  u = Numa (q_mode q) (initialize_nodeset all (q_nodes q) (dedicated_node_bind q)) (q_part q) 0 [] 0 /\
  validate_numa_mode (q_mode q) (match q_nodes q with [] => true | _ => false end) = true /\
  (q_mode q = M_INTERLEAVE -> validatePartSize page q = true).
Proof.
  intros page all q u T M. unfold translate_params in T.
  destruct (validate_numa_mode _ _) eqn:V; [|discriminate]. destruct (validatePartitions q); [|discriminate]. cbn [negb] in T.
  destruct (mode_eqb (q_mode q) M_INTERLEAVE && negb (validatePartSize page q)) eqn:VS; [discriminate|].
  unfold initializePartitions in T.
  assert (T2 : Some (SUCCESS, Some (Numa (q_mode q) (initialize_nodeset all (q_nodes q) (dedicated_node_bind q)) (q_part q) 0 [] 0)) = Some (SUCCESS, Some u))
    by (destruct (q_mode q); try exact T; now destruct M).
  injection T2 as <-. split; [reflexivity|]. split; [reflexivity|].
  intros E. rewrite E in VS. cbn [mode_eqb andb] in VS. now destruct (validatePartSize page q).
Qed.

Lemma interleave_lemma : forall page all q u h u1 addr size B, pow2 page ->
  translate_params page all q = Some (SUCCESS, Some u) -> q_mode q = M_INTERLEAVE -> 0 < q_part q < U64 -> rounded_up (q_part q) page B ->
  allocations page u h u1 -> total h < U64 -> 0 < size < U64 -> size mod page = 0 ->
  exists calls u2, os_bind u1 addr size page = Some (calls, u2) /\ tiles addr size calls /\ whole_pages page addr calls /\
    forall x v, 0 <= x < size ->
      (bound_to calls (addr + x) v <-> nth_error (q_nodes q) (Z.to_nat ((total h / q_part q + x / B) mod Z.of_nat (length (q_nodes q)))) = Some v).
Proof.
  intros page all q u h u1 addr size B PG T M QP RB AL TB SZ SM. pose proof (pow2_range _ PG) as PR.
  destruct (translate_other _ _ _ _ T) as (EU & V1 & V2); [congruence|].
  assert (DB : dedicated_node_bind q = true) by (unfold dedicated_node_bind; rewrite M; lia).
  assert (NN : q_nodes q <> []). { intros X. rewrite X, M in V1. discriminate. }
  assert (NS : nu_nodeset u = map (fun n => [n]) (q_nodes q)).
  { rewrite EU. cbn [nu_nodeset]. unfold initialize_nodeset. rewrite DB. destruct (q_nodes q); [now destruct NN|reflexivity]. }
  destruct (allocations_keep _ _ _ _ AL) as (K1 & K2 & K3 & _ & _ & _ & K7).
  assert (MU : nu_mode u = M_INTERLEAVE) by (rewrite EU; exact M).
  assert (PU : nu_part u1 = q_part q) by (rewrite K3, EU; reflexivity).
  destruct RB as [RB1 RB2].
  assert (UM : U64 mod page = 0) by now apply U64_multiple.
  assert (BE : ALIGN_UP (nu_part u1) page = B).
  { rewrite PU. specialize (V2 M). unfold validatePartSize in V2.
    destruct (Z.lt_ge_cases (q_part q + page - 1) U64) as [L|G].
    - rewrite align_up_val by (try assumption; lia). clear - RB1 RB2 PR. assert (HH : forall m, 0 <= m < page -> (q_part q + page - 1 - m) mod page = 0 -> q_part q + page - 1 - m = B) by (intros m MM X; apply Z.mod_divide in X; [|lia]; apply Z.mod_divide in RB1; [|lia]; destruct X as [k1 X]; destruct RB1 as [k2 Y]; assert (k1 = k2) by nia; nia). apply HH; [apply Z.mod_pos_bound; lia|]. rewrite Zminus_mod, Zmod_mod, Z.sub_diag. apply Zmod_0_l.
    - rewrite align_up_wraps in V2 by (try assumption; unfold is_word; lia). lia. }
  assert (BP : 0 < B) by lia.
  destruct (Nat.eq_dec (length (q_nodes q)) 1) as [L1|L1].
  - (* a single node *)
    destruct (q_nodes q) as [|nd [|]] eqn:QN; try discriminate. clear L1.
    assert (NS1 : nu_nodeset u1 = [[nd]]) by (rewrite K2, NS; reflexivity).
    exists [Bind addr size [nd]], u1. split. { apply os_bind_single; [exact NS1|congruence|exact SZ]. }
    split. { cbn [tiles c_addr c_len]. lia. }
    split. { intros c [<-|[]]. cbn [c_addr c_len]. rewrite Z.sub_diag. split; [apply Zmod_0_l|exact SM]. }
    intros x v X. cbn [length]. rewrite Z.mod_1_r. cbn [Z.to_nat nth_error]. split.
    + intros (c & [<-|[]] & _ & [->|[]]). reflexivity.
    + intros [= ->]. exists (Bind addr size [v]). split; [now left|]. cbn [c_addr c_len c_nodes]. split; [lia|now left].
  - assert (MANY : forall s, nu_nodeset u1 <> [s]).
    { intros s X. rewrite K2, NS in X. apply L1. apply (f_equal (@length _)) in X. now rewrite map_length in X. }
    assert (NE : nu_nodeset u1 <> []). { rewrite K2, NS. destruct (q_nodes q); [now destruct NN|discriminate]. }
    destruct (os_bind_interleave u1 page B) with (addr := addr) (size := size) as (l & EL & TL & CL); try assumption; try lia; try congruence.
    exists l, (set_sum u1 (wrap (nu_sum u1 + size))). split; [exact EL|]. split; [exact TL|].
    assert (SU : nu_sum u1 = total h).
    { rewrite K7; [|exact MU|intros s; rewrite <- K2; apply MANY|rewrite EU; cbn [nu_sum]; unfold is_word, U64; lia].
      rewrite EU. cbn [nu_sum]. unfold wrap. apply Z.mod_small. pose proof (total_pos_app _ _ _ _ AL). lia. }
    assert (LN : length (nu_nodeset u1) = length (q_nodes q)) by (rewrite K2, NS; apply map_length).
    split.
    + intros c IN. destruct (CL c IN) as (j & J0 & JA & JL & _). rewrite JA, JL.
      assert (BJ : (j * B) mod page = 0) by (rewrite Z.mul_mod, RB1, Z.mul_0_r by lia; apply Zmod_0_l).
      split; [replace (addr + j * B - addr) with (j * B) by lia; exact BJ|].
      destruct (Z.min_spec B (size - j * B)) as [[_ ->]|[_ ->]]; [exact RB1|]. rewrite Zminus_mod, SM, BJ, Z.sub_diag. apply Zmod_0_l.
    + assert (KEY : forall c x, In c l -> c_addr c <= addr + x < c_addr c + c_len c -> 0 <= x ->
        exists v0, nth_error (q_nodes q) (Z.to_nat ((total h / q_part q + x / B) mod Z.of_nat (length (q_nodes q)))) = Some v0 /\ c_nodes c = [v0]).
      { intros c x IN XB X0. destruct (CL c IN) as (j & J0 & JA & JL & JN).
        assert (x / B = j). { rewrite JA, JL in XB. symmetry. apply Z.div_unique with (x - j * B); [left|]; lia. }
        rewrite H. rewrite SU, PU, LN in JN. unfold nth_set in JN. rewrite K2, NS, nth_error_map in JN.
        destruct (nth_error (q_nodes q) _) as [v0|]; [|discriminate]. injection JN as E. exists v0. auto. }
      intros x v X. split.
      * intros (c & IN & XB & IV). destruct (KEY c x IN XB) as (v0 & E & CN); [lia|]. rewrite CN in IV. destruct IV as [<-|[]]. exact E.
      * intros E. destruct (tiles_cover _ _ _ (addr + x) TL) as (c & IN & XB); [lia|].
        destruct (KEY c x IN XB) as (v0 & E' & CN); [lia|]. rewrite E in E'. injection E' as <-. exists c. rewrite CN. split; [exact IN|]. split; [exact XB|now left].
Qed.

Lemma share_exists : forall ws P p, (forall w, In w ws -> 0 < w) -> ws <> [] -> 0 <= p < P -> exists i w, nth_error ws i = Some w /\ in_share ws P i p.
Proof.
  intros ws P p POS NE PP. unfold in_share. set (W := total ws).
  assert (WP : 0 < W). { destruct ws as [|w r]; [now destruct NE|]. pose proof (total_le (w :: r) w POS (or_introl eq_refl)). pose proof (POS w (or_introl eq_refl)). unfold W. lia. }
  assert (IND : forall k, (k <= length ws)%nat -> p * W < P * total (firstn k ws) -> exists i w, nth_error ws i = Some w /\ P * total (firstn i ws) < (p + 1) * W /\ p * W < P * total (firstn (S i) ws)).
  { induction k as [|k IH]; intros K LT; [cbn [firstn total] in LT; nia|].
    destruct (Z.lt_ge_cases (p * W) (P * total (firstn k ws))) as [L|G]; [apply IH; [lia|exact L]|].
    destruct (nth_error ws k) as [w|] eqn:E; [|apply nth_error_None in E; lia].
    exists k, w. split; [exact E|]. split; [nia|exact LT]. }
  apply (IND (length ws)); [lia|]. rewrite firstn_all. fold W. nia.
Qed.

Lemma split_lemma : forall page all q u h u1 addr P, 0 < page ->
  translate_params page all q = Some (SUCCESS, Some u) -> q_mode q = M_SPLIT ->
  (forall w, In w (map fst (shares q)) -> 0 <= w /\ P * w < U64) -> total (map fst (shares q)) <= 2 ^ 63 ->
  allocations page u h u1 -> 0 < P -> P * page < U64 ->
  exists calls u2, os_bind u1 addr (P * page) page = Some (calls, u2) /\ tiles addr (P * page) calls /\ whole_pages page addr calls /\
    forall p x v, 0 <= p < P -> p * page <= x < (p + 1) * page ->
      (bound_to calls (addr + x) v <-> exists i w, nth_error (shares q) i = Some (w, v) /\ in_share (map fst (shares q)) P i p).
Proof.
  intros page all q u h u1 addr P PZ T M WB TB AL PP NO.
  destruct (translate_split _ _ _ _ T M) as (MU & NN & NS & PS & WS & POS & TG & SNE).
  { intros w IN. now destruct (WB w IN). } { unfold wt. unfold U64. lia. }
  destruct (allocations_keep _ _ _ _ AL) as (_ & _ & _ & _ & _ & K6 & _). rewrite K6 by congruence. clear K6 AL u1 h.
  assert (FST : map fst (nu_parts u) = map fst (shares q)) by (rewrite PS, map_map; reflexivity).
  destruct (Nat.eq_dec (length (q_nodes q)) 1) as [L1|L1].
  - destruct (q_nodes q) as [|nd [|]] eqn:QN; try discriminate.
    exists [Bind addr (P * page) [nd]], u. split. { apply os_bind_single; [exact NS|congruence|nia]. }
    split. { cbn [tiles c_addr c_len]. nia. }
    split. { intros c [<-|[]]. cbn [c_addr c_len]. rewrite Z.sub_diag. split; [apply Zmod_0_l|apply Z.mod_mul; lia]. }
    intros p x v Hp X. split.
    + intros (c & [<-|[]] & _ & [->|[]]).
      destruct (share_exists (map fst (shares q)) P p) as (i & w & E & IS); [exact POS|destruct (shares q); [now destruct SNE|discriminate]|exact Hp|].
      rewrite nth_error_map in E. destruct (nth_error (shares q) i) as [[w' v']|] eqn:E2; [|discriminate]. injection E as <-.
      exists i, w'. cbn [fst]. split; [|exact IS]. rewrite E2. apply nth_error_In, TG in E2. cbn in E2. destruct E2 as [<-|[]]. reflexivity.
    + intros (i & w & E & _). apply nth_error_In, TG in E. cbn in E. destruct E as [<-|[]].
      exists (Bind addr (P * page) [nd]). split; [now left|]. cbn [c_addr c_len c_nodes]. split; [nia|now left].
  - assert (MANY : forall s, nu_nodeset u <> [s]).
    { intros s X. rewrite NS in X. apply L1. apply (f_equal (@length _)) in X. now rewrite map_length in X. }
    destruct (os_bind_split u P) with (page := page) (addr0 := addr) as (l & EL & TL & CL); try assumption.
    + now rewrite FST.
    + rewrite FST. exact POS.
    + rewrite FST. intros w IN. now destruct (WB w IN).
    + rewrite WS. exact TB.
    + rewrite PS. destruct (shares q); [now destruct SNE|discriminate].
    + exists l, u. split; [exact EL|]. split; [exact TL|]. split.
      * intros c IN. destruct (CL c IN) as (a & b & A0 & AB & CA & CLN & _). rewrite CA, CLN. split; [replace (addr + a * page - addr) with (a * page) by lia|]; apply Z.mod_mul; lia.
      * assert (IP : forall p v, in_page u P p v <-> exists i w, nth_error (shares q) i = Some (w, v) /\ in_share (map fst (shares q)) P i p).
        { intros p v. unfold in_page, in_share, start. rewrite FST. unfold wt in WS. rewrite WS. split.
          - intros (k & w & t & E & IN & A & B). rewrite PS, nth_error_map in E. destruct (nth_error (shares q) k) as [[w' v']|] eqn:E2; [|discriminate].
            injection E as <- <-. destruct IN as [<-|[]]. exists k, w'. auto.
          - intros (k & w & E & A & B). exists k, w, [v]. split; [now rewrite PS, nth_error_map, E|]. split; [now left|]. auto. }
        assert (KEY : forall c p x v, In c l -> c_addr c <= addr + x < c_addr c + c_len c -> p * page <= x < (p + 1) * page -> (In v (c_nodes c) <-> in_page u P p v)).
        { intros c p x v IN XB XP. destruct (CL c IN) as (a & b & A0 & AB & CA & CLN & CN). apply CN. rewrite CA, CLN in XB. clear - XB XP PZ. nia. }
        intros p x v Hp X. rewrite <- IP. split.
        -- intros (c & IN & XB & IV). now apply (KEY c p x v).
        -- intros E. destruct (tiles_cover _ _ _ (addr + x) TL) as (c & IN & XB); [nia|].
           exists c. split; [exact IN|]. split; [exact XB|]. now apply (KEY c p x v).
Qed.

Lemma whole_lemma : forall page all q u h u1 addr size,
  translate_params page all q = Some (SUCCESS, Some u) -> dedicated_node_bind q = false -> allocations page u h u1 -> 0 < size < U64 ->
  os_bind u1 addr size page = Some (match q_mode q with M_DEFAULT => [] | _ => [Bind addr size (match q_nodes q with [] => all | l => l end)] end, u1).
Proof.
  intros page all q u h u1 addr size T D AL SZ.
  assert (M : q_mode q <> M_SPLIT) by (intros X; unfold dedicated_node_bind in D; rewrite X in D; discriminate).
  destruct (translate_other _ _ _ _ T M) as (EU & V1 & _).
  destruct (allocations_keep _ _ _ _ AL) as (K1 & K2 & _).
  assert (NS : nu_nodeset u1 = [match q_nodes q with [] => all | l => l end]).
  { rewrite K2, EU. cbn [nu_nodeset]. rewrite D. unfold initialize_nodeset. destruct (q_nodes q); reflexivity. }
  assert (MU : nu_mode u1 = q_mode q) by (rewrite K1, EU; reflexivity).
  destruct (q_mode q) eqn:E; try (rewrite (os_bind_single _ _ _ _ _ NS); [reflexivity|rewrite MU; discriminate|exact SZ]).
  unfold os_bind. rewrite MU. reflexivity.
Qed.

Lemma accepted_lemma : forall page all q, pow2 page -> is_word (q_part q) ->
  (exists u, translate_params page all q = Some (SUCCESS, Some u)) <-> sensible page q.
Proof.
  intros page all q PG QP. pose proof (pow2_range _ PG) as PR. unfold is_word in QP.
  assert (V : validate_numa_mode (q_mode q) (match q_nodes q with [] => true | _ => false end) = true <->
    match q_mode q with M_DEFAULT | M_LOCAL => q_nodes q = [] | M_BIND | M_INTERLEAVE | M_SPLIT => q_nodes q <> [] | M_PREFERRED => True end).
  { destruct (q_mode q), (q_nodes q); cbn; split; intros; try discriminate; try reflexivity; try congruence; auto. }
  assert (VP : validatePartitions q = true <-> forall w t, In (w, t) (q_parts q) -> w <> 0 /\ In t (q_nodes q)).
  { unfold validatePartitions. rewrite forallb_forall. split.
    - intros H w t IN. specialize (H _ IN). cbn [fst snd] in H. apply andb_true_iff in H. destruct H as [H1 H2].
      apply existsb_exists in H2. destruct H2 as (n & I & E). assert (n = t) by lia. subst. split; [lia|exact I].
    - intros H [w t] IN. destruct (H w t IN) as [H1 H2]. cbn [fst snd]. apply andb_true_iff. split; [lia|]. apply existsb_exists. exists t. split; [exact H2|lia]. }
  assert (VS : validatePartSize page q = true <-> q_part q + page - 1 < U64).
  { unfold validatePartSize. destruct (Z.lt_ge_cases (q_part q + page - 1) U64) as [L|G].
    - rewrite align_up_val by (try assumption; lia). pose proof (Z.mod_pos_bound (q_part q + page - 1) page). split; [intros _; exact L|intros _; lia].
    - rewrite align_up_wraps by (try assumption; unfold is_word; lia). split; [|lia]. intros X.
      assert (q_part q = 0) by lia. lia. }
  unfold sensible. rewrite <- V, <- VP, <- VS.
  pose proof (translate_defined page all q) as DF. unfold translate_params in *.
  destruct (validate_numa_mode _ _); cbn [negb]; [|split; [intros (u & [=])|intros ([=] & _)]].
  destruct (validatePartitions q); cbn [negb]; [|split; [intros (u & [=])|intros (_ & [=] & _)]].
  destruct (q_mode q) eqn:M; cbn [mode_eqb andb negb] in *;
    try (destruct (initializePartitions q _) as [[ps w]|]; [|now destruct DF]; split; [intros _; split; [reflexivity|split; [reflexivity|discriminate]]|intros _; eexists; reflexivity]).
  destruct (validatePartSize page q); cbn [negb] in *.
  - destruct (initializePartitions q _) as [[ps w]|]; [|now destruct DF]. split; [intros _; split; [reflexivity|split; reflexivity]|intros _; eexists; reflexivity].
  - split; [intros (u & [=])|intros (_ & _ & H); now specialize (H eq_refl)].
Qed.

Lemma total_multiple : forall d h, d <> 0 -> (forall s, In s h -> s mod d = 0) -> total h mod d = 0.
Proof.
  induction h as [|a r IH]; intros D H; cbn [total]; [apply Zmod_0_l|].
  rewrite Zplus_mod, IH, (H a (or_introl eq_refl)); [apply Zmod_0_l|exact D|intros; apply H; now right].
Qed.
Lemma stream_lemma : forall page all q u h u1 addr size, pow2 page ->
  translate_params page all q = Some (SUCCESS, Some u) -> q_mode q = M_INTERLEAVE -> 0 < q_part q < U64 -> q_part q mod page = 0 ->
  allocations page u h u1 -> (forall s, In s h -> s mod q_part q = 0) -> total h < U64 -> 0 < size < U64 -> size mod page = 0 ->
  exists calls u2, os_bind u1 addr size page = Some (calls, u2) /\ tiles addr size calls /\ whole_pages page addr calls /\
    forall x v, 0 <= x < size ->
      (bound_to calls (addr + x) v <-> nth_error (q_nodes q) (Z.to_nat ((total h + x) / q_part q mod Z.of_nat (length (q_nodes q)))) = Some v).
Proof.
  intros page all q u h u1 addr size PG T M QP QM AL HM TB SZ SM. pose proof (pow2_range _ PG) as PR.
  destruct (interleave_lemma page all q u h u1 addr size (q_part q)) as (l & u2 & E & TL & WP & BT); try assumption.
  { split; [exact QM|lia]. }
  exists l, u2. split; [exact E|]. split; [exact TL|]. split; [exact WP|].
  intros x v X. rewrite (BT x v X). replace ((total h + x) / q_part q) with (total h / q_part q + x / q_part q); [reflexivity|].
  pose proof (total_multiple (q_part q) h ltac:(lia) HM) as TM. rewrite (Z.div_mod (total h) (q_part q)) at 2 by lia. rewrite TM, Z.add_0_r.
  rewrite Z.add_comm, (Z.mul_comm (q_part q)), (Z.add_comm (_ * _)), Z.div_add by lia. lia.
Qed.
(* one page at a time with an odd part size and two nodes: always the first *)
Lemma small_parts_lemma : forall page all a b u h u1 addr, pow2 page -> 2 <= page -> page < 2 ^ 63 ->
  translate_params page all (Params [a; b] M_INTERLEAVE 1 []) = Some (SUCCESS, Some u) ->
  allocations page u h u1 -> exists u2, os_bind u1 addr page page = Some ([Bind addr page [a]], u2).
Proof.
  intros page all a b u h u1 addr PG P2 P3 T AL. pose proof (pow2_range _ PG) as PR.
  destruct (translate_other _ _ _ _ T) as (EU & _ & _); [discriminate|]. cbn in EU.
  destruct (allocations_keep _ _ _ _ AL) as (K1 & K2 & K3 & _ & _ & _ & K7). rewrite EU in *. cbn [nu_mode nu_nodeset nu_part nu_sum] in *.
  assert (HM : forall s, In s h -> s mod page = 0).
  { clear - AL. induction AL as [|u h u1 addr0 size calls u2 AL IH SZ SM E]; [intros s []|]. intros s IN. apply in_app_iff in IN. destruct IN as [IN|[<-|[]]]; auto. }
  assert (EV : total h mod 2 = 0).
  { apply total_multiple; [lia|]. intros s IN. specialize (HM s IN). destruct PG as (k & K & ->).
    assert (1 <= k). { destruct (Z.eq_dec k 0) as [->|]; [cbn in P2; lia|lia]. }
    replace k with (1 + (k - 1)) in HM by lia. rewrite Z.pow_add_r in HM by lia. change (2 ^ 1) with 2 in HM.
    apply Z.mod_divide in HM; [|lia]. destruct HM as [z ->]. rewrite Z.mul_assoc, (Z.mul_comm z 2), <- Z.mul_assoc, Z.mul_comm. apply Z.mod_mul. lia. }
  assert (SU : nu_sum u1 mod 2 = 0).
  { rewrite K7; [|reflexivity|discriminate|unfold is_word, U64; lia]. unfold wrap. rewrite Z.add_0_l.
    rewrite <- Znumtheory.Zmod_div_mod; [exact EV|lia|unfold U64; lia|]. exists (2 ^ 63). reflexivity. }
  assert (AU : ALIGN_UP 1 page = page).
  { rewrite align_up_val by (try assumption; lia). replace (1 + page - 1) with page by lia. rewrite Z.mod_same by lia. lia. }
  destruct (os_bind_interleave u1 page page) with (addr := addr) (size := page) as (l & EL & TL & CL); try lia; try (rewrite ?K1, ?K2, ?K3; first [assumption|reflexivity|discriminate|apply Z.mod_same; lia]).
  exists (set_sum u1 (wrap (nu_sum u1 + page))). rewrite EL. f_equal. f_equal.
  rewrite K3, Z.div_1_r, K2 in CL. cbn [length] in CL.
  destruct l as [|c [|c2 r]]; cbn [tiles] in TL; [lia| |].
  - destruct (CL c (or_introl eq_refl)) as (j & J0 & JA & JL & JN). assert (j = 0) by (destruct TL as (TA & _); nia). subst j.
    f_equal. rewrite Z.add_0_r in JN. change (Z.of_nat 2) with 2 in JN. rewrite SU in JN. unfold nth_set in JN. rewrite K2 in JN. cbn in JN.
    destruct c as [ca cl cn]. cbn [c_addr c_len c_nodes] in *. injection JN as <-. f_equal; lia.
  - exfalso. destruct (CL c2 (or_intror (or_introl eq_refl))) as (j & J0 & JA & JL & JN).
    destruct TL as (TA & TB & TC & TD & _). destruct (CL c (or_introl eq_refl)) as (j0 & J00 & JA0 & JL0 & _). nia.
Qed.
