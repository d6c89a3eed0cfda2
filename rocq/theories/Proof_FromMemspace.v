(* Proofs about providers made from memory spaces. *)
From Verif Require Import Base Spec_Utils Model_Memspace Model_OsNuma Spec_OsNuma Proof_OsNuma Model_FromMemspace Spec_FromMemspace.

Lemma take_firstn {A} : forall n (l t : list A), take n l = Some t <-> t = firstn n l /\ (n <= length l)%nat.
Proof.
  induction n as [|n IH]; intros l t; cbn [take firstn].
  - split; [intros [= <-]; split; [reflexivity|lia]|intros [-> _]; reflexivity].
  - destruct l as [|x l]; cbn [length]; [split; [discriminate|intros [_ H]; lia]|].
    destruct (take n l) as [r|] eqn:E.
    + destruct (proj1 (IH l r) E) as [R L]. split; [intros [= <-]; rewrite R; split; [reflexivity|lia]|intros [-> _]; rewrite R; reflexivity].
    + split; [discriminate|]. intros [-> L]. assert (take n l = Some (firstn n l)) by (apply IH; split; [reflexivity|lia]). congruence.
Qed.
Lemma galloc_blocks n m o m' : galloc n m = (o, m') -> blocks m' = blocks m + block o.
Proof.
  unfold galloc, block. destruct (n =? 0); [intros [= <- <-]; lia|]. destruct (answers m) as [|[] a]; intros [= <- <-]; cbn; lia.
Qed.
Lemma galloc_keeps n m o m' : galloc n m = (o, m') -> heap m' = heap m.
Proof. unfold galloc. destruct (n =? 0); [intros [= <- <-]; reflexivity|]. destruct (answers m) as [|[] a]; intros [= <- <-]; reflexivity. Qed.
Lemma galloc_ok n m : answers m = [] -> n <> 0 -> exists m', galloc n m = (true, m') /\ answers m' = [].
Proof. intros A N. unfold galloc. destruct (Z.eqb_spec n 0); [contradiction|]. rewrite A. eexists. split; [reflexivity|reflexivity]. Qed.

Ltac bl := cbn [blocks gfree] in *; change (block true) with 1 in *; change (block false) with 0 in *; lia.
(* the parameters the OS provider is created with *)
Definition described (k : kind) (ids : list Z) (p : option policy) (ps : list (Z * Z)) : params :=
  Params (match k, p with HostAll, None => [] | _, _ => used k ids end)
    (match p with Some (PolInterleave _) => M_INTERLEAVE | Some PolBind => M_BIND | Some PolPreferred => M_PREFERRED | Some (PolSplit _ _) => M_SPLIT
     | _ => match k with HostAll => M_DEFAULT | _ => M_BIND end end)
    (match p with Some (PolInterleave part) => part | _ => 0 end) ps.
Definition given (p : option policy) (rd : Z -> list (Z * Z)) (ps : list (Z * Z)) : Prop := match p with Some q => custom q rd ps | None => ps = [] end.

Lemma low32_id n : 0 <= n < 2 ^ 32 -> low32 n = n.
Proof. intros H. unfold low32. apply Z.mod_small, H. Qed.
Lemma used_take k ids n : ids <> [] -> n = (match k with HighestCapacity => 1 | _ => len ids end) -> take (Z.to_nat n) ids = Some (used k ids) /\ take (Z.to_nat n) (used k ids) = Some (used k ids) /\ Z.to_nat n = length (used k ids).
Proof.
  intros N ->. unfold len, used. destruct k; rewrite ?Nat2Z.id; (split; [|split]); try reflexivity; try (apply take_firstn; rewrite firstn_all; split; [reflexivity|lia]).
  - apply take_firstn. split; [reflexivity|]. destruct ids; [congruence|]. cbn. lia.
  - destruct ids; [congruence|]. reflexivity.
  - destruct ids; [congruence|]. reflexivity.
Qed.

Lemma create_core page all k ids p rd inner m r u m' : ids <> [] -> fits ids p ->
  numa_create page all k ids p rd inner m = Some (r, u, m') ->
  blocks m' = blocks m /\ (r = SUCCESS -> exists ps, given p rd ps /\ translate_params page all (described k ids p ps) = Some (SUCCESS, u)).
Proof.
  intros N [F1 F2] H. unfold numa_create in H.
  set (nn := match k with HighestCapacity => 1 | _ => len ids end) in H.
  assert (NN : 0 < nn < 2 ^ 32). { unfold nn, len. destruct ids; [congruence|]. cbn [length] in *. destruct k; lia. }
  destruct (Z.eqb_spec nn 0) as [|_]; [lia|].
  destruct (choose_mode k p) as [[[[md part] parts] plen]|] eqn:C; [|injection H as <- <- <-; split; [reflexivity|discriminate]].
  assert (D : md = q_mode (described k ids p []) /\ part = q_part (described k ids p []) /\
    forall ps, (if plen =? 0 then Some [] else take (Z.to_nat plen) (rd parts)) = Some ps -> given p rd ps).
  { clear H. destruct p as [[pt| | |a n|]|]; cbn [choose_mode] in C; try discriminate; injection C as <- <- <- <-; cbn [described q_mode q_part given custom];
      (split; [destruct k; reflexivity|split; [reflexivity|]]); intros ps; rewrite ?low32_id by exact F2; try (intros [= <-]; reflexivity).
    destruct (Z.eqb_spec n 0); [intros [= <-]; reflexivity|]. intros T. apply take_firstn in T. destruct T as [T1 T2]. split; [exact T1|lia]. }
  destruct D as (D1 & D2 & D3).
  destruct (used_take k ids nn N eq_refl) as (U1 & U2 & U3).
  set (no_list := match k, p with HostAll, None => true | _, _ => false end) in H.
  assert (L0 : low32 nn = nn) by (apply low32_id; lia). rewrite L0 in H.
  destruct (if no_list then (true, m) else galloc (4 * nn) m) as [o1 m1] eqn:A1.
  assert (B1 : blocks m1 = blocks m + block (negb no_list) * block o1).
  { clear H. destruct no_list; cbn [negb]; [injection A1 as <- <-; bl|]. rewrite (galloc_blocks _ _ _ _ A1). bl. }
  destruct o1; cbn [negb] in H; [|injection H as <- <- <-; split; [bl|discriminate]].
  assert (B1' : blocks m1 = blocks m + block (negb no_list)) by (clear H; bl). clear B1.
  rewrite U1 in H. destruct (galloc 80 m1) as [o2 m2] eqn:A2. apply galloc_blocks in A2.
  assert (E0 : exists nl, (if no_list then Some [] else Some (used k ids)) = Some nl /\ nl = q_nodes (described k ids p [])).
  { unfold no_list, described, used. destruct k, p; cbn [q_nodes]; eexists; split; reflexivity. }
  destruct E0 as (nl & E0 & E1). rewrite E0 in H.
  destruct o2; cbn [negb] in H; [|injection H as <- <- <-; split; [bl|discriminate]].
  set (nlen := if no_list then 0 else nn) in H.
  destruct (if nlen =? 0 then (true, m2) else galloc (4 * nlen) m2) as [o3 m3] eqn:A3.
  assert (B3 : blocks m3 = blocks m2 + block (negb (nlen =? 0)) * block o3).
  { clear H. destruct (nlen =? 0); cbn [negb]; [injection A3 as <- <-; bl|]. rewrite (galloc_blocks _ _ _ _ A3). bl. }
  destruct o3; cbn [negb] in H; [|injection H as <- <- <-; split; [bl|discriminate]].
  remember (1 + block (negb (nlen =? 0))) as c3 eqn:C3. remember (c3 + block (negb (plen =? 0))) as c4 eqn:C4.
  destruct (negb (plen =? 0) && (parts =? 0)); [injection H as <- <- <-; split; [bl|discriminate]|].
  destruct (if plen =? 0 then (true, m3) else galloc (8 * plen) m3) as [o4 m4] eqn:A4.
  assert (B4 : blocks m4 = blocks m3 + block (negb (plen =? 0)) * block o4).
  { clear H. destruct (plen =? 0); cbn [negb]; [injection A4 as <- <-; bl|]. rewrite (galloc_blocks _ _ _ _ A4). bl. }
  destruct o4; cbn [negb] in H; [|injection H as <- <- <-; split; [bl|discriminate]].
  assert (T1 : take (Z.to_nat nlen) nl = Some nl).
  { unfold nlen. clear H. destruct no_list; injection E0 as <-; [reflexivity|exact U2]. }
  rewrite T1 in H. destruct (if plen =? 0 then Some [] else take (Z.to_nat plen) (rd parts)) as [ps|] eqn:A5; [|discriminate].
  specialize (D3 ps eq_refl).
  assert (BB : blocks m4 = blocks m + block (negb no_list) + 1 + block (negb (nlen =? 0)) + block (negb (plen =? 0))) by (clear H; bl).
  destruct inner; try (injection H as <- <- <-; split; [bl|discriminate]).
  destruct (translate_params page all (Params nl md part ps)) as [[r0 u0]|] eqn:TR; [|discriminate].
  injection H as <- <- <-. split; [bl|]. intros ->. exists ps. split; [exact D3|].
  rewrite <- TR. subst md part nl. unfold described. cbn [q_nodes q_mode q_part]. reflexivity.
Qed.

Ltac walk H := repeat match type of H with
  | context [match ?x with _ => _ end] => destruct x eqn:?; try discriminate
  end.
Lemma gfree_heap n m : heap (gfree n m) = heap m.
Proof. reflexivity. Qed.
Lemma create_heap page all k ids p rd inner m r u m' : numa_create page all k ids p rd inner m = Some (r, u, m') -> heap m' = heap m.
Proof.
  unfold numa_create. intros H.
  set (nn := match k with HighestCapacity => 1 | _ => len ids end) in H. set (nl := match k, p with HostAll, None => true | _, _ => false end) in H.
  destruct (nn =? 0); [injection H as <- <- <-; reflexivity|].
  destruct (choose_mode k p) as [[[[md part] parts] plen]|]; [|injection H as <- <- <-; reflexivity].
  destruct (if nl then (true, m) else galloc (4 * nn) m) as [o1 m1] eqn:A1.
  assert (K1 : heap m1 = heap m) by (destruct nl; [injection A1 as <- <-; reflexivity|eapply galloc_keeps, A1]).
  destruct o1; cbn [negb] in H; [|injection H as <- <- <-; exact K1].
  destruct (if nl then Some [] else take (Z.to_nat nn) ids) as [l0|]; [|discriminate].
  destruct (galloc 80 m1) as [o2 m2] eqn:A2. apply galloc_keeps in A2.
  destruct o2; cbn [negb] in H; [|injection H as <- <- <-; rewrite !gfree_heap; congruence].
  set (nlen := if nl then 0 else low32 nn) in H.
  destruct (if nlen =? 0 then (true, m2) else galloc (4 * nlen) m2) as [o3 m3] eqn:A3.
  assert (K3 : heap m3 = heap m2) by (destruct (nlen =? 0); [injection A3 as <- <-; reflexivity|eapply galloc_keeps, A3]).
  destruct o3; cbn [negb] in H; [|injection H as <- <- <-; rewrite !gfree_heap; congruence].
  destruct (negb (plen =? 0) && (parts =? 0)); [injection H as <- <- <-; rewrite !gfree_heap; congruence|].
  destruct (if plen =? 0 then (true, m3) else galloc (8 * plen) m3) as [o4 m4] eqn:A4.
  assert (K4 : heap m4 = heap m3) by (destruct (plen =? 0); [injection A4 as <- <-; reflexivity|eapply galloc_keeps, A4]).
  destruct o4; cbn [negb] in H; [|injection H as <- <- <-; rewrite !gfree_heap; congruence].
  destruct (take (Z.to_nat nlen) l0); [|discriminate].
  destruct (if plen =? 0 then Some [] else take (Z.to_nat plen) (rd parts)); [|discriminate].
  destruct inner; try (injection H as <- <- <-; rewrite !gfree_heap; congruence).
  destruct (translate_params page all (Params l md part l1)) as [[r0 u0]|]; [|discriminate]. injection H as <- <- <-. rewrite !gfree_heap; congruence.
Qed.

(* the ids are those of the members of the space *)
Lemma ids_members : forall hs m ids, ids_of hs m = Some ids <-> map (fun h => lookup h m) hs = map Some (map (fun i => (0, i)) ids).
Proof.
  induction hs as [|h hs IH]; intros m ids; cbn [ids_of map].
  - split; [intros [= <-]; reflexivity|]. destruct ids; [reflexivity|discriminate].
  - destruct (lookup h m) as [[t i]|] eqn:L; [|split; [discriminate|destruct ids; discriminate]].
    destruct (ids_of hs m) as [l|] eqn:E.
    + apply IH in E. destruct t; [|split; [discriminate|destruct ids; discriminate]..]. split.
      * intros [= <-]. cbn [map]. rewrite E. reflexivity.
      * destruct ids as [|j ids]; cbn [map]; [discriminate|]. intros [= -> H]. rewrite E in H. f_equal. f_equal.
        clear - H. revert ids H. induction l as [|a l IHl]; destruct ids as [|b ids]; cbn; try discriminate; [reflexivity|]. intros [= -> H]. f_equal. apply IHl, H.
    + assert (X : forall x, map (fun h => lookup h m) hs <> map Some (map (fun i => (0, i)) x)) by (intros x Q; apply IH in Q; congruence).
      split; [destruct t; discriminate|]. destruct ids as [|j ids]; cbn [map]; [discriminate|]. intros [= _ _ H]. elim (X ids H).
Qed.
Lemma lookup_heap h m m' : heap m' = heap m -> lookup h m' = lookup h m.
Proof. unfold lookup. intros ->. reflexivity. Qed.
Lemma ids_heap m m' : heap m' = heap m -> forall hs, ids_of hs m' = ids_of hs m.
Proof. intros H. induction hs as [|h hs IH]; cbn; [reflexivity|]. rewrite (lookup_heap h m m' H), IH. reflexivity. Qed.

Lemma top_core page all k s p rd inner m r u m' ids : ids_of (nodes s) m = Some ids -> fits ids p ->
  umfMemoryProviderCreateFromMemspace page all k s p rd inner m = Some (r, u, m') ->
  blocks m' = blocks m /\ heap m' = heap m /\
  (r = SUCCESS -> ids <> [] /\ exists ps, given p rd ps /\ translate_params page all (described k ids p ps) = Some (SUCCESS, u)).
Proof.
  intros I F H. unfold umfMemoryProviderCreateFromMemspace in H. destruct (nodes s) as [|h0 hs] eqn:NS.
  - injection H as <- <- <-. repeat (split; [reflexivity|]). discriminate.
  - destruct (galloc (8 * len (h0 :: hs)) m) as [o m1] eqn:A. pose proof (galloc_blocks _ _ _ _ A) as A1. pose proof (galloc_keeps _ _ _ _ A) as A2.
    destruct o; cbn [negb] in H; [|injection H as <- <- <-; split; [bl|split; [exact A2|discriminate]]].
    rewrite (ids_heap _ _ A2), I in H. destruct (numa_create page all k ids p rd inner m1) as [[[r0 u0] m2]|] eqn:N; [|discriminate].
    injection H as <- <- <-.
    assert (NE : ids <> []) by (intros ->; cbn in I; destruct (lookup h0 m) as [[[] ?]|]; try discriminate; destruct (ids_of hs m); discriminate).
    pose proof (create_heap _ _ _ _ _ _ _ _ _ _ _ N) as H1. destruct (create_core _ _ _ _ _ _ _ _ _ _ _ NE F N) as [C1 C2].
    split; [bl|]. split; [rewrite gfree_heap; congruence|]. intros S. split; [exact NE|exact (C2 S)].
Qed.

(* placement *)
Lemma whole_bound addr size (S : list Z) x v : 0 <= x < size -> (bound_to [Bind addr size S] (addr + x) v <-> In v S).
Proof.
  intros X. unfold bound_to. split.
  - intros (c & [<-|[]] & _ & I). exact I.
  - intros I. exists (Bind addr size S). cbn. repeat split; [left; reflexivity|lia|lia|exact I].
Qed.
Lemma whole_tiles addr size S : 0 < size -> tiles addr size [Bind addr size S].
Proof. intros. cbn. repeat split; [assumption|lia]. Qed.
Lemma used_ne k ids : ids <> [] -> used k ids <> [].
Proof. intros N. destruct ids; [congruence|]. destruct k; cbn; discriminate. Qed.

Lemma placed_core page all k ids p rd ps u h u1 addr size : power_of_two page -> ids <> [] -> fits ids p -> given p rd ps ->
  translate_params page all (described k ids p ps) = Some (SUCCESS, Some u) -> p <> Some PolUnknown ->
  allocations page u h u1 -> total h < U64 -> 0 < size < U64 -> size mod page = 0 ->
  (forall a n, p = Some (PolSplit a n) -> moderate page size (map fst (wanted (used k ids) ps))) ->
  exists calls u2, os_bind u1 addr size page = Some (calls, u2) /\ placed page k ids p ps (total h) addr size calls.
Proof.
  intros PG NE F G T PU AL TH SZ SM MO.
  assert (PP : 0 < page) by (destruct PG as (e & E1 & ->); apply Z.pow_pos_nonneg; lia).
  pose proof (used_ne k ids NE) as UN.
  assert (W : dedicated_node_bind (described k ids p ps) = false -> q_nodes (described k ids p ps) = used k ids -> q_mode (described k ids p ps) <> M_DEFAULT ->
    os_bind u1 addr size page = Some ([Bind addr size (used k ids)], u1)).
  { intros D Q M. rewrite (whole_lemma page all _ u h u1 addr size T D AL SZ), Q. destruct (used k ids); [congruence|]. destruct (q_mode _); try congruence. }
  assert (WB : forall B, B = [Bind addr size (used k ids)] -> tiles addr size B /\ forall x v, 0 <= x < size -> (bound_to B (addr + x) v <-> In v (used k ids))).
  { intros B ->. split; [apply whole_tiles; lia|intros; apply whole_bound; assumption]. }
  destruct p as [[part| | |a n|]|]; cbn [placed].
  - destruct (Z.eqb_spec part 0) as [->|P0].
    + eexists _, _. split; [apply W; destruct k; cbn; congruence|]. destruct (WB _ eq_refl) as [W1 W2]. split; [exact W1|]. exact W2.
    + destruct F as [_ F]. assert (PR : 0 < part < U64) by lia.
      assert (QN : q_nodes (described k ids (Some (PolInterleave part)) ps) = used k ids) by (destruct k; reflexivity).
      assert (QM : q_mode (described k ids (Some (PolInterleave part)) ps) = M_INTERLEAVE) by reflexivity.
      assert (RB : rounded_up part page ((part + page - 1) / page * page)).
      { split; [apply Z.mod_mul; lia|]. pose proof (Z.div_mod (part + page - 1) page). pose proof (Z.mod_pos_bound (part + page - 1) page). lia. }
      destruct (interleave_lemma page all _ u h u1 addr size _ PG T QM PR RB AL TH SZ SM) as (calls & u2 & O & TI & WP & BD).
      exists calls, u2. split; [exact O|]. split; [exact TI|]. intros x v X B RU.
      assert (B = (part + page - 1) / page * page) as ->.
      { destruct RU as [R1 R2], RB as [R3 R4]. apply Z.mod_divide in R1, R3; try lia. destruct R1 as [z1 E1], R3 as [z3 E3].
        rewrite E3 in *. rewrite E1 in *. f_equal. clear - R2 R4 PP. nia. }
      rewrite <- QN. apply BD, X.
  - eexists _, _. split; [apply W; destruct k; cbn; congruence|]. apply WB. reflexivity.
  - eexists _, _. split; [apply W; destruct k; cbn; congruence|]. apply WB. reflexivity.
  - specialize (MO a n eq_refl). destruct MO as [M1 M2].
    assert (QS : shares (described k ids (Some (PolSplit a n)) ps) = wanted (used k ids) ps).
    { unfold shares, described, wanted. cbn [q_parts q_nodes]. destruct ps; destruct k; reflexivity. }
    assert (SE : size = size / page * page) by (pose proof (Z.div_mod size page); lia).
    assert (S0 : 0 < size / page). { destruct (Z.le_gt_cases (size / page) 0) as [L|L]; [|exact L]. nia. }
    destruct (split_lemma page all _ u h u1 addr (size / page) PP T eq_refl) as (calls & u2 & O & TI & WP & BD); try assumption.
    + rewrite QS. exact M1.
    + rewrite QS. exact M2.
    + lia.
    + rewrite <- SE in O, TI. exists calls, u2. split; [exact O|]. split; [exact TI|]. rewrite QS in BD. exact BD.
  - congruence.
  - destruct k.
    + eexists _, _. split; [|reflexivity]. apply (whole_lemma page all _ u h u1 addr size T eq_refl AL SZ).
    + eexists _, _. split; [apply W; cbn; congruence|]. apply WB. reflexivity.
    + eexists _, _. split; [apply W; cbn; congruence|]. apply WB. reflexivity.
Qed.

(* every bind call names nodes of the list only, whatever the arithmetic does *)
Definition sets_in (N : list Z) (u : numa) : Prop := (forall s, In s (nu_nodeset u) -> incl s N) /\ (forall w s, In (w, s) (nu_parts u) -> incl s N).
Lemma fill_in ps : forall nodes ns N l, (forall s, In s ns -> incl s N) -> fill_parts nodes ns ps = Some l -> forall w s, In (w, s) l -> incl s N.
Proof.
  induction ps as [|[w t] ps IH]; intros nodes ns N l H E w' s I; cbn [fill_parts] in E; [injection E as <-; destruct I|].
  destruct (find_target nodes ns t) as [s0|] eqn:FT; [|discriminate]. destruct (fill_parts nodes ns ps) as [l0|] eqn:FP; [|discriminate]. injection E as <-.
  destruct I as [I|I]; [|exact (IH nodes ns N l0 H FP w' s I)]. injection I as <- <-. apply H. clear - FT. revert ns FT.
  induction nodes as [|n nodes IHn]; intros [|a ns] FT; cbn in FT; try discriminate. destruct (n =? t); [injection FT as ->; left; reflexivity|right; apply IHn, FT].
Qed.
Lemma translate_in page all q u : translate_params page all q = Some (SUCCESS, Some u) -> q_nodes q <> [] -> sets_in (q_nodes q) u /\ nu_mode u = q_mode q.
Proof.
  intros T N. unfold translate_params in T. destruct (negb (validate_numa_mode _ _)); [discriminate|]. destruct (negb (validatePartitions q)); [discriminate|].
  destruct (mode_eqb _ _ && _); [discriminate|]. set (ns := initialize_nodeset all (q_nodes q) (dedicated_node_bind q)) in T.
  assert (NS : forall s, In s ns -> incl s (q_nodes q)).
  { unfold ns, initialize_nodeset. destruct (q_nodes q) as [|n0 l0]; [congruence|]. destruct (dedicated_node_bind q); intros s I.
    - apply in_map_iff in I. destruct I as (n & <- & I). intros x [<-|[]]. exact I.
    - destruct I as [<-|[]]. apply incl_refl. }
  destruct (initializePartitions q ns) as [[ps w]|] eqn:IP; [|discriminate]. injection T as <-. split; [|reflexivity]. split; cbn [nu_nodeset nu_parts]; [exact NS|].
  intros w' s I. unfold initializePartitions in IP. destruct (q_mode q); try (injection IP as <- <-; destruct I).
  destruct (q_parts q) as [|x xs].
  - injection IP as <- <-. apply in_map_iff in I. destruct I as (s0 & E & I). injection E as <- <-. apply NS.
    rewrite <- (firstn_skipn (length (q_nodes q)) ns). apply in_or_app. left. exact I.
  - destruct (fill_parts (q_nodes q) ns (x :: xs)) as [l|] eqn:FP; [|discriminate]. injection IP as <- <-. exact (fill_in _ _ _ _ _ NS FP w' s I).
Qed.
Lemma loop_in N ps W pages : (forall w s, In (w, s) ps -> incl s N) -> forall fuel node rest bm border n b r bm' bo,
  bind_loop fuel ps W pages node rest bm border = Some (n, b, r, bm', bo) -> incl bm N -> incl bm' N.
Proof.
  intros H. induction fuel as [|f IH]; intros node rest bm border n b r bm' bo E I; cbn [bind_loop] in E; [discriminate|].
  destruct (nth_error ps node) as [[w t]|] eqn:NE; [|discriminate]. destruct (W =? 0); [discriminate|].
  assert (J : incl (bm ++ t) N) by (apply incl_app; [exact I|]; eapply H, nth_error_In, NE).
  match type of E with (if ?c then _ else _) = _ => destruct c end; [eapply IH; eassumption|]. injection E as <- <- <- <- <-. exact J.
Qed.
Lemma next_in N u m m' : sets_in N u -> incl (mb_set m) N -> nextBind u m = Some m' -> incl (mb_set m') N.
Proof.
  intros [_ P] I E. unfold nextBind in E. destruct (Nat.eqb _ _); [destruct (mb_alloc m =? 0); [injection E as <-; exact I|discriminate]|].
  destruct (nth_error (nu_parts u) (mb_node m)) as [[w t]|] eqn:NE; [|discriminate].
  assert (T : incl t N) by (eapply P, nth_error_In, NE).
  set (here := negb (mb_left m =? 0)) in E. set (sp := negb here && negb (mb_rest m =? 0)) in E.
  assert (B : incl (if here || sp then t else []) N) by (destruct (here || sp); [exact T|intros x []]).
  destruct here.
  - injection E as <-. exact B.
  - destruct (bind_loop _ _ _ _ _ _ _ _) as [[[[[n b] r] bm'] bo]|] eqn:L; [|discriminate]. injection E as <-. cbn [mb_set].
    eapply loop_in; [exact P|exact L|exact B].
Qed.
Lemma first_in N u addr size page m u' : sets_in N u -> membindFirst u addr size page = Some (m, u') -> incl (mb_set m) N /\ sets_in N u'.
Proof.
  intros S E. pose proof S as [S1 S2]. unfold membindFirst in E. destruct (nu_nodeset u) as [|s0 [|s1 r]] eqn:NS.
  - destruct (nu_mode u); try discriminate.
    + destruct (nu_part u =? 0); [discriminate|]. unfold nth_set in E. rewrite NS in E. destruct (nth_error [] _) eqn:Q; [|discriminate]. apply nth_error_In in Q. destruct Q.
    + destruct (nextBind _ _) eqn:Q; [|discriminate]. injection E as <- <-. split; [|exact S]. eapply next_in; [exact S| |exact Q]. intros x [].
  - injection E as <- <-. split; [|exact S]. apply S1. left. reflexivity.
  - destruct (nu_mode u); try discriminate.
    + destruct (nu_part u =? 0); [discriminate|]. unfold nth_set in E. destruct (nth_error (nu_nodeset u) _) eqn:Q; [|discriminate]. injection E as <- <-. apply nth_error_In in Q.
      split; [apply S1; rewrite <- NS; exact Q|]. split; cbn; [rewrite NS; exact S1|exact S2].
    + destruct (nextBind _ _) eqn:Q; [|discriminate]. injection E as <- <-. split; [|exact S]. eapply next_in; [exact S| |exact Q]. intros x [].
Qed.
Lemma membindNext_in N u m m' : sets_in N u -> incl (mb_set m) N -> membindNext u m = Some m' -> incl (mb_set m') N.
Proof.
  intros S I E. pose proof S as [S1 S2]. unfold membindNext in E. destruct (_ =? 0); [injection E as <-; exact I|].
  destruct (nu_nodeset u) as [|s0 [|s1 r]] eqn:NS; try discriminate; destruct (nu_mode u); try discriminate;
    try (eapply next_in; [exact S| |exact E]; exact I);
    unfold nth_set in E; destruct (nth_error (nu_nodeset u) _) eqn:Q; try discriminate; injection E as <-; apply nth_error_In in Q; rewrite NS in Q;
    cbn [mb_set]; apply S1; exact Q.
Qed.
Lemma calls_in N u : sets_in N u -> forall fuel m l, incl (mb_set m) N -> bind_calls fuel u m = Some l -> forall c, In c l -> incl (c_nodes c) N.
Proof.
  intros S. induction fuel as [|f IH]; intros m l I E c C; cbn [bind_calls] in E; [discriminate|]. destruct (membindNext u m) as [m'|] eqn:M; [|discriminate].
  destruct (0 <? mb_alloc m').
  - destruct (bind_calls f u m') as [l'|] eqn:B; [|discriminate]. injection E as <-. destruct C as [<-|C]; [exact I|]. eapply IH; [eapply membindNext_in; eassumption|exact B|exact C].
  - injection E as <-. destruct C as [<-|[]]. exact I.
Qed.
Lemma bind_in N u addr size page calls u' : sets_in N u -> os_bind u addr size page = Some (calls, u') -> (forall c, In c calls -> incl (c_nodes c) N) /\ sets_in N u'.
Proof.
  intros S E. unfold os_bind in E. destruct (policy_default (nu_mode u)); [injection E as <- <-; split; [intros c []|exact S]|].
  destruct (membindFirst u addr size page) as [[m u0]|] eqn:F; [|discriminate]. destruct (first_in _ _ _ _ _ _ _ S F) as [F1 F2].
  destruct (bind_calls _ u0 m) as [l|] eqn:B; [|discriminate]. injection E as <- <-. split; [eapply calls_in; eassumption|exact F2].
Qed.
Lemma allocations_in N page u h u1 : allocations page u h u1 -> sets_in N u -> sets_in N u1.
Proof. induction 1 as [|u h u1 addr size calls u2 A IH SZ SM E]; intros S; [exact S|]. eapply bind_in; [apply IH, S|exact E]. Qed.
Lemma inside_core page all k ids p ps u h u1 addr size calls u2 : ids <> [] ->
  translate_params page all (described k ids p ps) = Some (SUCCESS, Some u) -> allocations page u h u1 ->
  os_bind u1 addr size page = Some (calls, u2) -> forall c, In c calls -> incl (c_nodes c) (used k ids).
Proof.
  intros NE T AL O. assert (D : q_nodes (described k ids p ps) = used k ids \/ (q_mode (described k ids p ps) = M_DEFAULT /\ q_nodes (described k ids p ps) = [])).
  { unfold described. cbn [q_nodes q_mode]. destruct k; [|left; reflexivity..]. destruct p as [q|]; [left; reflexivity|right; split; reflexivity]. }
  destruct D as [D|[D D']].
  - assert (QN : q_nodes (described k ids p ps) <> []) by (rewrite D; apply used_ne, NE).
    destruct (translate_in _ _ _ _ T QN) as [S _]. rewrite D in S. eapply bind_in; [eapply allocations_in; eassumption|exact O].
  - destruct (allocations_keep _ _ _ _ AL) as (K1 & _). assert (M : nu_mode u = M_DEFAULT).
    { rewrite <- D. clear - T. unfold translate_params in T. destruct (negb (validate_numa_mode _ _)); [discriminate|]. destruct (negb (validatePartitions _)); [discriminate|].
      destruct (mode_eqb _ _ && _); [discriminate|]. destruct (initializePartitions _ _) as [[]|]; [|discriminate]. injection T as <-. reflexivity. }
    unfold os_bind in O. rewrite K1, M in O. injection O as <- <-. intros c [].
Qed.

(* creation succeeds exactly for policies that make sense, if no memory is refused *)
Lemma accept_core page all k s p rd m ids ps : power_of_two page -> ids_of (nodes s) m = Some ids -> ids <> [] -> fits ids p -> given p rd ps -> p <> Some PolUnknown ->
  answers m = [] ->
  exists r u m', umfMemoryProviderCreateFromMemspace page all k s p rd SUCCESS m = Some (r, u, m') /\
    (r = SUCCESS <-> suits page (used k ids) p ps) /\ (r = SUCCESS <-> u <> None).
Proof.
  intros PG I NE F G PU A. unfold umfMemoryProviderCreateFromMemspace.
  assert (LN : length (nodes s) = length ids).
  { apply ids_members in I. apply (f_equal (@length _)) in I. rewrite !map_length in I. exact I. }
  destruct (nodes s) as [|h0 hs] eqn:NS; [destruct ids; [congruence|discriminate]|]. 
  destruct (galloc_ok (8 * len (h0 :: hs)) m A) as (m1 & A1 & A2); [unfold len; cbn [length]; lia|]. rewrite A1. cbn [negb].
  rewrite (ids_heap _ _ (galloc_keeps _ _ _ _ A1)), I. clear A1.
  unfold numa_create. set (nn := match k with HighestCapacity => 1 | _ => len ids end).
  destruct F as [F1 F2]. assert (NN : 0 < nn < 2 ^ 32). { unfold nn, len. destruct ids; [congruence|]. cbn [length] in *. destruct k; lia. }
  destruct (Z.eqb_spec nn 0) as [|_]; [lia|]. destruct (used_take k ids nn NE eq_refl) as (U1 & U2 & U3).
  destruct (choose_mode k p) as [[[[md part] parts] plen]|] eqn:C; [|destruct p as [[]|]; cbn in C; congruence].
  assert (D : md = q_mode (described k ids p []) /\ part = q_part (described k ids p []) /\ 0 <= plen /\
    (plen = 0 -> ps = []) /\ (plen <> 0 -> take (Z.to_nat plen) (rd parts) = Some ps /\ (exists a n, p = Some (PolSplit a n) /\ parts = a /\ plen = n)) /\
    (forall a n, p = Some (PolSplit a n) -> parts = a /\ plen = n)).
  { destruct p as [[pt| | |a n|]|]; cbn [choose_mode] in C; try congruence; injection C as <- <- <- <-; cbn [described q_mode q_part given custom] in *;
      (split; [destruct k; reflexivity|split; [reflexivity|]]); rewrite ?low32_id by exact F2;
      (split; [lia|split; [|split]]); try (intros; subst; reflexivity); try (intros; subst; congruence).
    - intros N0. destruct (Z.eqb_spec n 0); [contradiction|]. destruct G as [-> G2]. split; [apply take_firstn; split; [reflexivity|lia]|eauto].
    - intros a0 n0 [= <- <-]. split; reflexivity. }
  destruct D as (D1 & D2 & D3 & D4 & D5 & D6).
  set (no_list := match k, p with HostAll, None => true | _, _ => false end).
  rewrite (low32_id nn) by lia.
  assert (X1 : exists m2, (if no_list then (true, m1) else galloc (4 * nn) m1) = (true, m2) /\ answers m2 = []).
  { destruct no_list; [eauto|]. destruct (galloc_ok (4 * nn) m1 A2) as (z & Z1 & Z2); [lia|]. eauto. }
  destruct X1 as (m2 & -> & A3). cbn [negb]. rewrite U1.
  assert (E0 : exists nl, (if no_list then Some [] else Some (used k ids)) = Some nl /\ nl = q_nodes (described k ids p [])).
  { unfold no_list, described, used. destruct k, p; cbn [q_nodes]; eexists; split; reflexivity. }
  destruct E0 as (nl & E0 & E1). rewrite E0.
  destruct (galloc_ok 80 m2 A3) as (m3 & -> & A4); [lia|]. cbn [negb].
  set (nlen := if no_list then 0 else nn).
  assert (X2 : exists m4, (if nlen =? 0 then (true, m3) else galloc (4 * nlen) m3) = (true, m4) /\ answers m4 = []).
  { destruct (Z.eqb_spec nlen 0); [eauto|]. destruct (galloc_ok (4 * nlen) m3 A4) as (z & Z1 & Z2); [lia|]. eauto. }
  destruct X2 as (m4 & -> & A5). cbn [negb].
  destruct (negb (plen =? 0) && (parts =? 0)) eqn:PN.
  - eexists _, _, _. split; [reflexivity|]. apply andb_prop in PN. destruct PN as [P1 P2]. apply negb_true_iff, Z.eqb_neq in P1. apply Z.eqb_eq in P2.
    destruct (D5 P1) as (_ & a & n & -> & -> & ->). cbn [suits]. split; [split; [discriminate|]|split; [discriminate|intros Q; elim Q; reflexivity]]. intros [Q _]. elim (Q P1 P2).
  - assert (X3 : exists m5, (if plen =? 0 then (true, m4) else galloc (8 * plen) m4) = (true, m5)).
    { destruct (Z.eqb_spec plen 0); [eauto|]. destruct (galloc_ok (8 * plen) m4 A5) as (z & Z1 & Z2); [lia|]. eauto. }
    destruct X3 as (m5 & ->). cbn [negb].
    assert (T1 : take (Z.to_nat nlen) nl = Some nl). { unfold nlen. destruct no_list; injection E0 as <-; [reflexivity|exact U2]. }
    rewrite T1. assert (T2 : (if plen =? 0 then Some [] else take (Z.to_nat plen) (rd parts)) = Some ps).
    { destruct (Z.eqb_spec plen 0) as [Q|Q]; [rewrite (D4 Q); reflexivity|apply (proj1 (D5 Q))]. }
    rewrite T2. assert (Q : Params nl md part ps = described k ids p ps) by (subst nl md part; reflexivity). rewrite Q. clear Q.
    assert (WP : is_word (q_part (described k ids p ps))). { unfold is_word. destruct p as [[]|]; cbn; unfold U64 in *; lia. }
    destruct (translate_params page all (described k ids p ps)) as [[r u]|] eqn:T; [|elim (translate_defined page all (described k ids p ps) T)].
    eexists _, _, _. split; [reflexivity|].
    pose proof (accepted_lemma page all (described k ids p ps) PG WP) as AC. rewrite T in AC.
    assert (RU : r = SUCCESS <-> u <> None).
    { clear - T. unfold translate_params in T. destruct (negb (validate_numa_mode _ _)); [injection T as <- <-; split; [discriminate|congruence]|].
      destruct (negb (validatePartitions _)); [injection T as <- <-; split; [discriminate|congruence]|]. destruct (mode_eqb _ _ && _); [injection T as <- <-; split; [discriminate|congruence]|].
      destruct (initializePartitions _ _) as [[]|]; [|discriminate]. injection T as <- <-. split; [discriminate|reflexivity]. }
    split; [|exact RU].
    assert (SE : sensible page (described k ids p ps) <-> suits page (used k ids) p ps).
    { pose proof (used_ne k ids NE) as UN. unfold sensible, described, suits. cbn [q_mode q_nodes q_parts q_part].
      destruct p as [[pt| | |a n|]|]; cbn [given custom] in G.
      - subst ps. split; [intros (_ & _ & H); apply H; reflexivity|]. intros H. split; [destruct k; exact UN|]. split; [intros w t []|intros _; exact H].
      - subst ps. split; [intros; exact Logic.I|]. intros _. split; [destruct k; exact UN|]. split; [intros w t []|discriminate].
      - subst ps. split; [intros; exact Logic.I|]. intros _. split; [exact Logic.I|]. split; [intros w t []|discriminate].
      - destruct (D6 a n eq_refl) as [-> ->]. split.
        + intros (_ & H & _). split; [|destruct k; exact H]. intros N0 ->. destruct (Z.eqb_spec n 0); [contradiction|]. discriminate.
        + intros [_ H]. split; [destruct k; exact UN|]. split; [destruct k; exact H|discriminate].
      - congruence.
      - subst ps. split; [intros; exact Logic.I|]. intros _. split; [destruct k; [reflexivity|exact UN|exact UN]|]. split; [intros w t []|destruct k; discriminate]. }
    rewrite <- SE, <- AC. split.
    + intros ->. destruct u as [u|]; [eauto|]. exfalso. apply (proj1 RU); reflexivity.
    + intros (u0 & [= -> _]). reflexivity.
Qed.
