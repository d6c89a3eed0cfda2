(* Every step of a disjoint pool used by several threads keeps the invariant. *)
From Verif Require Import Base Model_DisjointConc Spec_DisjointConc Proof_DisjointConc.

Section S.
Context (g : cfg) (d : bool) (G : sane g).
Notation Inv := (Inv g d).

Definition ok (s : dst) (t : Z) (a : act) : Prop := if d then settled s t a else pooled s t a.

(* taking and giving back a lock, from the thread's point of view *)
Lemma lock_same s t q : Inv s -> holds q = holds (d_pc s t) -> forall b, d_lock s b = Some t <-> holds q = Some b.
Proof. intros I E b. rewrite E. apply (i_lock _ _ _ I). Qed.
Lemma lock_take s t b0 q : Inv s -> d_lock s b0 = None -> holds (d_pc s t) = None -> holds q = Some b0 ->
  (forall b t', t' <> t -> put (d_lock s) b0 (Some t) b = Some t' <-> d_lock s b = Some t') /\
  (forall b, put (d_lock s) b0 (Some t) b = Some t <-> holds q = Some b).
Proof.
  intros I E H Q. split.
  - intros b t' N. unfold put. destruct (Z.eqb_spec b b0) as [->|X]; [|reflexivity]. rewrite E. split; congruence.
  - intros b. rewrite Q. unfold put. destruct (Z.eqb_spec b b0) as [->|X]; [split; reflexivity|].
    rewrite (i_lock _ _ _ I), H. split; congruence.
Qed.
Lemma lock_drop s t b0 q : Inv s -> holds (d_pc s t) = Some b0 -> holds q = None ->
  (forall b t', t' <> t -> put (d_lock s) b0 None b = Some t' <-> d_lock s b = Some t') /\
  (forall b, put (d_lock s) b0 None b = Some t <-> holds q = Some b).
Proof.
  intros I H Q. pose proof (proj2 (i_lock _ _ _ I b0 t) H) as L. split.
  - intros b t' N. unfold put. destruct (Z.eqb_spec b b0) as [->|X]; [|reflexivity]. rewrite L. split; congruence.
  - intros b. rewrite Q. unfold put. destruct (Z.eqb_spec b b0) as [->|X]; [split; discriminate|].
    rewrite (i_lock _ _ _ I), H. split; [congruence|discriminate].
Qed.

Lemma lock_excl s t t' b : Inv s -> holds (d_pc s t) = Some b -> holds (d_pc s t') = Some b -> t = t'.
Proof. intros I A B. apply (i_lock _ _ _ I) in A, B. congruence. Qed.

Ltac sm := cbn [unlock w_pc w_lock w_own w_cell w_mp w_regs d_pc d_bad d_regs d_mp d_cells d_own d_lock c_mem c_used c_bk].

Lemma k_malloc s t b n : Inv s -> d_pc s t = Idle -> 0 < n -> Inv (w_pc s t (MLock b n)).
Proof.
  intros I E N. apply (mk_pc g d s _ t (MLock b n) I); try reflexivity; rewrite ?E; try reflexivity; try (cbn; congruence).
  intros b'. apply (lock_same s t (MLock b n) I). rewrite E. reflexivity.
Qed.
Lemma k_mlock s t b n : Inv s -> d_pc s t = MLock b n -> d_lock s b = None -> Inv (w_pc (w_lock s b (Some t)) t (MHold b n)).
Proof.
  intros I E N. destruct (lock_take s t b (MHold b n) I N) as (L1 & L2); [rewrite E; reflexivity|reflexivity|].
  apply (mk_pc g d s _ t (MHold b n) I); try reflexivity; rewrite ?E; try reflexivity; try assumption; try (cbn; congruence).
  pose proof (i_np _ _ _ I t) as P. rewrite E in P. exact P.
Qed.
Lemma k_drop s t b : Inv s -> holds (d_pc s t) = Some b -> priv (d_pc s t) = None -> privmem (d_pc s t) = None -> Inv (unlock s t b).
Proof.
  intros I H P M. destruct (lock_drop s t b Idle I H eq_refl) as (L1 & L2).
  apply (mk_pc g d s _ t Idle I); try reflexivity; rewrite ?P, ?M; try reflexivity; try assumption; try (cbn; congruence).
Qed.
Lemma k_free s t p : Inv s -> d_pc s t = Idle -> proper g s (AFree p) -> Inv (w_pc s t (FFind p)).
Proof.
  intros I E (O & F & A). apply (mk_pc g d s _ t (FFind p) I); try reflexivity; rewrite ?E; try reflexivity; try (cbn; congruence).
  - intros b'. apply (lock_same s t (FFind p) I). rewrite E. reflexivity.
  - intros t' p' N X. cbn in X. injection X as <-. unfold uses. destruct (freeing (d_pc s t')) eqn:Q; [rewrite <- Q; apply F|apply A].
Qed.
Lemma k_usable s t p : Inv s -> d_pc s t = Idle -> proper g s (AUsable p) -> Inv (w_pc s t (UFind p)).
Proof.
  intros I E (O & F). apply (mk_pc g d s _ t (UFind p) I); try reflexivity; rewrite ?E; try reflexivity; try (cbn; congruence).
  intros b'. apply (lock_same s t (UFind p) I). rewrite E. reflexivity.
Qed.

(* moves that keep the pointer and hold nothing *)
Lemma k_move s t q : Inv s -> holds q = None -> holds (d_pc s t) = None -> priv q = None -> priv (d_pc s t) = None ->
  freeing q = freeing (d_pc s t) -> asking q = asking (d_pc s t) -> tok g s q -> npos q ->
  (forall x, reads q = Some x -> exists m, In (m, x) (d_mp s)) -> Inv (w_pc s t q).
Proof.
  intros I H1 H2 P1 P2 F A T N R.
  assert (PM : forall q, priv q = None -> privmem q = None) by (intros [] X; cbn in *; congruence).
  apply (mk_pc g d s _ t q I); try reflexivity; try assumption.
  - apply (lock_same s t q I). congruence.
  - congruence.
  - rewrite (PM _ P1), (PM _ P2). reflexivity.
  - destruct q; try reflexivity. discriminate.
  - intros t' p X Y Z. rewrite F in Y. elim X. symmetry. exact (i_free _ _ _ I _ _ _ Y Z).
  - intros t' p X Y Z. elim X. apply (i_free _ _ _ I _ _ p Z). unfold uses in *. rewrite <- F, <- A. exact Y.
  - intros t' x X Y Z. destruct (R x Y) as (m & M). destruct (priv_out g d s t' x I) as (c & _ & O); [destruct (d_pc s t'); cbn in Z |- *; congruence|]. exact (O m M).
Qed.

Lemma k_find s t p : Inv s -> d_pc s t = FFind p ->
  Inv (w_pc s t match mfind (d_mp s) p with Some (_, x) => FRead p x | None => FDirect p end).
Proof.
  intros I E. pose proof (i_tok _ _ _ I t) as T. rewrite E in T. cbn in T. pose proof (find_ok g d G s p I T) as F.
  pose proof (mfind_spec (d_mp s) p) as M. destruct (mfind (d_mp s) p) as [[k x]|].
  - apply k_move; rewrite ?E; try reflexivity; try assumption. intros y Y. cbn in Y. injection Y as <-. exists k. apply M.
  - apply k_move; rewrite ?E; try reflexivity; try assumption. discriminate.
Qed.
Lemma k_ufind s t p : Inv s -> d_pc s t = UFind p ->
  Inv (w_pc s t match mfind (d_mp s) p with Some (_, x) => URead p x | None => UDirect p end).
Proof.
  intros I E. pose proof (i_tok _ _ _ I t) as T. rewrite E in T. cbn in T. pose proof (find_ok g d G s p I T) as F.
  pose proof (mfind_spec (d_mp s) p) as M. destruct (mfind (d_mp s) p) as [[k x]|].
  - apply k_move; rewrite ?E; try reflexivity; try assumption. intros y Y. cbn in Y. injection Y as <-. exists k. apply M.
  - apply k_move; rewrite ?E; try reflexivity; try assumption. discriminate.
Qed.

(* what reading the slab found shows *)
Lemma read_ok s p x : Inv s -> found g s p x -> exists c, d_cells s x = Some c /\
  if c_mem c + k_smin g <=? p then exists n, d_own s p = Some (n, None)
  else c_mem c <= p /\ exists n i, d_own s p = Some (n, Some (x, i)).
Proof.
  intros I F. destruct (found_alive g d G s p x I F) as (c & E & [(n & i & O & M)|(_ & O & L)]).
  - exists c. split; [exact E|]. destruct (chunk_region g d G s p n x i I O) as (c' & E' & _ & _ & A & B & C & D). rewrite E in E'. injection E' as <-.
    destruct (Z.leb_spec (c_mem c + k_smin g) p); [lia|]. split; [exact A|eauto].
  - exists c. split; [exact E|]. destruct (Z.leb_spec (c_mem c + k_smin g) p); [exact O|lia].
Qed.
Lemma k_read s t p x s' : Inv s -> d_pc s t = FRead p x -> dstep g s t AGo = Some s' -> Inv s'.
Proof.
  intros I E H. pose proof (i_tok _ _ _ I t) as T. rewrite E in T. cbn in T. unfold dstep in H. rewrite E in H.
  destruct (read_ok s p x I T) as (c & C & R). rewrite C in H. destruct (c_mem c + k_smin g <=? p).
  - injection H as <-. apply k_move; rewrite ?E; try reflexivity; try assumption. discriminate.
  - destruct R as (R1 & n & i & R2). destruct (Z.ltb_spec p (c_mem c)); [lia|]. injection H as <-.
    apply k_move; rewrite ?E; try reflexivity; try assumption; try (cbn; discriminate). exists n, i, c. auto.
Qed.
Lemma k_uread s t p x s' : Inv s -> d_pc s t = URead p x -> dstep g s t AGo = Some s' -> Inv s'.
Proof.
  intros I E H. pose proof (i_tok _ _ _ I t) as T. rewrite E in T. cbn in T. unfold dstep in H. rewrite E in H.
  destruct (read_ok s p x I T) as (c & C & R). rewrite C in H. destruct (c_mem c + k_smin g <=? p).
  - injection H as <-. apply k_move; rewrite ?E; try reflexivity; try assumption. discriminate.
  - destruct R as (R1 & n & i & R2). injection H as <-.
    apply k_move; rewrite ?E; try reflexivity; try assumption; try (cbn; discriminate). exists n, (Some (x, i)). split; [exact R2|].
    destruct (i_chunk _ _ _ I _ _ _ _ R2) as (c' & C' & _ & _ & _ & P1 & P2 & P3 & _). rewrite C in C'. injection C' as <-.
    pose proof (proj2 G (c_bk c)) as Z0. set (z := k_size g (c_bk c)) in *. clear - P1 P2 P3 Z0 C.
    assert ((p - c_mem c) mod z = p - c_mem c - i * z). { symmetry. apply (Z.mod_unique_pos _ _ i); lia. }
    split; [lia|]. exists c. split; [exact C|]. fold z. lia.
Qed.
Lemma rget_own s p n : Inv s -> d_own s p = Some (n, None) -> rget (d_regs s) p = Some n.
Proof.
  intros I E. pose proof (i_own _ _ _ I _ _ E) as R. unfold rget. destruct (find (fun x => fst (fst x) =? p) (d_regs s)) as [[[m l] o]|] eqn:F.
  - apply find_some in F. destruct F as (F1 & F2). cbn in F2. apply Z.eqb_eq in F2. subst m. destruct (base_eq g d s _ _ _ _ _ I R F1) as (<- & _). reflexivity.
  - pose proof (find_none _ _ F _ R) as X. cbn in X. rewrite Z.eqb_refl in X. discriminate.
Qed.
Lemma k_udirect s t p s' : Inv s -> d_pc s t = UDirect p -> dstep g s t AGo = Some s' -> Inv s'.
Proof.
  intros I E H. pose proof (i_tok _ _ _ I t) as T. rewrite E in T. cbn in T. unfold dstep in H. rewrite E in H. destruct T as (n & T).
  rewrite (rget_own s p n I T) in H. injection H as <-. apply k_move; rewrite ?E; try reflexivity; try assumption; try (cbn; discriminate). exists n, None. split; [exact T|]. cbn. lia.
Qed.
Lemma k_udone s t p v : Inv s -> d_pc s t = UDone p v -> Inv (w_pc s t Idle).
Proof.
  intros I E. apply (mk_pc g d s _ t Idle I); try reflexivity; rewrite ?E; try reflexivity; try (cbn; congruence).
  intros b'. apply (lock_same s t Idle I). rewrite E. reflexivity.
Qed.
Lemma k_fwait s t p x b : Inv s -> d_pc s t = FWait p x b -> d_lock s b = None -> Inv (w_pc (w_lock s b (Some t)) t (FHold p x b)).
Proof.
  intros I E N. destruct (lock_take s t b (FHold p x b) I N) as (L1 & L2); [rewrite E; reflexivity|reflexivity|].
  pose proof (i_tok _ _ _ I t) as T. rewrite E in T.
  assert (U : freeing (d_pc s t) = Some p) by (rewrite E; reflexivity).
  apply (mk_pc g d s _ t (FHold p x b) I); try reflexivity; rewrite ?E; try reflexivity; try assumption; try (cbn; congruence).
  - intros t' p' X Y Z. cbn in Y. injection Y as <-. elim X. symmetry. exact (i_free _ _ _ I _ _ _ U Z).
  - intros t' p' X Y Z. cbn in Y. injection Y as <-. elim X. apply (i_free _ _ _ I _ _ _ Z). unfold uses. rewrite U. reflexivity.
Qed.
Lemma k_bit_drop s t x b c : Inv s -> d_pc s t = FBit x b -> d_cells s x = Some c -> c_used c = [] -> Inv (w_pc s t (FRem x b)).
Proof.
  intros I E C U. pose proof (i_tok _ _ _ I t) as T. rewrite E in T. destruct T as (c' & A & B & M & _). rewrite C in A. injection A as <-.
  apply (mk_pc g d s _ t (FRem x b) I); try reflexivity; rewrite ?E; try reflexivity; try (cbn; congruence).
  - intros b'. apply (lock_same s t (FRem x b) I). rewrite E. reflexivity.
  - exists c. auto.
Qed.


(* whom a change of slab [x] concerns *)
Lemma about_priv s t t' x : Inv s -> priv (d_pc s t) = Some x -> about (d_pc s t') = Some x -> t' <> t -> reads (d_pc s t') = Some x /\ d = true.
Proof.
  intros I P A N. destruct (priv_out g d s t x I P) as (c & C & O). pose proof (i_tok _ _ _ I t') as T.
  assert (NP : priv (d_pc s t') <> Some x) by (intros X; elim N; exact (i_priv _ _ _ I _ _ _ X P)).
  destruct (d_pc s t'); cbn in A, T, NP |- *; try discriminate; injection A as ->; try (elim NP; reflexivity).
  - split; [reflexivity|]. destruct (found_alive g d G s p x I T) as (c' & _ & [(n & i & _ & M)|(D & _)]); [elim (O _ M)|exact D].
  - destruct T as (n & i & c' & A & _). destruct (i_chunk _ _ _ I _ _ _ _ A) as (c2 & _ & M & _). elim (O _ M).
  - destruct T as (n & i & c' & A & _). destruct (i_chunk _ _ _ I _ _ _ _ A) as (c2 & _ & M & _). elim (O _ M).
  - destruct T as (c' & _ & _ & M & _). elim (O _ M).
  - destruct T as (c' & _ & _ & M & _). elim (O _ M).
  - split; [reflexivity|]. destruct (found_alive g d G s p x I T) as (c' & _ & [(n & i & _ & M)|(D & _)]); [elim (O _ M)|exact D].
Qed.

Lemma k_take s t b n x i off c : Inv s -> d_pc s t = MHold b n -> d_cells s x = Some c -> c_bk c = b -> In (c_mem c, x) (d_mp s) ->
  0 <= i < slab_chunks g b -> ~ In i (c_used c) -> 0 <= off -> off + n <= k_size g b -> off < k_smin g ->
  Inv (unlock (w_own (w_cell s x (Some (Cell (c_mem c) b (i :: c_used c)))) (c_mem c + i * k_size g b + off) (Some (n, Some (x, i)))) t b).
Proof.
  intros I E C B M R U O1 O2 O3. pose proof (i_np _ _ _ I t) as NP. rewrite E in NP. cbn in NP.
  remember (c_mem c + i * k_size g b + off) as p eqn:EP.
  destruct (lock_drop s t b Idle I) as (L1 & L2); [rewrite E; reflexivity|reflexivity|].
  assert (Z0 : 0 < k_size g b) by apply (proj2 G).
  (* the new chunk is in the slab *)
  assert (PB : p < c_mem c + k_smin g /\ p + n <= c_mem c + slab_bytes g b).
  { unfold slab_chunks, slab_bytes in *. set (z := k_size g b) in *. set (m := k_smin g) in *. pose proof (Z.mul_div_le m z Z0).
    clear - R O1 O2 O3 EP Z0 H NP. destruct (Z.max_spec (m / z) 1) as [(A & Q)|(A & Q)]; rewrite Q in R.
    - assert (i = 0) by lia. subst i. lia.
    - assert (z * (i + 1) <= z * (m / z)) by nia. lia. }
  (* nobody has it *)
  assert (F : d_own s p = None).
  { destruct (d_own s p) as [[n' [[x' i']|]]|] eqn:O; [| |reflexivity]; exfalso.
    - destruct (chunk_region g d G s p n' x' i' I O) as (c' & A1 & A2 & A3 & A4 & A5 & A6 & _).
      destruct (i_map _ _ _ I _ _ M) as (c2 & Q1 & Q2 & Q3). rewrite C in Q1. injection Q1 as <-.
      assert (x' = x).
      { destruct (i_apart _ _ _ I _ _ _ _ _ _ A3 Q3) as [V|V]; [congruence|]. rewrite B in *. clear - V A4 A5 PB EP R O1 Z0 NP A6. nia. }
      subst x'. rewrite C in A1. injection A1 as <-.
      destruct (i_chunk _ _ _ I _ _ _ _ O) as (c2 & P1 & P2 & P3 & P4 & P5 & P6 & P7 & _). rewrite C in P1. injection P1 as <-. rewrite B in *.
      assert (i' = i) by (clear - P5 P6 P7 EP O1 O2 NP Z0; nia). subst i'. exact (U P3).
    - pose proof (i_own _ _ _ I _ _ O) as A. destruct (i_map _ _ _ I _ _ M) as (c2 & Q1 & Q2 & Q3). rewrite C in Q1. injection Q1 as <-.
      pose proof (i_pos _ _ _ I _ _ _ A). destruct (i_apart _ _ _ I _ _ _ _ _ _ A Q3) as [V|V]; [congruence|]. rewrite B in *. clear - V PB EP R O1 Z0 NP H. nia. }
  set (c1 := Cell (c_mem c) b (i :: c_used c)).
  assert (CK : forall y k, d_cells s y = Some k -> exists k', put (d_cells s) x (Some c1) y = Some k' /\ c_mem k' = c_mem k /\ c_bk k' = c_bk k
      /\ (y <> x -> k' = k) /\ (forall j, In j (c_used k) -> In j (c_used k'))).
  { intros y k Y. destruct (Z.eq_dec y x) as [->|N].
    - exists c1. rewrite put_eq. rewrite C in Y. injection Y as <-. repeat split; auto; try congruence. intros j J. right. exact J.
    - exists k. rewrite (put_ne _ _ _ _ N). auto. }
  apply (mk g d s _ t Idle I); cbn [unlock w_pc w_lock w_own w_cell d_pc d_bad d_regs d_mp d_cells d_own d_lock]; try reflexivity; try assumption; try (cbn; discriminate).
  - apply (i_bad _ _ _ I). - apply (i_pos _ _ _ I). - apply (i_apart _ _ _ I). - apply (i_nodup _ _ _ I).
  - intros m y Y. destruct (i_map _ _ _ I _ _ Y) as (k & K1 & K2 & K3). destruct (CK _ _ K1) as (k' & Q1 & Q2 & Q3 & _). exists k'. rewrite Q2, Q3. auto.
  - intros p0 n0. unfold put. destruct (Z.eqb_spec p0 p); [discriminate|]. apply (i_own _ _ _ I).
  - intros p0 n0 x0 i0. unfold put at 1. destruct (Z.eqb_spec p0 p) as [->|N]; intros V.
    + injection V as <- <- <-. exists c1. unfold c1; sm. rewrite put_eq. repeat (split; [first [reflexivity|assumption|left; reflexivity|lia]|]). lia.
    + destruct (i_chunk _ _ _ I _ _ _ _ V) as (k & K1 & K2 & K3 & K4). destruct (CK _ _ K1) as (k' & Q1 & Q2 & Q3 & _ & Q5). exists k'. sm. rewrite Q2, Q3.
      split; [exact Q1|]. split; [exact K2|]. split; [exact (Q5 _ K3)|exact K4].
  - intros p0 n0 p1 n1 x0 i0. unfold put. destruct (Z.eqb_spec p0 p) as [->|N0], (Z.eqb_spec p1 p) as [->|N1]; intros V W; [reflexivity| | |].
    + injection V as <- <- <-. destruct (i_chunk _ _ _ I _ _ _ _ W) as (k & K1 & K2 & K3 & K4). elim U. congruence.
    + injection W as <- <- <-. destruct (i_chunk _ _ _ I _ _ _ _ V) as (k & K1 & K2 & K3 & K4). elim U. congruence.
    + exact (i_uniq _ _ _ I _ _ _ _ _ _ V W).
  - intros t' N. eapply tok_frame; [| | | | | |exact (i_tok _ _ _ I t')]; sm; auto.
    + intros p0 P0. apply put_ne. intros ->. exact (uses_own g d s t' p I P0 F).
    + intros y k A K. destruct (CK _ _ K) as (k' & Q1 & Q2 & Q3 & Q4 & _). exists k'. repeat (split; [assumption|]). intros b' Q.
      destruct (Z.eq_dec y x) as [->|X]; [|rewrite (Q4 X); reflexivity]. exfalso.
      pose proof (i_tok _ _ _ I t') as T. rewrite Q in T. destruct T as (c2 & T1 & T2 & _). rewrite C in T1. injection T1 as <-. elim N.
      apply (lock_excl s t' t b I); [rewrite Q; cbn; congruence|rewrite E; reflexivity].
    + intros p0 n0 y i0 k A O0 K. destruct (CK _ _ K) as (k' & Q1 & Q2 & Q3 & _). exists k'. auto.
  - intros y k. unfold put. destruct (Z.eqb_spec y x) as [->|X]; intros Y.
    + injection Y as <-. left. exact M.
    + destruct (i_cells _ _ _ I _ _ Y) as [A|(t' & A)]; [left; exact A|]. right. right. exists t'. split; [intros ->; rewrite E in A; discriminate|exact A].
  - intros m l o V. pose proof (i_regs _ _ _ I _ _ _ V) as A. destruct o as [y|].
    + destruct A as [A|(t' & A & k & K1 & K2)]; [left; exact A|]. right. destruct (CK _ _ K1) as (k' & Q1 & Q2 & _).
      split; [right; exists t'; split; [intros ->; rewrite E in A; discriminate|exact A]|]. exists k'. rewrite Q2. auto.
    + unfold put. destruct (Z.eqb_spec m p) as [->|X]; [congruence|exact A].
  - intros D p0 n0. unfold put. destruct (Z.eqb_spec p0 p); [discriminate|]. apply (i_nd _ _ _ I D).
Qed.

Lemma fresh_nodup s m n : Inv s -> 0 < n -> fresh (d_regs s) m n = true -> ~ In m (map (fun x => fst (fst x)) (d_regs s)).
Proof.
  intros I N F V. apply in_map_iff in V. destruct V as ([[k l] o] & V1 & V2). cbn in V1. subst k.
  pose proof (fresh_in _ _ _ F _ _ _ V2). pose proof (i_pos _ _ _ I _ _ _ V2). lia.
Qed.

Lemma k_new s t b n x m : Inv s -> d_pc s t = MHold b n -> d_cells s x = None -> fresh (d_regs s) m (slab_bytes g b) = true ->
  Inv (w_pc (w_regs (w_cell s x (Some (Cell m b []))) ((m, slab_bytes g b, Some x) :: d_regs s)) t (MReg b n x)).
Proof.
  intros I E C F. pose proof (i_np _ _ _ I t) as NP. rewrite E in NP. cbn in NP. pose proof (bytes_pos g G b) as BP.
  pose proof (fresh_in _ _ _ F) as FI.
  assert (CK : forall y k, d_cells s y = Some k -> put (d_cells s) x (Some (Cell m b [])) y = Some k).
  { intros y k Y. rewrite put_ne; [exact Y|congruence]. }
  assert (NM : forall m', ~ In (m', x) (d_mp s)).
  { intros m' V. destruct (i_map _ _ _ I _ _ V) as (c & K & _). congruence. }
  apply (mk g d s _ t (MReg b n x) I); cbn [w_pc w_regs w_cell d_pc d_bad d_regs d_mp d_cells d_own d_lock]; try reflexivity; try (cbn; discriminate).
  - apply (i_bad _ _ _ I).
  - intros m0 l o [V|V]; [congruence|exact (i_pos _ _ _ I _ _ _ V)].
  - intros m0 l o m1 l' o' [V|V] [W|W]; [left; congruence| | |exact (i_apart _ _ _ I _ _ _ _ _ _ V W)].
    + injection V as <- <- <-. specialize (FI _ _ _ W). lia.
    + injection W as <- <- <-. specialize (FI _ _ _ V). lia.
  - cbn [map fst]. constructor; [exact (fresh_nodup s m _ I BP F)|apply (i_nodup _ _ _ I)].
  - intros m0 y Y. destruct (i_map _ _ _ I _ _ Y) as (k & K1 & K2 & K3). exists k. split; [exact (CK _ _ K1)|]. split; [exact K2|]. right. exact K3.
  - intros p0 n0 V. right. exact (i_own _ _ _ I _ _ V).
  - intros p0 n0 x0 i0 V. destruct (i_chunk _ _ _ I _ _ _ _ V) as (k & K1 & K2). exists k. split; [exact (CK _ _ K1)|exact K2].
  - apply (i_uniq _ _ _ I).
  - intros b'. apply (lock_same s t (MReg b n x) I). rewrite E. reflexivity.
  - intros t' N. eapply tok_frame; [| | | | | |exact (i_tok _ _ _ I t')]; sm; auto.
    + intros y k A K. exists k. auto.
    + intros p0 n0 y i0 k A O0 K. exists k. auto.
    + intros y m0 l A V. right. exact V.
  - exists (Cell m b []). sm. rewrite put_eq. split; [reflexivity|]. split; [reflexivity|]. split; [exact NM|]. intros _. left. reflexivity.
  - exact NP.
  - intros t' y N V W. cbn in V. injection V as <-. destruct (priv_out g d s t' x I W) as (c & K & _). congruence.
  - intros t' y N V W. cbn in V. injection V as <-. apply (about_alive g d G s t' x I); [|exact C]. destruct (d_pc s t'); cbn in W |- *; congruence.
  - intros y k. unfold put. destruct (Z.eqb_spec y x) as [->|X]; intros Y; [right; left; reflexivity|].
    destruct (i_cells _ _ _ I _ _ Y) as [A|(t' & A)]; [left; exact A|]. right. right. exists t'. split; [intros ->; rewrite E in A; discriminate|exact A].
  - intros m0 l o [V|V].
    + injection V as <- <- <-. right. split; [left; reflexivity|]. exists (Cell m b []). rewrite put_eq. auto.
    + pose proof (i_regs _ _ _ I _ _ _ V) as A. destruct o as [y|]; [|exact A].
      destruct A as [A|(t' & A & k & K1 & K2)]; [left; exact A|]. right. split; [right; exists t'; split; [intros ->; rewrite E in A; discriminate|exact A]|]. exists k. split; [exact (CK _ _ K1)|exact K2].
  - apply (i_nd _ _ _ I).
Qed.

Lemma k_reg s t b n x c : Inv s -> d_pc s t = MReg b n x -> d_cells s x = Some c -> Inv (w_pc (w_mp s ((c_mem c, x) :: d_mp s)) t (MHold b n)).
Proof.
  intros I E C. pose proof (i_np _ _ _ I t) as NP. rewrite E in NP. cbn in NP.
  pose proof (i_tok _ _ _ I t) as T. rewrite E in T. destruct T as (c' & T1 & T2 & T3 & T4). rewrite C in T1. injection T1 as <-. specialize (T4 eq_refl).
  apply (mk g d s _ t (MHold b n) I); cbn [w_pc w_mp d_pc d_bad d_regs d_mp d_cells d_own d_lock]; try reflexivity; try (cbn; discriminate).
  - apply (i_bad _ _ _ I). - apply (i_pos _ _ _ I). - apply (i_apart _ _ _ I). - apply (i_nodup _ _ _ I).
  - intros m y [V|V]; [|exact (i_map _ _ _ I _ _ V)]. injection V as <- <-. exists c. rewrite T2. auto.
  - apply (i_own _ _ _ I).
  - intros p0 n0 x0 i0 V. destruct (i_chunk _ _ _ I _ _ _ _ V) as (k & K1 & K2 & K3). exists k. split; [exact K1|]. split; [right; exact K2|exact K3].
  - apply (i_uniq _ _ _ I).
  - intros b'. apply (lock_same s t (MHold b n) I). rewrite E. reflexivity.
  - intros t' N. eapply tok_frame; [| | | | | |exact (i_tok _ _ _ I t')]; sm; auto.
    + intros y k A K. exists k. auto.
    + intros p0 n0 y i0 k A O0 K. exists k. auto.
    + intros y m A V. right. exact V.
    + intros y m A [V|V]; [|exact V]. injection V as <- <-. elim N. apply (i_priv _ _ _ I _ _ _ A). rewrite E. reflexivity.
  - exact NP.
  - intros y k Y. destruct (i_cells _ _ _ I _ _ Y) as [A|(t' & A)]; [left; right; exact A|]. destruct (Z.eq_dec t' t) as [->|X].
    + rewrite E in A. injection A as <-. left. left. congruence.
    + right. right. eauto.
  - intros m l o V. pose proof (i_regs _ _ _ I _ _ _ V) as A. destruct o as [y|]; [|exact A]. destruct A as [A|(t' & A & k & K1 & K2)]; [left; right; exact A|].
    destruct (Z.eq_dec t' t) as [->|X].
    + rewrite E in A. injection A as <-. left. left. congruence.
    + right. split; [right; eauto|eauto].
  - apply (i_nd _ _ _ I).
Qed.

Lemma k_direct s t p n : Inv s -> d = true -> d_pc s t = Idle -> 0 < n -> fresh (d_regs s) p n = true ->
  Inv (w_own (w_regs s ((p, n, None) :: d_regs s)) p (Some (n, None))).
Proof.
  intros I D E N F. pose proof (fresh_in _ _ _ F) as FI.
  assert (O : d_own s p = None).
  { destruct (d_own s p) as [[n' k]|] eqn:O; [|reflexivity]. exfalso. destruct (own_region g d G s p n' k I O) as (N' & m & l & o & R & A & B).
    specialize (FI _ _ _ R). lia. }
  apply (mk g d s _ t Idle I); cbn [w_own w_regs d_pc d_bad d_regs d_mp d_cells d_own d_lock]; try reflexivity; try (cbn; discriminate).
  - intros t'. unfold put. destruct (Z.eqb_spec t' t) as [->|]; congruence.
  - apply (i_bad _ _ _ I).
  - intros m0 l o [V|V]; [congruence|exact (i_pos _ _ _ I _ _ _ V)].
  - intros m0 l o m1 l' o' [V|V] [W|W]; [left; congruence| | |exact (i_apart _ _ _ I _ _ _ _ _ _ V W)].
    + injection V as <- <- <-. specialize (FI _ _ _ W). lia.
    + injection W as <- <- <-. specialize (FI _ _ _ V). lia.
  - cbn [map fst]. constructor; [exact (fresh_nodup s p _ I N F)|apply (i_nodup _ _ _ I)].
  - intros m0 y Y. destruct (i_map _ _ _ I _ _ Y) as (k & K1 & K2 & K3). exists k. split; [exact K1|]. split; [exact K2|]. right. exact K3.
  - intros p0 n0. unfold put. destruct (Z.eqb_spec p0 p) as [->|X]; intros V; [left; congruence|]. right. exact (i_own _ _ _ I _ _ V).
  - intros p0 n0 x0 i0. unfold put. destruct (Z.eqb_spec p0 p) as [->|X]; intros V; [discriminate|]. exact (i_chunk _ _ _ I _ _ _ _ V).
  - intros p0 n0 p1 n1 x0 i0. unfold put. destruct (Z.eqb_spec p0 p) as [->|X]; [discriminate|]. destruct (Z.eqb_spec p1 p) as [->|Y]; [discriminate|]. apply (i_uniq _ _ _ I).
  - intros b'. apply (lock_same s t Idle I). rewrite E. reflexivity.
  - intros t' X. eapply tok_frame; [| | | | | |exact (i_tok _ _ _ I t')]; sm; auto.
    + intros p0 P0. apply put_ne. intros ->. exact (uses_own g d s t' p I P0 O).
    + intros y k A K. exists k. auto.
    + intros p0 n0 y i0 k A O0 K. exists k. auto.
    + intros y m l A V. right. exact V.
  - intros y k Y. destruct (i_cells _ _ _ I _ _ Y) as [A|(t' & A)]; [left; exact A|]. right. right. exists t'. split; [intros ->; rewrite E in A; discriminate|exact A].
  - intros m0 l o [V|V].
    + injection V as <- <- <-. apply put_eq.
    + pose proof (i_regs _ _ _ I _ _ _ V) as A. destruct o as [y|].
      * destruct A as [A|(t' & A & K)]; [left; exact A|]. right. split; [right; exists t'; split; [intros ->; rewrite E in A; discriminate|exact A]|exact K].
      * unfold put. destruct (Z.eqb_spec m0 p) as [->|X]; [congruence|exact A].
  - congruence.
Qed.


Lemma nodup_del (r : list (Z * Z * option Z)) a : NoDup (map (fun x => fst (fst x)) r) -> NoDup (map (fun x => fst (fst x)) (rdel r a)).
Proof.
  induction r as [|x r IH]; intros N; [exact N|]. cbn [map] in N. inversion N as [|? ? N1 N2]; subst. unfold rdel. cbn [filter].
  destruct (negb (fst (fst x) =? a)); [|exact (IH N2)]. cbn [map]. constructor; [|exact (IH N2)].
  intros V. apply N1. apply in_map_iff in V. destruct V as (y & V1 & V2). apply filter_In in V2. apply in_map_iff. exists y. tauto.
Qed.

(* giving back the memory of a slab that is in nobody's reach *)
Lemma other_base s m x o l l' : Inv s -> In (m, l, Some x) (d_regs s) -> o <> Some x -> forall m', In (m', l', o) (d_regs s) -> m' <> m.
Proof. intros I A N m' B ->. destruct (base_eq g d s _ _ _ _ _ I A B) as (_ & E). congruence. Qed.

Lemma k_reg_fail s t b n x c : Inv s -> d_pc s t = MReg b n x -> d_cells s x = Some c ->
  Inv (unlock (w_cell (w_regs s (rdel (d_regs s) (c_mem c))) x None) t b).
Proof.
  intros I E C. pose proof (i_tok _ _ _ I t) as T. rewrite E in T. destruct T as (c' & T1 & T2 & T3 & T4). rewrite C in T1. injection T1 as <-. specialize (T4 eq_refl).
  destruct (lock_drop s t b Idle I) as (L1 & L2); [rewrite E; reflexivity|reflexivity|].
  assert (PV : priv (d_pc s t) = Some x) by (rewrite E; reflexivity).
  assert (NX : forall m y, In (m, y) (d_mp s) -> y <> x) by (intros m y V ->; exact (T3 _ V)).
  apply (mk g d s _ t Idle I); sm; try reflexivity; try assumption; try (cbn; discriminate).
  - apply (i_bad _ _ _ I).
  - intros m l o V. apply rdel_in in V. exact (i_pos _ _ _ I _ _ _ (proj1 V)).
  - intros m l o m' l' o' V W. apply rdel_in in V, W. exact (i_apart _ _ _ I _ _ _ _ _ _ (proj1 V) (proj1 W)).
  - apply nodup_del, (i_nodup _ _ _ I).
  - intros m y V. destruct (i_map _ _ _ I _ _ V) as (k & K1 & K2 & K3). exists k. pose proof (NX _ _ V). rewrite put_ne by assumption. split; [exact K1|]. split; [exact K2|].
    apply rdel_in. split; [exact K3|]. eapply other_base; [exact I|exact T4| |exact K3]. congruence.
  - intros p n0 V. pose proof (i_own _ _ _ I _ _ V) as R. apply rdel_in. split; [exact R|]. eapply other_base; [exact I|exact T4| |exact R]. congruence.
  - intros p n0 y i V. destruct (i_chunk _ _ _ I _ _ _ _ V) as (k & K1 & K2 & K3). exists k. sm. rewrite put_ne by exact (NX _ _ K2). auto.
  - apply (i_uniq _ _ _ I).
  - intros t' N. eapply tok_frame; [| | | | | |exact (i_tok _ _ _ I t')]; sm; auto.
    + intros y k A K. exists k. rewrite put_ne; [auto|]. intros ->. destruct (about_priv s t t' x I PV A N) as (R & _).
      apply (i_read _ _ _ I _ t _ R). rewrite E. reflexivity.
    + intros p0 n0 y i0 k A O0 K. exists k. rewrite put_ne; [auto|]. destruct (i_chunk _ _ _ I _ _ _ _ O0) as (k2 & _ & M2 & _). exact (NX _ _ M2).
    + intros y m l A V. apply rdel_in. split; [exact V|]. eapply other_base; [exact I|exact T4| |exact V]. intros W. injection W as ->.
      elim N. exact (i_priv _ _ _ I _ _ _ (privmem_priv _ _ A) PV).
  - intros y k. unfold put. destruct (Z.eqb_spec y x) as [->|X]; [discriminate|]. intros Y. destruct (i_cells _ _ _ I _ _ Y) as [A|(t' & A)]; [left; exact A|].
    right. right. exists t'. split; [intros ->; rewrite PV in A; congruence|exact A].
  - intros m l o V. apply rdel_in in V. destruct V as (V & NM). pose proof (i_regs _ _ _ I _ _ _ V) as A. destruct o as [y|]; [|exact A].
    destruct A as [A|(t' & A & k & K1 & K2)]; [left; exact A|]. right.
    assert (y <> x) by (intros ->; congruence).
    split; [right; exists t'; split; [intros ->; apply privmem_priv in A; congruence|exact A]|]. exists k. rewrite put_ne by assumption. auto.
  - apply (i_nd _ _ _ I).
Qed.

Lemma k_hold s t p x b s' : Inv s -> d_pc s t = FHold p x b -> dstep g s t AGo = Some s' -> Inv s'.
Proof.
  intros I E H. pose proof (i_tok _ _ _ I t) as T. rewrite E in T. destruct T as (n & i & c & O & C & B).
  unfold dstep in H. rewrite E, C in H. cbv zeta in H.
  destruct (i_chunk _ _ _ I _ _ _ _ O) as (c' & C' & M & U & R & P1 & P2 & P3 & P4). rewrite C in C'. injection C' as <-.
  pose proof (proj2 G (c_bk c)) as Z0.
  assert (J : (p - c_mem c) / k_size g (c_bk c) = i).
  { symmetry. apply (Z.div_unique_pos _ _ i (p - c_mem c - i * k_size g (c_bk c))); [|lia]. clear - P1 P2 P3 Z0. lia. }
  rewrite J in H. assert (UE : existsb (Z.eqb i) (c_used c) = true) by (apply used_in; exact U). rewrite UE in H. injection H as <-.
  set (c1 := Cell (c_mem c) (c_bk c) (filter (fun j => negb (j =? i)) (c_used c))).
  assert (CK : forall y k, d_cells s y = Some k -> exists k', put (d_cells s) x (Some c1) y = Some k' /\ c_mem k' = c_mem k /\ c_bk k' = c_bk k
      /\ (y <> x -> k' = k) /\ (forall j, j <> i \/ y <> x -> In j (c_used k) -> In j (c_used k'))).
  { intros y k Y. destruct (Z.eq_dec y x) as [->|N].
    - exists c1. rewrite put_eq. rewrite C in Y. injection Y as <-. repeat split; auto; try congruence. intros j [X|X] J'; [|congruence]. unfold c1. cbn [c_used].
      apply filter_In. split; [exact J'|]. destruct (Z.eqb_spec j i); [congruence|reflexivity].
    - exists k. rewrite (put_ne _ _ _ _ N). auto. }
  assert (FR : freeing (d_pc s t) = Some p) by (rewrite E; reflexivity).
  apply (mk g d s _ t (FBit x b) I); sm; try reflexivity; try assumption; try (cbn; discriminate).
  - apply (i_bad _ _ _ I). - apply (i_pos _ _ _ I). - apply (i_apart _ _ _ I). - apply (i_nodup _ _ _ I).
  - intros m y Y. destruct (i_map _ _ _ I _ _ Y) as (k & K1 & K2 & K3). destruct (CK _ _ K1) as (k' & Q1 & Q2 & Q3 & _). exists k'. rewrite Q2, Q3. auto.
  - intros p0 n0. unfold put. destruct (Z.eqb_spec p0 p); [discriminate|]. apply (i_own _ _ _ I).
  - intros p0 n0 x0 i0. unfold put at 1. destruct (Z.eqb_spec p0 p) as [->|N]; intros V; [discriminate|].
    destruct (i_chunk _ _ _ I _ _ _ _ V) as (k & K1 & K2 & K3 & K4). destruct (CK _ _ K1) as (k' & Q1 & Q2 & Q3 & _ & Q5). exists k'. sm. rewrite Q2, Q3.
    split; [exact Q1|]. split; [exact K2|]. split; [|exact K4]. apply Q5; [|exact K3].
    destruct (Z.eq_dec i0 i) as [->|]; [|left; assumption]. right. intros ->. elim N. exact (i_uniq _ _ _ I _ _ _ _ _ _ V O).
  - intros p0 n0 p1 n1 x0 i0. unfold put. destruct (Z.eqb_spec p0 p) as [->|N0]; [discriminate|]. destruct (Z.eqb_spec p1 p) as [->|N1]; [discriminate|]. apply (i_uniq _ _ _ I).
  - intros b'. apply (lock_same s t (FBit x b) I). rewrite E. reflexivity.
  - intros t' N. eapply tok_frame; [| | | | | |exact (i_tok _ _ _ I t')]; sm; auto.
    + intros p0 P0. apply put_ne. intros ->. elim N. symmetry. exact (i_free _ _ _ I _ _ _ FR P0).
    + intros y k A K. destruct (CK _ _ K) as (k' & Q1 & Q2 & Q3 & Q4 & _). exists k'. repeat (split; [assumption|]). intros b' Q.
      destruct (Z.eq_dec y x) as [->|X]; [|rewrite (Q4 X); reflexivity]. exfalso.
      pose proof (i_tok _ _ _ I t') as T. rewrite Q in T. destruct T as (c2 & T1 & T2 & _). rewrite C in T1. injection T1 as <-. elim N.
      apply (lock_excl s t' t b I); [rewrite Q; cbn; congruence|rewrite E; reflexivity].
    + intros p0 n0 y i0 k A O0 K. destruct (CK _ _ K) as (k' & Q1 & Q2 & Q3 & _). exists k'. auto.
  - exists c1. sm. rewrite put_eq. split; [reflexivity|]. split; [exact B|]. split; [exact M|discriminate].
  - intros y k. unfold put. destruct (Z.eqb_spec y x) as [->|X]; intros Y.
    + injection Y as <-. left. exact M.
    + destruct (i_cells _ _ _ I _ _ Y) as [A|(t' & A)]; [left; exact A|]. right. right. exists t'. split; [intros ->; rewrite E in A; discriminate|exact A].
  - intros m l o V. pose proof (i_regs _ _ _ I _ _ _ V) as A. destruct o as [y|].
    + destruct A as [A|(t' & A & k & K1 & K2)]; [left; exact A|]. right. destruct (CK _ _ K1) as (k' & Q1 & Q2 & _).
      split; [right; exists t'; split; [intros ->; rewrite E in A; discriminate|exact A]|]. exists k'. rewrite Q2. auto.
    + unfold put. destruct (Z.eqb_spec m p) as [->|X]; [congruence|exact A].
  - intros D p0 n0. unfold put. destruct (Z.eqb_spec p0 p); [discriminate|]. apply (i_nd _ _ _ I D).
Qed.

Lemma k_rem s t x b c : Inv s -> d_pc s t = FRem x b -> d_cells s x = Some c -> Inv (w_pc (w_mp s (mdel (d_mp s) (c_mem c))) t (FMem x b)).
Proof.
  intros I E C. pose proof (i_tok _ _ _ I t) as T. rewrite E in T. destruct T as (c' & T1 & T2 & T3 & T4). rewrite C in T1. injection T1 as <-. specialize (T4 eq_refl).
  destruct (i_map _ _ _ I _ _ T3) as (c' & Q1 & _ & Q3). rewrite C in Q1. injection Q1 as <-.
  assert (MK : forall m y, In (m, y) (d_mp s) -> m = c_mem c -> y = x).
  { intros m y V ->. destruct (i_map _ _ _ I _ _ V) as (k & K1 & K2 & K3). destruct (base_eq g d s _ _ _ _ _ I Q3 K3) as (_ & X). congruence. }
  apply (mk g d s _ t (FMem x b) I); sm; try reflexivity; try (cbn; discriminate).
  - apply (i_bad _ _ _ I). - apply (i_pos _ _ _ I). - apply (i_apart _ _ _ I). - apply (i_nodup _ _ _ I).
  - intros m y V. apply mdel_in in V. exact (i_map _ _ _ I _ _ (proj1 V)).
  - apply (i_own _ _ _ I).
  - intros p n y i V. destruct (i_chunk _ _ _ I _ _ _ _ V) as (k & K1 & K2 & K3 & K4). exists k. sm. split; [exact K1|]. split; [|auto].
    apply mdel_in. split; [exact K2|]. intros X. pose proof (MK _ _ K2 X) as ->. rewrite C in K1. injection K1 as <-. rewrite T4 in K3. destruct K3.
  - apply (i_uniq _ _ _ I).
  - intros b'. apply (lock_same s t (FMem x b) I). rewrite E. reflexivity.
  - intros t' N. eapply tok_frame; [| | | | | |exact (i_tok _ _ _ I t')]; sm; auto.
    + intros y k A K. exists k. auto.
    + intros p0 n0 y i0 k A O0 K. exists k. auto.
    + intros y m (b' & Q) V. apply mdel_in. split; [exact V|]. intros X. pose proof (MK _ _ V X) as ->. elim N.
      pose proof (i_tok _ _ _ I t') as T. destruct Q as [Q|Q]; rewrite Q in T; destruct T as (k & K1 & K2 & _); rewrite C in K1; injection K1 as <-;
        (apply (lock_excl s t' t b I); [rewrite Q; cbn; congruence|rewrite E; reflexivity]).
    + intros y m A V. apply mdel_in in V. apply V.
  - exists c. sm. split; [exact C|]. split; [exact T2|]. split; [|intros _; rewrite <- T2; exact Q3].
    intros m V. apply mdel_in in V. destruct V as (V & W). destruct (i_map _ _ _ I _ _ V) as (k & K1 & K2 & _). congruence.
  - intros t' y N V W. cbn in V. injection V as <-. destruct (priv_out g d s t' x I W) as (k & _ & K). exact (K _ T3).
  - intros y k Y. destruct (i_cells _ _ _ I _ _ Y) as [A|(t' & A)].
    + destruct (Z.eq_dec (c_mem k) (c_mem c)) as [X|X]; [right; left; cbn; rewrite (MK _ _ A X); reflexivity|]. left. apply mdel_in. auto.
    + right. right. exists t'. split; [intros ->; rewrite E in A; discriminate|exact A].
  - intros m l o V. pose proof (i_regs _ _ _ I _ _ _ V) as A. destruct o as [y|]; [|exact A]. destruct A as [A|(t' & A & K)].
    + destruct (Z.eq_dec m (c_mem c)) as [X|X]; [right|left; apply mdel_in; auto]. rewrite (MK _ _ A X). split; [left; reflexivity|]. exists c. auto.
    + right. split; [right; exists t'; split; [intros ->; rewrite E in A; discriminate|exact A]|exact K].
  - apply (i_nd _ _ _ I).
Qed.

Lemma k_mem s t x b c : Inv s -> d_pc s t = FMem x b -> d_cells s x = Some c -> Inv (w_pc (w_regs s (rdel (d_regs s) (c_mem c))) t (FCell x b)).
Proof.
  intros I E C. pose proof (i_tok _ _ _ I t) as T. rewrite E in T. destruct T as (c' & T1 & T2 & T3 & T4). rewrite C in T1. injection T1 as <-. specialize (T4 eq_refl).
  assert (PV : priv (d_pc s t) = Some x) by (rewrite E; reflexivity).
  assert (NX : forall m y, In (m, y) (d_mp s) -> y <> x) by (intros m y V ->; exact (T3 _ V)).
  apply (mk g d s _ t (FCell x b) I); sm; try reflexivity; try (cbn; discriminate).
  - apply (i_bad _ _ _ I).
  - intros m l o V. apply rdel_in in V. exact (i_pos _ _ _ I _ _ _ (proj1 V)).
  - intros m l o m' l' o' V W. apply rdel_in in V, W. exact (i_apart _ _ _ I _ _ _ _ _ _ (proj1 V) (proj1 W)).
  - apply nodup_del, (i_nodup _ _ _ I).
  - intros m y V. destruct (i_map _ _ _ I _ _ V) as (k & K1 & K2 & K3). exists k. pose proof (NX _ _ V). split; [exact K1|]. split; [exact K2|].
    apply rdel_in. split; [exact K3|]. eapply other_base; [exact I|exact T4| |exact K3]. congruence.
  - intros p n0 V. pose proof (i_own _ _ _ I _ _ V) as R. apply rdel_in. split; [exact R|]. eapply other_base; [exact I|exact T4| |exact R]. congruence.
  - intros p n y i V. destruct (i_chunk _ _ _ I _ _ _ _ V) as (k & K). exists k. exact K.
  - apply (i_uniq _ _ _ I).
  - intros b'. apply (lock_same s t (FCell x b) I). rewrite E. reflexivity.
  - intros t' N. eapply tok_frame; [| | | | | |exact (i_tok _ _ _ I t')]; sm; auto.
    + intros y k A K. exists k. auto.
    + intros p0 n0 y i0 k A O0 K. exists k. auto.
    + intros y m l A V. apply rdel_in. split; [exact V|]. eapply other_base; [exact I|exact T4| |exact V]. intros W. injection W as ->.
      elim N. exact (i_priv _ _ _ I _ _ _ (privmem_priv _ _ A) PV).
  - exists c. sm. split; [exact C|]. split; [exact T2|]. split; [exact T3|discriminate].
  - intros t' y N V W. cbn in V. injection V as <-. elim N. exact (i_priv _ _ _ I _ _ _ W PV).
  - intros y k Y. destruct (i_cells _ _ _ I _ _ Y) as [A|(t' & A)]; [left; exact A|]. right. destruct (Z.eq_dec t' t) as [->|X]; [left|right; eauto]. rewrite PV in A. exact A.
  - intros m l o V. apply rdel_in in V. destruct V as (V & NM). pose proof (i_regs _ _ _ I _ _ _ V) as A. destruct o as [y|]; [|exact A].
    destruct A as [A|(t' & A & k & K1 & K2)]; [left; exact A|]. right.
    assert (y <> x) by (intros ->; congruence).
    split; [right; exists t'; split; [intros ->; apply privmem_priv in A; congruence|exact A]|]. exists k. auto.
  - apply (i_nd _ _ _ I).
Qed.

Lemma k_cell s t x b : Inv s -> d_pc s t = FCell x b -> ok s t AGo -> Inv (unlock (w_cell s x None) t b).
Proof.
  intros I E OK. pose proof (i_tok _ _ _ I t) as T. rewrite E in T. destruct T as (c & C & T2 & T3 & _).
  destruct (lock_drop s t b Idle I) as (L1 & L2); [rewrite E; reflexivity|reflexivity|].
  assert (PV : priv (d_pc s t) = Some x) by (rewrite E; reflexivity).
  assert (NX : forall m y, In (m, y) (d_mp s) -> y <> x) by (intros m y V ->; exact (T3 _ V)).
  apply (mk g d s _ t Idle I); sm; try reflexivity; try assumption; try (cbn; discriminate).
  - apply (i_bad _ _ _ I). - apply (i_pos _ _ _ I). - apply (i_apart _ _ _ I). - apply (i_nodup _ _ _ I).
  - intros m y V. destruct (i_map _ _ _ I _ _ V) as (k & K1 & K2 & K3). exists k. pose proof (NX _ _ V). rewrite put_ne by assumption. auto.
  - apply (i_own _ _ _ I).
  - intros p n0 y i V. destruct (i_chunk _ _ _ I _ _ _ _ V) as (k & K1 & K2 & K3). exists k. sm. rewrite put_ne by exact (NX _ _ K2). auto.
  - apply (i_uniq _ _ _ I).
  - intros t' N. eapply tok_frame; [| | | | | |exact (i_tok _ _ _ I t')]; sm; auto.
    + intros y k A K. exists k. rewrite put_ne; [auto|]. intros ->. destruct (about_priv s t t' x I PV A N) as (R & D).
    unfold ok in OK. rewrite D in OK. unfold settled in OK. rewrite E in OK. destruct (d_pc s t') as [| | | | |p y'| | | | | | | | |p y'| |] eqn:Q; try discriminate; cbn in R; injection R as ->; destruct (OK t' p) as (O1 & O2); congruence.
    + intros p0 n0 y i0 k A O0 K. exists k. rewrite put_ne; [auto|]. destruct (i_chunk _ _ _ I _ _ _ _ O0) as (k2 & _ & M2 & _). exact (NX _ _ M2).
  - intros y k. unfold put. destruct (Z.eqb_spec y x) as [->|X]; [discriminate|]. intros Y. destruct (i_cells _ _ _ I _ _ Y) as [A|(t' & A)]; [left; exact A|].
    right. right. exists t'. split; [intros ->; rewrite PV in A; congruence|exact A].
  - intros m l o V. pose proof (i_regs _ _ _ I _ _ _ V) as A. destruct o as [y|]; [|exact A].
    destruct A as [A|(t' & A & k & K1 & K2)]; [left; exact A|]. right.
    assert (t' <> t) by (intros ->; rewrite E in A; discriminate).
    assert (y <> x) by (intros ->; elim H; exact (i_priv _ _ _ I _ _ _ (privmem_priv _ _ A) PV)).
    split; [right; eauto|]. exists k. rewrite put_ne by assumption. auto.
  - apply (i_nd _ _ _ I).
Qed.

Lemma k_fdirect s t p s' : Inv s -> d_pc s t = FDirect p -> dstep g s t AGo = Some s' -> Inv s'.
Proof.
  intros I E H. pose proof (i_tok _ _ _ I t) as T. rewrite E in T. destruct T as (n & O). unfold dstep in H. rewrite E, (rget_own s p n I O) in H. injection H as <-.
  pose proof (i_own _ _ _ I _ _ O) as R.
  assert (FR : freeing (d_pc s t) = Some p) by (rewrite E; reflexivity).
  assert (NB : forall m l x, In (m, l, Some x) (d_regs s) -> m <> p).
  { intros m l x V ->. destruct (base_eq g d s _ _ _ _ _ I R V) as (_ & X). discriminate. }
  apply (mk g d s _ t Idle I); sm; try reflexivity; try (cbn; discriminate).
  - apply (i_bad _ _ _ I).
  - intros m l o V. apply rdel_in in V. exact (i_pos _ _ _ I _ _ _ (proj1 V)).
  - intros m l o m' l' o' V W. apply rdel_in in V, W. exact (i_apart _ _ _ I _ _ _ _ _ _ (proj1 V) (proj1 W)).
  - apply nodup_del, (i_nodup _ _ _ I).
  - intros m y V. destruct (i_map _ _ _ I _ _ V) as (k & K1 & K2 & K3). exists k. split; [exact K1|]. split; [exact K2|]. apply rdel_in. split; [exact K3|]. exact (NB _ _ _ K3).
  - intros p0 n0. unfold put. destruct (Z.eqb_spec p0 p) as [->|X]; [discriminate|]. intros V. apply rdel_in. split; [exact (i_own _ _ _ I _ _ V)|exact X].
  - intros p0 n0 x i. unfold put. destruct (Z.eqb_spec p0 p) as [->|X]; [discriminate|]. apply (i_chunk _ _ _ I).
  - intros p0 n0 p1 n1 x0 i0. unfold put. destruct (Z.eqb_spec p0 p) as [->|N0]; [discriminate|]. destruct (Z.eqb_spec p1 p) as [->|N1]; [discriminate|]. apply (i_uniq _ _ _ I).
  - intros b'. apply (lock_same s t Idle I). rewrite E. reflexivity.
  - intros t' N. eapply tok_frame; [| | | | | |exact (i_tok _ _ _ I t')]; sm; auto.
    + intros p0 P0. apply put_ne. intros ->. elim N. symmetry. exact (i_free _ _ _ I _ _ _ FR P0).
    + intros y k A K. exists k. auto.
    + intros p0 n0 y i0 k A O0 K. exists k. auto.
    + intros y m l A V. apply rdel_in. split; [exact V|]. exact (NB _ _ _ V).
  - intros y k Y. destruct (i_cells _ _ _ I _ _ Y) as [A|(t' & A)]; [left; exact A|]. right. right. exists t'. split; [intros ->; rewrite E in A; discriminate|exact A].
  - intros m l o V. apply rdel_in in V. destruct V as (V & N). pose proof (i_regs _ _ _ I _ _ _ V) as A. destruct o as [y|].
    + destruct A as [A|(t' & A & K)]; [left; exact A|]. right. split; [right; exists t'; split; [intros ->; rewrite E in A; discriminate|exact A]|exact K].
    + rewrite put_ne by exact N. exact A.
  - intros D p0 n0. unfold put. destruct (Z.eqb_spec p0 p); [discriminate|]. apply (i_nd _ _ _ I D).
Qed.

Theorem inv_step s t a s' : Inv s -> proper g s a -> ok s t a -> dstep g s t a = Some s' -> Inv s'.
Proof.
  intros I P OK H. destruct a as [b n|p n|p|p|x i off|x m| | | |]; destruct (d_pc s t) as [|b' n'|b' n'|b' n' x'|p'|p' x'|p' x' b'|p' x' b'|x' b'|x' b'|x' b'|x' b'|p'|p'|p' x'|p'|p' v'] eqn:E;
    pose proof H as H0; unfold dstep in H; rewrite E in H; try discriminate.
  - destruct (Z.ltb_spec 0 n); [|discriminate]. injection H as <-. apply k_malloc; assumption.
  - destruct (Z.ltb_spec 0 n); [|discriminate]. cbn [andb] in H. destruct (fresh (d_regs s) p n) eqn:F; [|discriminate]. injection H as <-.
    apply (k_direct s t p n I); try assumption. unfold ok, pooled in OK. destruct d; [reflexivity|contradiction].
  - injection H as <-. apply k_free; assumption.
  - injection H as <-. apply k_usable; assumption.
  - destruct (d_cells s x) as [c|] eqn:C; [|discriminate].
    match type of H with (if ?cond then _ else _) = _ => destruct cond eqn:Q; [|discriminate] end. injection H as <-.
    repeat (apply andb_true_iff in Q; destruct Q as (Q & ?)).
    apply Z.eqb_eq in Q. apply (k_take s t b' n' x i off c I E C Q).
    + apply reg_in. assumption. + lia.
    + intros V. apply used_in in V. rewrite V in *. discriminate.
    + lia. + lia. + exact P.
  - destruct (d_cells s x) eqn:C; [discriminate|]. destruct (fresh (d_regs s) m (slab_bytes g b')) eqn:F; [|discriminate]. injection H as <-. apply k_new; assumption.
  - injection H as <-. apply k_drop; rewrite ?E; auto.
  - destruct (d_cells s x') as [c|] eqn:C; [injection H as <-; eapply k_reg_fail; eassumption|].
    pose proof (i_tok _ _ _ I t) as T. rewrite E in T. destruct T as (c & T & _). congruence.
  - injection H as <-. apply k_drop; rewrite ?E; auto.
  - destruct (d_cells s x') as [c|] eqn:C; [destruct (c_used c) eqn:U; [|discriminate]; injection H as <-; eapply k_bit_drop; eassumption|].
    pose proof (i_tok _ _ _ I t) as T. rewrite E in T. destruct T as (c & T & _). congruence.
  - destruct (d_lock s b') eqn:L; [discriminate|]. injection H as <-. apply k_mlock; assumption.
  - destruct (d_cells s x') as [c|] eqn:C; [destruct (mhas (d_mp s) (c_mem c)); [discriminate|]; injection H as <-; eapply k_reg; eassumption|].
    pose proof (i_tok _ _ _ I t) as T. rewrite E in T. destruct T as (c & T & _). congruence.
  - pose proof (k_find s t p' I E) as K. destruct (mfind (d_mp s) p') as [[? ?]|]; injection H as <-; exact K.
  - eapply k_read; eassumption.
  - destruct (d_lock s b') eqn:L; [discriminate|]. injection H as <-. apply k_fwait; assumption.
  - eapply k_hold; eassumption.
  - destruct (d_cells s x') as [c|] eqn:C; [injection H as <-; eapply k_rem; eassumption|].
    pose proof (i_tok _ _ _ I t) as T. rewrite E in T. destruct T as (c & T & _). congruence.
  - destruct (d_cells s x') as [c|] eqn:C; [injection H as <-; eapply k_mem; eassumption|].
    pose proof (i_tok _ _ _ I t) as T. rewrite E in T. destruct T as (c & T & _). congruence.
  - injection H as <-. apply k_cell; assumption.
  - eapply k_fdirect; eassumption.
  - pose proof (k_ufind s t p' I E) as K. destruct (mfind (d_mp s) p') as [[? ?]|]; injection H as <-; exact K.
  - eapply k_uread; eassumption.
  - eapply k_udirect; eassumption.
  - injection H as <-. eapply k_udone; eassumption.
Qed.

Theorem inv_reach s : reach g ok s -> Inv s.
Proof. induction 1; [apply inv_init; exact G|eapply inv_step; eassumption]. Qed.

Theorem inv_safe s : Inv s -> safe g s.
Proof.
  intros I. split; [exact (i_bad _ _ _ I)|]. split; [|split; [|split; [|split]]].
  - intros p n k O. destruct (own_region g d G s p n k I O) as (N & R). split; [exact N|]. split; [exact R|]. intros p' n' k' O' X. exact (own_apart g d G s _ _ _ _ _ _ I O O' X).
  - split.
    + intros t p x b E. pose proof (i_tok _ _ _ I t) as T. rewrite E in T. destruct T as (n & i & c & O & C & B). exists n, i, c. repeat (split; [assumption|]).
      destruct (i_chunk _ _ _ I _ _ _ _ O) as (c' & C' & M & U & R & P1 & P2 & P3 & P4). rewrite C in C'. injection C' as <-. rewrite B in *.
      split; [|exact U]. pose proof (proj2 G b). symmetry. apply (Z.div_unique_pos _ _ i (p - c_mem c - i * k_size g b)); lia.
    + intros t p E. pose proof (i_tok _ _ _ I t) as T. rewrite E in T. exact T.
  - intros t p v E. pose proof (i_tok _ _ _ I t) as T. rewrite E in T. destruct T as (n & k & O & L & W).
    split; [eauto|]. split; [exact (within_region g d G s p n k v I O W)|]. intros p' n' k' O' X. exact (within_apart g d G s _ _ _ _ _ _ _ I O W O' X).
  - intros b t L. apply (i_lock _ _ _ I) in L. pose proof (i_tok _ _ _ I t) as T.
    destruct (d_pc s t) eqn:E; cbn in L; try discriminate; injection L as ->.
    + exists AFail. eexists. unfold dstep. rewrite E. reflexivity.
    + destruct T as (c & T & _). exists AFail. eexists. unfold dstep. rewrite E, T. reflexivity.
    + destruct T as (m & i & c & _ & T & _). exists AGo. unfold dstep. rewrite E, T. cbv zeta. destruct (existsb _ _); eexists; reflexivity.
    + exists AKeep. eexists. unfold dstep. rewrite E. reflexivity.
    + destruct T as (c & T & _). exists AGo. eexists. unfold dstep. rewrite E, T. reflexivity.
    + destruct T as (c & T & _). exists AGo. eexists. unfold dstep. rewrite E, T. reflexivity.
    + exists AGo. eexists. unfold dstep. rewrite E. reflexivity.
  - intros Q. split; [|split].
    + intros b. destruct (d_lock s b) as [t|] eqn:L; [|reflexivity]. apply (i_lock _ _ _ I) in L. rewrite Q in L. discriminate.
    + intros x c C. destruct (i_cells _ _ _ I _ _ C) as [A|(t & A)]; [exact A|]. rewrite Q in A. discriminate.
    + intros m l o V. pose proof (i_regs _ _ _ I _ _ _ V) as A. destruct o as [x|]; [|exact A]. destruct A as [A|(t & A & _)]; [exact A|]. rewrite Q in A. discriminate.
Qed.

End S.
