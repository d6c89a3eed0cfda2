(* Invariant of a disjoint pool used by several threads. *)
From Verif Require Import Base Model_DisjointConc Spec_DisjointConc.

Lemma put_eq {A} (f : Z -> A) k v : put f k v k = v.
Proof. unfold put. rewrite Z.eqb_refl. reflexivity. Qed.
Lemma put_ne {A} (f : Z -> A) k v x : x <> k -> put f k v x = f x.
Proof. intros H. unfold put. destruct (Z.eqb_spec x k); congruence. Qed.

Lemma mfind_spec m a : match mfind m a with
  | Some (k, x) => In (k, x) m /\ k <= a /\ forall k' x', In (k', x') m -> k' <= a -> k' <= k
  | None => forall k' x', In (k', x') m -> a < k' end.
Proof.
  induction m as [|[k x] m IH]; cbn; [intros; contradiction|]. fold (mfind m a).
  destruct (Z.leb_spec k a).
  - destruct (mfind m a) as [[k2 x2]|] eqn:E.
    + cbn [fst]. destruct IH as (I1 & I2 & I3). destruct (Z.leb_spec k2 k).
      * split; [left; reflexivity|]. split; [lia|]. intros k' x' [V|V] L; [injection V; intros; lia|]. specialize (I3 _ _ V L). lia.
      * split; [right; exact I1|]. split; [lia|]. intros k' x' [V|V] L; [injection V; intros; lia|]. exact (I3 _ _ V L).
    + split; [left; reflexivity|]. split; [lia|]. intros k' x' [V|V] L; [injection V; intros; lia|]. specialize (IH _ _ V). lia.
  - destruct (mfind m a) as [[k2 x2]|] eqn:E.
    + destruct IH as (I1 & I2 & I3). split; [right; exact I1|]. split; [lia|]. intros k' x' [V|V] L; [injection V; intros; lia|]. exact (I3 _ _ V L).
    + intros k' x' [V|V]; [injection V; intros; lia|]. exact (IH _ _ V).
Qed.
Lemma mdel_in m a k x : In (k, x) (mdel m a) <-> In (k, x) m /\ k <> a.
Proof. unfold mdel. rewrite filter_In. cbn [fst]. destruct (Z.eqb_spec k a); cbn; intuition congruence. Qed.
Lemma rdel_in r a k n o : In (k, n, o) (rdel r a) <-> In (k, n, o) r /\ k <> a.
Proof. unfold rdel. rewrite filter_In. cbn [fst]. destruct (Z.eqb_spec k a); cbn; intuition congruence. Qed.
Lemma mhas_in m a : mhas m a = false -> forall x, ~ In (a, x) m.
Proof.
  unfold mhas. intros H x V. assert (existsb (fun y => fst y =? a) m = true).
  { apply existsb_exists. exists (a, x). split; [exact V|]. cbn. apply Z.eqb_refl. } congruence.
Qed.
Lemma fresh_in r a n : fresh r a n = true -> forall k l o, In (k, l, o) r -> a + n <= k \/ k + l <= a.
Proof. unfold fresh. rewrite forallb_forall. intros H k l o V. specialize (H _ V). cbn in H. apply orb_true_iff in H. destruct H as [H|H]; apply Z.leb_le in H; auto. Qed.
Lemma used_in i l : existsb (Z.eqb i) l = true <-> In i l.
Proof. rewrite existsb_exists. split; [intros (y & V & E); apply Z.eqb_eq in E; subst; exact V|]. intros V. exists i. split; [exact V|apply Z.eqb_refl]. Qed.
Lemma reg_in m a x : existsb (fun y : Z * Z => (fst y =? a) && (snd y =? x)) m = true -> In (a, x) m.
Proof. rewrite existsb_exists. intros ([k y] & V & E). cbn in E. apply andb_true_iff in E. destruct E as (E1 & E2). apply Z.eqb_eq in E1, E2. subst. exact V. Qed.

(* the slab a thread alone has *)
Definition priv (q : pc) : option Z := match q with MReg _ _ x | FMem x _ | FCell x _ => Some x | _ => None end.
Definition privmem (q : pc) : option Z := match q with MReg _ _ x | FMem x _ => Some x | _ => None end.
Definition holds (q : pc) : option Z :=
  match q with MHold b _ | MReg b _ _ | FHold _ _ b | FBit _ b | FRem _ b | FMem _ b | FCell _ b => Some b | _ => None end.
Definition uses (q : pc) : option Z := match freeing q with Some p => Some p | None => asking q end.
Definition about (q : pc) : option Z :=
  match q with MReg _ _ x | FRead _ x | URead _ x | FWait _ x _ | FHold _ x _ | FBit x _ | FRem x _ | FMem x _ | FCell x _ => Some x | _ => None end.

Definition reads (q : pc) : option Z := match q with FRead _ x | URead _ x => Some x | _ => None end.
Definition regs_of (q : pc) : option Z := match q with MReg _ _ x => Some x | _ => None end.

Section I.
Context (g : cfg) (d : bool).

Definition found (s : dst) (p x : Z) : Prop :=
  match d_own s p with
  | Some (_, Some (y, _)) => y = x
  | Some (_, None) => exists c, d_cells s x = Some c /\ c_mem c + k_smin g <= p
  | None => False
  end.
Definition inmap (s : dst) (x b : Z) (e : bool) : Prop :=
  exists c, d_cells s x = Some c /\ c_bk c = b /\ In (c_mem c, x) (d_mp s) /\ (e = true -> c_used c = []).
Definition outmap (s : dst) (x b : Z) (r : bool) : Prop :=
  exists c, d_cells s x = Some c /\ c_bk c = b /\ (forall m, ~ In (m, x) (d_mp s))
    /\ (r = true -> In (c_mem c, slab_bytes g b, Some x) (d_regs s)).
Definition chunkof (s : dst) (p x b : Z) : Prop :=
  exists n i c, d_own s p = Some (n, Some (x, i)) /\ d_cells s x = Some c /\ c_bk c = b.

(* [v] bytes from [p] on are the allocation's own *)
Definition within (s : dst) (p n : Z) (k : option (Z * Z)) (v : Z) : Prop :=
  match k with
  | Some (x, i) => exists c, d_cells s x = Some c /\ p + v <= c_mem c + i * k_size g (c_bk c) + k_size g (c_bk c)
  | None => v <= n
  end.

Definition tok (s : dst) (q : pc) : Prop :=
  match q with
  | Idle | MHold _ _ => True
  | MLock _ _ => True
  | MReg b _ x => outmap s x b true
  | FFind p | UFind p => d_own s p <> None
  | FRead p x | URead p x => found s p x
  | FWait p x b | FHold p x b => chunkof s p x b
  | FBit x b => inmap s x b false
  | FRem x b => inmap s x b true
  | FMem x b => outmap s x b true
  | FCell x b => outmap s x b false
  | FDirect p | UDirect p => exists n, d_own s p = Some (n, None)
  | UDone p v => exists n k, d_own s p = Some (n, k) /\ n <= v /\ within s p n k v
  end.
Definition npos (q : pc) : Prop := match q with MLock _ n | MHold _ n | MReg _ n _ => 0 < n | _ => True end.

Definition chunk_ok (s : dst) (p n x i : Z) : Prop :=
  exists c, d_cells s x = Some c /\ In (c_mem c, x) (d_mp s) /\ In i (c_used c)
    /\ 0 <= i < slab_chunks g (c_bk c) /\ c_mem c + i * k_size g (c_bk c) <= p
    /\ p + n <= c_mem c + i * k_size g (c_bk c) + k_size g (c_bk c) /\ 0 < n /\ p < c_mem c + k_smin g.

Record Inv (s : dst) : Prop := {
  i_bad : d_bad s = false;
  i_pos : forall m l o, In (m, l, o) (d_regs s) -> 0 < l;
  i_apart : forall m l o m' l' o', In (m, l, o) (d_regs s) -> In (m', l', o') (d_regs s) ->
      (m, l, o) = (m', l', o') \/ m + l <= m' \/ m' + l' <= m;
  i_nodup : NoDup (map (fun x => fst (fst x)) (d_regs s));
  i_map : forall m x, In (m, x) (d_mp s) -> exists c, d_cells s x = Some c /\ c_mem c = m /\ In (m, slab_bytes g (c_bk c), Some x) (d_regs s);
  i_own : forall p n, d_own s p = Some (n, None) -> In (p, n, None) (d_regs s);
  i_chunk : forall p n x i, d_own s p = Some (n, Some (x, i)) -> chunk_ok s p n x i;
  i_uniq : forall p n p' n' x i, d_own s p = Some (n, Some (x, i)) -> d_own s p' = Some (n', Some (x, i)) -> p = p';
  i_lock : forall b t, d_lock s b = Some t <-> holds (d_pc s t) = Some b;
  i_tok : forall t, tok s (d_pc s t);
  i_np : forall t, npos (d_pc s t);
  i_priv : forall t t' x, priv (d_pc s t) = Some x -> priv (d_pc s t') = Some x -> t = t';
  i_free : forall t t' p, freeing (d_pc s t) = Some p -> uses (d_pc s t') = Some p -> t = t';
  i_read : forall t t' x, reads (d_pc s t) = Some x -> regs_of (d_pc s t') <> Some x;
  i_cells : forall x c, d_cells s x = Some c -> In (c_mem c, x) (d_mp s) \/ exists t, priv (d_pc s t) = Some x;
  i_regs : forall m l o, In (m, l, o) (d_regs s) ->
      match o with Some x => In (m, x) (d_mp s) \/ (exists t, privmem (d_pc s t) = Some x /\ exists c, d_cells s x = Some c /\ c_mem c = m) | None => d_own s m = Some (l, None) end;
  i_nd : d = false -> forall p n, d_own s p <> Some (n, None) }.

Hypothesis G : sane g.

Lemma bytes_pos b : 0 < slab_bytes g b.
Proof. destruct G as (G1 & _). unfold slab_bytes. lia. Qed.

Lemma inv_init : Inv dinit.
Proof. constructor; cbn; intros; try contradiction; try discriminate; auto using NoDup_nil. split; discriminate. Qed.

(* a chunk lies in its slab's memory *)
Lemma chunk_region s p n x i : Inv s -> d_own s p = Some (n, Some (x, i)) ->
  exists c, d_cells s x = Some c /\ In (c_mem c, x) (d_mp s) /\ In (c_mem c, slab_bytes g (c_bk c), Some x) (d_regs s)
    /\ c_mem c <= p /\ p + n <= c_mem c + slab_bytes g (c_bk c) /\ 0 < n /\ p < c_mem c + k_smin g.
Proof.
  intros I E. destruct (i_chunk s I _ _ _ _ E) as (c & E1 & E2 & E3 & E4 & E5 & E6 & E7 & E8).
  exists c. destruct (i_map s I _ _ E2) as (c' & F1 & F2 & F3). rewrite E1 in F1. injection F1 as <-.
  pose proof (proj2 G (c_bk c)). pose proof (proj1 G).
  repeat (split; [first [assumption | nia]|]).
  split; [|split; assumption]. unfold slab_bytes, slab_chunks in *.
  set (z := k_size g (c_bk c)) in *. set (m := k_smin g) in *.
  pose proof (Z.mul_div_le m z ltac:(lia)).
  destruct (Z.max_spec (m / z) 1) as [(A & B)|(A & B)]; rewrite B in E4.
  - assert (i = 0) by lia. subst i. lia.
  - assert (z * (i + 1) <= z * (m / z)) by nia. lia.
Qed.

Lemma own_region s p n k : Inv s -> d_own s p = Some (n, k) ->
  0 < n /\ exists m l o, In (m, l, o) (d_regs s) /\ m <= p /\ p + n <= m + l.
Proof.
  intros I E. destruct k as [[x i]|].
  - destruct (chunk_region s p n x i I E) as (c & A & B & C & D & F & H & _). split; [exact H|]. exists (c_mem c), (slab_bytes g (c_bk c)), (Some x). auto.
  - pose proof (i_own s I _ _ E) as A. split; [exact (i_pos s I _ _ _ A)|]. exists p, n, None. split; [exact A|lia].
Qed.

Lemma within_region s p n k v : Inv s -> d_own s p = Some (n, k) -> within s p n k v ->
  exists m l o, In (m, l, o) (d_regs s) /\ m <= p /\ p + v <= m + l.
Proof.
  intros I E W. destruct k as [[x i]|].
  - destruct W as (c & W1 & W2). destruct (i_chunk s I _ _ _ _ E) as (c' & E1 & E2 & E3 & E4 & E5 & E6 & E7 & E8). rewrite W1 in E1. injection E1 as <-.
    destruct (i_map s I _ _ E2) as (c' & F1 & F2 & F3). rewrite W1 in F1. injection F1 as <-.
    exists (c_mem c), (slab_bytes g (c_bk c)), (Some x). split; [exact F3|]. pose proof (proj2 G (c_bk c)) as Z0. split; [nia|].
    unfold slab_bytes, slab_chunks in *. set (z := k_size g (c_bk c)) in *. set (m := k_smin g) in *.
    pose proof (Z.mul_div_le m z Z0) as H. clear - H W2 E4 Z0.
    destruct (Z.max_spec (m / z) 1) as [(A & B)|(A & B)]; rewrite B in E4.
    + assert (i = 0) by lia. subst i. lia.
    + assert (z * (i + 1) <= z * (m / z)) by nia. lia.
  - exists p, n, None. split; [exact (i_own s I _ _ E)|]. cbn in W. lia.
Qed.
Lemma within_apart s p n k v p' n' k' : Inv s -> d_own s p = Some (n, k) -> within s p n k v -> d_own s p' = Some (n', k') -> p' <> p -> p + v <= p' \/ p' + n' <= p.
Proof.
  intros I E W E' N. destruct k as [[x i]|].
  - destruct W as (c & W1 & W2). destruct (i_chunk s I _ _ _ _ E) as (c1 & P1 & P2 & P3 & P4 & P5 & P6 & P7 & P8). rewrite W1 in P1. injection P1 as <-.
    destruct (i_map s I _ _ P2) as (c1 & F1 & F2 & C). rewrite W1 in F1. injection F1 as <-.
    destruct (within_region s p n (Some (x, i)) v I E) as (m & l & o & R1 & R2 & R3); [exists c; auto|].
    pose proof (proj2 G (c_bk c)) as Z0.
    assert (X : m = c_mem c /\ l = slab_bytes g (c_bk c) \/ m + l <= c_mem c \/ c_mem c + slab_bytes g (c_bk c) <= m).
    { destruct (i_apart s I _ _ _ _ _ _ R1 C) as [V|V]; [left; injection V; auto|right; exact V]. }
    destruct (chunk_region s p n x i I E) as (c1 & A1 & _ & _ & D1 & D2 & D3 & _). rewrite W1 in A1. injection A1 as <-.
    destruct k' as [[x' i']|].
    + destruct (chunk_region s p' n' x' i' I E') as (c' & A' & B' & C' & D' & F' & H' & _).
      destruct (i_apart s I _ _ _ _ _ _ C C') as [V|V].
      2: { destruct (Z_lt_le_dec p p'); [left|right; lia]. assert (p + v <= c_mem c + slab_bytes g (c_bk c) \/ m + l <= p) by lia. clear - V D1 D2 D3 D' F' H' l0 R1 R2 R3 X.
           destruct X as [(-> & ->)|[X|X]]; lia. }
      injection V as V1 V2 V3. subst x'. rewrite W1 in A'. injection A' as <-.
      destruct (Z.eq_dec i i') as [->|Ni]; [elim N; symmetry; exact (i_uniq s I _ _ _ _ _ _ E E')|].
      destruct (i_chunk s I _ _ _ _ E') as (c1 & Q1 & Q2 & Q3 & Q4 & Q5 & Q6 & _). rewrite W1 in Q1. injection Q1 as <-.
      set (z := k_size g (c_bk c)) in *. clear - Ni P5 P6 Q5 Q6 Z0 W2. assert (i + 1 <= i' \/ i' + 1 <= i) as [L|L] by lia; nia.
    + pose proof (i_own s I _ _ E') as C'. pose proof (i_pos s I _ _ _ C').
      destruct (i_apart s I _ _ _ _ _ _ C C') as [V|V]; [congruence|]. destruct X as [(-> & ->)|[X|X]]; lia.
  - cbn in W. pose proof (i_own s I _ _ E) as C. pose proof (i_pos s I _ _ _ C). destruct k' as [[x' i']|].
    + destruct (chunk_region s p' n' x' i' I E') as (c & A & B & C' & D & F & H' & _).
      destruct (i_apart s I _ _ _ _ _ _ C C') as [V|V]; [congruence|lia].
    + pose proof (i_own s I _ _ E') as C'. destruct (i_apart s I _ _ _ _ _ _ C C') as [V|V]; [injection V; intros; congruence|lia].
Qed.
Lemma own_apart s p n k p' n' k' : Inv s -> d_own s p = Some (n, k) -> d_own s p' = Some (n', k') -> p' <> p -> p + n <= p' \/ p' + n' <= p.
Proof.
  intros I E. apply (within_apart s p n k n p' n' k' I E). destruct k as [[x i]|]; [|cbn; lia].
  destruct (i_chunk s I _ _ _ _ E) as (c & E1 & _ & _ & _ & _ & E6 & _). exists c. auto.
Qed.

(* the lookup *)
Lemma find_ok s p : Inv s -> d_own s p <> None ->
  match mfind (d_mp s) p with Some (_, x) => found s p x | None => exists n, d_own s p = Some (n, None) end.
Proof.
  intros I E. pose proof (mfind_spec (d_mp s) p) as M. destruct (d_own s p) as [[n [[y i]|]]|] eqn:O; [| |congruence].
  - destruct (chunk_region s p n y i I O) as (c & A & B & C & D & F & H & K).
    destruct (mfind (d_mp s) p) as [[k x]|].
    + unfold found. rewrite O. destruct M as (M1 & M2 & M3). specialize (M3 _ _ B D).
      destruct (i_map s I _ _ M1) as (c' & A' & B' & C').
      destruct (i_apart s I _ _ _ _ _ _ C C') as [V|V]; [injection V; auto|].
      pose proof (bytes_pos (c_bk c')). pose proof (bytes_pos (c_bk c)). lia.
    + specialize (M _ _ B). lia.
  - destruct (mfind (d_mp s) p) as [[k x]|]; [|eauto].
    unfold found. rewrite O. destruct M as (M1 & M2 & M3). destruct (i_map s I _ _ M1) as (c' & A' & B' & C').
    exists c'. split; [exact A'|]. pose proof (i_own s I _ _ O) as C.
    pose proof (i_pos s I _ _ _ C). destruct (i_apart s I _ _ _ _ _ _ C C') as [V|V]; [congruence|].
    rewrite B'. unfold slab_bytes in V. lia.
Qed.

(* who looks at a slab keeps it from being freed *)
Lemma found_alive s p x : Inv s -> found s p x -> exists c, d_cells s x = Some c /\
  ((exists n i, d_own s p = Some (n, Some (x, i)) /\ In (c_mem c, x) (d_mp s)) \/ (d = true /\ (exists n, d_own s p = Some (n, None)) /\ c_mem c + k_smin g <= p)).
Proof.
  intros I F. unfold found in F. destruct (d_own s p) as [[n [[y i]|]]|] eqn:O; [| |contradiction].
  - subst y. destruct (chunk_region s p n x i I O) as (c & A & B & _). exists c. split; [exact A|]. left. eauto.
  - destruct F as (c & F1 & F2). exists c. split; [exact F1|]. right. split; [|split; [eauto|exact F2]].
    destruct d eqn:D; [reflexivity|]. elim (i_nd s I D p n O).
Qed.

Lemma about_alive s t x : Inv s -> about (d_pc s t) = Some x -> d_cells s x <> None.
Proof.
  intros I A. pose proof (i_tok s I t) as T. destruct (d_pc s t); cbn in A; try discriminate; injection A as ->; cbn in T.
  - destruct T as (c & E & _). congruence.
  - destruct (found_alive _ _ _ I T) as (c & E & _). congruence.
  - destruct T as (n & i & c & _ & E & _). congruence.
  - destruct T as (n & i & c & _ & E & _). congruence.
  - destruct T as (c & E & _). congruence.
  - destruct T as (c & E & _). congruence.
  - destruct T as (c & E & _). congruence.
  - destruct T as (c & E & _). congruence.
  - destruct (found_alive _ _ _ I T) as (c & E & _). congruence.
Qed.

(* frame: what one thread does leaves what another relies on *)
Lemma tok_frame s s' q :
  (forall p, uses q = Some p -> d_own s' p = d_own s p) ->
  (forall x c, about q = Some x -> d_cells s x = Some c -> exists c', d_cells s' x = Some c' /\ c_mem c' = c_mem c /\ c_bk c' = c_bk c
       /\ (forall b, q = FRem x b -> c_used c' = c_used c)) ->
  (forall p n x i c, uses q = Some p -> d_own s p = Some (n, Some (x, i)) -> d_cells s x = Some c -> exists c', d_cells s' x = Some c' /\ c_mem c' = c_mem c /\ c_bk c' = c_bk c) ->
  (forall x m, (exists b, q = FBit x b \/ q = FRem x b) -> In (m, x) (d_mp s) -> In (m, x) (d_mp s')) ->
  (forall x m, priv q = Some x -> In (m, x) (d_mp s') -> In (m, x) (d_mp s)) ->
  (forall x m l, privmem q = Some x -> In (m, l, Some x) (d_regs s) -> In (m, l, Some x) (d_regs s')) ->
  tok s q -> tok s' q.
Proof.
  intros Ho Hc Hw Hm Hp Hr T.
  destruct q; cbn in T |- *; try exact T; cbn [uses freeing asking about priv privmem] in *; try (rewrite Ho by reflexivity; exact T).
  - destruct T as (c & E1 & E2 & E3 & E4). destruct (Hc _ _ eq_refl E1) as (c' & F1 & F2 & F3 & F4). exists c'. split; [exact F1|]. split; [congruence|]. split; [intros m V; exact (E3 _ (Hp _ _ eq_refl V))|].
    intros R. rewrite F2. apply Hr; [reflexivity|]. auto.
  - unfold found in *. rewrite Ho by reflexivity. destruct (d_own s p) as [[n [[y i]|]]|]; try exact T. destruct T as (c & E1 & E2). destruct (Hc _ _ eq_refl E1) as (c' & F1 & F2 & F3 & F4). exists c'. split; [exact F1|lia].
  - destruct T as (n & i & c & E0 & E1 & E2). destruct (Hc _ _ eq_refl E1) as (c' & F1 & F2 & F3 & F4). exists n, i, c'. rewrite Ho by reflexivity. split; [exact E0|]. split; [exact F1|congruence].
  - destruct T as (n & i & c & E0 & E1 & E2). destruct (Hc _ _ eq_refl E1) as (c' & F1 & F2 & F3 & F4). exists n, i, c'. rewrite Ho by reflexivity. split; [exact E0|]. split; [exact F1|congruence].
  - destruct T as (c & E1 & E2 & E3 & E4). destruct (Hc _ _ eq_refl E1) as (c' & F1 & F2 & F3 & F4). exists c'. split; [exact F1|]. split; [congruence|]. split; [rewrite F2; apply Hm; eauto|discriminate].
  - destruct T as (c & E1 & E2 & E3 & E4). destruct (Hc _ _ eq_refl E1) as (c' & F1 & F2 & F3 & F4). exists c'. split; [exact F1|]. split; [congruence|]. split; [rewrite F2; apply Hm; eauto|]. intros _. rewrite (F4 _ eq_refl). auto.
  - destruct T as (c & E1 & E2 & E3 & E4). destruct (Hc _ _ eq_refl E1) as (c' & F1 & F2 & F3 & F4). exists c'. split; [exact F1|]. split; [congruence|]. split; [intros m V; exact (E3 _ (Hp _ _ eq_refl V))|].
    intros R. rewrite F2. apply Hr; [reflexivity|]. auto.
  - destruct T as (c & E1 & E2 & E3 & E4). destruct (Hc _ _ eq_refl E1) as (c' & F1 & F2 & F3 & F4). exists c'. split; [exact F1|]. split; [congruence|]. split; [intros m V; exact (E3 _ (Hp _ _ eq_refl V))|]. discriminate.
  - unfold found in *. rewrite Ho by reflexivity. destruct (d_own s p) as [[n [[y i]|]]|]; try exact T. destruct T as (c & E1 & E2). destruct (Hc _ _ eq_refl E1) as (c' & F1 & F2 & F3 & F4). exists c'. split; [exact F1|lia].
  - destruct T as (n & k & E & L & W). exists n, k. rewrite Ho by reflexivity. split; [exact E|]. split; [exact L|]. destruct k as [[x i]|]; [|exact W].
    destruct W as (c & W1 & W2). destruct (Hw _ _ _ _ _ eq_refl E W1) as (c' & F1 & F2 & F3). exists c'. rewrite F2, F3. auto.
Qed.

Lemma uses_own s t p : Inv s -> uses (d_pc s t) = Some p -> d_own s p <> None.
Proof.
  intros I U. pose proof (i_tok s I t) as T. unfold uses in U. destruct (d_pc s t); cbn in U, T; try discriminate; injection U as ->; try exact T.
  - unfold found in T. destruct (d_own s p); [discriminate|contradiction].
  - destruct T as (n & i & c & E & _). congruence.
  - destruct T as (n & i & c & E & _). congruence.
  - destruct T as (n & E). congruence.
  - unfold found in T. destruct (d_own s p); [discriminate|contradiction].
  - destruct T as (n & E). congruence.
  - destruct T as (n & k & E & _). congruence.
Qed.

Lemma priv_out s t x : Inv s -> priv (d_pc s t) = Some x -> exists c, d_cells s x = Some c /\ forall m, ~ In (m, x) (d_mp s).
Proof.
  intros I P. pose proof (i_tok s I t) as T. destruct (d_pc s t); cbn in P, T; try discriminate; injection P as ->; destruct T as (c & A & B & C & _); eauto.
Qed.
Lemma privmem_priv q x : privmem q = Some x -> priv q = Some x.
Proof. destruct q; cbn; congruence. Qed.

Lemma base_eq s m l o l' o' : Inv s -> In (m, l, o) (d_regs s) -> In (m, l', o') (d_regs s) -> l = l' /\ o = o'.
Proof.
  intros I A B. pose proof (i_pos s I _ _ _ A). pose proof (i_pos s I _ _ _ B).
  destruct (i_apart s I _ _ _ _ _ _ A B) as [V|V]; [injection V; auto|lia].
Qed.

(* putting an invariant together after thread [t] moved to [q] *)
Lemma mk s s1 t q : Inv s -> (forall t', d_pc s1 t' = put (d_pc s) t q t') ->
  d_bad s1 = false ->
  (forall m l o, In (m, l, o) (d_regs s1) -> 0 < l) ->
  (forall m l o m' l' o', In (m, l, o) (d_regs s1) -> In (m', l', o') (d_regs s1) -> (m, l, o) = (m', l', o') \/ m + l <= m' \/ m' + l' <= m) ->
  NoDup (map (fun x => fst (fst x)) (d_regs s1)) ->
  (forall m x, In (m, x) (d_mp s1) -> exists c, d_cells s1 x = Some c /\ c_mem c = m /\ In (m, slab_bytes g (c_bk c), Some x) (d_regs s1)) ->
  (forall p n, d_own s1 p = Some (n, None) -> In (p, n, None) (d_regs s1)) ->
  (forall p n x i, d_own s1 p = Some (n, Some (x, i)) -> chunk_ok s1 p n x i) ->
  (forall p n p' n' x i, d_own s1 p = Some (n, Some (x, i)) -> d_own s1 p' = Some (n', Some (x, i)) -> p = p') ->
  (forall b t', t' <> t -> d_lock s1 b = Some t' <-> d_lock s b = Some t') ->
  (forall b, d_lock s1 b = Some t <-> holds q = Some b) ->
  (forall t', t' <> t -> tok s1 (d_pc s t')) ->
  tok s1 q -> npos q ->
  (forall t' x, t' <> t -> priv q = Some x -> priv (d_pc s t') <> Some x) ->
  (forall t' p, t' <> t -> freeing q = Some p -> uses (d_pc s t') <> Some p) ->
  (forall t' p, t' <> t -> uses q = Some p -> freeing (d_pc s t') <> Some p) ->
  (forall t' x, t' <> t -> reads q = Some x -> regs_of (d_pc s t') <> Some x) ->
  (forall t' x, t' <> t -> regs_of q = Some x -> reads (d_pc s t') <> Some x) ->
  (forall x c, d_cells s1 x = Some c -> In (c_mem c, x) (d_mp s1) \/ priv q = Some x \/ exists t', t' <> t /\ priv (d_pc s t') = Some x) ->
  (forall m l o, In (m, l, o) (d_regs s1) ->
      match o with Some x => In (m, x) (d_mp s1) \/ ((privmem q = Some x \/ exists t', t' <> t /\ privmem (d_pc s t') = Some x) /\ exists c, d_cells s1 x = Some c /\ c_mem c = m) | None => d_own s1 m = Some (l, None) end) ->
  (d = false -> forall p n, d_own s1 p <> Some (n, None)) ->
  Inv s1.
Proof.
  intros I P Hb H1 H2 H3 H4 H5 H6 H7 L1 L2 T1 T2 N V F1 F2 R1 R2 C Rg D.
  assert (PT : d_pc s1 t = q) by (rewrite P; apply put_eq).
  assert (PO : forall t', t' <> t -> d_pc s1 t' = d_pc s t') by (intros; rewrite P; apply put_ne; assumption).
  constructor; try assumption.
  - intros b t'. destruct (Z.eq_dec t' t) as [->|X]; [rewrite PT; apply L2|]. rewrite (PO _ X), (L1 _ _ X). apply (i_lock s I).
  - intros t'. destruct (Z.eq_dec t' t) as [->|X]; [rewrite PT; exact T2|]. rewrite (PO _ X). exact (T1 _ X).
  - intros t'. destruct (Z.eq_dec t' t) as [->|X]; [rewrite PT; exact N|]. rewrite (PO _ X). apply (i_np s I).
  - intros a b x A B. destruct (Z.eq_dec a t) as [->|X], (Z.eq_dec b t) as [->|Y]; [reflexivity| | |].
    + rewrite PT in A. rewrite (PO _ Y) in B. elim (V _ _ Y A B).
    + rewrite PT in B. rewrite (PO _ X) in A. elim (V _ _ X B A).
    + rewrite (PO _ X) in A. rewrite (PO _ Y) in B. exact (i_priv s I _ _ _ A B).
  - intros a b x A B. destruct (Z.eq_dec a t) as [->|X], (Z.eq_dec b t) as [->|Y]; [reflexivity| | |].
    + rewrite PT in A. rewrite (PO _ Y) in B. elim (F1 _ _ Y A B).
    + rewrite PT in B. rewrite (PO _ X) in A. elim (F2 _ _ X B A).
    + rewrite (PO _ X) in A. rewrite (PO _ Y) in B. exact (i_free s I _ _ _ A B).
  - intros a b x A B. destruct (Z.eq_dec a t) as [->|X], (Z.eq_dec b t) as [->|Y].
    + rewrite PT in A, B. destruct q; discriminate.
    + rewrite PT in A. rewrite (PO _ Y) in B. elim (R1 _ _ Y A B).
    + rewrite PT in B. rewrite (PO _ X) in A. elim (R2 _ _ X B A).
    + rewrite (PO _ X) in A. rewrite (PO _ Y) in B. exact (i_read s I _ _ _ A B).
  - intros x c E. destruct (C x c E) as [A|[A|(t' & X & A)]]; [left; exact A|right; exists t; rewrite PT; exact A|right; exists t'; rewrite (PO _ X); exact A].
  - intros m l o E. specialize (Rg m l o E). destruct o as [x|]; [|exact Rg]. destruct Rg as [A|([A|(t' & X & A)] & B)]; [left; exact A| |].
    + right. exists t. rewrite PT. auto.
    + right. exists t'. rewrite (PO _ X). auto.
Qed.

(* only the thread moves, and maybe a lock *)
Lemma mk_pc s s1 t q : Inv s -> (forall t', d_pc s1 t' = put (d_pc s) t q t') ->
  d_bad s1 = d_bad s -> d_regs s1 = d_regs s -> d_mp s1 = d_mp s -> d_cells s1 = d_cells s -> d_own s1 = d_own s ->
  (forall b t', t' <> t -> d_lock s1 b = Some t' <-> d_lock s b = Some t') ->
  (forall b, d_lock s1 b = Some t <-> holds q = Some b) ->
  tok s q -> npos q -> priv q = priv (d_pc s t) -> privmem q = privmem (d_pc s t) -> regs_of q = None ->
  (forall t' p, t' <> t -> freeing q = Some p -> uses (d_pc s t') <> Some p) ->
  (forall t' p, t' <> t -> uses q = Some p -> freeing (d_pc s t') <> Some p) ->
  (forall t' x, t' <> t -> reads q = Some x -> regs_of (d_pc s t') <> Some x) ->
  Inv s1.
Proof.
  intros I P Eb Er Em Ec Eo L1 L2 T N V Vm Ro F1 F2 R1.
  assert (TF : forall q', tok s q' -> tok s1 q').
  { intros q' X. eapply tok_frame; [| | | | | |exact X]; rewrite ?Eo, ?Ec, ?Em, ?Er; eauto. }
  apply (mk s s1 t q I P); rewrite ?Eb, ?Er, ?Em, ?Ec, ?Eo; try assumption.
  - apply (i_bad s I). - apply (i_pos s I). - apply (i_apart s I). - apply (i_nodup s I). - apply (i_map s I). - apply (i_own s I).
  - intros p n x i E. destruct (i_chunk s I _ _ _ _ E) as (c & X). exists c. rewrite Ec, Em. exact X.
  - apply (i_uniq s I).
  - intros t' X. apply TF, (i_tok s I).
  - apply TF, T.
  - intros t' x X A B. rewrite V in A. elim X. exact (i_priv s I _ _ _ B A).
  - rewrite Ro. discriminate.
  - intros x c E. destruct (i_cells s I x c E) as [A|(t' & A)]; [left; exact A|]. right. destruct (Z.eq_dec t' t) as [->|X]; [left; rewrite V; exact A|right; eauto].
  - intros m l o E. pose proof (i_regs s I m l o E) as A. destruct o as [x|]; [|exact A]. destruct A as [A|(t' & A & B)]; [left; exact A|]. right. split; [|exact B].
    destruct (Z.eq_dec t' t) as [->|X]; [left; rewrite Vm; exact A|right; eauto].
  - apply (i_nd s I).
Qed.

End I.
