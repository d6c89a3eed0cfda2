(* The callback log: the pieces the provider knows are the allocator's blocks. *)
From Verif Require Import Base Model_Utils Model_Coarse Spec_Coarse Proof_Utils Proof_Coarse Proof_CoarseInv Proof_CoarseAlloc Proof_CoarseOps.

Definition sz (l : list block) : pieces := fun q => option_map b_size (find_block l q).
Definition eqm (R S : pieces) : Prop := forall q, R q = S q.

Lemma fb_update : forall l p f q, (forall b, b_data (f b) = b_data b) ->
  find_block (update_block l p f) q = if q =? p then option_map f (find_block l q) else find_block l q.
Proof.
  intros l p f q H. unfold find_block, update_block. induction l as [|b l IH]; cbn [map find].
  - destruct (q =? p); reflexivity.
  - destruct (Z.eqb_spec (b_data b) p) as [E|E].
    + rewrite H. destruct (Z.eqb_spec (b_data b) q) as [E2|E2].
      * destruct (Z.eqb_spec q p); [reflexivity|congruence].
      * exact IH.
    + destruct (Z.eqb_spec (b_data b) q) as [E2|E2]; [|exact IH]. destruct (Z.eqb_spec q p); [congruence|reflexivity].
Qed.
Lemma fb_remove : forall l p q, find_block (remove_block l p) q = if q =? p then None else find_block l q.
Proof.
  intros l p q. unfold find_block, remove_block. induction l as [|b l IH]; cbn [filter find].
  - destruct (q =? p); reflexivity.
  - destruct (Z.eqb_spec (b_data b) p) as [E|E]; cbn [negb find].
    + rewrite IH. destruct (Z.eqb_spec q p) as [|]; [reflexivity|]. destruct (Z.eqb_spec (b_data b) q); [congruence|reflexivity].
    + destruct (Z.eqb_spec (b_data b) q) as [E2|E2]; [|exact IH]. destruct (Z.eqb_spec q p); [congruence|reflexivity].
Qed.
Lemma fb_insert : forall l n q, find_block l (b_data n) = None ->
  find_block (insert_block l n) q = if q =? b_data n then Some n else find_block l q.
Proof.
  intros l n q. unfold find_block. induction l as [|b l IH]; cbn [insert_block find].
  - intros _. rewrite Z.eqb_sym. reflexivity.
  - destruct (Z.eqb_spec (b_data b) (b_data n)) as [E|E]; [discriminate|]. intros H.
    destruct (b_data n <? b_data b); cbn [find].
    + rewrite (Z.eqb_sym (b_data n) q). destruct (q =? b_data n); reflexivity.
    + destruct (Z.eqb_spec (b_data b) q) as [E2|E2]; [|exact (IH H)]. destruct (Z.eqb_spec q (b_data n)); [congruence|reflexivity].
Qed.

Lemma sz_update : forall l p f q n, (forall b, b_data (f b) = b_data b) -> (forall b, b_size (f b) = n) ->
  sz (update_block l p f) q = if q =? p then option_map (fun _ => n) (sz l q) else sz l q.
Proof.
  intros l p f q n D S. unfold sz. rewrite fb_update by exact D. destruct (q =? p); [|reflexivity].
  destruct (find_block l q); cbn; [rewrite S|]; reflexivity.
Qed.
Lemma sz_keep : forall l p f, (forall b, b_data (f b) = b_data b) -> (forall b, b_size (f b) = b_size b) -> eqm (sz (update_block l p f)) (sz l).
Proof.
  intros l p f D S q. unfold sz. rewrite fb_update by exact D. destruct (q =? p); [|reflexivity].
  destruct (find_block l q); cbn; [rewrite S|]; reflexivity.
Qed.
Lemma sz_chain : forall l, chain 1 l ->
  (forall q n, sz l q = Some n -> 0 < q /\ 0 < n /\ q + n <= U64) /\
  (forall q n x, sz l q = Some n -> q < x < q + n -> sz l x = None).
Proof.
  intros l C.
  assert (F : forall q n, sz l q = Some n -> exists b, In b l /\ b_data b = q /\ b_size b = n).
  { intros q n H. unfold sz in H. destruct (find_block l q) as [b|] eqn:E; [|discriminate]. cbn in H.
    apply find_some in E. destruct E as (I & E). apply Z.eqb_eq in E. exists b. split; [exact I|]. split; congruence. }
  split.
  - intros q n H. destruct (F _ _ H) as (b & I & <- & <-). exact (bend_word _ 1 b C ltac:(lia) I).
  - intros q n x H X. destruct (sz l x) as [m|] eqn:Y; [exfalso|reflexivity].
    destruct (F _ _ H) as (b & I & <- & <-), (F _ _ Y) as (b' & I' & <- & <-).
    apply in_split in I. destruct I as (l1 & l2 & ->). destruct (chain_between _ _ _ _ (b_data b') C ltac:(unfold bend; lia)) as (M1 & M2).
    apply in_app_or in I'. destruct I' as [I'|[<-|I']]; [apply M1 in I'; lia|lia|apply M2 in I'; lia].
Qed.

(* logs R evs S: the calls evs are all sensible and take R to S *)
Definition logs (R : pieces) (evs : list event) (S : pieces) : Prop := exists R', notes R evs = Some R' /\ eqm R' S.

Lemma note_ext : forall R S e R', eqm R S -> note R e = Some R' -> exists S', note S e = Some S' /\ eqm R' S'.
Proof.
  intros R S e R' E. assert (U : forall A B p o, eqm A B -> eqm (upd_live A p o) (upd_live B p o)).
  { intros A B p o H q. unfold upd_live. destruct (q =? p); [reflexivity|apply H]. }
  destruct e as [s a r p|p s|p t f r|lo hi t r]; cbn [note]; rewrite <- ?E.
  - destruct r; intros [= <-]; eexists; (split; [reflexivity|]); auto.
  - destruct (R p) as [n|]; [|discriminate]. destruct (n =? s); [|discriminate]. intros [= <-]. eexists. split; [reflexivity|auto].
  - destruct (R p) as [n|]; [|discriminate]. destruct (_ && _); [|discriminate]. destruct r; intros [= <-]; eexists; (split; [reflexivity|]); auto.
  - destruct (R lo) as [n|]; [|discriminate]. destruct (R hi) as [m|]; [|discriminate]. destruct (_ && _); [|discriminate].
    destruct r; intros [= <-]; eexists; (split; [reflexivity|]); auto.
Qed.
Lemma notes_ext : forall evs R S R', eqm R S -> notes R evs = Some R' -> exists S', notes S evs = Some S' /\ eqm R' S'.
Proof.
  induction evs as [|e evs IH]; intros R S R' E H; cbn [notes] in *.
  - injection H as <-. exists S. split; [reflexivity|exact E].
  - destruct (note R e) as [R1|] eqn:N; [|discriminate]. destruct (note_ext _ _ _ _ E N) as (S1 & -> & E1). exact (IH _ _ _ E1 H).
Qed.
Lemma logs_nil : forall R S, eqm R S -> logs R [] S.
Proof. intros R S E. exists R. split; [reflexivity|exact E]. Qed.
Lemma logs_app : forall R e1 S e2 T, logs R e1 S -> logs S e2 T -> logs R (e1 ++ e2) T.
Proof.
  intros R e1 S e2 T (R1 & N1 & E1) (S1 & N2 & E2).
  destruct (notes_ext _ S R1 _ ltac:(intros q; symmetry; apply E1) N2) as (R2 & N3 & E3).
  exists R2. split; [|intros q; rewrite <- E3; apply E2].
  clear - N1 N3. revert R N1. induction e1 as [|e e1 IH]; intros R N1; cbn [notes app] in *; [injection N1 as <-; exact N3|].
  destruct (note R e); [|discriminate]. apply IH, N1.
Qed.
Lemma logs_eqm : forall R e S R' S', logs R e S -> eqm R R' -> eqm S S' -> logs R' e S'.
Proof.
  intros R e S R' S' (R1 & N & E) E1 E2. destruct (notes_ext _ _ _ _ E1 N) as (R2 & N2 & E3).
  exists R2. split; [exact N2|]. intros q. rewrite <- E3, E. apply E2.
Qed.
Lemma eqm_refl : forall R, eqm R R. Proof. intros R q; reflexivity. Qed.
Lemma eqm_trans : forall R S T, eqm R S -> eqm S T -> eqm R T. Proof. intros R S T A B q; rewrite A; apply B. Qed.
Lemma eqm_sym : forall R S, eqm R S -> eqm S R. Proof. intros R S A q; symmetry; apply A. Qed.

Definition psz (c : coarse) : pieces := sz (all_blocks c).
Definition bounded (R : pieces) : Prop := forall q n, R q = Some n -> 0 < q /\ 0 < n /\ q + n <= U64.

Section Log.
Variable dbg : bool.

Lemma add_sz : forall c p o ok c', free_blocks_add c p o = Some (ok, c') -> eqm (psz c') (psz c).
Proof.
  intros c p o ok c' H. unfold free_blocks_add in H. destruct (find_block (all_blocks c) p) as [b|]; [|discriminate].
  destruct (class_find (free_blocks c) (b_size b)) as [l|].
  - destruct (o_elem o); injection H as <- <-; apply sz_keep; reflexivity.
  - destruct (negb (o_head o)); [injection H as <- <-; apply eqm_refl|].
    destruct (o_elem o); injection H as <- <-; apply sz_keep; reflexivity.
Qed.
Lemma unlist_sz : forall c p c', unlist c p = Some c' -> eqm (psz c') (psz c).
Proof.
  intros c p c' H. unfold unlist, free_blocks_rm_node in H. destruct (find_block (all_blocks c) p) as [b|]; [|discriminate].
  destruct (b_listed b); [|injection H as <-; apply eqm_refl].
  destruct (class_find (free_blocks c) (b_size b)) as [[|a l]|]; try discriminate. injection H as <-. apply sz_keep; reflexivity.
Qed.
Lemma rm_ge_sz : forall c s a ck x c', free_blocks_rm_ge dbg c s a ck = Some (x, c') -> eqm (psz c') (psz c).
Proof.
  intros c s a ck x c' H. unfold free_blocks_rm_ge in H. destruct (class_ge (free_blocks c) s) as [(k, l)|]; [|injection H as <- <-; apply eqm_refl].
  destruct (match ck with CHECK_ONLY_THE_FIRST_BLOCK => _ | _ => _ end) as [(y, l')|]; [|discriminate].
  injection H as <- <-. destruct y; [apply sz_keep; reflexivity|apply eqm_refl].
Qed.
Lemma find_sz : forall c s a x c', find_free_block dbg c s a = Some (x, c') -> eqm (psz c') (psz c).
Proof.
  intros c s a x c' H. unfold find_free_block in H.
  assert (FAST : forall c0 x c', (if wrap (s + a) <? s then Some (None, c0)
      else free_blocks_rm_ge dbg c0 (wrap (s + a)) 0 CHECK_ONLY_THE_FIRST_BLOCK) = Some (x, c') -> eqm (psz c') (psz c0)).
  { intros c0 y c2 E. destruct (wrap (s + a) <? s); [injection E as <- <-; apply eqm_refl|exact (rm_ge_sz _ _ _ _ _ _ E)]. }
  destruct (strat c).
  - destruct (free_blocks_rm_ge dbg c s a CHECK_ONLY_THE_FIRST_BLOCK) as [(y, c1)|] eqn:E; [|discriminate]. apply rm_ge_sz in E.
    destruct y; [injection H as <- <-; exact E|]. apply FAST in H. eapply eqm_trans; eassumption.
  - apply FAST in H. exact H.
  - destruct (free_blocks_rm_ge dbg c s a CHECK_ALL_BLOCKS_OF_SIZE) as [(y, c1)|] eqn:E; [|discriminate]. apply rm_ge_sz in E.
    destruct y; [injection H as <- <-; exact E|]. apply FAST in H. eapply eqm_trans; eassumption.
Qed.

Lemma merge_log : forall c p1 p2 u m r c' ev, bounded (psz c) -> user_block_merge dbg c p1 p2 u m = Some (r, c', ev) ->
  logs (psz c) ev (psz c') /\ bounded (psz c').
Proof.
  intros c p1 p2 u m r c' ev B H. unfold user_block_merge in H.
  destruct (find_block (all_blocks c) p1) as [b1|] eqn:F1; [|discriminate].
  destruct (find_block (all_blocks c) p2) as [b2|] eqn:F2; [|discriminate].
  destruct (assert_fails dbg (p1 <? p2)); [discriminate|].
  destruct (wrap (b_data b1 + b_size b1) =? b_data b2) eqn:CT.
  2:{ rewrite andb_false_r in H. injection H as <- <- <-. split; [apply logs_nil, eqm_refl|exact B]. }
  destruct (Bool.eqb (b_used b1) u && Bool.eqb (b_used b2) u); cbn [andb negb] in H.
  2:{ injection H as <- <- <-. split; [apply logs_nil, eqm_refl|exact B]. }
  assert (S1 : psz c p1 = Some (b_size b1)) by (unfold psz, sz; rewrite F1; reflexivity).
  assert (S2 : psz c p2 = Some (b_size b2)) by (unfold psz, sz; rewrite F2; reflexivity).
  assert (D1 : b_data b1 = p1) by (apply find_some in F1; destruct F1 as (_ & X); apply Z.eqb_eq in X; exact X).
  assert (D2 : b_data b2 = p2) by (apply find_some in F2; destruct F2 as (_ & X); apply Z.eqb_eq in X; exact X).
  pose proof (B _ _ S1) as B1. pose proof (B _ _ S2) as B2. apply Z.eqb_eq in CT. rewrite D1, D2 in CT.
  assert (P2 : p2 = p1 + b_size b1).
  { destruct (Z.eq_dec (p1 + b_size b1) U64) as [X|X].
    - rewrite X in CT. unfold wrap in CT. rewrite Z.mod_same in CT by (unfold U64; lia). lia.
    - rewrite wrap_id in CT by (unfold is_word; lia). congruence. }
  assert (TT : wrap (b_size b1 + b_size b2) = b_size b1 + b_size b2) by (apply wrap_id; unfold is_word; lia). rewrite TT in H.
  assert (NOTE : forall x, note (psz c) (EvMerge p1 p2 (b_size b1 + b_size b2) x) =
     match x with SUCCESS => Some (upd_live (upd_live (psz c) p2 None) p1 (Some (b_size b1 + b_size b2))) | _ => Some (psz c) end).
  { intros x. cbn [note]. rewrite S1, S2, P2, !Z.eqb_refl. reflexivity. }
  destruct m; try (injection H as <- <- <-; split; [|exact B]; eexists; split; [cbn [notes]; rewrite NOTE; reflexivity|apply eqm_refl]).
  destruct (unlist c p1) as [c1|] eqn:U1; [|discriminate]. destruct (unlist c1 p2) as [c2|] eqn:U2; [|discriminate].
  injection H as <- <- <-. apply unlist_sz in U1. apply unlist_sz in U2.
  assert (E : eqm (upd_live (upd_live (psz c) p2 None) p1 (Some (b_size b1 + b_size b2)))
                  (psz (set_all c2 (remove_block (update_block (all_blocks c2) p1 (with_size (b_size b1 + b_size b2))) p2)))).
  { intros q. unfold psz. cbn [all_blocks set_all]. unfold sz at 2. rewrite fb_remove. unfold upd_live.
    destruct (Z.eqb_spec q p1) as [->|N1].
    - destruct (Z.eqb_spec p1 p2); [lia|]. change (Some (b_size b1 + b_size b2) = sz (update_block (all_blocks c2) p1 (with_size (b_size b1 + b_size b2))) p1).
      rewrite (sz_update _ _ _ _ (b_size b1 + b_size b2)) by reflexivity. rewrite Z.eqb_refl. change (sz (all_blocks c2) p1) with (psz c2 p1).
      rewrite U2, U1, S1. reflexivity.
    - destruct (Z.eqb_spec q p2) as [|N2]; [reflexivity|]. change (psz c q = sz (update_block (all_blocks c2) p1 (with_size (b_size b1 + b_size b2))) q).
      rewrite (sz_update _ _ _ _ (b_size b1 + b_size b2)) by reflexivity. destruct (Z.eqb_spec q p1); [contradiction|]. rewrite <- U1, <- U2. reflexivity. }
  split.
  - eexists. split; [cbn [notes]; rewrite NOTE; reflexivity|exact E].
  - intros q n Q. rewrite <- E in Q. unfold upd_live in Q. destruct (Z.eqb_spec q p1) as [->|]; [injection Q as <-; clear - B1 B2 P2; lia|].
    destruct (q =? p2); [discriminate|exact (B _ _ Q)].
Qed.

Lemma re_add_log : forall c p o ok c' ev, bounded (psz c) -> free_blocks_re_add dbg c p o = Some (ok, c', ev) -> logs (psz c) ev (psz c').
Proof.
  intros c p o ok c' ev B H. unfold free_blocks_re_add in H.
  destruct (free_block_merge_with_prev dbg c p (o_prev o)) as [((q, c1), ev1)|] eqn:E1; [|discriminate].
  destruct (free_block_merge_with_next dbg c1 q (o_next o)) as [((q', c2), ev2)|] eqn:E2; [|discriminate].
  destruct (free_blocks_add c2 q' (o_back o)) as [(ok', c3)|] eqn:E3; [|discriminate]. injection H as <- <- <-.
  assert (L1 : logs (psz c) ev1 (psz c1) /\ bounded (psz c1)).
  { unfold free_block_merge_with_prev in E1. destruct (prev_block (all_blocks c) p) as [z|].
    - destruct (user_block_merge dbg c z p false (o_prev o)) as [((r, c0), ev)|] eqn:M; [|discriminate].
      pose proof (merge_log _ _ _ _ _ _ _ _ B M) as X. destruct r; injection E1 as <- <- <-; exact X.
    - injection E1 as <- <- <-. split; [apply logs_nil, eqm_refl|exact B]. }
  destruct L1 as (L1 & B1).
  assert (L2 : logs (psz c1) ev2 (psz c2)).
  { unfold free_block_merge_with_next in E2. destruct (next_block (all_blocks c1) q) as [z|].
    - destruct (user_block_merge dbg c1 q z false (o_next o)) as [((r, c0), ev)|] eqn:M; [|discriminate].
      injection E2 as <- <- <-. exact (proj1 (merge_log _ _ _ _ _ _ _ _ B1 M)).
    - injection E2 as <- <- <-. apply logs_nil, eqm_refl. }
  apply add_sz in E3. eapply logs_app; [exact L1|]. eapply logs_eqm; [exact L2|apply eqm_refl|apply eqm_sym; exact E3].
Qed.

(* one split: a new block behind p, and p shortened (now or later) *)
Lemma new_log : forall l p n s junk l', chain 1 l -> sz l p = Some n -> 0 < s < n ->
  coarse_ravl_add_new dbg l (wrap (p + s)) (wrap (n - s)) true junk = Some l' ->
  exists l2, l' = Some l2 /\ (forall r, note (sz l) (EvSplit p n s r) = match r with SUCCESS => Some (upd_live (upd_live (sz l) p (Some s)) (p + s) (Some (n - s))) | _ => Some (sz l) end) /\
    forall f, (forall b, b_data (f b) = b_data b) -> (forall b, b_size (f b) = s) ->
      eqm (upd_live (upd_live (sz l) p (Some s)) (p + s) (Some (n - s))) (sz (update_block l2 p f)).
Proof.
  intros l p n s junk l' C S R H. destruct (sz_chain _ C) as (B & A). pose proof (B _ _ S) as (B1 & B2 & B3).
  rewrite !wrap_id in H by (unfold is_word; lia).
  assert (F : find_block l (p + s) = None).
  { pose proof (A _ _ (p + s) S ltac:(lia)) as X. unfold sz in X. destruct (find_block l (p + s)); [discriminate|reflexivity]. }
  unfold coarse_ravl_add_new in H. rewrite F in H. destruct (_ || _); [discriminate|]. cbn [negb] in H.
  destruct (assert_fails dbg true); [discriminate|]. injection H as <-. eexists. split; [reflexivity|]. split.
  - intros r. cbn [note]. rewrite S, Z.eqb_refl. destruct (Z.ltb_spec 0 s) as [_|]; [|lia]. destruct (Z.ltb_spec s n) as [_|]; [|lia]. reflexivity.
  - intros f D E q. rewrite (sz_update _ _ _ _ s) by assumption. unfold sz at 2 3. rewrite fb_insert by exact F. cbn [b_data]. unfold upd_live.
    destruct (Z.eqb_spec q (p + s)) as [->|N].
    + destruct (Z.eqb_spec (p + s) p); [lia|]. reflexivity.
    + destruct (Z.eqb_spec q p) as [->|]; [|reflexivity]. change (option_map b_size (find_block l p)) with (sz l p). rewrite S. reflexivity.
Qed.

Lemma finish_in : forall r r', finish dbg r = Some r' -> r' = r.
Proof. intros r r' H. unfold finish in H. destruct (check dbg (r_st r)); [discriminate|]. congruence. Qed.

Lemma create_log : forall (WW : env) (DD : dbg = true -> class_ok WW = true) c p b size al o r q c' ev,
  chain 1 (all_blocks c) -> find_block (all_blocks c) p = Some b -> pow2 al -> 0 < size <= b_size b ->
  (p mod al = 0 \/ size + al <= b_size b) -> o_new1 o = true ->
  create_aligned_block dbg c size al p o = Some (r, q, c', ev) -> logs (psz c) ev (psz c').
Proof.
  intros WW DD c p b size al o r q c' ev C F P S A N H.
  assert (Sp : psz c p = Some (b_size b)) by (unfold psz, sz; rewrite F; reflexivity).
  destruct (proj1 (sz_chain _ C) _ _ Sp) as (B1 & B2 & B3).
  destruct (align_up_in dbg WW DD p al (p + b_size b) size P ltac:(lia) ltac:(lia) ltac:(lia) ltac:(lia) ltac:(lia)) as (z & Z1 & Z2 & Z3 & Z4 & Z5 & Z6 & Z7).
  unfold create_aligned_block in H. rewrite F, Z1, N in H.
  rewrite (wrap_id (z - p)) in H by (unfold is_word; lia).
  destruct ((al >? 0) && (z - p >? 0)) eqn:G; [|injection H as <- <- <- <-; apply logs_nil, eqm_refl].
  apply andb_prop in G. destruct G as (_ & G). rewrite Z.gtb_lt in G.
  assert (R : 0 < z - p < b_size b) by lia. clear Z2 Z3 Z4 Z5 Z6 Z7.
  destruct (result_cases (o_split1 o)) as [S1|S1].
  - rewrite S1 in H.
    destruct (coarse_ravl_add_new dbg (all_blocks c) (wrap (p + (z - p))) (wrap (b_size b - (z - p))) true (o_junk o)) as [l'|] eqn:AN; [|discriminate].
    destruct (new_log _ _ _ _ _ _ C Sp R AN) as (l2 & -> & NT & U).
    destruct (free_blocks_add _ p (o_add1 o)) as [(ok, c2)|] eqn:FA; [|discriminate]. apply add_sz in FA.
    assert (L : logs (psz c) [EvSplit p (b_size b) (z - p) SUCCESS] (psz c2)).
    { eexists. split; [cbn [notes]; fold (psz c) in NT; rewrite NT; reflexivity|]. eapply eqm_trans; [|apply eqm_sym; exact FA]. apply U; reflexivity. }
    destruct (negb ok); [injection H as <- <- <- <-; exact L|]. destruct (assert_fails _ _); [discriminate|]. injection H as <- <- <- <-. exact L.
  - assert (X : Some (o_split1 o, p, c, [EvSplit p (b_size b) (z - p) (o_split1 o)]) = Some (r, q, c', ev)) by (destruct (o_split1 o); try exact H; contradiction).
    injection X as <- <- <- <-. eexists. split; [|apply eqm_refl]. cbn [notes note]. rewrite Sp, Z.eqb_refl.
    destruct (Z.ltb_spec 0 (z - p)) as [_|]; [|lia]. destruct (Z.ltb_spec (z - p) (b_size b)) as [_|]; [|lia]. cbn [andb].
    destruct (o_split1 o); try reflexivity; contradiction.
Qed.

Lemma use_log : forall w c l1 b l2 size al o r,
  (dbg = true -> class_ok w = true) ->
  Core (all_blocks c) (free_blocks c) -> all_blocks c = l1 ++ b :: l2 ->
  b_used b = false -> b_listed b = false -> pow2 al -> 0 < size <= b_size b ->
  (b_data b mod al = 0 \/ size + al <= b_size b) ->
  o_junk o = false -> o_elem (o_add1 o) = true -> both (o_add2 o) -> (class_ok w = true -> both (o_add1 o)) ->
  o_new1 o = true -> o_new2 o = true ->
  use_block dbg c size al (b_data b) o = Some r -> logs (psz c) (r_ev r) (psz (r_st r)).
Proof.
  intros w c l1 b l2 size al o r DS C E U L P S A J O1 O2 OD N1 N2 H. pose proof (core_chain _ _ C) as CH.
  pose proof (find_here c l1 b l2 CH E) as F.
  unfold use_block in H. rewrite F in H. destruct (assert_fails dbg (negb (b_used b))); [discriminate|].
  pose proof (pow2_range _ P) as PR. destruct (Z.gtb_spec al 0) as [_|X]; [|lia].
  destruct (create_ok dbg w DS c l1 b l2 size al o C E U L P S A J O1 OD)
    as (r1 & q & c1 & ev1 & l1' & b' & l2' & fr1 & EC & OB1 & CR). rewrite EC in H.
  pose proof (create_log w DS _ _ _ _ _ _ _ _ _ _ CH F P S A N1 EC) as L1.
  destruct CR as [K1 K2 (K3 & K4 & K5) K6 K7 K11 K8 K9 K10].
  assert (AB : all_blocks c1 = l1' ++ b' :: l2') by (rewrite K1; reflexivity).
  assert (CH1 : chain 1 (all_blocks c1)) by (rewrite AB; exact (core_chain _ _ K2)).
  assert (B1 : bounded (psz c1)) by exact (proj1 (sz_chain _ CH1)).
  pose proof (find_here c1 l1' b' l2' CH1 AB) as F1. rewrite K3 in F1.
  destruct (result_cases r1) as [R1|R1].
  2:{ assert (X : (match free_blocks_re_add dbg c1 q (o_re o) with Some (_, c3, ev3) => finish dbg (Reply r1 None (ev1 ++ ev3) c3) | None => None end) = Some r)
        by (destruct r1; try exact H; contradiction).
      destruct (free_blocks_re_add dbg c1 q (o_re o)) as [((ok, c3), ev3)|] eqn:RA; [|discriminate].
      apply finish_in in X. subst r. cbn [r_ev r_st]. eapply logs_app; [exact L1|]. exact (re_add_log _ _ _ _ _ _ B1 RA). }
  subst r1. destruct (K8 eq_refl) as (Q1 & Q2 & Q3 & Q4).
  assert (SB : size <= b_size b' /\ (b_size b > size <-> b_size b' > size)).
  { clear - Q4 S. destruct Q4 as [(-> & ->)|(pad & ? & -> & ? & ? & ?)]; lia. }
  destruct (Z.gtb_spec (b_size b) size) as [G|G].
  2:{ apply finish_in in H. subst r. cbn [r_ev r_st]. rewrite app_nil_r. eapply logs_eqm; [exact L1|apply eqm_refl|].
      apply eqm_sym. exact (sz_keep _ q (with_used true) (fun _ => eq_refl) (fun _ => eq_refl)). }
  assert (RG : 0 < size < b_size b') by (clear - G SB S; lia).
  assert (Sq : sz (all_blocks c1) q = Some (b_size b')) by (unfold sz; rewrite F1; reflexivity).
  unfold split_current_block in H. rewrite F1, N2 in H.
  destruct (result_cases (o_split2 o)) as [S2|S2].
  - rewrite S2 in H.
    destruct (coarse_ravl_add_new dbg (all_blocks c1) (wrap (q + size)) (wrap (b_size b' - size)) true false) as [l'|] eqn:AN; [|discriminate].
    destruct (new_log _ _ _ _ _ _ CH1 Sq RG AN) as (l3 & -> & NT & UU).
    destruct (free_blocks_add (set_all c1 l3) (wrap (q + size)) (o_add2 o)) as [(ok, c2)|] eqn:FA; [|discriminate].
    pose proof FA as FA'. apply add_sz in FA.
    destruct ok.
    + apply finish_in in H. subst r. cbn [r_ev r_st].
      eapply logs_app; [exact L1|]. eexists. split; [cbn [notes]; fold (psz c1) in NT; rewrite NT; reflexivity|].
      eapply eqm_trans; [apply (UU (with_size size)); reflexivity|]. unfold psz. cbn [all_blocks set_used upd set_all].
      eapply eqm_trans; [|apply eqm_sym; apply sz_keep; reflexivity].
      intros z. rewrite !(sz_update _ _ _ _ size) by reflexivity. specialize (FA z). unfold psz in FA. cbn [all_blocks set_all] in FA. rewrite FA. reflexivity.
    + exfalso. clear - FA' O2. destruct O2 as (O2 & O3). unfold free_blocks_add in FA'. rewrite O2, O3 in FA'.
      destruct (find_block _ _) as [z|]; [|discriminate]. destruct (class_find _ _); discriminate.
  - assert (X : (match free_blocks_re_add dbg c1 q (o_re o) with Some (_, c3, ev3) => finish dbg (Reply (o_split2 o) None (ev1 ++ [EvSplit q (b_size b') size (o_split2 o)] ++ ev3) c3) | None => None end) = Some r)
      by (destruct (o_split2 o); try exact H; contradiction).
    destruct (free_blocks_re_add dbg c1 q (o_re o)) as [((ok, c3), ev3)|] eqn:RA; [|discriminate].
    apply finish_in in X. subst r. cbn [r_ev r_st]. eapply logs_app; [exact L1|]. eapply logs_app; [|exact (re_add_log _ _ _ _ _ _ B1 RA)].
    eexists. split; [|apply eqm_refl]. cbn [notes note]. fold (psz c1) in Sq. rewrite Sq, Z.eqb_refl.
    destruct (Z.ltb_spec 0 size) as [_|]; [|lia]. destruct (Z.ltb_spec size (b_size b')) as [_|]; [|lia]. cbn [andb].
    destruct (o_split2 o); try reflexivity; contradiction.
Qed.

Lemma free_log : forall c p bytes o r, bounded (psz c) -> coarse_free dbg c p bytes o = Some r -> logs (psz c) (r_ev r) (psz (r_st r)).
Proof.
  intros c p bytes o r B H. unfold coarse_free in H.
  assert (NO : forall x, Some x = Some r -> r_ev x = [] -> r_st x = c -> logs (psz c) (r_ev r) (psz (r_st r))).
  { intros x [= <-] E1 E2. rewrite E1, E2. apply logs_nil, eqm_refl. }
  destruct (p =? 0); [exact (NO _ H eq_refl eq_refl)|]. destruct (check dbg c); [discriminate|].
  destruct (find_block (all_blocks c) p) as [b|]; [|exact (NO _ H eq_refl eq_refl)].
  destruct (negb (b_used b)); [exact (NO _ H eq_refl eq_refl)|].
  destruct ((bytes >? 0) && negb (bytes =? b_size b)); [exact (NO _ H eq_refl eq_refl)|].
  destruct (assert_fails dbg (b_size b <=? used_size c)); [discriminate|].
  set (c1 := upd (set_used c (wrap (used_size c - b_size b))) p (with_used false)) in *.
  assert (E : eqm (psz c1) (psz c)) by (apply sz_keep; reflexivity).
  destruct (free_blocks_re_add dbg c1 p o) as [((ok, c2), ev)|] eqn:RA; [|discriminate].
  assert (L : logs (psz c) ev (psz c2)).
  { eapply logs_eqm; [eapply re_add_log; [|exact RA]|exact E|apply eqm_refl]. intros q n Q. rewrite E in Q. exact (B _ _ Q). }
  destruct ok; [apply finish_in in H|injection H as H]; subst r; exact L.
Qed.

(* fresh memory enters as one used block *)
Lemma add_used_log : forall e c v p n okb r c', Inv e c v -> fresh_region v p n ->
  coarse_add_used_block dbg c p n okb = Some (r, c') ->
  (r = SUCCESS /\ okb = true /\ eqm (upd_live (psz c) p (Some n)) (psz c')) \/ (r <> SUCCESS /\ okb = false /\ c' = c).
Proof.
  intros e c v p n okb r c' I FR H.
  assert (F : find_block (all_blocks c) p = None).
  { destruct (find_block (all_blocks c) p) as [b|] eqn:F; [exfalso|reflexivity]. apply find_some in F. destruct F as (IB & D). apply Z.eqb_eq in D.
    pose proof (bend_word _ 1 b (core_chain _ _ (i_core _ _ _ I)) ltac:(lia) IB) as (B1 & B2 & B3). destruct FR as (F1 & F2 & F3 & F4).
    assert (CV : covered (all_blocks c) p) by (exists b; split; [exact IB|unfold bend; lia]).
    apply (i_cover _ _ _ I) in CV. destruct CV as (g & Ig & X). apply (F4 g Ig p); [unfold inside; cbn; lia|exact X]. }
  unfold coarse_add_used_block, coarse_ravl_add_new in H. rewrite F in H. destruct (_ || _); [discriminate|].
  destruct okb; cbn [negb] in H.
  - destruct (assert_fails dbg true); [discriminate|]. injection H as <- <-. left. split; [reflexivity|]. split; [reflexivity|].
    intros q. unfold psz. cbn [all_blocks set_used set_alloc set_all]. unfold sz at 2. rewrite fb_insert by exact F. cbn [b_data].
    unfold upd_live. destruct (q =? p); reflexivity.
  - injection H as <- <-. right. split; [discriminate|split; reflexivity].
Qed.

Lemma alloc_log : forall e c v size al o r, (dbg = true -> class_ok e = true) -> Inv e c v -> alloc_env e (page_size c) v size al o ->
  o_new1 o = true -> o_new2 o = true -> o_newb o = true \/ has_free c = true ->
  coarse_alloc dbg c size al o = Some r -> logs (psz c) (r_ev r) (psz (r_st r)).
Proof.
  intros e c v size al o r DS I (S & W & J & O1 & O2 & O3 & OD & AG & CB) N1 N2 N3 H. unfold coarse_alloc in H.
  destruct (effective_alignment (page_size c) al) as [a|] eqn:EA; [|injection H as <-; apply logs_nil, eqm_refl].
  destruct (effective_ok _ _ _ (i_page _ _ _ I) W EA) as (P & AP & _).
  destruct (check dbg c); [discriminate|].
  destruct (find_ok dbg e DS c size a (i_core _ _ _ I) S P) as (x & c1 & EF & F & _). rewrite EF in H. apply find_sz in EF.
  destruct x as [p|].
  - destruct F as (l1 & b & l2 & fr' & E & E1 & E2 & E3 & E4 & E5 & -> & C1). subst p.
    set (b0 := with_listed false b) in *. set (c1 := put c (l1 ++ b0 :: l2) fr') in *.
    assert (FB : find_block (all_blocks c1) (b_data b0) = Some b0) by (apply (find_here c1 l1 b0 l2); [exact (core_chain _ _ C1)|reflexivity]).
    change (b_data b) with (b_data b0) in *. rewrite FB in H. change (b_size b) with (b_size b0) in *.
    destruct (Z.leb_spec size (b_size b0)) as [_|X]; [|lia].
    eapply logs_eqm; [|exact EF|apply eqm_refl].
    eapply (use_log e c1 l1 b0 l2); try eassumption; try reflexivity; [lia|]. intros D. exact (proj1 (OD D)).
  - cbn [found] in F. subst c1. unfold alloc_more in H. destruct (has_alloc c); cbn [negb] in H.
    2:{ apply finish_in in H. subst r. apply logs_nil, eqm_refl. }
    destruct (o_cb o) as [r0 p] eqn:OC. destruct (result_cases r0) as [->|NR].
    + destruct (assert_fails dbg (IS_ALIGNED p a)); [discriminate|]. destruct (CB p eq_refl) as (FR & _).
      destruct (coarse_add_used_block dbg c p size (o_newb o)) as [(r', c')|] eqn:AU; [|discriminate].
      destruct (add_used_log _ _ _ _ _ _ _ _ I FR AU) as [(-> & NB & EE)|(NS & NB & ->)].
      * apply finish_in in H. subst r. eexists. split; [reflexivity|exact EE].
      * destruct N3 as [N3|N3]; [congruence|]. rewrite N3 in H.
        assert (X : r = Reply r' (Some p) ([EvAlloc size a SUCCESS p] ++ [EvFree p size]) c) by (apply finish_in; destruct r'; try exact H; contradiction).
        subst r. cbn [r_ev r_st]. eexists. cbn [notes note app]. unfold upd_live at 1. rewrite !Z.eqb_refl. split; [reflexivity|].
        intros q. unfold upd_live. destruct (Z.eqb_spec q p) as [->|]; [|reflexivity].
        symmetry. unfold psz, sz. destruct (find_block (all_blocks c) p) as [b|] eqn:FB; [exfalso|reflexivity].
        apply find_some in FB. destruct FB as (IB & D). apply Z.eqb_eq in D.
        pose proof (bend_word _ 1 b (core_chain _ _ (i_core _ _ _ I)) ltac:(lia) IB) as (B1 & B2 & B3).
        assert (CV : covered (all_blocks c) p) by (exists b; split; [exact IB|unfold bend; lia]).
        apply (i_cover _ _ _ I) in CV. destruct CV as (g & Ig & X). destruct FR as (F1 & F2 & F3 & F4). apply (F4 g Ig p); [unfold inside; cbn; lia|exact X].
    + assert (X : r = Reply r0 (Some p) [EvAlloc size a r0 p] c) by (apply finish_in; destruct r0; try exact H; contradiction).
      subst r. cbn [r_ev r_st]. eexists. split; [|apply eqm_refl]. cbn [notes note]. destruct r0; try reflexivity; contradiction.
Qed.

Lemma split_log : forall c p total first s r, chain 1 (all_blocks c) -> is_word first -> coarse_split dbg c p total first s true = Some r ->
  logs (psz c) (r_ev r) (psz (r_st r)).
Proof.
  intros c p total first s r CH W H. unfold coarse_split in H.
  assert (NO : forall x, finish dbg x = Some r -> r_ev x = [] -> r_st x = c -> logs (psz c) (r_ev r) (psz (r_st r))).
  { intros x F E1 E2. apply finish_in in F. subst r. rewrite E1, E2. apply logs_nil, eqm_refl. }
  destruct ((p =? 0) || (first >=? total) || (first =? 0) || (total =? 0)) eqn:G; [injection H as <-; apply logs_nil, eqm_refl|].
  destruct (check dbg c); [discriminate|].
  destruct (find_block (all_blocks c) p) as [b|] eqn:F; [|exact (NO _ H eq_refl eq_refl)].
  destruct (Z.eqb_spec (b_size b) total) as [T|T]; cbn [negb] in H; [|exact (NO _ H eq_refl eq_refl)].
  destruct (negb (b_used b)); [exact (NO _ H eq_refl eq_refl)|]. subst total.
  assert (Sp : sz (all_blocks c) p = Some (b_size b)) by (unfold sz; rewrite F; reflexivity).
  apply orb_false_iff in G. destruct G as (G & G4). apply orb_false_iff in G. destruct G as (G & G3). apply orb_false_iff in G. destruct G as (G1 & G2).
  rewrite Z.geb_leb in G2. apply Z.leb_gt in G2. apply Z.eqb_neq in G3.
  assert (RG : 0 < first < b_size b) by (clear - W G2 G3; unfold is_word in W; lia).
  destruct (result_cases s) as [->|NS].
  - destruct (coarse_ravl_add_new dbg (all_blocks c) (wrap (p + first)) (wrap (b_size b - first)) true true) as [l'|] eqn:AN; [|discriminate].
    destruct (new_log _ _ _ _ _ _ CH Sp RG AN) as (l2 & -> & NT & U). apply finish_in in H. subst r. cbn [r_ev r_st].
    eexists. split; [cbn [notes]; fold (psz c) in NT; rewrite NT; reflexivity|]. apply U; reflexivity.
  - assert (X : r = Reply s None [EvSplit p (b_size b) first s] c) by (apply finish_in; destruct s; try exact H; contradiction).
    subst r. cbn [r_ev r_st]. eexists. split; [|apply eqm_refl]. cbn [notes note]. fold (psz c) in Sp. rewrite Sp, Z.eqb_refl.
    destruct (Z.ltb_spec 0 first) as [_|]; [|lia]. destruct (Z.ltb_spec first (b_size b)) as [_|]; [|lia]. cbn [andb]. destruct s; try reflexivity; contradiction.
Qed.

Lemma cmerge_log : forall c lo hi total m r, bounded (psz c) -> coarse_merge dbg c lo hi total m = Some r -> logs (psz c) (r_ev r) (psz (r_st r)).
Proof.
  intros c lo hi total m r B H. unfold coarse_merge in H.
  assert (NO : forall x, finish dbg x = Some r -> r_ev x = [] -> r_st x = c -> logs (psz c) (r_ev r) (psz (r_st r))).
  { intros x F E1 E2. apply finish_in in F. subst r. rewrite E1, E2. apply logs_nil, eqm_refl. }
  destruct (_ || _); [injection H as <-; apply logs_nil, eqm_refl|].
  destruct (check dbg c); [discriminate|].
  destruct (find_block (all_blocks c) lo) as [bl|]; [|exact (NO _ H eq_refl eq_refl)].
  destruct (negb (b_used bl)); [exact (NO _ H eq_refl eq_refl)|].
  destruct (find_block (all_blocks c) hi) as [bh|]; [|exact (NO _ H eq_refl eq_refl)].
  destruct (negb (b_used bh)); [exact (NO _ H eq_refl eq_refl)|].
  destruct (_ || _); [exact (NO _ H eq_refl eq_refl)|].
  destruct (negb _); [exact (NO _ H eq_refl eq_refl)|].
  destruct (user_block_merge dbg c lo hi true m) as [((r0, c'), ev)|] eqn:M; [|discriminate].
  apply finish_in in H. subst r. exact (proj1 (merge_log _ _ _ _ _ _ _ _ B M)).
Qed.

Lemma inv_bounded : forall e c v, Inv e c v -> bounded (psz c).
Proof. intros e c v I. exact (proj1 (sz_chain _ (core_chain _ _ (i_core _ _ _ I)))). Qed.

Lemma step_log : forall e c v k r, (dbg = true -> class_ok e = true) -> Inv e c v -> call_env e (page_size c) v k -> no_oom c k ->
  step dbg c k = Some r -> logs (note_fixed (psz c) k r) (r_ev r) (psz (r_st r)).
Proof.
  intros e c v k r DS I CE NO H. pose proof (inv_bounded _ _ _ I) as B. pose proof (core_chain _ _ (i_core _ _ _ I)) as CH.
  destruct k as [size al o|p bytes o|p total first s ok|lo hi total m|size o f|addr size ok f]; cbn [step] in H;
    try change (note_fixed (psz c) _ r) with (psz c).
  - destruct NO as (N1 & N2 & N3). exact (alloc_log _ _ _ _ _ _ _ DS I CE N1 N2 N3 H).
  - exact (free_log _ _ _ _ _ B H).
  - cbn [no_oom] in NO. subst ok. destruct CE as (_ & _ & W). exact (split_log _ _ _ _ _ _ CH W H).
  - exact (cmerge_log _ _ _ _ _ _ B H).
  - destruct CE as (W & AE & OF & AG). destruct NO as (N1 & N2 & N3). unfold coarse_add_memory_from_provider in H.
    destruct (Z.eqb_spec size 0) as [Z0|Z0]; [injection H as <-; apply logs_nil, eqm_refl|].
    destruct (has_alloc c); cbn [negb] in H; [|injection H as <-; apply logs_nil, eqm_refl].
    destruct (alloc_ok dbg e DS c v size (page_size c) o I (AE Z0)) as (r0 & AL & I1 & _). rewrite AL in H.
    pose proof (alloc_log _ _ _ _ _ _ _ DS I (AE Z0) N1 N2 N3 AL) as L.
    destruct (result_cases (r_res r0)) as [RS|RS].
    + rewrite RS in H. destruct (r_ptr r0) as [p|]; [|discriminate].
      destruct (coarse_free dbg (r_st r0) p size f) as [r2|] eqn:FR; [|discriminate]. injection H as <-. cbn [r_ev r_st].
      eapply logs_app; [exact L|]. exact (free_log _ _ _ _ _ (inv_bounded _ _ _ I1) FR).
    + assert (X : r = Reply (r_res r0) None (r_ev r0) (r_st r0)) by (destruct (r_res r0); try congruence; contradiction). subst r. exact L.
  - destruct CE as (W1 & W2 & OF & AG & FR). unfold coarse_add_memory_fixed in H. cbn [note_fixed].
    assert (BAD : forall x, Some x = Some r -> r_res x = ERR_INVALID_ARGUMENT \/ r_res x = ERR_NOT_SUPPORTED -> r_ev x = [] -> r_st x = c ->
       logs match r_res r with SUCCESS => upd_live (psz c) addr (Some size) | _ => psz c end (r_ev r) (psz (r_st r))).
    { intros x [= <-] E1 E2 E3. rewrite E2, E3. destruct E1 as [-> | ->]; apply logs_nil, eqm_refl. }
    destruct (Z.eqb_spec addr 0) as [A0|A0]; [apply (BAD _ H); [left|..]; reflexivity|].
    destruct (Z.eqb_spec size 0) as [Z0|Z0]; [apply (BAD _ H); [left|..]; reflexivity|]. cbn [orb] in H.
    destruct (has_alloc c || has_free c); [apply (BAD _ H); [right|..]; reflexivity|]. clear BAD.
    destruct (check dbg c); [discriminate|]. specialize (FR A0 Z0).
    destruct (coarse_add_used_block dbg c addr size ok) as [(r1, c1)|] eqn:AU; [|discriminate].
    destruct (add_used_log _ _ _ _ _ _ _ _ I FR AU) as [(-> & -> & E)|(NS & -> & ->)].
    + destruct (add_used_ok dbg e DS e c v addr size true I FR) as (c1' & AU' & I1 & _).
      rewrite AU in AU'. injection AU' as <-.
      destruct (check dbg c1); [discriminate|].
      destruct (coarse_free dbg c1 addr size f) as [r2|] eqn:F2; [|discriminate]. injection H as <-. cbn [r_res r_ev r_st].
      pose proof (free_log _ _ _ _ _ (inv_bounded _ _ _ I1) F2) as L.
      assert (RS : r_res r2 = SUCCESS) .
      { destruct (free_ok dbg e DS _ _ addr size f I1 W2 OF AG) as (r3 & F3 & _ & _ & _ & _ & _ & F4 & _). rewrite F2 in F3. injection F3 as <-.
        apply (F4 size A0); [|right; reflexivity]. cbn [live]. unfold upd_live. rewrite Z.eqb_refl. reflexivity. }
      rewrite RS. eapply logs_eqm; [exact L|apply eqm_sym; exact E|apply eqm_refl].
    + destruct (check dbg c); [discriminate|].
      assert (X : r = Reply r1 None [] c) by (destruct r1; try congruence; contradiction). subst r. cbn [r_res r_ev r_st].
      destruct r1; try contradiction; apply logs_nil, eqm_refl.
Qed.
End Log.

Lemma watched_reached : forall e c v R, watched e c v R -> reached e c v.
Proof.
  intros e c v R H. induction H as [n s ha hf N D|c v R k r R' W IH CE NO ST NT]; [exact (reached_new _ _ _ _ _ N D)|exact (reached_step _ _ _ _ _ IH CE ST)].
Qed.

Lemma fixed_eqm : forall R S k r, eqm R S -> eqm (note_fixed R k r) (note_fixed S k r).
Proof.
  intros R S k r E. unfold note_fixed. destruct k; try exact E. destruct (r_res r); try exact E. intros q. unfold upd_live. destruct (q =? addr); [reflexivity|apply E].
Qed.

Lemma watched_step_log : forall e c v R k r, eqm R (psz c) -> reached e c v -> call_env e (page_size c) v k -> no_oom c k -> step (debug e) c k = Some r ->
  exists R', notes (note_fixed R k r) (r_ev r) = Some R' /\ eqm R' (psz (r_st r)).
Proof.
  intros e c v R k r E W CE NO ST. pose proof (step_log _ _ _ _ _ _ (reached_env _ _ _ W) (reached_inv _ _ _ W) CE NO ST) as L.
  exact (logs_eqm _ _ _ _ _ L (fixed_eqm _ _ _ _ (eqm_sym _ _ E)) (eqm_refl _)).
Qed.

Lemma watched_pieces : forall e c v R, watched e c v R -> eqm R (psz c).
Proof.
  intros e c v R H. induction H as [n s ha hf N D|c v R k r R' W IH CE NO ST NT]; [intros q; reflexivity|].
  destruct (watched_step_log _ _ _ _ _ _ IH (watched_reached _ _ _ _ W) CE NO ST) as (R2 & N2 & E). congruence.
Qed.

Lemma psz_in : forall c q n, chain 1 (all_blocks c) -> (psz c q = Some n <-> exists b, In b (all_blocks c) /\ b_data b = q /\ b_size b = n).
Proof.
  intros c q n CH. unfold psz, sz. split.
  - destruct (find_block (all_blocks c) q) as [b|] eqn:F; [|discriminate]. intros [= <-]. apply find_some in F. destruct F as (I & E). apply Z.eqb_eq in E.
    exists b. split; [exact I|]. split; [exact E|reflexivity].
  - intros (b & I & <- & <-). apply in_split in I. destruct I as (l1 & l2 & E). rewrite (find_here c l1 b l2 CH E). reflexivity.
Qed.

Lemma delete_log : forall l lo R, chain lo l -> eqm R (sz l) -> exists R', notes R (map (fun b => EvFree (b_data b) (b_size b)) l) = Some R' /\ forall q, R' q = None.
Proof.
  induction l as [|b l IH]; intros lo R C E; cbn [map notes].
  - exists R. split; [reflexivity|exact E].
  - cbn [note]. rewrite E. unfold sz at 1. unfold find_block at 1. cbn [find]. rewrite Z.eqb_refl. cbn [option_map]. rewrite Z.eqb_refl.
    pose proof C as C'. change (b :: l) with ([] ++ b :: l) in C'. cbn [chain] in C. destruct C as (C1 & C2 & C3 & C4).
    apply (IH _ _ C4). intros q. unfold upd_live. rewrite E. unfold sz, find_block. cbn [find].
    destruct (Z.eqb_spec q (b_data b)) as [->|N]; [|destruct (Z.eqb_spec (b_data b) q); [congruence|reflexivity]].
    destruct (find (fun b0 => b_data b0 =? b_data b) l) as [x|] eqn:F; [exfalso|reflexivity]. apply find_some in F. destruct F as (I & X). apply Z.eqb_eq in X.
    pose proof (chain_left _ _ _ C4 I) as (Y & _). unfold bend in *; lia.
Qed.
