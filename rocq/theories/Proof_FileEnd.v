(* Proofs: the file provider knows all its mappings and unmaps them at the end. *)
From Verif Require Import Base Model_Utils Proof_Utils Model_OsProvider Spec_OsProvider Proof_OsProvider Proof_OsHistory
  Model_Coarse Spec_Coarse Model_FileProvider Spec_FileProvider Proof_FileProvider Proof_FileHistory.
From Coq Require Import Permutation.

Definition apart (A B : Z * Z) : Prop := fst A + snd A <= fst B \/ fst B + snd B <= fst A.
Record MI (page : Z) (w : fworld) : Prop := MInv {
  m_page : f_page (fs w) = page;
  m_mm : Permutation (f_mmaps (fs w)) (maps w);
  m_ok : forall a len, In (a, len) (f_mmaps (fs w)) -> 0 < a /\ 0 < len /\ len mod page = 0 /\ forall x, a <= x < a + len -> fm w x <> None;
  m_apart : ForallOrdPairs apart (f_mmaps (fs w)) }.

Lemma page_up_mod : forall page x, pow2 page -> is_word x -> page_up page x mod page = 0.
Proof.
  intros page x P W. pose proof (pow2_range _ P) as R. rewrite (page_up_val _ _ P W). unfold wrap.
  destruct (up_spec page x ltac:(lia)) as (U1 & _). pose proof (U64_multiple _ P) as U2. 
  apply Z.mod_divide in U1; [|lia]. apply Z.mod_divide in U2; [|lia]. destruct U1 as (i & U1), U2 as (j & U2).
  rewrite (Z.mod_eq (up page x) U64) by (unfold U64; lia). set (q := up page x / U64). rewrite U1, U2.
  replace (i * page - j * page * q) with ((i - j * q) * page) by ring. apply Z.mod_mul. lia.
Qed.

(* a mapping is recorded under an address that was not mapped *)
Lemma mi_mmap : forall dbg page s m n l size al a r ev s', pow2 page -> MI page (FW s m n l) ->
  file_mmap_aligned dbg s size al a = Some (r, ev, s') -> kernel page m (mappings ev) ->
  MI page (FW s' (after_all page m (mappings ev)) (grown_all n ev) (new_maps (mappings ev) ++ l)).
Proof.
  intros dbg page s m n l size al a r ev s' P I H K. pose proof (pow2_range _ P) as R. destruct I as [M1 M2 M3 M4]. cbn [fs fm maps] in *.
  unfold file_mmap_aligned in H. set (ext0 := wrap (size + al)) in *.
  assert (SAME : forall s0, f_page s0 = page -> f_mmaps s0 = f_mmaps s -> forall n0, MI page (FW s0 m n0 l)) by (intros s0 A B n0; constructor; cbn [fs fm maps]; rewrite ?B; auto).
  destruct (ext0 <? size); [injection H as <- <- <-; apply SAME; [exact M1|reflexivity]|].
  destruct (page_up (f_page s) ext0 <? size); [injection H as <- <- <-; apply SAME; [exact M1|reflexivity]|].
  destruct (page_up (f_page s) (f_off s) <? f_off s); [injection H as <- <- <-; apply SAME; [exact M1|reflexivity]|].
  set (ext := page_up (f_page s) ext0) in *. set (aoff := page_up (f_page s) (f_off s)) in *.
  set (g := f_size s <? wrap (aoff + ext)) in *.
  set (e1 := if g then [Grow (f_size s) (wrap (wrap (aoff + ext) - f_size s)) (a_grow a)] else []) in *.
  assert (E1 : mappings e1 = []) by (unfold e1; destruct g; reflexivity).
  destruct (g && negb (a_grow a)). { injection H as <- <- <-. rewrite E1. apply SAME; [exact M1|reflexivity]. }
  match type of H with (if ?z then _ else _) = _ => destruct z; [discriminate|] end.
  assert (EM : ext mod page = 0) by (unfold ext; rewrite M1; apply page_up_mod; [exact P|apply wrap_word]).
  destruct (a_mmap a) as [ptr|]; injection H as <- <- <-.
  - assert (EV : mappings (e1 ++ [Call (Mmap ptr ext (Some aoff))]) = [Mmap ptr ext (Some aoff)]) by (unfold mappings in *; rewrite flat_map_app, E1; reflexivity).
    rewrite EV in *. cbn [kernel mmap_legal] in K. destruct K as ((K1 & K2 & K3 & K4 & K5 & K6) & _).
    assert (UE : up page ext = ext) by (apply up_multiple; [lia|exact EM]).
    assert (WI : forall x, within page ptr ext x = true <-> ptr <= x < ptr + ext) by (intros x; rewrite (within_iff page ptr ext x), UE; tauto).
    assert (FR : map_get (f_mmaps s) ptr = None).
    { destruct (map_get (f_mmaps s) ptr) as [v0|] eqn:G; [|reflexivity]. exfalso. unfold map_get in G. destruct (find (fun x => fst x =? ptr) (f_mmaps s)) as [[q k]|] eqn:F; [|discriminate].
      apply find_some in F. destruct F as (F1 & F2). cbn [fst] in F2. apply Z.eqb_eq in F2. subst q. destruct (M3 _ _ F1) as (Q1 & Q2 & _ & Q3).
      apply (Q3 ptr ltac:(lia)). apply K6, WI. lia. }
    unfold map_insert. rewrite FR. constructor; cbn [fs fm maps f_page f_mmaps new_maps flat_map app after_all fold_left].
    + exact M1.
    + apply perm_skip. exact M2.
    + intros b len [Y|Y].
      * injection Y as <- <-. split; [exact K2|]. split; [exact K1|]. split; [exact EM|]. intros x X. unfold after. rewrite (proj2 (WI x) X). discriminate.
      * destruct (M3 _ _ Y) as (Q1 & Q2 & Q3 & Q4). split; [exact Q1|]. split; [exact Q2|]. split; [exact Q3|]. intros x X. unfold after. destruct (within page ptr ext x); [discriminate|exact (Q4 x X)].
    + constructor; [|exact M4]. apply Forall_forall. intros [b len] Y. destruct (M3 _ _ Y) as (Q1 & Q2 & Q3 & Q4). unfold apart. cbn [fst snd].
      destruct (Z_le_gt_dec (ptr + ext) b) as [L1|L1]; [left; exact L1|]. destruct (Z_le_gt_dec (b + len) ptr) as [L2|L2]; [right; exact L2|]. exfalso.
      apply (Q4 (Z.max ptr b)); [lia|]. apply K6, WI. lia.
  - assert (EV : mappings (e1 ++ [Call (MmapFail ext (Some aoff))]) = [MmapFail ext (Some aoff)]) by (unfold mappings in *; rewrite flat_map_app, E1; reflexivity).
    rewrite EV. apply SAME; [exact M1|reflexivity].
Qed.

Lemma mi_frame : forall page s s' m n n' l, f_page s' = f_page s -> f_mmaps s' = f_mmaps s -> MI page (FW s m n l) -> MI page (FW s' m n' l).
Proof. intros page s s' m n n' l E1 E2 [M1 M2 M3 M4]. constructor; cbn [fs fm maps] in *; rewrite ?E1, ?E2; assumption. Qed.

Lemma mappings_app : forall a b, mappings (a ++ b) = mappings a ++ mappings b.
Proof. intros. apply flat_map_app. Qed.
Lemma new_maps_app : forall a b, new_maps (a ++ b) = new_maps a ++ new_maps b.
Proof. intros. apply flat_map_app. Qed.
Lemma kernel_app2 : forall page l r m, kernel page m (l ++ r) -> kernel page (after_all page m l) r.
Proof. intros page l. induction l as [|e l IH]; intros r m; cbn [app kernel]; [auto|]. intros [A B]. exact (IH _ _ B). Qed.


Lemma mi_aligned : forall dbg page s m n l size al a1 a2 r p o ev s', pow2 page -> MI page (FW s m n l) ->
  file_alloc_aligned dbg s size al a1 a2 = Some (r, p, o, ev, s') -> kernel page m (mappings ev) ->
  MI page (FW s' (after_all page m (mappings ev)) (grown_all n ev) (new_maps (mappings ev) ++ l)).
Proof.
  intros dbg page s m n l size al a1 a2 r p o ev s' P I H K. unfold file_alloc_aligned in H.
  assert (ST : forall r1 ev1 s1, (if wrap (f_msize s - f_moff s) <? size then file_mmap_aligned dbg s size al a1 else Some (SUCCESS, [], s)) = Some (r1, ev1, s1) ->
     kernel page m (mappings ev1) -> MI page (FW s1 (after_all page m (mappings ev1)) (grown_all n ev1) (new_maps (mappings ev1) ++ l))).
  { intros r1 ev1 s1. destruct (wrap (f_msize s - f_moff s) <? size); intros X Y; [exact (mi_mmap _ _ _ _ _ _ _ _ _ _ _ _ P I X Y)|]. injection X as <- <- <-. exact I. }
  destruct (if wrap (f_msize s - f_moff s) <? size then file_mmap_aligned dbg s size al a1 else Some (SUCCESS, [], s)) as [[[r1 ev1] s1]|]; [|discriminate].
  specialize (ST r1 ev1 s1 eq_refl).
  assert (FAIL : r1 <> SUCCESS -> (ERR_UNKNOWN = ERR_UNKNOWN) -> Some (r1, 0, 0, ev1, s1) = Some (r, p, o, ev, s') -> MI page (FW s' (after_all page m (mappings ev)) (grown_all n ev) (new_maps (mappings ev) ++ l))).
  { intros _ _ X. injection X as <- <- <- <- <-. exact (ST K). }
  destruct r1; try (apply FAIL; [discriminate|reflexivity|exact H]). clear FAIL.
  destruct (dbg && (f_base s1 =? 0)); [discriminate|].
  match type of H with (if dbg && IS_NOT_ALIGNED ?q al then _ else _) = _ => set (p0 := q) in * end.
  destruct (dbg && IS_NOT_ALIGNED p0 al); [discriminate|].
  destruct (wrap (f_msize s1 - wrap (p0 - f_base s1)) <? size).
  - destruct (file_mmap_aligned dbg s1 size al a2) as [[[r2 ev2] s2]|] eqn:E2; [|discriminate].
    assert (TWO : kernel page m (mappings (ev1 ++ ev2)) -> MI page (FW s2 (after_all page m (mappings (ev1 ++ ev2))) (grown_all n (ev1 ++ ev2)) (new_maps (mappings (ev1 ++ ev2)) ++ l))).
    { intros Y. rewrite mappings_app in *. pose proof (ST (kernel_app _ _ _ _ Y)) as J. apply kernel_app2 in Y.
      pose proof (mi_mmap _ _ _ _ _ _ _ _ _ _ _ _ P J E2 Y) as [M1 M2 M3 M4]. rewrite after_all_app, new_maps_app.
      constructor; cbn [fs fm maps] in *; [exact M1| |exact M3|exact M4].
      eapply Permutation_trans; [exact M2|]. rewrite !app_assoc. apply Permutation_app_tail, Permutation_app_comm. }
    assert (FAIL : Some (r2, 0, 0, ev1 ++ ev2, s2) = Some (r, p, o, ev, s') -> MI page (FW s' (after_all page m (mappings ev)) (grown_all n ev) (new_maps (mappings ev) ++ l))).
    { intros X. injection X as <- <- <- <- <-. exact (TWO K). }
    destruct r2; try (apply FAIL; exact H). clear FAIL.
    destruct (dbg && ((f_base s2 =? 0) || IS_NOT_ALIGNED (f_base s2) al)); [discriminate|]. injection H as <- <- <- <- <-.
    eapply mi_frame; [| |exact (TWO K)]; reflexivity.
  - injection H as <- <- <- <- <-. eapply mi_frame; [| |exact (ST K)]; reflexivity.
Qed.

Lemma mi_cb : forall dbg page s m n l size al a1 a2 r p ev s', pow2 page -> MI page (FW s m n l) ->
  file_alloc_cb dbg s size al a1 a2 = Some (r, p, ev, s') -> kernel page m (mappings ev) ->
  MI page (FW s' (after_all page m (mappings ev)) (grown_all n ev) (new_maps (mappings ev) ++ l)).
Proof.
  intros dbg page s m n l size al a1 a2 r p ev s' P I H K. unfold file_alloc_cb in H.
  match type of H with (if ?z then _ else _) = _ => destruct z; [injection H as <- <- <- <-; exact I|] end.
  match type of H with context [file_alloc_aligned dbg s size ?z a1 a2] => set (al' := z) in * end.
  destruct (file_alloc_aligned dbg s size al' a1 a2) as [[[[[r1 addr] off] ev1] s1]|] eqn:E; [|discriminate].
  assert (J : kernel page m (mappings ev1) -> MI page (FW s1 (after_all page m (mappings ev1)) (grown_all n ev1) (new_maps (mappings ev1) ++ l))) by (intros Y; exact (mi_aligned _ _ _ _ _ _ _ _ _ _ _ _ _ _ _ P I E Y)).
  destruct r1; try (injection H as <- <- <- <-; exact (J K)).
  destruct (map_insert (f_map s1) addr (wrap (off + 1))); injection H as <- <- <- <-; [|exact (J K)].
  eapply mi_frame; [| |exact (J K)]; reflexivity.
Qed.

Lemma mi_served : forall dbg page mo w evs w', pow2 page -> served dbg page mo w evs w' -> MI page w -> MI page w'.
Proof.
  intros dbg page mo w evs w' P SV. induction SV as [w|s m n l size al a1 a2 r p ev s' rest w' CB K FL GA NF WH SV IH|s m n l p total first r s' rest w' CB SV IH|s m n l lo hi total r s' rest w' CB SV IH]; intros I.
  - exact I.
  - apply IH. exact (mi_cb _ _ _ _ _ _ _ _ _ _ _ _ _ _ P I CB K).
  - apply IH. unfold file_allocation_split_cb in CB. destruct (map_get (f_map s) p); [|injection CB as <- <-; exact I].
    destruct (map_insert _ _ _); injection CB as <- <-; [|exact I]. eapply mi_frame; [| |exact I]; reflexivity.
  - apply IH. unfold file_allocation_merge_cb in CB. destruct (map_get (f_map s) hi); injection CB as <- <-; [|exact I]. eapply mi_frame; [| |exact I]; reflexivity.
Qed.

Lemma mi_history : forall e page mo ipc dax c v w, history e page mo ipc dax c v w -> pow2 page /\ MI page w.
Proof.
  intros e page mo ipc dax c v w H. induction H as [n s m PE N D|c v w k r w' H (P & IH) CL NO ST SV|c v s m n l m' H (P & IH) OT].
  - split; [exists n; split; [lia|exact PE]|]. constructor; cbn [fs fm maps file_created f_page f_mmaps]; [reflexivity|constructor|intros a len []|constructor].
  - split; [exact P|]. exact (mi_served _ _ _ _ _ _ P SV IH).
  - split; [exact P|]. destruct IH as [M1 M2 M3 M4]. cbn [fs fm maps] in *. constructor; cbn [fs fm maps]; [exact M1|exact M2| |exact M4].
    intros a len X. destruct (M3 _ _ X) as (Q1 & Q2 & Q3 & Q4). split; [exact Q1|]. split; [exact Q2|]. split; [exact Q3|]. intros x Y.
    rewrite (OT a len x (Permutation_in _ M2 X) Y). exact (Q4 x Y).
Qed.

(* ---- the loop of file_finalize ---- *)
Lemma least_spec : forall l, match least l with None => l = [] | Some x => In x l /\ forall y, In y l -> fst x <= fst y end.
Proof.
  intros l. induction l as [|x l IH]; [reflexivity|]. cbn [least]. destruct (least l) as [y|].
  - destruct IH as (I1 & I2). destruct (fst x <? fst y) eqn:E.
    + apply Z.ltb_lt in E. split; [left; reflexivity|]. intros z [<-|Z]; [lia|]. specialize (I2 z Z). lia.
    + apply Z.ltb_ge in E. split; [right; exact I1|]. intros z [<-|Z]; [lia|]. exact (I2 z Z).
  - subst l. split; [left; reflexivity|]. intros y [<-|[]]. lia.
Qed.

Definition unmap (x : Z * Z) : sys := Munmap (fst x) (snd x) true.
Fixpoint ascending (l : list (Z * Z)) : Prop := match l with [] => True | x :: r => (forall y, In y r -> fst x < fst y) /\ ascending r end.

Lemma remove_perm : forall l a len, NoDup (map fst l) -> In (a, len) l -> Permutation l ((a, len) :: map_remove l a).
Proof.
  intros l a len. unfold map_remove. induction l as [|[b k] l IH]; cbn [map fst]; intros N X; [destruct X|]. inversion N as [|b0 l0 N1 N2]; subst.
  cbn [filter fst]. destruct X as [X|X].
  - injection X as -> ->. rewrite Z.eqb_refl. cbn [negb]. apply perm_skip.
    replace (filter (fun x => negb (fst x =? a)) l) with l; [apply Permutation_refl|]. clear - N1. induction l as [|[c j] l IH]; [reflexivity|]. cbn [filter fst map] in *.
    replace (c =? a) with false by (symmetry; apply Z.eqb_neq; intros ->; apply N1; left; reflexivity). cbn [negb]. f_equal. apply IH. intros Y. apply N1. right. exact Y.
  - assert (b <> a) by (intros ->; apply N1; apply in_map_iff; exists (a, len); auto). replace (b =? a) with false by (symmetry; apply Z.eqb_neq; assumption). cbn [negb].
    eapply Permutation_trans; [apply perm_skip, (IH N2 X)|]. apply perm_swap.
Qed.

Lemma finalize_loop_ok : forall fuel key l, NoDup (map fst l) -> (forall x, In x l -> key < fst x) -> (List.length l <= fuel)%nat ->
  exists q, finalize_loop fuel key l = Some (map unmap q) /\ Permutation l q /\ ascending q.
Proof.
  intros fuel. induction fuel as [|fuel IH]; intros key l N K L.
  - destruct l as [|x l]; [|cbn in L; lia]. exists []. split; [reflexivity|]. split; [constructor|exact I].
  - assert (FI : filter (fun x => key <? fst x) l = l).
    { clear - K. induction l as [|x l IH]; [reflexivity|]. cbn [filter]. replace (key <? fst x) with true by (symmetry; apply Z.ltb_lt, K; left; reflexivity). f_equal. apply IH. intros y Y. apply K. right. exact Y. }
    cbn [finalize_loop]. rewrite FI. pose proof (least_spec l) as LS. destruct (least l) as [[a len]|].
    + destruct LS as (L1 & L2). pose proof (remove_perm _ _ _ N L1) as PM. 
      assert (N' : NoDup (map fst ((a, len) :: map_remove l a))) by (eapply Permutation_NoDup; [apply Permutation_map, PM|exact N]). cbn [map fst] in N'. inversion N' as [|a0 l0 N1 N2]; subst.
      destruct (IH a (map_remove l a)) as (q & Q1 & Q2 & Q3).
      * exact N2.
      * intros y Y. assert (Y' : In y l) by (apply (Permutation_in _ (Permutation_sym PM)); right; exact Y). specialize (L2 y Y'). cbn [fst] in L2.
        assert (fst y <> a) by (intros <-; apply N1; apply in_map; exact Y). lia.
      * apply Permutation_length in PM. cbn [List.length] in PM. lia.
      * rewrite Q1. exists ((a, len) :: q). split; [reflexivity|]. split; [eapply Permutation_trans; [exact PM|apply perm_skip; exact Q2]|]. cbn [ascending]. split; [|exact Q3].
        intros y Y. apply (Permutation_in _ (Permutation_sym Q2)) in Y. assert (Y' : In y l) by (apply (Permutation_in _ (Permutation_sym PM)); right; exact Y). specialize (L2 y Y'). cbn [fst] in *.
        assert (fst y <> a) by (intros <-; apply N1; apply in_map; exact Y). lia.
    + subst l. exists []. split; [reflexivity|]. split; [constructor|exact I].
Qed.

Lemma after_unmaps : forall page q m x, 0 < page -> (forall a len, In (a, len) q -> len mod page = 0) ->
  ((exists a len, In (a, len) q /\ a <= x < a + len) -> after_all page m (map unmap q) x = None) /\
  ((forall a len, In (a, len) q -> ~ a <= x < a + len) -> after_all page m (map unmap q) x = m x).
Proof.
  intros page q. induction q as [|[a len] q IH]; intros m x P Q; [split; [intros (? & ? & [] & _)|reflexivity]|].
  change (map unmap ((a, len) :: q)) with (Munmap a len true :: map unmap q). unfold after_all. cbn [fold_left].
  assert (W : within page a len x = true <-> a <= x < a + len) by (rewrite within_iff, (up_multiple page len) by (lia || (apply (Q a len); left; reflexivity)); tauto).
  destruct (IH (after page m (Munmap a len true)) x P ltac:(intros b k Y; apply (Q b k); right; exact Y)) as (I1 & I2). unfold after_all in I1, I2. split.
  - intros (b & k & Y & X). destruct (List.Exists_dec (fun r => fst r <= x < fst r + snd r) q ltac:(intros r; destruct (Z_le_dec (fst r) x), (Z_lt_dec x (fst r + snd r)); [left|right|right|right]; lia)) as [E|E].
    + apply Exists_exists in E. destruct E as ([c j] & E1 & E2). apply I1. exists c, j. split; assumption.
    + rewrite I2.
      * destruct Y as [Y|Y]; [|exfalso; apply E, Exists_exists; exists (b, k); split; [exact Y|exact X]]. injection Y as -> ->. cbn [after]. rewrite (proj2 W X). reflexivity.
      * intros c j C X'. apply E, Exists_exists. exists (c, j). split; [exact C|exact X'].
  - intros NO. rewrite I2 by (intros b k Y; apply NO; right; exact Y). cbn [after]. destruct (within page a len x) eqn:WE; [|reflexivity]. exfalso. apply (NO a len); [left; reflexivity|apply W; reflexivity].
Qed.

Lemma finalize_ok : forall e page mo ipc dax c v w, history e page mo ipc dax c v w ->
  exists ev, file_finalize (fs w) = Some ev /\
    (forall x, (exists a len, In (a, len) (maps w) /\ a <= x < a + len) -> after_all page (fm w) ev x = None) /\
    (forall x, (forall a len, In (a, len) (maps w) -> ~ a <= x < a + len) -> after_all page (fm w) ev x = fm w x) /\
    (forall a len ok, In (Munmap a len ok) ev <-> In (a, len) (maps w) /\ ok = true) /\ List.length ev = List.length (maps w).
Proof.
  intros e page mo ipc dax c v w H. destruct (mi_history _ _ _ _ _ _ _ _ H) as (P & [M1 M2 M3 M4]). pose proof (pow2_range _ P) as R.
  assert (ND : NoDup (map fst (f_mmaps (fs w)))).
  { clear - M3 M4. induction M4 as [|[a len] l A B IH]; [constructor|]. cbn [map fst]. constructor.
    - intros X. apply in_map_iff in X. destruct X as ([b k] & X1 & X2). cbn [fst] in X1. subst b. rewrite Forall_forall in A. specialize (A _ X2). unfold apart in A. cbn [fst snd] in A.
      destruct (M3 a len (or_introl eq_refl)) as (_ & Q1 & _). destruct (M3 a k (or_intror X2)) as (_ & Q2 & _). lia.
    - apply IH. intros b k Y. apply M3. right. exact Y. }
  destruct (finalize_loop_ok (List.length (f_mmaps (fs w))) 0 (f_mmaps (fs w)) ND) as (q & Q1 & Q2 & Q3).
  { intros [a len] X. exact (proj1 (M3 _ _ X)). }
  { lia. }
  assert (PQ : Permutation (maps w) q) by (eapply Permutation_trans; [apply Permutation_sym; exact M2|exact Q2]).
  assert (QM : forall a len, In (a, len) q -> len mod page = 0) by (intros a len X; apply (M3 a len), (Permutation_in _ (Permutation_sym Q2)), X).
  exists (map unmap q). split; [exact Q1|]. split; [|split; [|split]].
  - intros x (a & len & X1 & X2). apply (after_unmaps page q (fm w) x ltac:(lia) QM). exists a, len. split; [exact (Permutation_in _ PQ X1)|exact X2].
  - intros x X. apply (after_unmaps page q (fm w) x ltac:(lia) QM). intros a len Y. apply X, (Permutation_in _ (Permutation_sym PQ)), Y.
  - intros a len ok. rewrite in_map_iff. split.
    + intros ([b k] & X1 & X2). unfold unmap in X1. cbn [fst snd] in X1. injection X1 as -> -> <-. split; [exact (Permutation_in _ (Permutation_sym PQ) X2)|reflexivity].
    + intros (X1 & ->). exists (a, len). split; [reflexivity|exact (Permutation_in _ PQ X1)].
  - rewrite map_length. symmetry. apply Permutation_length. exact PQ.
Qed.
