From Coq Require Import Permutation.
From Verif Require Import Base Model_Cuda Spec_Cuda Proof_Cuda.

Lemma drop_perm : forall l b p host, In b l -> NoDup (map b_ptr l) -> b_ptr b = p ->
  Bool.eqb host (kind_eqb (b_kind b) KHost) = true -> Permutation l (b :: drop_block p host l).
Proof.
  induction l as [|x l IH]; intros b p host I ND E K; [destruct I|].
  cbn [map] in ND. inversion ND as [|? ? N1 N2]; subst. cbn [drop_block]. destruct I as [-> | I].
  - rewrite Z.eqb_refl, K. reflexivity.
  - destruct (b_ptr x =? b_ptr b) eqn:X.
    + exfalso. apply N1. apply Z.eqb_eq in X. rewrite X. apply in_map. exact I.
    + cbn [andb]. etransitivity; [constructor; apply (IH b (b_ptr b) host I N2 eq_refl K)|]. apply perm_swap.
Qed.
Lemma live_at_false : forall p l, live_at p l = false -> ~ In p (map b_ptr l).
Proof.
  intros p l H I. apply in_map_iff in I as (b & E & Hb). unfold live_at in H.
  assert (X : existsb (fun b => b_ptr b =? p) l = true) by (apply existsb_exists; exists b; split; [exact Hb|lia]). congruence.
Qed.
Lemma oaf_cc : forall l, only_allocations_fail l -> context_calls_ok l.
Proof.
  intros l A c x e I K. destruct (Z.eq_dec e 0) as [->|N]; [reflexivity|]. specialize (A c x e I N). destruct x; discriminate.
Qed.
Lemma oaf_app : forall l l', only_allocations_fail (l ++ l') -> only_allocations_fail l /\ only_allocations_fail l'.
Proof. intros l l' H. split; intros c x e I; apply (H c x e), in_or_app; auto. Qed.
Lemma kind_host : forall pr, usable pr -> Bool.eqb true (kind_eqb (kind_of pr) KHost) = (mtype pr =? MT_HOST).
Proof. intros pr [U | [U | U]]; unfold kind_of; rewrite U; reflexivity. Qed.
Lemma alloc_block : forall pr s v, is_alloc_of (wanted pr s) v (context pr) = Some (block_of (Holding pr v s)).
Proof. intros pr s v. unfold wanted, block_of. cbn [h_by h_ptr h_size]. destruct (kind_of pr); reflexivity. Qed.
Lemma allocates_wanted : forall pr s, allocates (wanted pr s) = true /\ about_context (wanted pr s) = false.
Proof. intros pr s. unfold wanted. destruct (kind_of pr); split; reflexivity. Qed.

Lemma tied_memory : forall d d' H L, memory d' = memory d -> tied d H L -> tied d' H L.
Proof. intros d d' H L E T. unfold tied in *. rewrite E. exact T. Qed.
Lemma tied_perm : forall d d' H L H' L', tied d H L -> memory d' = memory d -> Permutation (map block_of H ++ L) (map block_of H' ++ L') -> tied d' H' L'.
Proof. intros d d' H L H' L' (A & B) E P. unfold tied. rewrite E. split; [etransitivity; eassumption|exact B]. Qed.

(* what one request does *)
Definition good_step (O : oracle) (d : driver) (H : list holding) (L : list block) (o : request) : Prop :=
  exists r p d' l, serve O d o = Some (r, p, d') /\ since d d' l /\ (exists H', holds H o r p H') /\
  (forall H', holds H o r p H' -> exists L', tied d' H' (L' ++ L) /\ (only_allocations_fail l -> L' = [])) /\
  (forall pr, of_request o = Some pr -> (context_calls_ok l -> current d' = current d) /\
     (forall x y e, In (x, y, e) l -> acts y = true -> x = context pr)).

Lemma free_call_spec : forall pr p, usable pr -> exists c, (match kind_of pr with KHost => FreeHost p | _ => FreeDevice p end) = c /\
  about_context c = false /\ allocates c = false /\
  forall ctx v l b, is_alloc_of c v ctx = None /\ (In b l -> NoDup (map b_ptr l) -> b_ptr b = p -> b_kind b = kind_of pr -> Permutation l (b :: drop_any c l)).
Proof.
  intros pr p U. eexists. split; [reflexivity|]. destruct (kind_of pr) eqn:K; (split; [reflexivity|]); (split; [reflexivity|]);
    intros ctx v l b; (split; [reflexivity|]); intros I ND E KB; cbn [drop_any]; apply drop_perm; auto; rewrite KB; reflexivity.
Qed.

Lemma free_spec : forall O d pr p r d', usable pr -> p <> 0 -> cu_free O d pr p = (r, d') ->
  exists l, since d d' l /\ (context_calls_ok l -> current d' = current d) /\
  (forall x y e, In (x, y, e) l -> acts y = true -> x = context pr) /\
  (only_allocations_fail l -> r = SUCCESS) /\
  (r <> SUCCESS -> memory d' = memory d) /\
  (r = SUCCESS -> forall b, In b (memory d) -> NoDup (map b_ptr (memory d)) -> b_ptr b = p -> b_kind b = kind_of pr -> Permutation (memory d) (b :: memory d')).
Proof.
  intros O d pr p r d' U Hp H. rewrite (cu_free_scoped _ _ _ _ U Hp) in H.
  destruct (free_call_spec pr p U) as (c & Ec & NC & NA & F). rewrite Ec in H.
  destruct (scoped O d pr c) as [[[r1 code] v] d1] eqn:S. destruct (scoped_spec _ _ _ _ _ _ _ _ NC S) as (l & T & AC & CC & NS & SS).
  destruct (is_success r1) eqn:E1.
  - injection H as <- <-. apply is_success_spec in E1. destruct (SS E1) as (I & M & _).
    exists l. split; [exact T|]. split; [intros K; apply CC, K|].
    split; [intros x y e I' A; apply (AC x y e I'); destruct y; try reflexivity; discriminate A|].
    split; [|split].
    + intros K. apply cu2umf_ok. destruct (Z.eq_dec code 0) as [X|X]; [exact X|]. specialize (K _ _ _ I X). congruence.
    + intros X. rewrite M. destruct (code =? 0) eqn:Z0; [|reflexivity]. exfalso. apply X, cu2umf_ok. lia.
    + intros X b Ib ND Eb Kb. apply cu2umf_ok in X. subst code. rewrite M. cbn [Z.eqb].
      destruct (F (context pr) v (memory d) b) as (F1 & F2). rewrite F1. apply F2; assumption.
  - injection H as <- <-. assert (X : r1 <> SUCCESS) by (intros ->; discriminate E1). destruct (NS X) as (M & AL).
    exists l. split; [exact T|]. split; [intros K; apply CC, K|].
    split; [intros x y e I' A; rewrite <- (proj1 (AC x y e I' ltac:(destruct y; try reflexivity; discriminate A))); reflexivity|].
    split; [intros K; exfalso; apply X, (CC (oaf_cc _ K))|]. split; [intros _; exact M|]. intros Y. contradiction.
Qed.

Lemma step_alloc : forall O d H L pr s a, usable pr -> 0 <= a -> tied d H L -> good_step O d H L (RAlloc pr s a).
Proof.
  intros O d H L pr s a U Ha T. unfold good_step. cbn [serve of_request].
  rewrite (cu_alloc_scoped _ _ _ _ _ U). destruct (min_alignment pr <? a) eqn:Ma.
  { exists ERR_NOT_SUPPORTED, 0, d, []. split; [reflexivity|]. split; [reflexivity|]. split; [exists H; constructor; discriminate|].
    split; [|intros pr' E; split; [reflexivity | intros x y e []]].
    intros H' HH. inversion HH; subst; try contradiction; try discriminate. exists []. split; [exact T|reflexivity]. }
  destruct (allocates_wanted pr s) as (AW & NC).
  destruct (scoped O d pr (wanted pr s)) as [[[r1 code] v] d1] eqn:S. destruct (scoped_spec _ _ _ _ _ _ _ _ NC S) as (l & TT & AC & CC & NS & SS).
  assert (AC' : forall x y e, In (x, y, e) l -> acts y = true -> x = context pr)
    by (intros x y e I A; apply (AC x y e I); destruct y; try reflexivity; discriminate A).
  destruct (is_success r1) eqn:E1.
  2:{ assert (X : r1 <> SUCCESS) by (intros ->; discriminate E1). destruct (NS X) as (M & _).
    exists r1, 0, d1, l. split; [reflexivity|]. split; [exact TT|]. split; [exists H; constructor; exact X|].
    split; [|intros pr' E; injection E as <-; split; [intros K; apply CC, K | exact AC']].
    intros H' HH. inversion HH; subst; try contradiction. exists []. split; [exact (tied_memory _ _ _ _ M T)|reflexivity]. }
  apply is_success_spec in E1. destruct (SS E1) as (I & M & FR & _). rewrite alloc_block in M.
  destruct (code =? 0) eqn:Z0; cbn [negb].
  2:{ assert (X : cu2umf code <> SUCCESS) by (intros X; apply cu2umf_ok in X; lia).
    exists (cu2umf code), 0, d1, l. split; [reflexivity|]. split; [exact TT|]. split; [exists H; constructor; exact X|].
    split; [|intros pr' E; injection E as <-; split; [intros K; apply CC, K | exact AC']].
    intros H' HH. inversion HH; subst; try contradiction; try congruence. exists []. split; [exact (tied_memory _ _ _ _ M T)|reflexivity]. }
  apply Z.eqb_eq in Z0. destruct (FR Z0 AW) as (V0 & VL). apply live_at_false in VL.
  destruct T as (P & ND & NZ).
  assert (ND1 : NoDup (map b_ptr (memory d1))) by (rewrite M; cbn [map block_of b_ptr h_ptr]; constructor; assumption).
  assert (NZ1 : forall b, In b (memory d1) -> b_ptr b <> 0) by (rewrite M; intros b [<- | Hb]; [exact V0 | exact (NZ b Hb)]).
  destruct ((0 <? a) && negb (v mod a =? 0)) eqn:AL.
  - destruct (cu_free O d1 pr v) as [r2 d2] eqn:F. destruct (free_spec _ _ _ _ _ _ U V0 F) as (l2 & T2 & C2 & A2 & OK2 & N2 & S2).
    exists ERR_INVALID_ALIGNMENT, 0, d2, (l2 ++ l). cbn [snd]. split; [reflexivity|].
    split; [exact (since_app _ _ _ _ _ TT T2)|]. split; [exists H; constructor; discriminate|]. split.
    + intros H' HH. inversion HH; subst; try contradiction; try discriminate.
      destruct (success_dec r2) as [X | X].
      * exists []. split; [|reflexivity]. specialize (S2 X (block_of (Holding pr v s))). rewrite M in S2 at 1.
        specialize (S2 (or_introl eq_refl) ND1 eq_refl eq_refl). rewrite M in S2. apply Permutation_cons_inv in S2.
        unfold tied. split; [etransitivity; [symmetry; exact S2|exact P]|]. split.
        -- apply (Permutation_NoDup (Permutation_map b_ptr S2)). exact ND.
        -- intros b Hb. apply NZ. apply (Permutation_in b (Permutation_sym S2) Hb).
      * exists [block_of (Holding pr v s)]. specialize (N2 X). split.
        -- unfold tied. rewrite N2. split; [|auto]. rewrite M. cbn [app]. etransitivity; [apply perm_skip, P|]. apply Permutation_middle.
        -- intros K. apply oaf_app in K as [K _]. exfalso. apply X, OK2, K.
    + intros pr' E; injection E as <-. split.
      * intros K. apply cc_app in K as [K1 K2]. rewrite (C2 K1). apply CC, K2.
      * intros x y e II. apply in_app_or in II as [II | II]; [exact (A2 x y e II) | exact (AC' x y e II)].
  - assert (ALN : aligned v a) by (unfold aligned; destruct (Z.eq_dec a 0); [left; assumption|right; lia]).
    exists SUCCESS, v, d1, l. split; [reflexivity|]. split; [exact TT|]. split.
    + exists (Holding pr v s :: H). apply ho_alloc; [exact ALN | lia | exact V0|]. intros h Ih <-. apply VL.
      apply in_map_iff. exists (block_of h). split; [reflexivity|]. apply (Permutation_in _ (Permutation_sym P)), in_or_app. left. apply in_map, Ih.
    + split; [|intros pr' E; injection E as <-; split; [intros K; apply CC, K | exact AC']].
      intros H' HH. inversion HH; subst; try contradiction; try congruence.
      exists []. split; [|reflexivity]. unfold tied. split; [rewrite M; cbn [map app]; apply perm_skip, P|auto].
Qed.

Lemma step_free : forall O d H L pr p, usable pr -> (p = 0 \/ exists s, In (Holding pr p s) H) -> tied d H L -> good_step O d H L (RFree pr p).
Proof.
  intros O d H L pr p U Hp T. unfold good_step. cbn [serve of_request].
  assert (NZH : forall h, In h H -> h_ptr h <> 0).
  { intros h Ih. destruct T as (P & _ & NZ). apply (NZ (block_of h)). apply (Permutation_in _ (Permutation_sym P)), in_or_app. left. apply in_map, Ih. }
  destruct (Z.eq_dec p 0) as [-> | P0].
  { unfold cu_free. cbn [Z.eqb]. exists SUCCESS, 0, d, []. split; [reflexivity|]. split; [reflexivity|]. split; [exists H; apply ho_null|].
    split; [|intros pr' E; split; [reflexivity | intros x y e []]].
    intros H' HH. exists []. split; [|reflexivity]. inversion HH as [| |? ? ? ? H1 H2 E0| |? ? ? ? NS|? ? ? Q]; subst; try exact T; try contradiction.
    exfalso. apply (NZH (Holding pr 0 s)); [apply in_or_app; right; left; reflexivity|reflexivity]. }
  destruct Hp as [Hp | (s & Is)]; [contradiction|].
  destruct (cu_free O d pr p) as [r d'] eqn:F. destruct (free_spec _ _ _ _ _ _ U P0 F) as (l & TT & C2 & A2 & OK2 & N2 & S2).
  exists r, 0, d', l. split; [reflexivity|]. split; [exact TT|].
  split.
  { destruct (success_dec r) as [-> | X]; [|exists H; constructor; exact X]. apply in_split in Is as (H1 & H2 & E).
    exists (H1 ++ H2). apply (ho_free H pr p s 0 H1 H2 E). }
  split; [|intros pr' E; injection E as <-; split; assumption].
  intros H' HH. exists []. split; [|reflexivity]. inversion HH as [| |? ? s' ? H1 H2 E0| |? ? ? ? NS|? ? ? Q]; subst; try contradiction.
  - destruct T as (P & ND & NZ). specialize (S2 eq_refl (block_of (Holding pr p s'))).
    assert (IB : In (block_of (Holding pr p s')) (memory d)).
    { apply (Permutation_in _ (Permutation_sym P)), in_or_app. left. apply in_map, in_or_app. right. left. reflexivity. }
    specialize (S2 IB ND eq_refl eq_refl).
    assert (P2 : Permutation (block_of (Holding pr p s') :: memory d') (block_of (Holding pr p s') :: map block_of (H1 ++ H2) ++ L)).
    { etransitivity; [symmetry; exact S2|]. etransitivity; [exact P|]. rewrite !map_app. cbn [map]. rewrite <- !app_assoc. cbn [app]. symmetry. apply Permutation_middle. }
    apply Permutation_cons_inv in P2. unfold tied. cbn [app]. split; [exact P2|]. split.
    + apply (Permutation_NoDup (Permutation_map b_ptr S2)) in ND. cbn [map] in ND. inversion ND; assumption.
    + intros b Hb. apply NZ. apply (Permutation_in _ (Permutation_sym S2)). right. exact Hb.
  - exact (tied_memory _ _ _ _ (N2 NS) T).
Qed.

Lemma drv_quiet : forall O d c code v d', allocates c = false -> (forall l, drop_any c l = l) -> drv O d c = (code, v, d') -> memory d' = memory d.
Proof.
  intros O d c code v d' A D H. destruct (drv_spec _ _ _ _ _ _ H) as (_ & _ & M & _). rewrite M.
  destruct (code =? 0); [|reflexivity]. rewrite D. destruct c; try reflexivity; discriminate A.
Qed.
Lemma step_other : forall O d H L o, match o with RAlloc _ _ _ | RFree _ _ => False | _ => True end -> tied d H L -> good_step O d H L o.
Proof.
  intros O d H L o Ho T.
  assert (HO : forall r q, holds H o r q H) by (intros; apply ho_other; exact Ho).
  assert (HU : forall r q H', holds H o r q H' -> H' = H) by (intros r q H' HH; inversion HH; subst; try reflexivity; destruct Ho).
  assert (FIN : forall r p d' l, serve O d o = Some (r, p, d') -> since d d' l -> memory d' = memory d ->
    (forall pr, of_request o = Some pr -> (context_calls_ok l -> current d' = current d) /\ (forall x y e, In (x, y, e) l -> acts y = true -> x = context pr)) ->
    good_step O d H L o).
  { intros r p d' l E S M X. exists r, p, d', l. split; [exact E|]. split; [exact S|]. split; [exists H; apply HO|]. split; [|exact X].
    intros H' HH. rewrite (HU _ _ _ HH). exists []. split; [exact (tied_memory _ _ _ _ M T)|reflexivity]. }
  destruct o as [pr s a|pr p|pr h|pr p|pr p|pr b|c]; try (destruct Ho; fail); cbn [serve of_request] in *.
  - rewrite cu_open_scoped in FIN. destruct (scoped O d pr (IpcOpen h)) as [[[r1 code] v] d1] eqn:S.
    destruct (scoped_spec _ _ _ _ _ _ _ _ (eq_refl : about_context (IpcOpen h) = false) S) as (l & TT & AC & CC & NS & SS).
    assert (M : memory d1 = memory d).
    { destruct (success_dec r1) as [X | X]; [|apply NS, X]. destruct (SS X) as (_ & M & _). rewrite M. destruct (code =? 0); reflexivity. }
    assert (Z : forall pr0, Some pr = Some pr0 -> (context_calls_ok l -> current d1 = current d) /\ (forall x y e, In (x, y, e) l -> acts y = true -> x = context pr0)).
    { intros pr0 E. injection E as <-. split; [intros K; apply CC, K|]. intros x y e I A. apply (AC x y e I); destruct y; try reflexivity; discriminate A. }
    destruct (is_success r1); exact (FIN _ _ _ l eq_refl TT M Z).
  - unfold cu_close_ipc in FIN. destruct (drv O d (IpcClose p)) as [[code v] d1] eqn:D. pose proof (drv_spec _ _ _ _ _ _ D) as (M & C & _).
    apply (FIN _ _ _ _ eq_refl (since_cons _ _ _ _ _ _ D)); [refine (drv_quiet _ _ _ _ _ _ _ _ D); [reflexivity | intros; reflexivity]|].
    intros pr0 E. split; [intros _; exact C|]. intros x y e [I|[]] A. injection I as _ <- _. discriminate A.
  - unfold cu_get_ipc in FIN. destruct (drv O d (IpcGet p)) as [[code v] d1] eqn:D. pose proof (drv_spec _ _ _ _ _ _ D) as (M & C & _).
    apply (FIN _ _ _ _ eq_refl (since_cons _ _ _ _ _ _ D)); [refine (drv_quiet _ _ _ _ _ _ _ _ D); [reflexivity | intros; reflexivity]|].
    intros pr0 E. split; [intros _; exact C|]. intros x y e [I|[]] A. injection I as _ <- _. discriminate A.
  - unfold cu_page_size in FIN. destruct (drv O d (Granularity (device pr) b)) as [[code v] d1] eqn:D. pose proof (drv_spec _ _ _ _ _ _ D) as (M & C & _).
    apply (FIN _ _ _ _ eq_refl (since_cons _ _ _ _ _ _ D)); [refine (drv_quiet _ _ _ _ _ _ _ _ D); [reflexivity | intros; reflexivity]|].
    intros pr0 E. split; [intros _; exact C|]. intros x y e [I|[]] A. injection I as _ <- _. discriminate A.
  - destruct (drv O d (SetCurrent c)) as [[code v] d1] eqn:D. pose proof (drv_spec _ _ _ _ _ _ D) as (M & C & _).
    apply (FIN _ _ _ _ eq_refl (since_cons _ _ _ _ _ _ D)); [refine (drv_quiet _ _ _ _ _ _ _ _ D); [reflexivity | intros; reflexivity]|]. intros pr0 E. discriminate E.
Qed.

Lemma step_ok : forall O d H L o, proper H o -> tied d H L -> good_step O d H L o.
Proof.
  intros O d H L o P T. destruct o as [pr s a|pr p|pr h|pr p|pr p|pr b|c]; cbn [proper] in P;
    [apply step_alloc; try apply P; assumption | apply step_free; try apply P; assumption | apply step_other; [exact I | assumption]..].
Qed.

Lemma history_ok : forall O d H os d' H', history O d H os d' H' -> forall L, tied d H L ->
  exists L' l, since d d' l /\ tied d' H' (L' ++ L) /\ (only_allocations_fail l -> L' = []).
Proof.
  intros O d H os d' H' HY. induction HY as [d H|d H o r p d1 H1 os d2 H2 P E HO HY IH]; intros L T.
  - exists [], []. split; [reflexivity|]. split; [exact T|reflexivity].
  - destruct (step_ok O d H L o P T) as (r' & p' & d1' & l & E' & S & _ & K & _). rewrite E in E'. injection E' as <- <- <-.
    destruct (K _ HO) as (L1 & T1 & Q1). destruct (IH _ T1) as (L2 & l2 & S2 & T2 & Q2).
    exists (L2 ++ L1), (l2 ++ l). split; [exact (since_app _ _ _ _ _ S S2)|]. split; [rewrite <- app_assoc; exact T2|].
    intros X. apply oaf_app in X as [X1 X2]. rewrite (Q1 X2), (Q2 X1). reflexivity.
Qed.

(* ---- creation ---- *)
Ltac bad H := injection H as <- <- <- <-; split; [reflexivity|]; split; [reflexivity|]; split; [discriminate|reflexivity].
Lemma initialize_ok : forall O d heap room loaded ps r pr heap' d', initialize O d heap room loaded ps = (r, pr, heap', d') ->
  memory d' = memory d /\ current d' = current d /\
  match pr with
  | None => r <> SUCCESS /\ heap' = heap
  | Some pr => r = SUCCESS /\ heap' = heap + 1 /\ exists p, ps = Some p /\
      context pr = p_context p /\ device pr = p_device p /\ mtype pr = p_type p /\ p_context p <> 0 /\ 0 <= p_device p /\
      p_type p <> MT_UNKNOWN /\ p_type p <= MT_SHARED /\
      made d' = (current d, Granularity (p_device p) false, 0) :: made d /\ snd (O (length (made d))) = min_alignment pr /\
      alloc_flags pr = (if (p_type p =? MT_SHARED) && (p_flags p =? 0) then CU_MEM_ATTACH_GLOBAL else p_flags p)
  end.
Proof.
  intros O d heap room loaded ps r pr heap' d' H. unfold initialize in H.
  destruct ps as [p|]; [|bad H].
  destruct ((p_type p =? MT_UNKNOWN) || (MT_SHARED <? p_type p)) eqn:C1; [bad H|].
  destruct (p_context p =? 0) eqn:C2; [bad H|].
  destruct (p_device p <? 0) eqn:C3; [bad H|].
  destruct loaded; cbn [negb] in H; [|bad H].
  destruct room; cbn [negb] in H; [|bad H].
  destruct (drv O d (Granularity (p_device p) false)) as [[c g] d1] eqn:D. pose proof (drv_spec _ _ _ _ _ _ D) as (M & C & _).
  pose proof (drv_quiet _ _ _ _ _ _ (eq_refl : allocates (Granularity (p_device p) false) = false) (fun l => eq_refl) D) as MM.
  destruct (c =? 0) eqn:E; cbn [negb] in H; injection H as <- <- <- <-; (split; [exact MM|]); (split; [exact C|]).
  - split; [reflexivity|]. split; [reflexivity|]. exists p. cbn [context device mtype min_alignment alloc_flags].
    apply Z.eqb_eq in E. subst c. unfold drv in D. destruct (O (length (made d))) as [c0 v0]. cbn [andb] in D.
    destruct (c0 =? 0) eqn:E0; [|injection D as X _ _; lia]. injection D as <- D.
    repeat split; try lia. exact M.
  - split; [intros X; apply cu2umf_ok in X; lia | lia].
Qed.

(* ---- the message ---- *)
Lemma strncat_fits : forall dst src, Z.of_nat (length dst) <= 1023 ->
  cu_strncat TLS_MSG_BUF_LEN (wrap (TLS_MSG_BUF_LEN - Z.of_nat (length dst) - 1)) dst src = Some (firstn 1023 (dst ++ src)).
Proof.
  intros dst src H. unfold cu_strncat, TLS_MSG_BUF_LEN, wrap. rewrite Z.mod_small by (unfold U64; lia).
  rewrite firstn_app. rewrite (firstn_all2 dst) by lia.
  assert (E : Z.to_nat (1024 - Z.of_nat (length dst) - 1) = (1023 - length dst)%nat) by lia. rewrite E.
  pose proof (firstn_le_length (1023 - length dst) src) as L.
  destruct (Z.of_nat (length dst + length (firstn (1023 - length dst) src)) <? 1024) eqn:X; [reflexivity|].
  exfalso. pose proof (firstn_length (1023 - length dst) src). lia.
Qed.
Lemma message_ok : forall name text dn dt sep nok tok,
  cu_message name text dn dt sep nok tok = Some (firstn 1023 ((if nok then name else dn) ++ sep ++ (if tok then text else dt))).
Proof.
  intros name text dn dt sep nok tok. unfold cu_message. unfold cu_strncpy at 1. change (TLS_MSG_BUF_LEN - 1 <=? TLS_MSG_BUF_LEN - 1) with true. cbv iota.
  set (n := if nok then name else dn). set (t := if tok then text else dt). replace (Z.to_nat (TLS_MSG_BUF_LEN - 1)) with 1023%nat by (vm_compute; reflexivity).
  rewrite strncat_fits by (rewrite firstn_length; lia).
  rewrite strncat_fits by (rewrite firstn_length; lia). f_equal.
  assert (G : forall k (a b : list Z), firstn k (firstn k a ++ b) = firstn k (a ++ b)).
  { intros k a b. rewrite !firstn_app, firstn_firstn, Nat.min_id, firstn_length. f_equal. 
    destruct (Nat.le_ge_cases (length a) k) as [X | X]; [rewrite Nat.min_r by exact X; reflexivity|].
    rewrite Nat.min_l by exact X. rewrite Nat.sub_diag. replace (k - length a)%nat with 0%nat by lia. reflexivity. }
  rewrite G. rewrite <- app_assoc. rewrite G. rewrite app_assoc. reflexivity.
Qed.

Lemma initialize_iff : forall O d heap room loaded ps r pr heap' d', initialize O d heap room loaded ps = (r, pr, heap', d') ->
  (r = SUCCESS <-> exists p, ps = Some p /\ p_type p <> MT_UNKNOWN /\ p_type p <= MT_SHARED /\ p_context p <> 0 /\ 0 <= p_device p /\
                   loaded = true /\ room = true /\ fst (O (length (made d))) = 0).
Proof.
  intros O d heap room loaded ps r pr heap' d' H. unfold initialize in H. destruct ps as [p|].
  2:{ injection H as <- _ _ _. split; [discriminate|]. intros (p & X & _). discriminate X. }
  assert (INV : forall e, e <> SUCCESS -> (e, @None provider, heap, d) = (r, pr, heap', d') -> r <> SUCCESS) by (intros e N X; injection X as <- _ _ _; exact N).
  destruct ((p_type p =? MT_UNKNOWN) || (MT_SHARED <? p_type p)) eqn:C1.
  { injection H as <- _ _ _. split; [discriminate|]. intros (q & X & ?). injection X as <-. lia. }
  destruct (p_context p =? 0) eqn:C2.
  { injection H as <- _ _ _. split; [discriminate|]. intros (q & X & ?). injection X as <-. lia. }
  destruct (p_device p <? 0) eqn:C3.
  { injection H as <- _ _ _. split; [discriminate|]. intros (q & X & ?). injection X as <-. lia. }
  destruct loaded; cbn [negb] in H.
  2:{ injection H as <- _ _ _. split; [discriminate|]. intros (q & X & _ & _ & _ & _ & Y & _). discriminate Y. }
  destruct room; cbn [negb] in H.
  2:{ injection H as <- _ _ _. split; [discriminate|]. intros (q & X & _ & _ & _ & _ & _ & Y & _). discriminate Y. }
  unfold drv in H. destruct (O (length (made d))) as [c0 v0]. cbn [andb fst] in *. destruct (c0 =? 0) eqn:E0.
  - injection H as <- _ _ _. split; [intros _; exists p; repeat split; lia | reflexivity].
  - rewrite E0 in H. cbn [negb] in H. injection H as <- _ _ _. split; [intros X; apply cu2umf_ok in X; lia|].
    intros (q & X & _ & _ & _ & _ & _ & _ & Y). lia.
Qed.
Lemma alloc_call : forall O d pr s a r p d', usable pr -> cu_alloc O d pr s a = Some (r, p, d') ->
  exists l, since d d' l /\ (forall x y e, In (x, y, e) l -> allocates y = true -> y = wanted pr s) /\
  (r = SUCCESS -> In (context pr, wanted pr s, 0) l) /\
  (r <> SUCCESS -> min_alignment pr < a \/ (exists x, In x l /\ failed x) \/ (r = ERR_INVALID_ALIGNMENT /\ 0 < a)).
Proof.
  intros O d pr s a r p d' U E. rewrite (cu_alloc_scoped _ _ _ _ _ U) in E. destruct (min_alignment pr <? a) eqn:Ma.
  { injection E as <- <- <-. exists []. split; [reflexivity|]. split; [intros x y e []|]. split; [discriminate|]. intros _. left. lia. }
  destruct (allocates_wanted pr s) as (AW & NC).
  destruct (scoped O d pr (wanted pr s)) as [[[r1 code] v] d1] eqn:S. destruct (scoped_spec _ _ _ _ _ _ _ _ NC S) as (l & TT & AC & CC & NS & SS).
  assert (AC' : forall x y e, In (x, y, e) l -> allocates y = true -> y = wanted pr s)
    by (intros x y e I A; apply (AC x y e I); destruct y; try reflexivity; discriminate A).
  destruct (is_success r1) eqn:E1.
  2:{ assert (X : r1 <> SUCCESS) by (intros ->; discriminate E1). injection E as <- <- <-. exists l. split; [exact TT|]. split; [exact AC'|].
      split; [intros Y; contradiction|]. intros _. right. left.
      assert (F : ~ (forall x, In x l -> snd x = 0)).
      { intros K. apply X. apply CC. intros c y e I _. exact (K _ I). }
      clear - F. induction l as [|x l IH]; [exfalso; apply F; intros ? []|]. destruct (Z.eq_dec (snd x) 0) as [Z|Z].
      - destruct IH as (y & Iy & Fy); [intros K; apply F; intros y [<-|I]; [exact Z|exact (K y I)]|]. exists y. split; [right; exact Iy|exact Fy].
      - exists x. split; [left; reflexivity|exact Z]. }
  apply is_success_spec in E1. destruct (SS E1) as (I & M & FR & _).
  destruct (code =? 0) eqn:Z0; cbn [negb] in E.
  2:{ injection E as <- <- <-. exists l. split; [exact TT|]. split; [exact AC'|]. split; [intros X; apply cu2umf_ok in X; lia|].
      intros _. right. left. exists (context pr, wanted pr s, code). split; [exact I|]. unfold failed. cbn [snd]. lia. }
  apply Z.eqb_eq in Z0. subst code. destruct (FR eq_refl AW) as (V0 & _).
  destruct ((0 <? a) && negb (v mod a =? 0)) eqn:AL; injection E as <- <- <-.
  - destruct (cu_free O d1 pr v) as [r2 d2] eqn:F. cbn [snd].
    rewrite (cu_free_scoped _ _ _ _ U V0) in F. destruct (free_call_spec pr v U) as (c & Ec & NC' & NA & _). rewrite Ec in F.
    destruct (scoped O d1 pr c) as [[[r3 code] v3] d3] eqn:S3. destruct (scoped_spec _ _ _ _ _ _ _ _ NC' S3) as (l3 & T3 & AC3 & _).
    assert (X : d2 = d3) by (destruct (is_success r3); injection F as _ <-; reflexivity). subst d3.
    exists (l3 ++ l). split; [exact (since_app _ _ _ _ _ TT T3)|]. split.
    + intros x y e II A. apply in_app_or in II as [II | II]; [|exact (AC' x y e II A)].
      assert (N : about_context y = false) by (destruct y; try reflexivity; discriminate A). destruct (AC3 x y e II N) as (_ & -> & _). congruence.
    + split; [discriminate|]. intros _. right. right. split; [reflexivity|lia].
  - exists l. split; [exact TT|]. split; [exact AC'|]. split; [intros _; exact I|]. intros X. contradiction X. reflexivity.
Qed.
