(* C40: the malloc replacement frees every pointer with the allocator that produced it.
   [preached dbg c w v]: the library after any history of legal calls, and the live blocks
   it produced, with any legal answers of the system allocator, of the pool and of the OS. *)
From Verif Require Import Base Model_Utils Spec_Utils Model_BaseAlloc Spec_BaseAlloc Model_Proxy Spec_Proxy Proof_Proxy Proof_ProxyStep Proof_ProxyApi Proof_ProxyMain.

(* Live blocks never overlap, whoever produced them. *)
Theorem C40_apart : forall dbg c w v k p n k' p' n', machine c -> lfits c LEAK_SIZE -> preached dbg c w v -> made v k p n -> made v k' p' n' ->
  (k = k' /\ p = p' /\ n = n') \/ apart p (extent n) p' (extent n').
Proof. intros dbg c w v k p n k' p' n' M F R. exact (live_apart dbg c M F w v k p n k' p' n' (preached_pinv dbg c M F w v R)). Qed.
Print Assumptions C40_apart.
(* malloc, calloc and aligned_alloc: what they return is a new block of the size asked for,
   aligned if so asked, and every other block stays. *)
Theorem C40_malloc : forall dbg c w v i n a r l w', machine c -> lfits c LEAK_SIZE -> preached dbg c w v -> room c n -> pstep dbg c w (CMalloc i n) a = Some (r, l, w') -> acts_ok (k_page c) v l ->
  (r <> 0 -> exists k, made (applies v l) k r n) /\ (forall k q m, made v k q m -> made (applies v l) k q m).
Proof. intros dbg c w v i n a r l w' M F R RM E OK. exact (proj2 (malloc_spec dbg c M F w v i n a r l w' (preached_pinv dbg c M F w v R) RM E OK)). Qed.
Print Assumptions C40_malloc.
Theorem C40_calloc : forall dbg c w v i n s a r l w', machine c -> lfits c LEAK_SIZE -> preached dbg c w v -> 0 <= n -> 0 <= s -> room c (n * s) -> pstep dbg c w (CCalloc i n s) a = Some (r, l, w') -> acts_ok (k_page c) v l ->
  (r <> 0 -> exists k, made (applies v l) k r (n * s)) /\ (forall k q m, made v k q m -> made (applies v l) k q m).
Proof. intros dbg c w v i n s a r l w' M F R N S RM E OK. exact (proj2 (calloc_spec dbg c M F w v i n s a r l w' (preached_pinv dbg c M F w v R) N S RM E OK)). Qed.
Print Assumptions C40_calloc.
Theorem C40_aligned : forall dbg c w v i al n a r l w', machine c -> lfits c LEAK_SIZE -> preached dbg c w v -> power_of_two al -> 0 <= n -> room c (n + al) -> pstep dbg c w (CAligned i al n) a = Some (r, l, w') -> acts_ok (k_page c) v l ->
  (r <> 0 -> exists k, made (applies v l) k r n) /\ (r <> 0 -> multiple_of r al) /\ (forall k q m, made v k q m -> made (applies v l) k q m).
Proof. intros dbg c w v i al n a r l w' M F R AL N RM E OK. exact (proj2 (aligned_spec dbg c M F w v i al n a r l w' (preached_pinv dbg c M F w v R) AL N RM E OK)). Qed.
Print Assumptions C40_aligned.
(* free of a live block: only its maker hears of it, and every other block stays. *)
Theorem C40_free : forall dbg c w v k p n a r l w', machine c -> lfits c LEAK_SIZE -> preached dbg c w v -> made v k p n -> pstep dbg c w (CFree p) a = Some (r, l, w') -> acts_ok (k_page c) v l ->
  deeds l = [match k with By o => AGone o p | Boot => ALeakGone p end] /\ ~ made (applies v l) k p n /\ (forall k' q m, made v k' q m -> q <> p -> made (applies v l) k' q m).
Proof. intros dbg c w v k p n a r l w' M F R MD E OK. destruct (free_spec dbg c M F w v k p n a r l w' (preached_pinv dbg c M F w v R) MD E OK) as (_ & A & B & C). split; [exact A|]. split; [exact C|exact B]. Qed.
Print Assumptions C40_free.
(* realloc to zero bytes is free, of NULL is malloc. *)
Theorem C40_realloc_edges : forall dbg c w i p n a, pstep dbg c w (CRealloc i 0 n) a = pstep dbg c w (CMalloc i n) a /\ (p <> 0 -> pstep dbg c w (CRealloc i p 0) a = pstep dbg c w (CFree p) a).
Proof. intros dbg c w i p n a. split; [reflexivity|]. intros N. cbn [pstep]. unfold p_realloc. rewrite (proj2 (Z.eqb_neq p 0) N). reflexivity. Qed.
Print Assumptions C40_realloc_edges.
(* realloc of a live block: only its maker hears of it.  The system and the pool move it
   themselves.  The bootstrap allocator makes a new block, copies at least the smaller of the
   two sizes, never reads outside its memory, and lets the old block go.  On failure the old
   block stays. *)
Theorem C40_realloc : forall dbg c w v i k p old n a r l w', machine c -> lfits c LEAK_SIZE -> preached dbg c w v -> made v k p old -> n <> 0 -> room c n -> pstep dbg c w (CRealloc i p n) a = Some (r, l, w') -> acts_ok (k_page c) v l ->
  match k with
  | By o => deeds l = [AMoved o p n r]
  | Boot => (r = 0 /\ deeds l = []) \/
      (r <> 0 /\ exists cnt, deeds l = [ALeak n r r n; ACopy r p cnt; ALeakGone p] /\ Z.min old n <= cnt <= n /\ exists q m, In (q, m) (v_mem v) /\ q <= p /\ p + cnt <= q + m)
  end /\ (forall k' q m, made v k' q m -> q <> p -> made (applies v l) k' q m) /\ (r <> 0 -> made (applies v l) k r n) /\ (r = 0 -> made (applies v l) k p old).
Proof. intros dbg c w v i k p old n a r l w' M F R MD N RM E OK. exact (proj2 (realloc_spec dbg c M F w v i k p old n a r l w' (preached_pinv dbg c M F w v R) MD N RM E OK)). Qed.
Print Assumptions C40_realloc.
(* usable size: only the maker is asked. *)
Theorem C40_usable : forall dbg c w v k p n a r l w', machine c -> lfits c LEAK_SIZE -> preached dbg c w v -> made v k p n -> p <> 1 -> pstep dbg c w (CUsable p) a = Some (r, l, w') -> acts_ok (k_page c) v l ->
  (forall k' q m, made v k' q m -> made (applies v l) k' q m) /\ match k with By o => deeds l = [AAsked o p r] /\ n <= r | Boot => r = 0 /\ deeds l = [] end.
Proof. intros dbg c w v k p n a r l w' M F R MD N E OK. exact (proj2 (usable_spec dbg c M F w v k p n a r l w' (preached_pinv dbg c M F w v R) MD N E OK)). Qed.
Print Assumptions C40_usable.
(* No legal call fails an assertion or has undefined behaviour, if the bootstrap allocator
   gets its first memory. *)
Theorem C40_defined : forall dbg c w v k a, machine c -> lfits c LEAK_SIZE -> preached dbg c w v -> call_ok c w v k -> os_fair dbg c w v k a -> exists r l w', pstep dbg c w k a = Some (r, l, w').
Proof. intros dbg c w v k a M F R. exact (step_total dbg c M F w v k a (preached_pinv dbg c M F w v R)). Qed.
Print Assumptions C40_defined.

(* ---- a history ---- *)
Definition c0 : consts := Consts 4096 64 40 96.
Lemma c0_machine : machine c0.
Proof. split; cbn; [split; [exists 12; split; [lia|reflexivity]|lia]|exists 8; lia|exists 12; lia|lia]. Qed.
Lemma c0_fits : lfits c0 LEAK_SIZE. Proof. split; vm_compute; discriminate. Qed.
Definition an (p n : Z) (rs : list (Z * Z)) : ans := Ans p n rs (Some 1048576) None.
Definition rs1 : list (Z * Z) := [(16777216, 65536)].
Definition lin0 (d lf n : Z) : linear := Linear 1048576 4198400 d lf n [] 1.
Definition mem0 : list (Z * Z) := [(1048576, 4198400)].
Ltac legal := cbn; unfold room, new_block, fresh_mem, clear_of, multiple_of, apart, extent; cbn;
  repeat match goal with
  | |- _ /\ _ => split
  | |- True => exact I
  | |- forall _, _ => let X := fresh "X" in intro X
  | X : _ \/ _ |- _ => destruct X
  | X : False |- _ => destruct X
  | X : (_, _) = (_, _) |- _ => injection X; clear X; intros; subst
  | X : Sys = Pool |- _ => discriminate X
  | X : Pool = Sys |- _ => discriminate X
  end; try lia; try reflexivity; try (exists 256; reflexivity).
Definition w2 : proxy := Proxy (Some (lin0 1048776 4198200 1)) 0 false [].
Definition v2 : view := View [] [((1048672, 100), (1048672, 100))] mem0 [].
Lemma booted : preached true c0 w2 v2.
Proof.
  refine (preached_step true c0 x_start v_start (CMalloc false 100) (an 0 0 []) 1048672 [AOs (OsAlloc 1048576 4198400); ALeak 100 1048672 1048672 100] w2 (preached_start true c0) _ _ _); [legal|vm_compute; reflexivity|legal].
Qed.
(* The library starts with a block from the bootstrap allocator and one aligned block from
   inside the pool's code.  A threshold of 64 bytes and the pool come up, and then a pool
   block, a block of the system, and a realloc of each kind. *)
Definition lin (d lf n : Z) : option linear := Some (Linear 1048576 4198400 d lf n [] 1).
Lemma next : forall w v k a r l w' v', preached true c0 w v -> call_ok c0 w v k -> pstep true c0 w k a = Some (r, l, w') -> acts_ok 4096 v l -> v' = applies v l -> preached true c0 w' v'.
Proof. intros w v k a r l w' v' R K E OK ->. exact (preached_step true c0 w v k a r l w' R K E OK). Qed.
Example C40_history : preached true c0 (Proxy (lin 1049352 4197624 2) 64 true rs1) (View [(Sys, (9000064, 30))] [((1049048, 300), (1049048, 300)); ((1048832, 10), (1048776, 266))] mem0 rs1).
Proof.
  assert (H2 : preached true c0 (Proxy (lin 1049048 4197928 2) 0 false []) (View [] [((1048832, 10), (1048776, 266)); ((1048672, 100), (1048672, 100))] mem0 [])).
  { refine (next _ _ (CAligned true 256 10) (an 0 0 []) 1048832 [ALeak 10 1048832 1048776 266] _ _ booted _ _ _ eq_refl); [|vm_compute; reflexivity|legal]. split; [exists 8; split; [lia|reflexivity]|]. legal. }
  assert (H3 : preached true c0 (Proxy (lin 1049048 4197928 2) 64 false []) (View [] [((1048832, 10), (1048776, 266)); ((1048672, 100), (1048672, 100))] mem0 [])).
  { refine (next _ _ (CThreshold 64) (an 0 0 []) 0 [] _ _ H2 _ _ _ eq_refl); [legal|vm_compute; reflexivity|legal]. }
  assert (H4 : preached true c0 (Proxy (lin 1049048 4197928 2) 64 true []) (View [] [((1048832, 10), (1048776, 266)); ((1048672, 100), (1048672, 100))] mem0 [])).
  { refine (next _ _ CPool (an 0 0 []) 0 [AMap []] _ _ H3 _ _ _ eq_refl); [reflexivity|vm_compute; reflexivity|legal]. }
  assert (H5 : preached true c0 (Proxy (lin 1049048 4197928 2) 64 true rs1) (View [(Pool, (16777280, 200))] [((1048832, 10), (1048776, 266)); ((1048672, 100), (1048672, 100))] mem0 rs1)).
  { refine (next _ _ (CMalloc false 200) (an 16777280 0 rs1) 16777280 [AGot Pool (Malloc 200) 16777280; AMap rs1] _ _ H4 _ _ _ eq_refl); [legal|vm_compute; reflexivity|]. split; [right; legal|]. split; [|exact I]. split; [legal|]. intros p n X. cbn in X. legal. exists 16777216, 65536. legal. left. reflexivity. }
  assert (H6 : preached true c0 (Proxy (lin 1049048 4197928 2) 64 true rs1) (View [(Sys, (9000000, 10)); (Pool, (16777280, 200))] [((1048832, 10), (1048776, 266)); ((1048672, 100), (1048672, 100))] mem0 rs1)).
  { refine (next _ _ (CMalloc false 10) (an 9000000 0 rs1) 9000000 [AGot Sys (Malloc 10) 9000000] _ _ H5 _ _ _ eq_refl); [legal|vm_compute; reflexivity|]. split; [right; legal|exact I]. }
  assert (H7 : preached true c0 (Proxy (lin 1049352 4197624 2) 64 true rs1) (View [(Sys, (9000000, 10)); (Pool, (16777280, 200))] [((1049048, 300), (1049048, 300)); ((1048832, 10), (1048776, 266))] mem0 rs1)).
  { refine (next _ _ (CRealloc false 1048672 300) (an 0 0 []) 1049048 [ALeak 300 1049048 1049048 300; ACopy 1049048 1048672 300; ALeakGone 1048672] _ _ H6 _ _ _ eq_refl); [|vm_compute; reflexivity|legal]. split; [legal|]. right. exists Boot, 100, 1048672, 100. cbn. auto. }
  assert (H8 : preached true c0 (Proxy (lin 1049352 4197624 2) 64 true rs1) (View [(Sys, (9000064, 30)); (Pool, (16777280, 200))] [((1049048, 300), (1049048, 300)); ((1048832, 10), (1048776, 266))] mem0 rs1)).
  { refine (next _ _ (CRealloc false 9000000 30) (an 9000064 0 []) 9000064 [AMoved Sys 9000000 30 9000064] _ _ H7 _ _ _ eq_refl); [|vm_compute; reflexivity|]. - split; [legal|]. right. exists (By Sys), 10. cbn. auto. - split; [right; legal|exact I]. }
  refine (next _ _ (CFree 16777280) (an 0 0 rs1) 0 [AGone Pool 16777280; AMap rs1] _ _ H8 _ _ _ eq_refl); [|vm_compute; reflexivity|legal]. right. exists (By Pool), 200. cbn. auto.
Qed.

(* ---- what does not hold ---- *)
(* calloc of an overflowing product gives a small block. *)
Theorem C40_calloc_refuted : ~ (forall dbg c w v i n s a r l w', machine c -> lfits c LEAK_SIZE -> preached dbg c w v -> is_word n -> is_word s -> pstep dbg c w (CCalloc i n s) a = Some (r, l, w') -> acts_ok (k_page c) v l ->
  r <> 0 -> exists k m, made (applies v l) k r m /\ n * s <= m).
Proof.
  intros W.
  assert (A1 : is_word (2 ^ 61 + 2)) by (vm_compute; split; [discriminate|reflexivity]).
  assert (A2 : is_word 8) by (vm_compute; split; [discriminate|reflexivity]).
  assert (A3 : pstep true c0 w2 (CCalloc false (2 ^ 61 + 2) 8) (an 0 0 []) = Some (1048776, [ALeak 16 1048776 1048776 16], Proxy (lin 1048792 4198184 2) 0 false [])) by (vm_compute; reflexivity).
  assert (A4 : acts_ok (k_page c0) v2 [ALeak 16 1048776 1048776 16]) by legal.
  destruct (W true c0 w2 v2 false (2 ^ 61 + 2) 8 (an 0 0 []) 1048776 _ _ c0_machine c0_fits booted A1 A2 A3 A4) as (k & m & MD & L); [discriminate|].
  destruct k as [o|]; cbn in MD; [destruct MD|]. destruct MD as (x & s & [E|[E|[]]]); injection E as E1 E2; subst; vm_compute in L; apply L; reflexivity.
Qed.
Print Assumptions C40_calloc_refuted.
(* With the pool too: it is asked for the product in 64 bits. *)
Lemma pooled : preached true c0 (Proxy (lin 1048776 4198200 1) 0 true rs1) (View [] [((1048672, 100), (1048672, 100))] mem0 rs1).
Proof. refine (next _ _ CPool (an 0 0 rs1) 0 [AMap rs1] _ _ booted _ _ _ eq_refl); [reflexivity|vm_compute; reflexivity|legal]. Qed.
Theorem C40_pool_calloc_refuted : ~ (forall dbg c w v i n s a r l w', machine c -> lfits c LEAK_SIZE -> preached dbg c w v -> x_pool w = true -> is_word n -> is_word s -> pstep dbg c w (CCalloc i n s) a = Some (r, l, w') -> acts_ok (k_page c) v l ->
  r <> 0 -> exists k m, made (applies v l) k r m /\ n * s <= m).
Proof.
  intros W.
  assert (A1 : is_word (2 ^ 61 + 2)) by (vm_compute; split; [discriminate|reflexivity]).
  assert (A2 : is_word 8) by (vm_compute; split; [discriminate|reflexivity]).
  assert (A3 : pstep true c0 (Proxy (lin 1048776 4198200 1) 0 true rs1) (CCalloc false (2 ^ 61 + 2) 8) (an 16777280 0 rs1) = Some (16777280, [AGot Pool (Calloc (2 ^ 61 + 2) 8) 16777280; AMap rs1], Proxy (lin 1048776 4198200 1) 0 true rs1)) by (vm_compute; reflexivity).
  assert (BY : bytes Pool (Calloc (2 ^ 61 + 2) 8) = 16) by (vm_compute; reflexivity).
  set (v := View [] [((1048672, 100), (1048672, 100))] mem0 rs1) in *.
  assert (AP : apply v (AGot Pool (Calloc (2 ^ 61 + 2) 8) 16777280) = View [(Pool, (16777280, 16))] [((1048672, 100), (1048672, 100))] mem0 rs1) by (unfold apply; rewrite BY; reflexivity).
  assert (A4 : acts_ok (k_page c0) v [AGot Pool (Calloc (2 ^ 61 + 2) 8) 16777280; AMap rs1]).
  { cbn [acts_ok]. rewrite AP. split; [right; split; [rewrite BY; legal|exact I]|]. split; [|exact I]. split; [legal|]. intros p n X. cbn in X. legal. exists 16777216, 65536. legal. left. reflexivity. }
  destruct (W true c0 _ v false (2 ^ 61 + 2) 8 (an 16777280 0 rs1) 16777280 _ _ c0_machine c0_fits pooled eq_refl A1 A2 A3 A4) as (k & m & MD & L); [discriminate|].
  unfold applies in MD. cbn [fold_left] in MD. rewrite AP in MD. destruct k as [o|]; cbn in MD; [destruct MD as [E|[]]; injection E as E1 E2; subst; vm_compute in L; apply L; reflexivity|]. destruct MD as (x & s & [E|[]]); discriminate.
Qed.
Print Assumptions C40_pool_calloc_refuted.
(* aligned_alloc adds the alignment to the size without a check: the block is too small. *)
Theorem C40_aligned_refuted : ~ (forall dbg c w v i al n a r l w' p x s, machine c -> lfits c LEAK_SIZE -> preached dbg c w v -> power_of_two al -> is_word n -> pstep dbg c w (CAligned i al n) a = Some (r, l, w') -> acts_ok (k_page c) v l ->
  In (ALeak n p x s) l -> p + n <= x + s).
Proof.
  intros W.
  assert (A0 : power_of_two 64) by (exists 6; split; [lia|reflexivity]).
  assert (A1 : is_word (2 ^ 64 - 32)) by (vm_compute; split; [discriminate|reflexivity]).
  assert (A3 : pstep true c0 w2 (CAligned false 64 (2 ^ 64 - 32)) (an 0 0 []) = Some (1048832, [ALeak (2 ^ 64 - 32) 1048832 1048776 32], Proxy (lin 1048808 4198168 2) 0 false [])) by (vm_compute; reflexivity).
  assert (A4 : acts_ok (k_page c0) v2 [ALeak (2 ^ 64 - 32) 1048832 1048776 32]) by (split; exact I).
  pose proof (W true c0 w2 v2 false 64 (2 ^ 64 - 32) (an 0 0 []) 1048832 _ _ 1048832 1048776 32 c0_machine c0_fits booted A0 A1 A3 A4 (or_introl eq_refl)) as L. vm_compute in L. apply L. reflexivity.
Qed.
Print Assumptions C40_aligned_refuted.
(* realloc of a bootstrap block copies between overlapping areas. *)
Theorem C40_copy_refuted : ~ (forall dbg c w v i p n a r l w' dst src cnt, machine c -> lfits c LEAK_SIZE -> preached dbg c w v -> call_ok c w v (CRealloc i p n) -> pstep dbg c w (CRealloc i p n) a = Some (r, l, w') -> acts_ok (k_page c) v l ->
  In (ACopy dst src cnt) l -> apart dst cnt src cnt).
Proof.
  intros W. assert (X : apart 1048776 300 1048672 300).
  { refine (W true c0 w2 v2 false 1048672 300 (an 0 0 []) 1048776 [ALeak 300 1048776 1048776 300; ACopy 1048776 1048672 300; ALeakGone 1048672] (Proxy (lin 1049080 4197896 1) 0 false []) 1048776 1048672 300 c0_machine c0_fits booted _ _ _ _); [|vm_compute; reflexivity|legal|right; left; reflexivity]. split; [legal|]. right. exists Boot, 100, 1048672, 100. left. reflexivity. }
  unfold apart in X. lia.
Qed.
Print Assumptions C40_copy_refuted.
(* The usable size of a bootstrap block is reported as 0. *)
Theorem C40_usable_refuted : ~ (forall dbg c w v k p n a r l w', machine c -> lfits c LEAK_SIZE -> preached dbg c w v -> made v k p n -> pstep dbg c w (CUsable p) a = Some (r, l, w') -> acts_ok (k_page c) v l -> n <= r).
Proof. intros W. assert (X : 100 <= 0); [|lia]. refine (W true c0 w2 v2 Boot 1048672 100 (an 0 0 []) 0 [] w2 c0_machine c0_fits booted _ _ _); [exists 1048672, 100; left; reflexivity|vm_compute; reflexivity|exact I]. Qed.
Print Assumptions C40_usable_refuted.
(* Without memory for the bootstrap allocator even free of a system block is undefined. *)
Theorem C40_no_memory_refuted : ~ (forall dbg c w v k a, machine c -> lfits c LEAK_SIZE -> preached dbg c w v -> call_ok c w v k -> pstep dbg c w k a <> None).
Proof. intros W. refine (W true c0 x_start v_start (CMalloc false 100) (Ans 0 0 [] None None) c0_machine c0_fits (preached_start true c0) _ _); [legal|vm_compute; reflexivity]. Qed.
Print Assumptions C40_no_memory_refuted.
(* A library that is not preloaded destroys its pool at exit; with a threshold a block of the
   pool is then freed by the system. *)
Theorem C40_destroyed_refuted : ~ (forall dbg c w v k p n a r l w', machine c -> lfits c LEAK_SIZE -> preached dbg c w v -> made v k p n -> forall a0 r0 l0 w0, pstep dbg c w CDestroy a0 = Some (r0, l0, w0) -> pstep dbg c w0 (CFree p) a = Some (r, l, w') ->
  deeds l <> [AGone (match k with By Pool => Sys | _ => Pool end) p]).
Proof.
  intros W.
  assert (H3 : preached true c0 (Proxy (lin 1048776 4198200 1) 64 false []) v2) by (refine (next _ _ (CThreshold 64) (an 0 0 []) 0 [] _ _ booted _ _ _ eq_refl); [legal|vm_compute; reflexivity|legal]).
  assert (H4 : preached true c0 (Proxy (lin 1048776 4198200 1) 64 true []) v2) by (refine (next _ _ CPool (an 0 0 []) 0 [AMap []] _ _ H3 _ _ _ eq_refl); [reflexivity|vm_compute; reflexivity|legal]).
  assert (H5 : preached true c0 (Proxy (lin 1048776 4198200 1) 64 true rs1) (View [(Pool, (16777280, 200))] [((1048672, 100), (1048672, 100))] mem0 rs1)).
  { refine (next _ _ (CMalloc false 200) (an 16777280 0 rs1) 16777280 [AGot Pool (Malloc 200) 16777280; AMap rs1] _ _ H4 _ _ _ eq_refl); [legal|vm_compute; reflexivity|]. split; [right; legal|]. split; [|exact I]. split; [legal|]. intros p n X. cbn in X. legal. exists 16777216, 65536. legal. left. reflexivity. }
  refine (W true c0 _ _ (By Pool) 16777280 200 (an 0 0 []) 0 [AGone Sys 16777280] (Proxy (lin 1048776 4198200 1) 64 false []) c0_machine c0_fits H5 _ (an 0 0 []) 0 [AMap []] (Proxy (lin 1048776 4198200 1) 64 false []) _ _ _); [left; reflexivity|vm_compute; reflexivity|vm_compute; reflexivity|reflexivity].
Qed.
Print Assumptions C40_destroyed_refuted.
