(* Theorems about the OS memory provider (one call at a time). *)
From Verif Require Import Base Model_Utils Spec_Utils Model_OsNuma Model_OsProvider Spec_OsProvider Proof_OsProvider Proof_OsHistory Proof_OsPaged.

(* C28.  In every history, for every size, alignment, page size and address chosen
   by the kernel (nothing wraps): a successful allocation is aligned to the
   alignment and to pages, and afterwards exactly the pages of the requested range
   are mapped in addition to what was mapped before; a failed one leaves the address
   space as it was; whatever was unmapped on the way was part of the mapping just
   created.  If no bind call fails, it succeeds exactly when the alignment is
   permitted, mmap succeeded and the file is large enough. *)
Theorem os_alloc_exact : forall dbg page strict shared u m0 w size al mm be r p ev s', power_of_two page -> reached dbg page strict (fresh shared u m0) w ->
  0 < size -> 0 <= al -> size + al + page <= 2 ^ 63 -> os_alloc dbg page (w_os w) size al mm be = Some (r, p, ev, s') -> kernel page (w_mem w) ev ->
  (r = SUCCESS -> p mod page = 0 /\ (0 < al -> p mod al = 0) /\ gained page (w_mem w) (after_all page (w_mem w) ev) p size) /\
  (r <> SUCCESS -> same (w_mem w) (after_all page (w_mem w) ev)) /\
  (forall q n ok x, In (Munmap q n ok) ev -> q mod page = 0 /\ 0 < n /\ (within page q n x = true -> exists a len off, In (Mmap a len off) ev /\ within page a len x = true)) /\
  (be = None -> (r = SUCCESS <-> (al = 0 \/ al mod page = 0 \/ page mod al = 0) /\ mm <> None /\ (o_fd (w_os w) = true -> o_size (w_os w) + (if page <? al then size + al else size) <= o_max (w_os w)))).
Proof. exact alloc_exact. Qed.
Print Assumptions os_alloc_exact.

(* C28.  The asserts of the trimming code hold in every such call: a build with
   asserts does the same as one without. *)
Theorem os_alloc_asserts : forall page strict shared u m0 w size al mm be x, power_of_two page -> reached false page strict (fresh shared u m0) w ->
  0 < size -> 0 <= al -> size + al + page <= 2 ^ 63 -> os_alloc false page (w_os w) size al mm be = Some x -> kernel page (w_mem w) (snd (fst x)) ->
  os_alloc true page (w_os w) size al mm be = Some x.
Proof. exact asserts_hold. Qed.
Print Assumptions os_alloc_asserts.

(* C60.  In every history of allocations, frees, splits at page boundaries and merges
   the pages of the live allocations are disjoint and mapped, and the statistic of
   allocated memory is the sum of the live sizes. *)
Theorem os_history_exact : forall dbg page strict shared u m0 w, power_of_two page -> reached dbg page strict (fresh shared u m0) w ->
  (forall i j b c x, i <> j -> nth_error (w_live w) i = Some b -> nth_error (w_live w) j = Some c -> within page (fst b) (snd b) x = true -> within page (fst c) (snd c) x = false) /\
  (forall x, covered page (w_live w) x -> w_mem w x <> None) /\ o_allocated (w_os w) = sizes (w_live w).
Proof. exact history_exact. Qed.
Print Assumptions os_history_exact.

(* C61.  Shared memory: distinct bytes of live allocations are distinct bytes of the
   file, for all alignments and whatever was freed, split or merged. *)
Theorem os_shared_no_alias : forall dbg page strict u m0 w x y, power_of_two page -> reached dbg page strict (fresh true u m0) w -> covered page (w_live w) x -> covered page (w_live w) y ->
  (exists o, w_mem w x = Some (File o) /\ 0 <= o < up page (o_size (w_os w))) /\ (w_mem w x = w_mem w y -> x = y).
Proof. exact no_alias. Qed.
Print Assumptions os_shared_no_alias.

(* C33, the OS provider.  Partial: only for histories in which no alignment exceeds
   the page size and merges only undo splits.  Then every live allocation has an IPC
   handle, the file offset in it is legal for mmap, and a process that opens the
   handle sees the bytes of the allocation. *)
Theorem os_ipc_same_bytes_partial : forall dbg page u m0 w p size n, power_of_two page -> reached dbg page true (fresh true u m0) w -> In (p, size) (w_live w) -> 0 < n <= size ->
  exists d, os_get_ipc_handle (w_os w) p n = (SUCCESS, Some d) /\ i_off d mod page = 0 /\ 0 <= i_off d < 2 ^ 63 /\
    forall mc a r q ev, os_open_ipc_handle d (Some a) = (r, q, ev) ->
      r = SUCCESS /\ q = a /\ forall i, 0 <= i < n -> after_all page mc ev (a + i) = w_mem w (p + i).
Proof. exact ipc_bytes. Qed.
Print Assumptions os_ipc_same_bytes_partial.

(* ---------------- concrete histories ---------------- *)
Definition plain : numa := Numa M_DEFAULT [[0]] 0 0 [] 0.
Definition nothing : memory := fun _ => None.
Lemma pow2_4096 : power_of_two 4096.
Proof. exists 12. split; [lia|reflexivity]. Qed.

(* 4096 bytes aligned to 8192, and mmap answers with an odd page *)
Definition s_over : osp := Osp true get_max_file_size 12288 [(16384, 1)] plain 4096 4096.
Definition e_over : list sys := [Mmap 12288 12288 (Some 0); Munmap 12288 4096 true; Munmap 20480 4096 true].
Example alloc_over : os_alloc true 4096 (os_created true plain) 4096 8192 (Some 12288) None = Some (SUCCESS, 16384, e_over, s_over).
Proof. reflexivity. Qed.
Lemma kernel_over : kernel 4096 nothing e_over.
Proof. cbn [e_over kernel mmap_legal]. repeat split; try reflexivity; try (change (up 4096 12288) with 12288; lia). Qed.
Lemma reached_over : forall dbg, reached dbg 4096 false (fresh true plain nothing) (World s_over (after_all 4096 nothing e_over) [(16384, 4096)]).
Proof.
  intros dbg. eapply reached_step; [apply reached_start|].
  apply (st_alloc dbg 4096 false (os_created true plain) nothing [] 4096 8192 (Some 12288) None SUCCESS 16384 e_over s_over); try lia; try discriminate.
  - destruct dbg; reflexivity.
  - exact kernel_over.
Qed.
(* the theorem applied to it *)
Example over_exact : 16384 mod 8192 = 0 /\ gained 4096 nothing (after_all 4096 nothing e_over) 16384 4096.
Proof.
  destruct (os_alloc_exact true 4096 false true plain nothing (fresh true plain nothing) 4096 8192 (Some 12288) None SUCCESS 16384 e_over s_over pow2_4096) as [A _]; try lia.
  - apply reached_start.
  - reflexivity.
  - exact kernel_over.
  - destruct (A eq_refl) as (_ & B & C). split; [apply B; lia|exact C].
Qed.

(* C33 is false for larger alignments: the handle names the start of the mapping
   before it was trimmed.  Here the consumer sees byte 0 of the file where the
   allocation shows byte 4096. *)
Theorem os_ipc_overaligned_refuted : exists w p size d, (forall dbg, reached dbg 4096 false (fresh true plain nothing) w) /\ In (p, size) (w_live w) /\
  os_get_ipc_handle (w_os w) p size = (SUCCESS, Some d) /\
  forall mc a r q ev, os_open_ipc_handle d (Some a) = (r, q, ev) -> after_all 4096 mc ev q = Some (File 0) /\ w_mem w p = Some (File 4096).
Proof.
  exists (World s_over (after_all 4096 nothing e_over) [(16384, 4096)]), 16384, 4096, (Ipc 0 4096).
  split; [exact reached_over|]. split; [left; reflexivity|]. split; [reflexivity|]. intros mc a r q ev H. injection H as <- <- <-. split; [|reflexivity].
  cbn [after_all fold_left after i_off i_size]. assert (W : within 4096 a 4096 a = true). { unfold within. change (up 4096 4096) with 4096. lia. } rewrite W. do 2 f_equal. lia.
Qed.
Print Assumptions os_ipc_overaligned_refuted.

(* two allocations of a page; the second lands right below the first *)
Definition s_one : osp := Osp true get_max_file_size 4096 [(8192, 1)] plain 4096 4096.
Definition s_two : osp := Osp true get_max_file_size 8192 [(4096, 4097); (8192, 1)] plain 8192 8192.
Definition s_join : osp := Osp true get_max_file_size 8192 [(4096, 4097)] plain 8192 8192.
Definition m_one : memory := after_all 4096 nothing [Mmap 8192 4096 (Some 0)].
Definition m_two : memory := after_all 4096 m_one [Mmap 4096 4096 (Some 4096)].
Lemma reached_two : forall dbg strict, reached dbg 4096 strict (fresh true plain nothing) (World s_two m_two [(4096, 4096); (8192, 4096)]).
Proof.
  intros dbg strict. eapply reached_step; [eapply reached_step; [apply reached_start|]|].
  - apply (st_alloc dbg 4096 strict (os_created true plain) nothing [] 4096 0 (Some 8192) None SUCCESS 8192 [Mmap 8192 4096 (Some 0)] s_one); try lia.
    + destruct dbg; reflexivity.
    + cbn [kernel mmap_legal]. repeat split; try reflexivity; try (change (up 4096 4096) with 4096; lia).
  - apply (st_alloc dbg 4096 strict s_one m_one [(8192, 4096)] 4096 0 (Some 4096) None SUCCESS 4096 [Mmap 4096 4096 (Some 4096)] s_two); try lia.
    + destruct dbg; reflexivity.
    + cbn [kernel mmap_legal]. repeat split; try reflexivity; try (change (up 4096 4096) with 4096; lia).
      intros x X. unfold m_one. cbn [after_all fold_left after]. unfold within in *. change (up 4096 4096) with 4096 in *.
      destruct (Z.leb_spec 8192 x); cbn [andb]; [lia|reflexivity].
Qed.
(* C33 for these two: both have correct handles *)
Example two_handles : exists d, os_get_ipc_handle s_two 8192 4096 = (SUCCESS, Some d) /\ i_off d = 0.
Proof. exists (Ipc 0 4096). split; reflexivity. Qed.
Example two_bytes : exists d, os_get_ipc_handle s_two 4096 100 = (SUCCESS, Some d) /\
  forall mc a r q ev, os_open_ipc_handle d (Some a) = (r, q, ev) -> after_all 4096 mc ev (a + 99) = Some (File 4195).
Proof.
  destruct (os_ipc_same_bytes_partial true 4096 plain nothing (World s_two m_two [(4096, 4096); (8192, 4096)]) 4096 4096 100 pow2_4096 (reached_two true true)) as (d & D1 & _ & _ & D2); [left; reflexivity|lia|].
  exists d. split; [exact D1|]. intros mc a r q ev H. destruct (D2 mc a r q ev H) as (_ & _ & E). rewrite E by lia. reflexivity.
Qed.

(* C33 is false after merging neighbours that are not neighbours in the file,
   although the provider accepts the merge. *)
Theorem os_ipc_merge_refuted : exists w p size d, (forall dbg, reached dbg 4096 false (fresh true plain nothing) w) /\ In (p, size) (w_live w) /\
  os_get_ipc_handle (w_os w) p size = (SUCCESS, Some d) /\
  forall mc a r q ev, os_open_ipc_handle d (Some a) = (r, q, ev) -> after_all 4096 mc ev (q + 4096) = Some (File 8192) /\ w_mem w (p + 4096) = Some (File 0).
Proof.
  exists (World s_join m_two [(4096, 8192)]), 4096, 8192, (Ipc 4096 8192).
  split.
  { intros dbg. eapply reached_step; [apply (reached_two dbg false)|].
    apply (st_merge dbg 4096 false s_two m_two [] 4096 4096 4096 [] SUCCESS s_join); [reflexivity|discriminate|reflexivity]. }
  split; [left; reflexivity|]. split; [reflexivity|]. intros mc a r q ev H. injection H as <- <- <-. split; [|reflexivity].
  cbn [after_all fold_left after i_off i_size]. assert (W : within 4096 a 8192 (a + 4096) = true). { unfold within. change (up 4096 8192) with 8192. lia. } rewrite W. do 2 f_equal. lia.
Qed.
Print Assumptions os_ipc_merge_refuted.

(* C28 is false if size + alignment wraps: the call succeeds, maps one page and unmaps
   a page that was there before. *)
Theorem os_alloc_wrap_refuted : ~ forall dbg page shared u m size al mm be r p ev s' x, power_of_two page ->
  0 < size < 2 ^ 64 -> 0 <= al < 2 ^ 64 -> os_alloc dbg page (os_created shared u) size al mm be = Some (r, p, ev, s') -> kernel page m ev ->
  m x <> None -> after_all page m ev x <> None.
Proof.
  intros C. pose (m := fun x : Z => if (36864 <=? x) && (x <? 40960) then Some Anon else None).
  apply (C true 4096 false plain m (2 ^ 64 - 4096) 8192 (Some 40960) None SUCCESS 40960 [Mmap 40960 4096 None; Munmap 36864 8192 true]
    (Osp false 0 0 [] plain (2 ^ 64 - 4096) (2 ^ 64 - 4096)) 36864); try (split; reflexivity || lia).
  - exact pow2_4096.
  - cbn [kernel mmap_legal]. repeat split; try reflexivity; try (change (up 4096 4096) with 4096; lia).
    intros x X. unfold m. unfold within in X. change (up 4096 4096) with 4096 in X. destruct (Z.leb_spec 36864 x), (Z.ltb_spec x 40960); cbn [andb]; try reflexivity. lia.
  - discriminate.
Qed.
Print Assumptions os_alloc_wrap_refuted.

(* C62.  Attempts to allocate whole pages, with any alignment, any answers of the
   kernel and anything else mapped. *)
Inductive attempts (dbg : bool) (page : Z) : osp -> list result -> osp -> Prop :=
| at_none : forall s, attempts dbg page s [] s
| at_more : forall s size al mm be m r p ev s1 l s2, 0 < size -> 0 <= al -> size + al + page <= 2 ^ 63 -> size mod page = 0 ->
    os_alloc dbg page s size al mm be = Some (r, p, ev, s1) -> kernel page m ev -> attempts dbg page s1 l s2 -> attempts dbg page s (r :: l) s2.
Lemma attempts_fail : forall dbg page s l s', power_of_two page -> attempts dbg page s l s' -> o_fd s = true -> 0 <= o_size s <= o_max s -> o_max s < 2 ^ 63 -> o_size s mod page <> 0 -> ~ In SUCCESS l.
Proof.
  intros dbg page s l s' PG A. induction A as [|s size al mm be m r p ev s1 l s2 S0 A0 NW SM H K A IH]; intros F B1 B2 M; [intros []|]; intros [I|I].
  - subst r. apply M. pose proof (os_alloc_dbg _ _ _ _ _ _ _ _ H) as H0.
    destruct (os_alloc_ok dbg page s size al mm be m SUCCESS p ev s1 PG S0 A0 NW (fun _ => conj B1 B2) H0 K) as (_ & _ & _ & _ & _ & FS & _ & _).
    destruct (FS eq_refl) as (_ & _ & _ & a & _ & _ & _ & _ & _ & _ & _ & _ & _ & Q). apply (Q F).
  - revert I. pose proof (os_alloc_dbg _ _ _ _ _ _ _ _ H) as H0.
    destruct (os_alloc_ok dbg page s size al mm be m r p ev s1 PG S0 A0 NW (fun _ => conj B1 B2) H0 K) as (_ & F1 & F2 & F3 & _).
    apply IH; [congruence|specialize (F3 F); lia|lia|].
    intros M1. apply M. clear IH A K. pose proof (Proof_Utils.pow2_range _ PG) as PR.
    assert (X : o_size s1 = o_size s \/ o_size s1 = o_size s + (if page <? al then size + al else size) /\ (al = 0 \/ al mod page = 0 \/ page mod al = 0)).
    { unfold os_alloc in H0. destruct (negb (al =? 0) && negb (al mod page =? 0) && negb (page mod al =? 0)) eqn:AC; [injection H0 as _ _ _ <-; left; reflexivity|].
      assert (AL : al = 0 \/ al mod page = 0 \/ page mod al = 0) by lia.
      destruct (utils_mmap_aligned false page (o_fd s) (o_max s) (o_size s) size al mm) as [[[[out ev1] size'] off]|] eqn:E; [|discriminate].
      assert (Y : size' = o_size s \/ size' = o_size s + (if page <? al then size + al else size)).
      { clear H0. unfold utils_mmap_aligned in E. rewrite F in E. cbn [andb] in E. cbv zeta in E.
        assert (EE : (if page <? al then wrap (size + al) else size) = if page <? al then size + al else size).
        { destruct (page <? al); [|reflexivity]. unfold wrap. apply Z.mod_small. change U64 with (2 ^ 64). lia. }
        rewrite EE in E. assert (EB : 0 <= (if page <? al then size + al else size) <= 2 ^ 63) by (destruct (page <? al); lia).
        set (ext := if page <? al then size + al else size) in *.
        assert (W : wrap (o_size s + ext) = o_size s + ext). { unfold wrap. apply Z.mod_small. change U64 with (2 ^ 64). lia. } rewrite W in E.
        destruct (o_max s <? o_size s + ext); [injection E as _ _ <- _; left; reflexivity|]. right.
        destruct mm; [|injection E as _ _ <- _; reflexivity]. destruct (page <? al); injection E as _ _ <- _; reflexivity. }
      assert (Z1 : o_size s1 = size').
      { destruct out as [addr|]; [|injection H0 as _ _ _ <-; reflexivity].
        destruct ((0 <? al) && negb (addr mod al =? 0)); [injection H0 as _ _ _ <-; reflexivity|].
        destruct (policy_default _); [injection H0 as _ _ _ <-; reflexivity|].
        destruct (ALIGN_UP_SAFE size page =? 0); [injection H0 as _ _ _ <-; reflexivity|].
        destruct (os_bind _ _ _ _) as [[calls u]|]; [|discriminate].
        destruct be as [k|]; [destruct (Nat.ltb _ _)|]; injection H0 as _ _ _ <-; reflexivity. }
      rewrite Z1. destruct Y; auto. }
    destruct X as [X|[X AL]]; [congruence|].
    replace (o_size s) with (o_size s1 - (if page <? al then size + al else size)) by lia. apply mod0_minus; [exact M1|].
    destruct (Z.ltb_spec page al) as [L|L]; [|exact SM]. apply mod0_plus; [exact SM|].
    destruct AL as [?|[?|Q]]; [lia|assumption|]. rewrite Z.mod_small in Q by lia. lia.
Qed.
(* C62 is false: one allocation of 100 bytes from a shared provider, and no later
   allocation of whole pages can succeed. *)
Theorem os_shared_odd_size_refuted : exists p ev s, (forall dbg, os_alloc dbg 4096 (os_created true plain) 100 0 (Some 4096) None = Some (SUCCESS, p, ev, s)) /\ kernel 4096 nothing ev /\
  forall dbg l s', attempts dbg 4096 s l s' -> ~ In SUCCESS l.
Proof.
  exists 4096, [Mmap 4096 100 (Some 0)], (Osp true get_max_file_size 100 [(4096, 1)] plain 100 100).
  split; [intros dbg; destruct dbg; reflexivity|]. split.
  { cbn [kernel mmap_legal]. repeat split; try reflexivity; try (change (up 4096 100) with 4096; lia). }
  intros dbg l s' A. eapply attempts_fail; [exact pow2_4096|exact A|reflexivity| |unfold get_max_file_size; cbn [o_max]; lia|discriminate].
  cbn [o_size o_max]. unfold get_max_file_size. lia.
Qed.
Print Assumptions os_shared_odd_size_refuted.
(* C62, what does hold.  Partial: only for histories in which the shared file grew
   by allocations of whole pages, failed ones included.  Then an allocation of any
   size, at any free pages the kernel offers, is legal and succeeds, as long as the
   alignment is permitted and the file may grow that far. *)
Theorem os_shared_pages_partial : forall dbg page strict u m0 w size al a r p ev s', power_of_two page -> paged dbg page strict (fresh true u m0) w ->
  0 < size -> 0 <= al -> size + al + page <= 2 ^ 63 -> (al = 0 \/ al mod page = 0 \/ page mod al = 0) ->
  let ext := if page <? al then size + al else size in o_size (w_os w) + ext <= o_max (w_os w) ->
  0 < a -> a mod page = 0 -> a + up page ext <= 2 ^ 63 -> (forall x, within page a ext x = true -> w_mem w x = None) ->
  os_alloc dbg page (w_os w) size al (Some a) None = Some (r, p, ev, s') -> kernel page (w_mem w) ev /\ r = SUCCESS.
Proof. exact paged_alloc. Qed.
Print Assumptions os_shared_pages_partial.
Lemma paged_two : forall dbg strict, paged dbg 4096 strict (fresh true plain nothing) (World s_two m_two [(4096, 4096); (8192, 4096)]).
Proof.
  intros dbg strict. eapply paged_step; [eapply (paged_step _ _ _ _ _ (World s_one m_one [(8192, 4096)])); [apply paged_start| |]| |].
  - apply (st_alloc dbg 4096 strict (os_created true plain) nothing [] 4096 0 (Some 8192) None SUCCESS 8192 [Mmap 8192 4096 (Some 0)] s_one); try lia.
    + destruct dbg; reflexivity.
    + cbn [kernel mmap_legal]. repeat split; try reflexivity; try (change (up 4096 4096) with 4096; lia).
  - right. exists 4096, 0, (Some 8192), None, SUCCESS, 8192, [Mmap 8192 4096 (Some 0)]. repeat split; try lia; destruct dbg; reflexivity.
  - apply (st_alloc dbg 4096 strict s_one m_one [(8192, 4096)] 4096 0 (Some 4096) None SUCCESS 4096 [Mmap 4096 4096 (Some 4096)] s_two); try lia.
    + destruct dbg; reflexivity.
    + cbn [kernel mmap_legal]. repeat split; try reflexivity; try (change (up 4096 4096) with 4096; lia).
      intros x X. unfold m_one. cbn [after_all fold_left after]. unfold within in *. change (up 4096 4096) with 4096 in *.
      destruct (Z.leb_spec 8192 x); cbn [andb]; [lia|reflexivity].
  - right. exists 4096, 0, (Some 4096), None, SUCCESS, 4096, [Mmap 4096 4096 (Some 4096)]. repeat split; try lia; destruct dbg; reflexivity.
Qed.
(* after two pages, 100 bytes aligned to two pages: granted *)
Example pages_then_bytes : forall x, os_alloc true 4096 s_two 100 8192 (Some 20480) None = Some x -> fst (fst (fst x)) = SUCCESS.
Proof.
  intros [[[r p] ev] s'] H. cbn [fst]. apply (os_shared_pages_partial true 4096 true plain nothing _ 100 8192 20480 r p ev s' pow2_4096 (paged_two true true)); try lia.
  - right. left. reflexivity.
  - vm_compute. discriminate.
  - reflexivity.
  - vm_compute. discriminate.
  - intros x X. change (up 4096 (if 4096 <? 8192 then 100 + 8192 else 100)) with 12288 in X. unfold within in X. change (up 4096 (if 4096 <? 8192 then 100 + 8192 else 100)) with 12288 in X.
    cbn [w_mem]. unfold m_two, m_one, after_all, fold_left, after, nothing, within. change (up 4096 4096) with 4096.
    destruct (Z.leb_spec 4096 x), (Z.ltb_spec x (4096 + 4096)), (Z.leb_spec 8192 x), (Z.ltb_spec x (8192 + 4096)); cbn [andb]; try reflexivity; lia.
  - exact H.
Qed.
Example pages_then_bytes_some : exists x, os_alloc true 4096 s_two 100 8192 (Some 20480) None = Some x.
Proof. eexists. reflexivity. Qed.
(* such attempts exist *)
Example attempt_exists : attempts true 4096 (Osp true get_max_file_size 100 [(4096, 1)] plain 100 100) [ERR_PROVIDER_SPECIFIC] (Osp true get_max_file_size 4196 [(4096, 1)] plain 100 100).
Proof. eapply (at_more true 4096 _ 4096 0 None None nothing); try lia; [reflexivity|reflexivity|cbn; tauto|constructor]. Qed.

(* C63.  Splitting at a boundary that is not a multiple of the page size is accepted
   for private memory and, if the address has a file offset, for shared memory; then
   freeing the first part unmaps bytes of the second. *)
Theorem os_split_inside_page_refuted : ~ forall page s p size first s1 ev s2 m x, power_of_two page -> p mod page = 0 -> 0 < p -> 0 < first < size ->
  os_allocation_split s p size first = (SUCCESS, s1) -> os_free s1 p first true = (SUCCESS, ev, s2) -> p + first <= x < p + size -> after_all page m ev x = m x.
Proof.
  intros C. specialize (C 4096 (os_created false plain) 8192 4096 100 (os_created false plain) [Munmap 8192 100 true] (Osp false 0 0 [] plain (U64 - 100) 0) (fun _ => Some Anon) 8292 pow2_4096).
  assert (X : after_all 4096 (fun _ => Some Anon) [Munmap 8192 100 true] 8292 = Some Anon); [|discriminate X].
  apply C; try reflexivity; lia.
Qed.
Print Assumptions os_split_inside_page_refuted.
(* ... and is harmless at page boundaries. *)
Theorem os_split_free_partial : forall page s p size first s1 ev s2 m x, power_of_two page -> p mod page = 0 -> 0 < p -> 0 < first < size -> first mod page = 0 ->
  os_allocation_split s p size first = (SUCCESS, s1) -> os_free s1 p first true = (SUCCESS, ev, s2) ->
  (p <= x < p + first -> after_all page m ev x = None) /\ (p + first <= x -> after_all page m ev x = m x).
Proof.
  intros page s p size first s1 ev s2 m x PG PM P0 B FM _ H. pose proof (Proof_Utils.pow2_range _ PG) as PR. unfold os_free in H. destruct (Z.eqb_spec p 0); [lia|]. injection H as <- _.
  cbn [after_all fold_left after]. assert (U : up page first = first) by (apply up_multiple; [lia|exact FM]).
  split; intros X.
  - assert (W : within page p first x = true) by (apply within_iff; lia). rewrite W. reflexivity.
  - assert (W : within page p first x = false) by (apply within_niff; lia). rewrite W. reflexivity.
Qed.
Print Assumptions os_split_free_partial.

(* A longer history: two allocations, one split, one part freed. *)
Example history_sizes : exists w, reached true 4096 true (fresh true plain nothing) w /\ w_live w = [(4096, 4096)] /\ o_allocated (w_os w) = 4096.
Proof.
  eexists. split.
  - eapply reached_step; [apply (reached_two true true)|].
    apply (st_free true 4096 true s_two m_two [(4096, 4096)] 8192 4096 [] true SUCCESS [Munmap 8192 4096 true] (Osp true get_max_file_size 8192 [(4096, 4097)] plain 4096 8192)); [reflexivity|reflexivity].
  - split; reflexivity.
Qed.

(* C90.  A failed free leaves the memory mapped, the statistics and the handles of
   the other allocations as they were (and everything, if the memory is private),
   and can be repeated: the second attempt is as if the first had not been made.
   Missing for C90: the IPC handle of the allocation itself. *)
Theorem os_failed_free_partial : forall page s p size r ev s' m, os_free s p size false = (r, ev, s') ->
  (p = 0 -> r = SUCCESS /\ ev = [] /\ s' = s) /\
  (p <> 0 -> r = ERR_PROVIDER_SPECIFIC /\ same (after_all page m ev) m /\ o_allocated s' = o_allocated s /\ o_peak s' = o_peak s /\ o_size s' = o_size s /\
     (o_fd s = false -> s' = s) /\ (forall q n, q <> p -> os_get_ipc_handle s' q n = os_get_ipc_handle s q n) /\
     forall ok, os_free s' p size ok = os_free s p size ok).
Proof.
  intros page s p size r ev s' m H. unfold os_free in H. destruct (Z.eqb_spec p 0) as [->|N]; [injection H as <- <- <-; split; [auto|intros X; contradiction]|]. split; [contradiction|]. intros _.
  injection H as <- <- <-. split; [reflexivity|]. split; [intros x; reflexivity|]. split; [reflexivity|]. split; [reflexivity|]. split; [reflexivity|]. split.
  { intros F. rewrite F. destruct s; cbn in *. subst. reflexivity. }
  split.
  - intros q n Q. unfold os_get_ipc_handle. cbn [o_fd o_map]. destruct (o_fd s); [|reflexivity]. rewrite map_get_remove. rewrite (proj2 (Z.eqb_neq q p) Q). reflexivity.
  - intros ok. unfold os_free. rewrite (proj2 (Z.eqb_neq p 0) N). cbn [o_fd o_map o_max o_size o_numa o_allocated o_peak].
    assert (E : map_remove (map_remove (o_map s) p) p = map_remove (o_map s) p).
    { unfold map_remove. induction (o_map s) as [|x l IH]; [reflexivity|]. cbn [filter]. destruct (negb (fst x =? p)) eqn:X; [|exact IH]. cbn [filter]. rewrite X, IH. reflexivity. }
    destruct (o_fd s), ok; rewrite ?E; reflexivity.
Qed.
Print Assumptions os_failed_free_partial.
(* The offset is forgotten before munmap is tried: the allocation is still live and
   mapped, but has no IPC handle any more, and cannot be split. *)
Theorem os_failed_free_refuted : exists w p size r ev s', (forall dbg strict, reached dbg 4096 strict (fresh true plain nothing) w) /\ In (p, size) (w_live w) /\
  (exists d, os_get_ipc_handle (w_os w) p size = (SUCCESS, Some d)) /\ os_free (w_os w) p size false = (r, ev, s') /\ r <> SUCCESS /\
  (forall dbg, reached dbg 4096 false (fresh true plain nothing) (World s' (after_all 4096 (w_mem w) ev) (w_live w))) /\ after_all 4096 (w_mem w) ev p = Some (File 0) /\
  (forall n, os_get_ipc_handle s' p n = (ERR_INVALID_ARGUMENT, None)) /\ forall first, os_allocation_split s' p size first = (ERR_UNKNOWN, s').
Proof.
  exists (World s_two m_two [(4096, 4096); (8192, 4096)]), 8192, 4096, ERR_PROVIDER_SPECIFIC, [Munmap 8192 4096 false], s_join.
  split; [exact reached_two|]. split; [right; left; reflexivity|]. split; [exists (Ipc 0 4096); reflexivity|]. split; [reflexivity|]. split; [discriminate|]. split.
  { intros dbg. eapply reached_step; [apply (reached_two dbg false)|].
    apply (st_free dbg 4096 false s_two m_two [(4096, 4096)] 8192 4096 [] false ERR_PROVIDER_SPECIFIC [Munmap 8192 4096 false] s_join); [discriminate|reflexivity]. }
  split; [reflexivity|]. split; intros; reflexivity.
Qed.
Print Assumptions os_failed_free_refuted.
(* and the other allocation keeps its handle *)
Example other_handle : exists r ev s' d, os_free s_two 8192 4096 false = (r, ev, s') /\ os_get_ipc_handle s' 4096 10 = (SUCCESS, Some d) /\ i_off d = 4096.
Proof. eexists _, _, _, _. split; [reflexivity|]. split; reflexivity. Qed.
