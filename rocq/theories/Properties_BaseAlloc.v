(* C25-C27, C56, C57: the internal allocators.

   [breached]/[lreached]/[greached]: the state of a chunk pool, a linear
   allocator or the global allocator after some sequence of calls with any
   answers of the OS; the view lists the live allocations and the memory held. *)
From Verif Require Import Base Model_Utils Spec_Utils Model_BaseAlloc Spec_BaseAlloc Proof_BaseAlloc Proof_BaseAllocStep Proof_BaseAllocLinear Proof_BaseAllocWaste Proof_BaseAllocRefuse Proof_BaseAllocGlobal.

(* ---- C25 ---- *)
(* Live chunks: distinct, 8-byte aligned, inside held memory behind a header,
   pairwise apart; k is the chunk size rounded up to 8. *)
Theorem ba_live_apart : forall dbg c size b v k, machine c -> fits c size -> breached dbg c size b v -> chunk_bytes size k ->
  NoDup (bv_live v) /\
  (forall x, In x (bv_live v) -> multiple_of x 8 /\ exists p n, In (p, n) (bv_mem v) /\ p + 8 <= x /\ x + k <= p + n) /\
  (forall x y, In x (bv_live v) -> In y (bv_live v) -> x <> y -> apart x k y k).
Proof. exact bmain_live. Qed.
Print Assumptions ba_live_apart.

(* No call fails an assert; NULL is returned only if the OS has no memory; a
   new chunk is not a live one; free gives nothing back. *)
Theorem ba_calls_defined : forall dbg c size b v k, machine c -> fits c size -> breached dbg c size b v -> benv v k -> (forall p, k = BAlloc (Some p) -> multiple_of p (k_page c)) ->
  exists ptr ev b', bstep dbg c b k = Some (ptr, ev, b') /\
    (os_ok (k_page c) (bv_mem v) ev ->
     match k with BFree _ => ev = [] | BAlloc os => (ptr = 0 <-> exists n, ev = [OsFail n]) /\ ((exists n, ev = [OsFail n]) -> os = None) /\ (ptr <> 0 -> ~ In ptr (bv_live v)) end).
Proof. exact bmain_total. Qed.
Print Assumptions ba_calls_defined.

(* The OS is asked only when no region has room for one more chunk. *)
Theorem ba_grows_when_full : forall dbg c size b v k os ptr ev b' p n, machine c -> fits c size -> breached dbg c size b v -> chunk_bytes size k ->
  bstep dbg c b (BAlloc os) = Some (ptr, ev, b') -> ev <> [] -> In (p, n) (bv_mem v) -> n < k_header c + (Z.of_nat (length (filter (fun x => in_mem x (p, n)) (bv_live v))) + 1) * k.
Proof. exact bmain_reuse. Qed.
Print Assumptions ba_grows_when_full.

(* Destroy releases every region once; with the proxy library only if nothing is live. *)
Theorem ba_destroy_releases : forall dbg proxy c size b v, machine c -> fits c size -> breached dbg c size b v ->
  NoDup (map fst (bv_mem v)) /\ exists evs, umf_ba_destroy dbg proxy b = Some evs /\ ((proxy = false \/ bv_live v = []) -> evs = map (fun x => OsFree (fst x) (snd x)) (bv_mem v)) /\ (proxy = true -> bv_live v <> [] -> evs = []).
Proof. exact bmain_destroy. Qed.
Print Assumptions ba_destroy_releases.

(* ---- C26 ---- *)
Theorem linear_live_apart : forall dbg c size l v, machine c -> lfits c size -> lreached dbg c size l v ->
  NoDup (map fst (lv_live v)) /\
  (forall x s, In (x, s) (lv_live v) -> 0 < s /\ multiple_of x 8 /\ exists p n, In (p, n) (lv_mem v) /\ p + 24 <= x /\ x + s <= p + n) /\
  (forall x s y t, In (x, s) (lv_live v) -> In (y, t) (lv_live v) -> x <> y -> apart x s y t).
Proof. exact lmain_live. Qed.
Print Assumptions linear_live_apart.

(* Every allocation call is defined; NULL exactly for size 0 or without OS memory. *)
Theorem linear_alloc_defined : forall dbg c size l v sz os, machine c -> lfits c size -> lreached dbg c size l v -> 0 <= sz -> sz + 2 * k_page c <= U64 -> (forall p, os = Some p -> multiple_of p (k_page c)) ->
  exists ptr ev l', lstep dbg c l (LAlloc sz os) = Some (ptr, ev, l') /\ (sz = 0 -> ev = [] /\ ptr = 0 /\ l' = l) /\ (os_ok (k_page c) (lv_mem v) ev -> 0 < sz ->
     (ptr = 0 <-> exists n, ev = [OsFail n]) /\ ((exists n, ev = [OsFail n]) -> os = None /\ l' = l) /\ (ptr <> 0 -> ~ In ptr (map fst (lv_live v)))).
Proof. exact lmain_alloc. Qed.
Print Assumptions linear_alloc_defined.

(* A free of a live block succeeds.  What it gives back, if anything, is the end
   of the region of the block and contains no live block any more. *)
Theorem linear_free_releases_empty : forall dbg c size l v p, machine c -> lfits c size -> lreached dbg c size l v -> In p (map fst (lv_live v)) ->
  exists ev l', lstep dbg c l (LFree p) = Some (0, ev, l') /\
    (ev = [] \/ exists q n, ev = [OsFree q n] /\ (forall x s, In (x, s) (lv_live v) -> x <> p -> apart q n x s) /\ exists a m, In (a, m) (lv_mem v) /\ a <= q /\ q + n = a + m /\ a <= p < a + m).
Proof. exact lmain_free. Qed.
Print Assumptions linear_free_releases_empty.

(* A pointer outside the held memory is rejected and nothing changes. *)
Theorem linear_foreign_rejected : forall dbg c size l v p, machine c -> lfits c size -> lreached dbg c size l v -> (forall q n, In (q, n) (lv_mem v) -> ~ q <= p < q + n) ->
  lstep dbg c l (LFree p) = Some (-1, [], l) /\ umf_ba_linear_pool_contains_pointer c l p = 0.
Proof. exact lmain_foreign. Qed.
Print Assumptions linear_foreign_rejected.

(* contains_pointer: the bytes up to the end of the region. *)
Theorem linear_contains_pointer : forall dbg c size l v p, machine c -> lfits c size -> lreached dbg c size l v ->
  let r := umf_ba_linear_pool_contains_pointer c l p in
  (r <> 0 -> exists q n, In (q, n) (lv_mem v) /\ q <= p < q + n /\ r = q + n - p) /\ (forall s, In (p, s) (lv_live v) -> s <= r).
Proof. exact lmain_contains. Qed.
Print Assumptions linear_contains_pointer.

Theorem linear_destroy_releases : forall dbg proxy c size l v, machine c -> lfits c size -> lreached dbg c size l v ->
  NoDup (map fst (lv_mem v)) /\ umf_ba_linear_destroy dbg proxy l = Some (if proxy then [] else map (fun x => OsFree (fst x) (snd x)) (lv_mem v)).
Proof. exact lmain_destroy. Qed.
Print Assumptions linear_destroy_releases.

(* ---- C27 ---- *)
(* Live allocations are aligned, usable_size is at least the size asked for, the
   usable bytes are in held memory, and they and the 8 bytes of metadata in front
   of them are apart from those of every other live allocation. *)
Theorem global_live_apart : forall dbg c g v, machine c -> greached dbg c g v ->
  NoDup (map g_ptr (gv_live v)) /\
  (forall u s al, In (u, s, al) (gv_live v) -> multiple_of u al /\ exists n, umf_ba_global_malloc_usable_size g u = Some n /\ s <= n /\ exists p m, In (p, m) (gv_mem v) /\ p + 8 <= u /\ u + n <= p + m) /\
  (forall u s al u' s' al' n n', In (u, s, al) (gv_live v) -> In (u', s', al') (gv_live v) -> u <> u' -> umf_ba_global_malloc_usable_size g u = Some n -> umf_ba_global_malloc_usable_size g u' = Some n' -> apart (u - 8) (n + 8) (u' - 8) (n' + 8)).
Proof. exact gmain_live. Qed.
Print Assumptions global_live_apart.

(* While the OS has memory every allocation succeeds (size 0: NULL). *)
Theorem global_alloc_defined : forall dbg c g v size al p, machine c -> greached dbg c g v -> 0 <= size -> power_of_two al -> size + 8 + al < 2 ^ 32 -> os_answer c p ->
  exists ptr ev g', gstep dbg c g (GAlloc size al (Some p)) = Some (ptr, ev, g') /\ (ev = [] \/ exists n, ev = [OsAlloc p n]) /\ (size = 0 -> ptr = 0 /\ ev = [] /\ g' = g) /\
    (0 < size -> os_ok (k_page c) (gv_mem v) ev -> ptr <> 0 /\ ~ In ptr (map g_ptr (gv_live v))).
Proof. exact gmain_alloc. Qed.
Print Assumptions global_alloc_defined.

(* A free of a live allocation is accepted.  Memory goes back to the OS only as
   one whole region, which the freed allocation had for itself. *)
Theorem global_free_exact : forall dbg c g v p, machine c -> greached dbg c g v -> In p (map g_ptr (gv_live v)) ->
  exists ev g', gstep dbg c g (GFree p) = Some (0, ev, g') /\
    (ev = [] \/ exists q n, ev = [OsFree q n] /\ In (q, n) (gv_mem v) /\ q + 8 <= p < q + n /\ (forall u s al m, In (u, s, al) (gv_live v) -> u <> p -> umf_ba_global_malloc_usable_size g u = Some m -> apart q n (u - 8) (m + 8))).
Proof. exact gmain_free. Qed.
Print Assumptions global_free_exact.

(* ---- concrete histories ---- *)
Definition c0 : consts := Consts 4096 64 40 96.
Lemma c0_machine : machine c0.
Proof. split; cbn; [split; [exists 12; split; [lia|reflexivity]|lia]|exists 8; lia|exists 12; lia|lia]. Qed.
Ltac fresh_page :=
  unfold fresh_mem, multiple_of; cbn [k_page c0];
  split; [lia|split; [reflexivity|split; [|split; [intros q m X; cbn in X; repeat (destruct X as [X|X]; [injection X as <- <-; unfold apart; lia|]); destruct X|reflexivity]]]].


(* Two chunks, one of them returned. *)
Example ba_history : exists b v, breached true c0 10 b v /\ bv_mem v = [(8192, 4096)] /\ bv_live v = [8272].
Proof.
  eexists _, _. split.
  - eapply (breached_step true c0 10 _ _ (BFree 8256)).
    + eapply (breached_step true c0 10 _ _ (BAlloc None)).
      * eapply (breached_step true c0 10 _ _ (BAlloc None)).
        -- eapply (breached_new true c0 10 (Some 8192)); [vm_compute; reflexivity|]. cbn [os_ok]. split; [|exact Logic.I]. fresh_page. exists 2. reflexivity.
        -- exact Logic.I.
        -- vm_compute; reflexivity.
        -- exact Logic.I.
      * exact Logic.I.
      * vm_compute; reflexivity.
      * exact Logic.I.
    + right. vm_compute. auto.
    + vm_compute; reflexivity.
    + exact Logic.I.
  - split; vm_compute; reflexivity.
Qed.

(* Two blocks; the second needs a new region; the first region keeps its page. *)
Definition l_run : list lcall := [LAlloc 100 None; LAlloc 5000 (Some 32768); LFree 8288].
Fixpoint lplay (dbg : bool) (c : consts) (l : linear) (v : lview) (ks : list lcall) : option (linear * lview) :=
  match ks with
  | [] => Some (l, v)
  | k :: r => match lstep dbg c l k with Some (p, ev, l') => lplay dbg c l' (lobserve v k p ev) r | None => None end
  end.
(* the environment's part, decided for concrete histories *)
Definition fresh_b (page : Z) (held : list (Z * Z)) (p n : Z) : bool :=
  (0 <? p) && (p + n <? U64) && (p mod page =? 0) && forallb (fun x => (p + n <=? fst x) || (fst x + snd x <=? p)) held && (n + held_bytes held <? U64).
Fixpoint os_ok_b (page : Z) (held : list (Z * Z)) (evs : list event) : bool :=
  match evs with [] => true | OsAlloc p n :: r => fresh_b page held p n && os_ok_b page ((p, n) :: held) r | e :: r => os_ok_b page (os_step held e) r end.
Lemma fresh_b_ok : forall page held p n, 0 < page -> fresh_b page held p n = true -> fresh_mem page held p n.
Proof.
  intros page held p n P H. unfold fresh_b in H. repeat (apply andb_true_iff in H; destruct H as (H & ?)). unfold fresh_mem.
  split; [lia|]. split; [lia|]. split; [apply Proof_Utils.mod_multiple; lia|]. split; [|lia]. intros q m IN. match goal with F : forallb _ _ = true |- _ => rewrite forallb_forall in F; specialize (F _ IN); cbn [fst snd] in F end. unfold apart. lia.
Qed.
Lemma os_ok_b_ok : forall page evs held, 0 < page -> os_ok_b page held evs = true -> os_ok page held evs.
Proof.
  intros page evs. induction evs as [|e r IH]; intros held P H; [exact Logic.I|]. destruct e; cbn [os_ok_b os_ok] in *; [|auto|auto]. apply andb_true_iff in H. destruct H as (A & B). split; [apply fresh_b_ok; assumption|auto].
Qed.
Definition lenv_b (c : consts) (v : lview) (k : lcall) : bool :=
  match k with LAlloc size _ => (0 <=? size) && (size + 2 * k_page c <=? U64) | LFree p => existsb (fun x => fst x =? p) (lv_live v) end.
Fixpoint llegal (dbg : bool) (c : consts) (l : linear) (v : lview) (ks : list lcall) : bool :=
  match ks with
  | [] => true
  | k :: r => match lstep dbg c l k with Some (p, ev, l') => lenv_b c v k && os_ok_b (k_page c) (lv_mem v) ev && llegal dbg c l' (lobserve v k p ev) r | None => false end
  end.
Lemma lplay_reached : forall dbg c size ks l v l' v', 0 < k_page c -> lreached dbg c size l v -> llegal dbg c l v ks = true -> lplay dbg c l v ks = Some (l', v') -> lreached dbg c size l' v'.
Proof.
  intros dbg c size ks. induction ks as [|k r IH]; intros l v l' v' P R L H; cbn [llegal lplay] in *; [injection H as <- <-; exact R|]. destruct (lstep dbg c l k) as [[[p ev] l2]|] eqn:ST; [|discriminate].
  apply andb_true_iff in L. destruct L as (L & L3). apply andb_true_iff in L. destruct L as (L1 & L2). apply (IH l2 (lobserve v k p ev)); auto. apply (lreached_step dbg c size l v k); auto; [|apply os_ok_b_ok; assumption].
  destruct k; cbn [lenv_b lenv] in *; [lia|]. apply existsb_exists in L1. destruct L1 as (x & X & E). apply Z.eqb_eq in E. subst ptr. apply in_map. exact X.
Qed.
(* the state after creation and after a history *)
Definition l_start (dbg : bool) : linear := match umf_ba_linear_create c0 0 (Some 8192) true with (_, Some l) => l | (_, None) => Linear 0 0 0 0 0 [] 0 end.
Definition l_view : lview := LView [(8192, 4096)] [].
Lemma l_start_reached : forall dbg, lreached dbg c0 0 (l_start dbg) l_view.
Proof. intros dbg. apply (lreached_new dbg c0 0 (Some 8192) [OsAlloc 8192 4096] (l_start dbg)); [vm_compute; reflexivity|]. apply os_ok_b_ok; [reflexivity|vm_compute; reflexivity]. Qed.
Definition l_after (dbg : bool) (ks : list lcall) : linear * lview := match lplay dbg c0 (l_start dbg) l_view ks with Some r => r | None => (l_start dbg, l_view) end.
Lemma l_after_reached : forall dbg ks, llegal dbg c0 (l_start dbg) l_view ks = true -> lreached dbg c0 0 (fst (l_after dbg ks)) (snd (l_after dbg ks)).
Proof.
  intros dbg ks L. unfold l_after. destruct (lplay dbg c0 (l_start dbg) l_view ks) as [(l, v)|] eqn:E; [|apply l_start_reached]. exact (lplay_reached dbg c0 0 ks _ _ l v eq_refl (l_start_reached dbg) L E).
Qed.
Example linear_history : exists l v, lreached true c0 0 l v /\ lv_mem v = [(32768, 8192); (8192, 4096)] /\ lv_live v = [(32792, 5000)].
Proof. eexists _, _. split; [apply (l_after_reached true l_run); vm_compute; reflexivity|]. vm_compute. auto. Qed.

(* ---- the same for the global allocator ---- *)
Definition genv_b (v : gview) (k : gcall) : bool :=
  match k with GAlloc size al _ => (0 <=? size) && (0 <=? Z.log2 al) && (Z.log2 al <? 64) && (al =? 2 ^ Z.log2 al) && (size + 8 + al <? 2 ^ 32) | GFree p => (p =? 0) || existsb (fun x => g_ptr x =? p) (gv_live v) end.
Fixpoint gplay (dbg : bool) (c : consts) (g : global) (v : gview) (ks : list gcall) : option (global * gview) :=
  match ks with
  | [] => Some (g, v)
  | k :: r => match gstep dbg c g k with Some (p, ev, g') => if genv_b v k && os_ok_b (k_page c) (gv_mem v) ev then gplay dbg c g' (gobserve v k p ev) r else None | None => None end
  end.
Lemma gplay_reached : forall dbg c ks g v g' v', 0 < k_page c -> greached dbg c g v -> gplay dbg c g v ks = Some (g', v') -> greached dbg c g' v'.
Proof.
  intros dbg c ks. induction ks as [|k r IH]; intros g v g' v' P R H; cbn [gplay] in *; [injection H as <- <-; exact R|]. destruct (gstep dbg c g k) as [[[p ev] g2]|] eqn:ST; [|discriminate].
  destruct (genv_b v k && os_ok_b (k_page c) (gv_mem v) ev) eqn:L; [|discriminate]. apply andb_true_iff in L. destruct L as (L1 & L2). apply (IH g2 (gobserve v k p ev)); auto. apply (greached_step dbg c g v k); auto; [|apply os_ok_b_ok; assumption].
  destruct k as [size al os|ptr]; cbn [genv_b genv] in *.
  - split; [lia|]. split; [exists (Z.log2 al); lia|lia].
  - apply orb_true_iff in L1. destruct L1 as [L1|L1]; [left; lia|right]. apply existsb_exists in L1. destruct L1 as (x & X & E). apply Z.eqb_eq in E. subst ptr. apply in_map. exact X.
Qed.
Definition os5 : list (option Z * bool) := [(Some 8192, true); (Some 16384, true); (Some 32768, false); (Some 65536, true); (Some 131072, true)].
Definition g_start (dbg : bool) : list event * global := match umf_ba_create_global dbg c0 os5 with Some r => r | None => ([], Global [] []) end.
Definition g_view (dbg : bool) : gview := GView (held_after [] (fst (g_start dbg))) [].
Lemma g_start_reached : forall dbg, greached dbg c0 (snd (g_start dbg)) (g_view dbg).
Proof.
  intros dbg. apply (greached_new dbg c0 os5); [reflexivity| |].
  - unfold g_start. assert (X : match umf_ba_create_global dbg c0 os5 with Some _ => true | None => false end = true) by (destruct dbg; vm_compute; reflexivity). destruct (umf_ba_create_global dbg c0 os5) as [(e, g)|]; [reflexivity|discriminate].
  - apply os_ok_b_ok; [reflexivity|]. destruct dbg; vm_compute; reflexivity.
Qed.
Definition g_after (dbg : bool) (ks : list gcall) : global * gview := match gplay dbg c0 (snd (g_start dbg)) (g_view dbg) ks with Some r => r | None => (snd (g_start dbg), g_view dbg) end.
Lemma g_after_reached : forall dbg ks, greached dbg c0 (fst (g_after dbg ks)) (snd (g_after dbg ks)).
Proof.
  intros dbg ks. unfold g_after. destruct (gplay dbg c0 (snd (g_start dbg)) (g_view dbg) ks) as [(g, v)|] eqn:E; [|apply g_start_reached]. exact (gplay_reached dbg c0 ks _ _ g v eq_refl (g_start_reached dbg) E).
Qed.
(* A small block, an aligned one, one of the class that could not be created, a
   large one; the last two are freed again. *)
Definition g_run : list gcall := [GAlloc 10 8 None; GAlloc 10 64 None; GAlloc 40 8 (Some 262144); GAlloc 5000 16 (Some 524288); GFree 262152; GFree 524304].
Example global_history : exists g v, greached true c0 g v /\ gv_live v = [(65664, 10, 64); (16456, 10, 8)] /\ gv_mem v = [(131072, 36864); (65536, 20480); (16384, 8192); (8192, 4096)] /\
  umf_ba_global_malloc_usable_size g 65664 = Some 18 /\ umf_ba_global_malloc_usable_size g 16456 = Some 10.
Proof. eexists _, _. split; [exact (g_after_reached true g_run)|]. vm_compute. auto. Qed.

(* ---- C56: sizes whose arithmetic overflows ---- *)
(* Release build: a pool of chunks of 2^57 bytes gets one page, and hands out a chunk. *)
Theorem ba_create_size_refuted : ~ (forall c size p ev b ptr ev' b' os, machine c -> is_word size -> 0 < size -> umf_ba_create false c size (Some p) true = Some (ev, Some b) ->
  umf_ba_alloc false b os = Some (ptr, ev', b') -> ptr <> 0 -> exists q n, In (OsAlloc q n) (ev ++ ev') /\ size <= n).
Proof.
  intros H. assert (E : exists b b', umf_ba_create false c0 (2 ^ 57) (Some 8192) true = Some ([OsAlloc 8192 4096], Some b) /\ umf_ba_alloc false b None = Some (8256, [], b')) by (eexists _, _; split; vm_compute; reflexivity). destruct E as (b & b' & E1 & E2).
  destruct (H c0 (2 ^ 57) 8192 _ b 8256 _ b' None c0_machine ltac:(unfold is_word, U64; lia) ltac:(lia) E1 E2 ltac:(discriminate)) as (q & n & IN & LE). destruct IN as [E|[]]. injection E as <- <-. lia.
Qed.
Print Assumptions ba_create_size_refuted.
(* Release build: a request for 2^64 - 16 bytes is answered with a pointer to less than a page. *)
Theorem linear_alloc_size_refuted : ~ (forall c l v size os ptr ev l', machine c -> lreached false c 0 l v -> is_word size -> lstep false c l (LAlloc size os) = Some (ptr, ev, l') -> os_ok (k_page c) (lv_mem v) ev -> ptr <> 0 ->
  exists p n, In (p, n) (held_after (lv_mem v) ev) /\ ptr + size <= p + n).
Proof.
  intros H.
  assert (E : exists l', lstep false c0 (l_start false) (LAlloc (2 ^ 64 - 16) (Some 16384)) = Some (16408, [OsAlloc 16384 4096], l')) by (eexists; vm_compute; reflexivity). destruct E as (l' & E).
  destruct (H c0 _ l_view (2 ^ 64 - 16) (Some 16384) 16408 [OsAlloc 16384 4096] l' c0_machine (l_start_reached false) ltac:(unfold is_word, U64; lia) E ltac:(apply os_ok_b_ok; [reflexivity|vm_compute; reflexivity]) ltac:(discriminate)) as (p & n & IN & LE).
  cbn in IN. destruct IN as [X|[X|[]]]; injection X as <- <-; cbn in LE; lia.
Qed.
Print Assumptions linear_alloc_size_refuted.
(* Release build: after an allocation of 2^32 bytes usable_size is 2^64 - 1, and free
   puts a pointer into the free list of the smallest class instead of releasing it. *)
Theorem global_large_refuted : exists g v ptr g', greached false c0 g v /\ gstep false c0 g (GAlloc (2 ^ 32) 8 (Some (2 ^ 33))) = Some (ptr, [OsAlloc (2 ^ 33) (2 ^ 32 + 8)], g') /\ ptr <> 0 /\
  umf_ba_global_malloc_usable_size g' ptr = Some (U64 - 1) /\
  exists g2, gstep false c0 g' (GFree ptr) = Some (0, [], g2) /\ exists b, nth_error (g_ac g2) 0 = Some (Some b) /\ In (ptr - 9) (b_free b).
Proof.
  assert (E : exists g' g2 b, gstep false c0 (snd (g_start false)) (GAlloc (2 ^ 32) 8 (Some (2 ^ 33))) = Some (2 ^ 33 + 8, [OsAlloc (2 ^ 33) (2 ^ 32 + 8)], g') /\ umf_ba_global_malloc_usable_size g' (2 ^ 33 + 8) = Some (U64 - 1) /\
    gstep false c0 g' (GFree (2 ^ 33 + 8)) = Some (0, [], g2) /\ nth_error (g_ac g2) 0 = Some (Some b) /\ match b_free b with x :: _ => x = 2 ^ 33 + 8 - 9 | [] => False end).
  { eexists _, _, _. split; [vm_compute; reflexivity|]. split; [vm_compute; reflexivity|]. split; [vm_compute; reflexivity|]. split; [vm_compute; reflexivity|vm_compute; reflexivity]. }
  destruct E as (g' & g2 & b & E1 & E2 & E3 & E4 & E5). exists (snd (g_start false)), (g_view false), (2 ^ 33 + 8), g'. split; [apply g_start_reached|]. split; [exact E1|]. split; [lia|]. split; [exact E2|]. exists g2. split; [exact E3|]. exists b. split; [exact E4|]. destruct (b_free b) as [|x r]; [destruct E5|]. left. exact E5.
Qed.
Print Assumptions global_large_refuted.
(* Without memory from the OS, NULL is taken for a pointer: undefined behaviour. *)
Theorem global_out_of_memory_refuted : forall dbg, exists g v, greached dbg c0 g v /\ genv v (GAlloc 300 8 None) /\ gstep dbg c0 g (GAlloc 300 8 None) = None.
Proof.
  intros dbg. exists (snd (g_start dbg)), (g_view dbg). split; [apply g_start_reached|]. split; [cbn; split; [lia|]; split; [exists 3; split; [lia|reflexivity]|lia]|]. destruct dbg; vm_compute; reflexivity.
Qed.
Print Assumptions global_out_of_memory_refuted.
(* What is refused, in every state, in both builds and whatever the OS answers:
   sizes that do not fit after rounding to 8 bytes (chunks, linear), sizes that
   do not fit with metadata and alignment (global).  And without memory from the
   OS, creation and allocation answer NULL and change nothing.
   Missing for C56: the witnesses above (headers, 128 chunks, page rounding,
   32-bit metadata; the global allocator without memory). *)
Theorem internal_refusals_partial :
  (forall dbg c size os lock, is_word size -> U64 - 8 < size -> umf_ba_create dbg c size os lock = Some ([], None)) /\
  (forall dbg c l size os, is_word size -> U64 - 8 < size -> lstep dbg c l (LAlloc size os) = Some (0, [], l)) /\
  (forall dbg c g size al os, is_word size -> U64 <= size + 8 \/ 8 < al /\ U64 <= size + 8 + al -> gstep dbg c g (GAlloc size al os) = Some (0, [], g)) /\
  (forall dbg c size lock, exists ev, umf_ba_create dbg c size None lock = Some (ev, None) /\ held_after [] ev = []) /\
  (forall c size lock, exists ev, umf_ba_linear_create c size None lock = (ev, None) /\ held_after [] ev = []) /\
  (forall dbg c b os ptr ev b' n, bstep dbg c b (BAlloc os) = Some (ptr, ev, b') -> In (OsFail n) ev -> ptr = 0 /\ b' = b) /\
  (forall dbg c l size os ptr ev l' n, lstep dbg c l (LAlloc size os) = Some (ptr, ev, l') -> In (OsFail n) ev -> ptr = 0 /\ l' = l).
Proof.
  split; [exact create_refused|]. split; [exact linear_refused|]. split; [intros dbg c; exact (global_refused dbg)|]. split; [exact create_no_memory|]. split; [exact lcreate_no_memory|].
  split; [intros dbg c; exact (alloc_no_memory dbg)|exact lalloc_no_memory].
Qed.
Print Assumptions internal_refusals_partial.
(* a full linear pool without memory from the OS *)
Example linear_no_memory : exists l n, lstep true c0 (l_start true) (LAlloc 4072 None) = Some (0, [OsFail n], l) /\ l = l_start true /\ n = 4096.
Proof. eexists _, _. split; [vm_compute; reflexivity|]. split; vm_compute; reflexivity. Qed.

(* ---- C57: the linear allocator's memory is not bounded by what is live ---- *)
(* A region emptied while it is the active one is kept until destroy. *)
Definition leak_run : list lcall := [LAlloc 4072 (Some 16384); LFree 16408; LAlloc 4072 (Some 32768); LFree 32792; LAlloc 4072 (Some 65536); LFree 65560].
Theorem linear_memory_bounded_refuted : ~ (forall dbg c size l v, machine c -> lfits c size -> lreached dbg c size l v -> (length (lv_mem v) <= 2 + length (lv_live v))%nat).
Proof.
  intros H. assert (R : exists l v, lreached true c0 0 l v /\ length (lv_mem v) = 4%nat /\ lv_live v = []) by (eexists _, _; split; [apply (l_after_reached true leak_run); vm_compute; reflexivity|vm_compute; auto]).
  destruct R as (l & v & R & E1 & E2). pose proof (H true c0 0 l v c0_machine ltac:(unfold lfits, U64; cbn; lia) R) as X. rewrite E1, E2 in X. cbn in X. lia.
Qed.
Print Assumptions linear_memory_bounded_refuted.
(* What is true: the bound is exceeded only by the regions that were given up,
   at most one per region obtained while the newest one was empty; without
   such a call the bound of C57 holds.
   Missing for C57: that a region given up is released. *)
Theorem linear_memory_bounded_partial :
  (forall dbg c size l v, lreached dbg c size l v -> exists n, lcounted dbg c size l v n) /\
  (forall dbg c size l v n, machine c -> lfits c size -> lcounted dbg c size l v n -> (length (lv_mem v) <= 2 + length (lv_live v) + n)%nat).
Proof. split; [exact lreached_lcounted|exact waste_bound]. Qed.
Print Assumptions linear_memory_bounded_partial.
Fixpoint lcount (dbg : bool) (c : consts) (l : linear) (v : lview) (n : nat) (ks : list lcall) : option (linear * lview * nat) :=
  match ks with
  | [] => Some (l, v, n)
  | k :: r => match lstep dbg c l k with Some (p, ev, l') => lcount dbg c l' (lobserve v k p ev) (if gives_up v ev then S n else n) r | None => None end
  end.
Lemma lcount_counted : forall dbg c size ks l v n l' v' n', 0 < k_page c -> lcounted dbg c size l v n -> llegal dbg c l v ks = true -> lcount dbg c l v n ks = Some (l', v', n') -> lcounted dbg c size l' v' n'.
Proof.
  intros dbg c size ks. induction ks as [|k r IH]; intros l v n l' v' n' P R L H; cbn [llegal lcount] in *; [injection H as <- <- <-; exact R|]. destruct (lstep dbg c l k) as [[[p ev] l2]|] eqn:ST; [|discriminate].
  apply andb_true_iff in L. destruct L as (L & L3). apply andb_true_iff in L. destruct L as (L1 & L2). apply (IH l2 (lobserve v k p ev) (if gives_up v ev then S n else n)); auto. apply (lcounted_step dbg c size l v n k); auto; [|apply os_ok_b_ok; assumption].
  destruct k; cbn [lenv_b lenv] in *; [lia|]. apply existsb_exists in L1. destruct L1 as (x & X & E). apply Z.eqb_eq in E. subst ptr. apply in_map. exact X.
Qed.
Lemma l_start_counted : forall dbg, lcounted dbg c0 0 (l_start dbg) l_view 0.
Proof. intros dbg. apply (lcounted_new dbg c0 0 (Some 8192) [OsAlloc 8192 4096] (l_start dbg)); [vm_compute; reflexivity|]. apply os_ok_b_ok; [reflexivity|vm_compute; reflexivity]. Qed.
(* the run of the refutation gives up two regions and meets the bound exactly *)
Example leak_counted : exists l v, lcounted true c0 0 l v 2 /\ length (lv_mem v) = 4%nat /\ lv_live v = [].
Proof. eexists _, _. split; [eapply (lcount_counted true c0 0 leak_run); [reflexivity|apply l_start_counted|vm_compute; reflexivity|vm_compute; reflexivity]|]. vm_compute. auto. Qed.
(* the same allocations, each freed after the next one: nothing is given up *)
Definition lag_run : list lcall := [LAlloc 4072 (Some 16384); LAlloc 4072 (Some 32768); LFree 16408; LAlloc 4072 (Some 65536); LFree 32792].
Example lag_counted : exists l v, lcounted true c0 0 l v 0 /\ length (lv_mem v) = 2%nat /\ lv_live v = [(65560, 4072)].
Proof. eexists _, _. split; [eapply (lcount_counted true c0 0 lag_run); [reflexivity|apply l_start_counted|vm_compute; reflexivity|vm_compute; reflexivity]|]. vm_compute. auto. Qed.
