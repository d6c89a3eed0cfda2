(* Theorems about the file memory provider. *)
From Verif Require Import Base Model_Utils Spec_Utils Model_OsProvider Spec_OsProvider Proof_OsProvider Model_Coarse Spec_Coarse Model_FileProvider Spec_FileProvider
  Proof_FileProvider Proof_FileHistory Proof_FileEnd.

(* C32.  In every history (any sizes; splits, merges and frees; failing mmap and
   posix_fallocate; any addresses chosen by the kernel; both builds) whose
   alignments do not exceed the page size: every byte of a live allocation shows a
   byte inside the file, different bytes show different bytes of the file, and every
   byte lies in one of the provider's mappings.
   Missing: alignments above the page size, where the statement is false (below). *)
Theorem file_ranges_partial : forall e page mo ipc dax c v w, big mo = false -> history e page mo ipc dax c v w ->
  (forall x, held v x -> exists o, fm w x = Some (File o) /\ 0 <= o < flen w) /\
  (forall x y, held v x -> held v y -> fm w x = fm w y -> x = y) /\
  (forall x, held v x -> exists a len, In (a, len) (maps w) /\ a <= x < a + len).
Proof. exact file_ranges. Qed.
Print Assumptions file_ranges_partial.

(* C33.  If moreover no mmap fails or all sizes are whole pages, mappings are never
   adjacent, and the coarse allocator's internal memory suffices: the IPC handle of
   a live allocation has the offset at which the allocation's bytes are in the
   file, and a consumer that opens it (not FSDAX, or the offset is a multiple of
   2 MB) sees at its address the same bytes.
   Missing: the refuted cases below. *)
Theorem file_ipc_same_bytes_partial : forall e page mo dax c v w p n size, history e page mo true dax c v w ->
  big mo = false -> no_fail mo || whole mo = true -> gaps mo = true -> enough mo = true -> live v p = Some n -> 0 < size <= n ->
  exists d, file_get_ipc_handle (fs w) p size = (SUCCESS, Some d) /\
    (forall i, 0 <= i < n -> fm w (p + i) = Some (File (i_off d + i))) /\ 0 <= i_off d /\ i_off d + n <= flen w /\
    forall t m a r q ev, f_ipc t = true -> (f_dax t = true -> i_off d mod FSDAX_PAGE_SIZE_2MB = 0) ->
      file_open_ipc_handle t d (Some a) = (r, q, ev) -> r = SUCCESS /\ forall i, 0 <= i < size -> after_all page m ev (q + i) = fm w (p + i).
Proof.
  intros e page mo dax c v w p n size H NB SM GM EN L S. destruct (file_ipc _ _ _ _ _ _ _ _ _ _ H NB SM GM EN L S) as (d & D1 & D2 & D3 & D4 & D5).
  assert (PP : Proof_Utils.pow2 page) by exact (proj1 (mi_history _ _ _ _ _ _ _ _ H)). pose proof (Proof_Utils.pow2_range _ PP) as PR.
  exists d. split; [exact D1|]. split; [exact D3|]. split; [exact D4|]. split; [exact D5|].
  intros t m a r q ev T1 T2 O. unfold file_open_ipc_handle in O. rewrite T1 in O. cbn [negb] in O.
  assert (SEE : forall len, size <= len -> forall i, 0 <= i < size -> after_all page m [Mmap a len (Some (i_off d))] (a + i) = fm w (p + i)).
  { intros len LE i X. rewrite D3 by lia. unfold after_all. cbn [fold_left after].
    assert (W : within page a len (a + i) = true) by (apply within_iff; destruct (up_spec page len ltac:(lia)); lia). rewrite W. f_equal. f_equal. lia. }
  destruct (f_dax t).
  - specialize (T2 eq_refl). assert (FL : 0 <= flen w < 2 ^ 63) by exact (file_len _ _ _ _ _ _ _ _ NB H).
    assert (UU : U64 = 2 ^ 64) by reflexivity. rewrite Proof_Utils.ptr_down_size_up_val in O.
    + rewrite D2, T2, Z.add_0_r, Z.sub_0_r in O. injection O as <- <- <-. split; [reflexivity|]. apply SEE.
      pose proof (Z.mod_pos_bound (size + FSDAX_PAGE_SIZE_2MB - 1) FSDAX_PAGE_SIZE_2MB ltac:(unfold FSDAX_PAGE_SIZE_2MB; lia)). lia.
    + exists 21. split; [lia|reflexivity].
    + unfold is_word. lia.
    + rewrite D2. unfold is_word. lia.
    + rewrite T2, D2. unfold FSDAX_PAGE_SIZE_2MB. lia.
  - injection O as <- <- <-. split; [reflexivity|]. rewrite D2. apply SEE. lia.
Qed.
Print Assumptions file_ipc_same_bytes_partial.

(* The asserts of file_mmap_aligned and file_alloc_aligned hold in the same
   histories: a build with asserts does what one without does. *)
Theorem file_asserts_partial : forall e page mo ipc dax c v w size a1 a2 r p ev s', big mo = false -> history e page mo ipc dax c v w ->
  0 < size < U64 -> (whole mo = true -> size mod page = 0) -> file_alloc_cb false (fs w) size page a1 a2 = Some (r, p, ev, s') ->
  kernel page (fm w) (mappings ev) -> files ev -> (gaps mo = true -> holes page (fm w) (mappings ev)) -> (no_fail mo = true -> ~ mmap_failed (mappings ev)) ->
  file_alloc_cb true (fs w) size page a1 a2 = Some (r, p, ev, s').
Proof.
  intros e page mo ipc dax c v w size a1 a2 r p ev s' NB H S WH CB K1 K2 K3 K4. destruct (history_inv _ _ _ _ _ _ _ _ NB H) as [_ _ _ PP PL _ _ (F & G & I & _) _].
  exact (asserts_hold page mo F w G size a1 a2 r p ev s' PP PL I S WH CB (OkEv _ _ _ _ K1 K2 K3 K4)).
Qed.
Print Assumptions file_asserts_partial.

(* C65.  In every history, whatever the alignments: finalize unmaps every mapping
   the provider ever made, each once, and nothing else. *)
Theorem file_finalize_unmaps : forall e page mo ipc dax c v w, history e page mo ipc dax c v w ->
  exists ev, file_finalize (fs w) = Some ev /\
    (forall x, (exists a len, In (a, len) (maps w) /\ a <= x < a + len) -> after_all page (fm w) ev x = None) /\
    (forall x, (forall a len, In (a, len) (maps w) -> ~ a <= x < a + len) -> after_all page (fm w) ev x = fm w x) /\
    (forall a len ok, In (Munmap a len ok) ev <-> In (a, len) (maps w) /\ ok = true) /\ List.length ev = List.length (maps w).
Proof. exact finalize_ok. Qed.
Print Assumptions file_finalize_unmaps.

(* ---- concrete histories ---- *)
Definition nothing : memory := fun _ => None.
Definition aok := AddOracle true true.
Definition bok := BackOracle SUCCESS SUCCESS aok.
Definition from_cb cb := AllocOracle SUCCESS true false aok SUCCESS true aok bok cb true.
Inductive op := A (size al : Z) (cb : result * Z) (an : list (answer * answer)) | F (p n : Z) | S (p total first : Z) | M (lo hi total : Z).
Definition call_of (o : op) : call :=
  match o with A size al cb _ => CAlloc size al (from_cb cb) | F p n => CFree p n bok | S p t f => CSplit p t f SUCCESS true | M lo hi t => CMerge lo hi t SUCCESS end.
Definition answers (o : op) := match o with A _ _ _ l => l | _ => [] end.

(* the provider, all calls of mmap so far, size of the file *)
Record pw := PW { ps : filep; pc : list sys; pn : Z; pm : list (Z * Z) }.
Definition world (page : Z) (x : pw) : fworld := FW (ps x) (after_all page nothing (pc x)) (pn x) (pm x).

Definition apart (page a len : Z) (e : sys) : bool := match e with Mmap b k _ => (a + up page len <=? b) || (b + up page k <=? a) | _ => true end.
Fixpoint kernel_b (page : Z) (L l : list sys) : bool :=
  match l with
  | [] => true
  | e :: r =>
      match e with
      | Mmap a len (Some o) => (0 <? len) && (0 <? a) && (a mod page =? 0) && (a + up page len <=? 2 ^ 63) && (o mod page =? 0) && forallb (apart page a len) L
      | Mmap _ _ None => false | _ => true
      end && kernel_b page (L ++ [e]) r
  end.
Lemma mapped_in : forall page L x, after_all page nothing L x <> None -> exists a len off, In (Mmap a len off) L /\ within page a len x = true.
Proof.
  intros page L x. induction L as [|e L IH] using rev_ind; [intros H; destruct (H eq_refl)|]. rewrite after_all_app. unfold after_all at 1. cbn [fold_left].
  intros H. assert (OR : (exists a len off, e = Mmap a len off /\ within page a len x = true) \/ after_all page nothing L x <> None).
  { destruct e as [a len off|len off|a len ok|c]; cbn [after] in H; try (right; exact H).
    - destruct (within page a len x) eqn:W; [left; exists a, len, off; auto|right; exact H].
    - right. destruct ok; [destruct (within page a len x); [destruct (H eq_refl)|exact H]|exact H]. }
  destruct OR as [(a & len & off & -> & W)|OR]; [exists a, len, off; split; [apply in_or_app; right; left; reflexivity|exact W]|].
  destruct (IH OR) as (a & len & off & I1 & I2). exists a, len, off. split; [apply in_or_app; left; exact I1|exact I2].
Qed.
Lemma kernel_b_ok : forall page l L, kernel_b page L l = true -> kernel page (after_all page nothing L) l.
Proof.
  intros page l. induction l as [|e l IH]; intros L H; cbn [kernel_b kernel] in *; [exact I|]. apply andb_true_iff in H. destruct H as (H1 & H2).
  split; [|apply IH in H2; rewrite after_all_app in H2; exact H2].
  destruct e as [a len [o|]|len off|a len ok|c]; cbn [mmap_legal]; try exact I; try discriminate.
  repeat (apply andb_true_iff in H1; destruct H1 as (H1 & ?)). rewrite forallb_forall in H.
  apply Z.ltb_lt in H1, H5. apply Z.eqb_eq in H4, H0. apply Z.leb_le in H3. do 5 (split; [assumption|]).
  intros x W. destruct (after_all page nothing L x) eqn:E; [|reflexivity]. exfalso. destruct (mapped_in page L x) as (b1 & k1 & o2 & I1 & I2); [rewrite E; discriminate|].
  specialize (H _ I1). cbn [apart] in H. apply orb_true_iff in H. apply within_iff in W, I2. destruct H as [H|H]; apply Z.leb_le in H; lia.
Qed.
Definition is_none {T} (o : option T) : bool := match o with None => true | Some _ => false end.
Fixpoint holes_b (page : Z) (m : memory) (l : list sys) : bool :=
  match l with [] => true | e :: r => match e with Mmap a len _ => is_none (m (a - 1)) && is_none (m (a + up page len)) | _ => true end && holes_b page (after page m e) r end.
Lemma holes_b_ok : forall page l m, holes_b page m l = true -> holes page m l.
Proof.
  intros page l. induction l as [|e l IH]; intros m H; cbn [holes_b holes] in *; [exact I|]. apply andb_true_iff in H. destruct H as (H1 & H2). split; [|exact (IH _ H2)].
  destruct e; try exact I. apply andb_true_iff in H1. unfold is_none in H1. destruct H1 as (A1 & A2). destruct (m (a - 1)); [discriminate|]. destruct (m (a + up page len)); [discriminate|]. auto.
Qed.
Definition files_b (l : list fsys) : bool :=
  forallb (fun e => match e with Grow s n true => s + n <? 2 ^ 63 | Call (Mmap _ len (Some off)) => off + len <=? 2 ^ 63 | _ => true end) l.
Lemma files_b_ok : forall l, files_b l = true -> files l.
Proof.
  intros l H. unfold files_b in H. rewrite forallb_forall in H. split.
  - intros s n X. specialize (H _ X). cbn in H. apply Z.ltb_lt. exact H.
  - intros a n o X. specialize (H _ X). cbn in H. apply Z.leb_le. exact H.
Qed.
Definition fails_b (l : list sys) : bool := existsb (fun e => match e with MmapFail _ _ => true | _ => false end) l.
Definition imp (a b : bool) : bool := negb a || b.

Fixpoint serve (dbg : bool) (page : Z) (mo : mode) (w : pw) (evs : list event) (an : list (answer * answer)) : option pw :=
  match evs with
  | [] => Some w
  | EvAlloc size al r p :: rest =>
      match an with
      | [] => None
      | (a1, a2) :: an' =>
          match file_alloc_cb dbg (ps w) size al a1 a2 with
          | Some (r', p', ev, s') =>
              let l := mappings ev in
              if result_eqb r r' && (p =? p') && kernel_b page (pc w) l && files_b ev && imp (gaps mo) (holes_b page (after_all page nothing (pc w)) l) &&
                 imp (no_fail mo) (negb (fails_b l)) && imp (whole mo) (size mod page =? 0)
              then serve dbg page mo (PW s' (pc w ++ l) (grown_all (pn w) ev) (new_maps l ++ pm w)) rest an' else None
          | None => None
          end
      end
  | EvSplit p total first r :: rest =>
      let '(r', s') := file_allocation_split_cb (ps w) p total first in
      if result_eqb r r' then serve dbg page mo (PW s' (pc w) (pn w) (pm w)) rest an else None
  | EvMerge lo hi total r :: rest =>
      let '(r', s') := file_allocation_merge_cb (ps w) lo hi total in
      if result_eqb r r' then serve dbg page mo (PW s' (pc w) (pn w) (pm w)) rest an else None
  | EvFree _ _ :: _ => None
  end.
Lemma result_eqb_ok : forall a b, result_eqb a b = true -> a = b.
Proof. intros a b. destruct a, b; intros H; (reflexivity || discriminate H). Qed.
Lemma imp_ok : forall a b, imp a b = true -> a = true -> b = true.
Proof. intros a b H ->. exact H. Qed.
Lemma serve_ok : forall dbg page mo evs w an w', serve dbg page mo w evs an = Some w' -> served dbg page mo (world page w) evs (world page w').
Proof.
  intros dbg page mo evs. induction evs as [|e evs IH]; intros w an w' H; cbn [serve] in H; [injection H as <-; constructor|].
  destruct e as [size al r p|p n|p t f r|lo hi t r]; [|discriminate| |].
  - destruct an as [|[a1 a2] an]; [discriminate|]. destruct (file_alloc_cb dbg (ps w) size al a1 a2) as [[[[r' p'] ev] s']|] eqn:CB; [|discriminate].
    match type of H with (if ?z then _ else _) = _ => destruct z eqn:Z; [|discriminate] end.
    repeat (apply andb_true_iff in Z; destruct Z as (Z & ?)). apply result_eqb_ok in Z. apply Z.eqb_eq in H5. subst r' p'.
    apply (sv_alloc dbg page mo (ps w) (after_all page nothing (pc w)) (pn w) (pm w) size al a1 a2 r p ev s' evs (world page w') CB).
    + apply kernel_b_ok. exact H4.
    + apply files_b_ok. exact H3.
    + intros G. apply holes_b_ok. exact (imp_ok _ _ H2 G).
    + intros G (len & off & X). pose proof (imp_ok _ _ H1 G) as N. apply negb_true_iff in N. unfold fails_b in N.
      assert (T : existsb (fun e => match e with MmapFail _ _ => true | _ => false end) (mappings ev) = true) by (apply existsb_exists; exists (MmapFail len off); auto). rewrite T in N. discriminate.
    + intros G. apply Z.eqb_eq. exact (imp_ok _ _ H0 G).
    + rewrite <- after_all_app. exact (IH _ _ _ H).
  - destruct (file_allocation_split_cb (ps w) p t f) as [r' s'] eqn:CB. destruct (result_eqb r r') eqn:RE; [|discriminate]. apply result_eqb_ok in RE. subst r'.
    exact (sv_split dbg page mo _ _ _ _ _ _ _ _ _ _ _ CB (IH _ _ _ H)).
  - destruct (file_allocation_merge_cb (ps w) lo hi t) as [r' s'] eqn:CB. destruct (result_eqb r r') eqn:RE; [|discriminate]. apply result_eqb_ok in RE. subst r'.
    exact (sv_merge dbg page mo _ _ _ _ _ _ _ _ _ _ _ CB (IH _ _ _ H)).
Qed.

Definition wordb (x : Z) : bool := (0 <=? x) && (x <? U64).
Definition fair (page : Z) (mo : mode) (o : op) : bool :=
  match o with
  | A size al _ _ => (0 <? size) && (size <? U64) && (0 <=? al) && (if big mo then al <? U64 else al <=? page)
  | F p n => wordb p && wordb n | S p t f => wordb p && wordb t && wordb f | M lo hi t => wordb lo && wordb hi && wordb t
  end.
Lemma wordb_ok : forall x, wordb x = true -> is_word x.
Proof. intros x H. apply andb_true_iff in H. destruct H as (A1 & A2). apply Z.leb_le in A1. apply Z.ltb_lt in A2. split; assumption. Qed.
Lemma fair_ok : forall e page mo o, fair page mo o = true -> client e page (big mo) (call_of o).
Proof.
  intros e page mo o H. destruct o as [size al cb an|p n|p t f|lo hi t]; cbn [fair call_of client] in *.
  - repeat (apply andb_true_iff in H; destruct H as (H & ?)). apply Z.ltb_lt in H, H2. apply Z.leb_le in H1. split; [split; assumption|]. split.
    + destruct (big mo); [right; split; [reflexivity|split; [exact H1|apply Z.ltb_lt; exact H0]]|left; split; [exact H1|apply Z.leb_le; exact H0]].
    + unfold both, agrees. cbn [from_cb o_junk o_add1 o_add2 o_re bok aok o_back o_elem o_head o_prev o_next]. repeat split; reflexivity.
  - apply andb_true_iff in H. destruct H as (H & H0). split; [apply wordb_ok; exact H|]. split; [apply wordb_ok; exact H0|]. unfold both, agrees. cbn. auto.
  - apply andb_true_iff in H. destruct H as (H & H0). apply andb_true_iff in H. destruct H as (H & H1). split; [apply wordb_ok; exact H|]. split; apply wordb_ok; assumption.
  - apply andb_true_iff in H. destruct H as (H & H0). apply andb_true_iff in H. destruct H as (H & H1). split; [apply wordb_ok; exact H|]. split; apply wordb_ok; assumption.
Qed.

Fixpoint play (dbg : bool) (page : Z) (mo : mode) (ops : list op) (c : coarse) (v : view) (w : pw) : option (coarse * view * pw) :=
  match ops with
  | [] => Some (c, v, w)
  | o :: rest =>
      if fair page mo o then
        match step dbg c (call_of o) with
        | Some r => match serve dbg page mo w (r_ev r) (answers o) with Some w' => play dbg page mo rest (r_st r) (observe v (call_of o) r) w' | None => None end
        | None => None
        end
      else None
  end.
Lemma play_ok : forall dbg page mo ipc dax ops c v w c' v' w', history (Env dbg true true) page mo ipc dax c v (world page w) ->
  play dbg page mo ops c v w = Some (c', v', w') -> history (Env dbg true true) page mo ipc dax c' v' (world page w').
Proof.
  intros dbg page mo ipc dax ops. induction ops as [|o ops IH]; intros c v w c' v' w' H P; cbn [play] in P; [injection P as <- <- <-; exact H|].
  destruct (fair page mo o) eqn:FA; [|discriminate]. destruct (step dbg c (call_of o)) as [r|] eqn:ST; [|discriminate].
  destruct (serve dbg page mo w (r_ev r) (answers o)) as [w1|] eqn:SV; [|discriminate]. apply (IH _ _ _ _ _ _) in P; [exact P|].
  eapply h_call; [exact H|apply fair_ok; exact FA| |exact ST|apply serve_ok with (an := answers o); exact SV].
  intros _. destruct o; cbn; auto.
Qed.
Definition start (dbg : bool) (page : Z) (mo : mode) (ipc dax : bool) (ops : list op) : option (coarse * view * pw) :=
  play dbg page mo ops (coarse_new page FASTEST_BUT_ONE true false) no_view (PW (file_created page ipc dax) [] FSDAX_PAGE_SIZE_2MB []).
Lemma start_ok : forall dbg n mo ipc dax ops c v w, 0 <= n < 63 -> start dbg (2 ^ n) mo ipc dax ops = Some (c, v, w) -> history (Env dbg true true) (2 ^ n) mo ipc dax c v (world (2 ^ n) w).
Proof.
  intros dbg n mo ipc dax ops c v w N P. unfold start in P. eapply play_ok; [|exact P]. unfold world. cbn [ps pc pn pm].
  apply (h_new (Env dbg true true) (2 ^ n) mo ipc dax n FASTEST_BUT_ONE nothing eq_refl N). reflexivity.
Qed.

Definition yes (a : Z) := Answer true (Some a).
Definition no := Answer true None.
Definition Q := 1048576.
Definition careful := Mode true true true true false.
Definition played (dbg : bool) (n : Z) (mo : mode) (dax : bool) (ops : list op) (look : view -> pw -> bool) : bool :=
  match start dbg (2 ^ n) mo true dax ops with Some (_, v, w) => look v w | None => false end.
Lemma played_ok : forall dbg n mo dax ops look, 0 <= n < 63 -> played dbg n mo dax ops look = true ->
  exists c v w, history (Env dbg true true) (2 ^ n) mo true dax c v (world (2 ^ n) w) /\ look v w = true.
Proof.
  intros dbg n mo dax ops look N P. unfold played in P. destruct (start dbg (2 ^ n) mo true dax ops) as [[[c v] w]|] eqn:E; [|discriminate].
  exists c, v, w. split; [exact (start_ok _ _ _ _ _ _ _ _ _ N E)|exact P].
Qed.
Definition holds (v : view) (p n : Z) : bool := match live v p with Some k => k =? n | None => false end.
Lemma holds_ok : forall v p n, holds v p n = true -> live v p = Some n.
Proof. intros v p n. unfold holds. destruct (live v p) as [k|]; [|discriminate]. intros H. apply Z.eqb_eq in H. subst k. reflexivity. Qed.
Lemma holds_held : forall v p n x, holds v p n = true -> p <= x < p + n -> held v x.
Proof. intros v p n x H X. exists p, n. split; [apply holds_ok; exact H|exact X]. Qed.
Definition byte (page : Z) (w : pw) (x : Z) : option Z := match after_all page nothing (pc w) x with Some (File o) => Some o | _ => None end.
Definition at_ (page : Z) (w : pw) (x o : Z) : bool := match byte page w x with Some k => k =? o | None => false end.
Lemma at_ok : forall page w x o, at_ page w x o = true -> fm (world page w) x = Some (File o).
Proof. intros page w x o. unfold at_, byte, world. cbn [fm]. destruct (after_all page nothing (pc w) x) as [[|k]|]; try discriminate. intros H. apply Z.eqb_eq in H. subst k. reflexivity. Qed.
Definition handle (w : pw) (p n o : Z) : bool := match file_get_ipc_handle (ps w) p n with (SUCCESS, Some d) => (i_off d =? o) && (i_size d =? n) | _ => false end.
Lemma handle_ok : forall page w p n o, handle w p n o = true -> file_get_ipc_handle (fs (world page w)) p n = (SUCCESS, Some (Ipc o n)).
Proof.
  intros page w p n o. unfold handle, world. cbn [fs]. destruct (file_get_ipc_handle (ps w) p n) as [[] [[o' n']|]]; try discriminate. cbn [i_off i_size].
  intros H. apply andb_true_iff in H. destruct H as (H1 & H2). apply Z.eqb_eq in H1, H2. subst. reflexivity.
Qed.

(* Two mappings, a split, a free, and a reuse, with asserts and under all the
   restrictions; the theorems above apply. *)
Definition ops_good := [A 4096 0 (SUCCESS, Q) [(yes Q, no)]; A 4096 64 (SUCCESS, Q + 4096) [(no, no)]; A 8192 0 (SUCCESS, 2 * Q) [(yes (2 * Q), no)];
  S (2 * Q) 8192 4096; F Q 4096; A 4096 0 (ERR_UNKNOWN, 0) []].
Example good_history : exists c v w, history (Env true true true) (2 ^ 12) careful true false c v w /\
  live v Q = Some 4096 /\ live v (Q + 4096) = Some 4096 /\ live v (2 * Q) = Some 4096 /\ live v (2 * Q + 4096) = Some 4096 /\
  fm w Q = Some (File 0) /\ fm w (2 * Q + 5000) = Some (File 13192) /\ file_get_ipc_handle (fs w) (2 * Q + 4096) 4096 = (SUCCESS, Some (Ipc 12288 4096)) /\
  file_finalize (fs w) = Some [Munmap Q 8192 true; Munmap (2 * Q) 12288 true].
Proof.
  destruct (played_ok true 12 careful false ops_good (fun v w => holds v Q 4096 && holds v (Q + 4096) 4096 && holds v (2 * Q) 4096 && holds v (2 * Q + 4096) 4096 &&
    at_ (2 ^ 12) w Q 0 && at_ (2 ^ 12) w (2 * Q + 5000) 13192 && handle w (2 * Q + 4096) 4096 12288 &&
    match file_finalize (ps w) with Some [Munmap a1 n1 true; Munmap a2 n2 true] => (a1 =? Q) && (n1 =? 8192) && (a2 =? 2 * Q) && (n2 =? 12288) | _ => false end)) as (c & v & w & H & L); [lia|vm_compute; reflexivity|].
  exists c, v, (world (2 ^ 12) w). split; [exact H|]. apply andb_true_iff in L. destruct L as (L & L0). repeat (apply andb_true_iff in L; destruct L as (L & ?)).
  do 4 (split; [apply holds_ok; assumption|]). do 2 (split; [apply at_ok; assumption|]). split; [apply handle_ok; assumption|].
  unfold world. cbn [fs]. destruct (file_finalize (ps w)) as [[|[| |a1 n1 [|]|] [|[| |a2 n2 [|]|] [|]]]|]; try discriminate L0.
  repeat (apply andb_true_iff in L0; destruct L0 as (L0 & ?)). apply Z.eqb_eq in L0, H6, H7, H8. subst. reflexivity.
Qed.

(* ---- refutations ---- *)
(* C32 with alignments above the page size: the remaining size of the mapping
   underflows, and the provider returns memory that is not mapped at all. *)
Definition overaligned := Mode true true true true true.
Definition ops_outside := [A 4096 4096 (SUCCESS, Q) [(yes Q, no)]; A 4096 16384 (SUCCESS, Q + 16384) [(no, no)]].
Theorem file_alignment_outside_refuted : forall dbg, exists c v w x, history (Env dbg true true) (2 ^ 12) overaligned true false c v w /\ held v x /\ fm w x = None.
Proof.
  intros dbg. destruct (played_ok dbg 12 overaligned false ops_outside (fun v w => holds v (Q + 16384) 4096 && is_none (after_all (2 ^ 12) nothing (pc w) (Q + 16384)))) as (c & v & w & H & L);
    [lia|destruct dbg; vm_compute; reflexivity|]. apply andb_true_iff in L. destruct L as (L1 & L2).
  exists c, v, (world (2 ^ 12) w), (Q + 16384). split; [exact H|]. split; [apply (holds_held _ _ _ _ L1); lia|]. unfold world. cbn [fm]. unfold is_none in L2.
  destruct (after_all (2 ^ 12) nothing (pc w) (Q + 16384)); [discriminate|reflexivity].
Qed.
Print Assumptions file_alignment_outside_refuted.

(* ... or two live allocations share bytes of the file, and the IPC handle of the
   first one denotes other bytes: the part of the mapping skipped for the alignment
   is not counted in the file offset. *)
Definition ops_alias := [A 4096 16384 (SUCCESS, Q) [(yes (Q - 4096), no)]; A 65536 0 (SUCCESS, 2 * Q) [(yes (2 * Q), no)]].
Theorem file_alignment_alias_refuted : forall dbg, exists c v w x y d, history (Env dbg true true) (2 ^ 12) overaligned true false c v w /\
  live v x = Some 4096 /\ live v y = Some 65536 /\ x <> y /\ fm w x = fm w y /\ file_get_ipc_handle (fs w) x 4096 = (SUCCESS, Some d) /\ fm w x <> Some (File (i_off d)).
Proof.
  intros dbg. destruct (played_ok dbg 12 overaligned false ops_alias (fun v w => holds v Q 4096 && holds v (2 * Q) 65536 && at_ (2 ^ 12) w Q 4096 && at_ (2 ^ 12) w (2 * Q) 4096 && handle w Q 4096 0)) as (c & v & w & H & L);
    [lia|destruct dbg; vm_compute; reflexivity|]. repeat (apply andb_true_iff in L; destruct L as (L & ?)). apply at_ok in H1, H2.
  exists c, v, (world (2 ^ 12) w), Q, (2 * Q), (Ipc 0 4096). split; [exact H|]. split; [apply holds_ok; exact L|]. split; [apply holds_ok; exact H3|]. split; [discriminate|]. split; [rewrite H1, H2; reflexivity|].
  split; [apply handle_ok; exact H0|]. rewrite H2. discriminate.
Qed.
Print Assumptions file_alignment_alias_refuted.

(* C33 with a failing mmap and sizes that are not whole pages: the failed call has
   moved the file offset, and every later allocation from the old mapping gets a
   wrong handle. *)
Definition ops_failed := [A 100 0 (SUCCESS, Q) [(yes Q, no)]; A 16384 0 (ERR_PROVIDER_SPECIFIC, 0) [(no, no)]; A 100 0 (SUCCESS, Q + 4096) [(no, no)]].
Theorem file_ipc_failed_mmap_refuted : forall dbg, exists c v w p d, history (Env dbg true true) (2 ^ 12) (Mode true false false true false) true false c v w /\
  live v p = Some 100 /\ file_get_ipc_handle (fs w) p 100 = (SUCCESS, Some d) /\ fm w p <> Some (File (i_off d)).
Proof.
  intros dbg. destruct (played_ok dbg 12 (Mode true false false true false) false ops_failed (fun v w => holds v (Q + 4096) 100 && at_ (2 ^ 12) w (Q + 4096) 4096 && handle w (Q + 4096) 100 8092)) as (c & v & w & H & L);
    [lia|destruct dbg; vm_compute; reflexivity|]. repeat (apply andb_true_iff in L; destruct L as (L & ?)). apply at_ok in H1.
  exists c, v, (world (2 ^ 12) w), (Q + 4096), (Ipc 8092 100). split; [exact H|]. split; [apply holds_ok; exact L|]. split; [apply handle_ok; exact H0|]. rewrite H1. discriminate.
Qed.
Print Assumptions file_ipc_failed_mmap_refuted.

(* C33 with adjacent mappings, as Linux makes them, top down: the coarse allocator
   joins blocks of two mappings, and the handle of an allocation across both is
   right for its first part only. *)
Definition ops_adjacent := [A 4096 0 (SUCCESS, Q) [(yes Q, no)]; A 4096 0 (SUCCESS, Q + 4096) [(no, no)]; A 16384 0 (SUCCESS, Q - 20480) [(yes (Q - 20480), no)];
  A 4096 0 (SUCCESS, Q - 4096) [(no, no)]; F Q 4096; F (Q - 4096) 4096; A 8192 0 (ERR_UNKNOWN, 0) []].
Theorem file_ipc_adjacent_refuted : forall dbg, exists c v w p d i, history (Env dbg true true) (2 ^ 12) (Mode false true true true false) true false c v w /\
  live v p = Some 8192 /\ file_get_ipc_handle (fs w) p 8192 = (SUCCESS, Some d) /\ 0 <= i < 8192 /\ fm w (p + i) <> Some (File (i_off d + i)).
Proof.
  intros dbg. destruct (played_ok dbg 12 (Mode false true true true false) false ops_adjacent (fun v w => holds v (Q - 4096) 8192 && at_ (2 ^ 12) w Q 0 && handle w (Q - 4096) 8192 24576)) as (c & v & w & H & L);
    [lia|destruct dbg; vm_compute; reflexivity|]. repeat (apply andb_true_iff in L; destruct L as (L & ?)). apply at_ok in H1.
  exists c, v, (world (2 ^ 12) w), (Q - 4096), (Ipc 24576 8192), 4096. split; [exact H|]. split; [apply holds_ok; exact L|]. split; [apply handle_ok; exact H0|]. split; [lia|].
  change (fm (world (2 ^ 12) w) Q <> Some (File (i_off (Ipc 24576 8192) + 4096))). rewrite H1. discriminate.
Qed.
Print Assumptions file_ipc_adjacent_refuted.

(* C33 on FSDAX: the consumer maps from a multiple of 2 MB but returns the address
   of that mapping, not of the allocation in it. *)
Definition M2 := 2097152.
Definition ops_dax := [A (2 * M2) 0 (SUCCESS, M2) [(yes M2, no)]; S M2 (2 * M2) 4096].
Theorem file_ipc_fsdax_refuted : forall dbg, exists c v w p n d r q ev, history (Env dbg true true) (2 ^ 21) careful true true c v w /\
  live v p = Some n /\ file_get_ipc_handle (fs w) p n = (SUCCESS, Some d) /\ file_open_ipc_handle (fs w) d (Some (16 * M2)) = (r, q, ev) /\ r = SUCCESS /\
  kernel (2 ^ 21) nothing ev /\ after_all (2 ^ 21) nothing ev q <> fm w p.
Proof.
  intros dbg. destruct (played_ok dbg 21 careful true ops_dax (fun v w => holds v (M2 + 4096) (2 * M2 - 4096) && at_ (2 ^ 21) w (M2 + 4096) 4096 && handle w (M2 + 4096) (2 * M2 - 4096) 4096 && f_ipc (ps w) && f_dax (ps w))) as (c & v & w & H & L);
    [lia|destruct dbg; vm_compute; reflexivity|]. repeat (apply andb_true_iff in L; destruct L as (L & ?)). apply at_ok in H3.
  exists c, v, (world (2 ^ 21) w), (M2 + 4096), (2 * M2 - 4096), (Ipc 4096 (2 * M2 - 4096)), SUCCESS, (16 * M2), [Mmap (16 * M2) (2 * M2) (Some 0)].
  split; [exact H|]. split; [apply holds_ok; exact L|]. split; [apply handle_ok; exact H2|]. split; [unfold file_open_ipc_handle, world; cbn [fs]; rewrite H0, H1; reflexivity|]. split; [reflexivity|]. split.
  - cbn [kernel mmap_legal]. split; [|exact I]. split; [reflexivity|]. split; [reflexivity|]. split; [reflexivity|]. split; [vm_compute; discriminate|]. split; [reflexivity|]. reflexivity.
  - rewrite H3. vm_compute. discriminate.
Qed.
Print Assumptions file_ipc_fsdax_refuted.
