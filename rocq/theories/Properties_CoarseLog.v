(* C48, C49: what the coarse allocator tells its callbacks, and which free block
   it uses. *)
From Verif Require Import Base Model_Utils Proof_Utils Model_Coarse Spec_Coarse Proof_Coarse Proof_CoarseInv
  Proof_CoarseAlloc Proof_CoarseOps Proof_CoarseProps Proof_CoarseLog Proof_CoarseFit Properties_Coarse.

(* C48.  R = the pieces of memory that exist according to the callbacks.  Every
   callback call the allocator makes names existing pieces with their true
   sizes; the pieces are exactly a partition of the given memory in which every
   live allocation is one piece; destruction returns every piece once. *)
Theorem coarse_callbacks_consistent : forall e c v R, watched e c v R ->
  (forall k r, call_env e (page_size c) v k -> no_oom c k -> step (debug e) c k = Some r ->
     exists R', notes (note_fixed R k r) (r_ev r) = Some R' /\ watched e (r_st r) (observe v k r) R') /\
  (forall p n, live v p = Some n -> R p = Some n) /\
  (forall x, within_given v x <-> exists p n, R p = Some n /\ inside x (p, n)) /\
  (forall p n q m, R p = Some n -> R q = Some m -> p <> q -> disjoint (p, n) (q, m)) /\
  (has_free c = true -> exists evs R', coarse_delete (debug e) c = Some evs /\ notes R evs = Some R' /\ forall q, R' q = None).
Proof.
  intros e c v R W. pose proof (watched_reached _ _ _ _ W) as RE. pose proof (watched_pieces _ _ _ _ W) as E. pose proof (reached_inv _ _ _ RE) as I.
  pose proof (core_chain _ _ (i_core _ _ _ I)) as CH.
  assert (IN : forall q n, R q = Some n <-> exists b, In b (all_blocks c) /\ b_data b = q /\ b_size b = n) by (intros q n; rewrite E; exact (psz_in c q n CH)).
  split; [|split; [|split; [|split]]].
  - intros k r CE NO ST. destruct (watched_step_log _ _ _ _ _ _ E RE CE NO ST) as (R' & N & _). exists R'. split; [exact N|].
    exact (watched_step _ _ _ _ _ _ _ W CE NO ST N).
  - intros p n L. apply IN. apply (i_live _ _ _ I), in_used in L. destruct L as (b & IB & _ & D & S). exists b. auto.
  - intros x. rewrite <- (i_cover _ _ _ I). split.
    + intros (b & IB & X). exists (b_data b), (b_size b). split; [apply IN; exists b; auto|exact X].
    + intros (p & n & RP & X). apply IN in RP. destruct RP as (b & IB & <- & <-). exists b. split; [exact IB|exact X].
  - intros p n q m RP RQ NE x X Y. apply IN in RP. apply IN in RQ. destruct RP as (a & IA & <- & <-), RQ as (b & IB & <- & <-).
    apply NE. f_equal. exact (chain_disjoint _ _ _ _ x CH IA IB X Y).
  - intros HF. rewrite (delete_ok (debug e) e c v I), HF. destruct (delete_log _ _ _ CH E) as (R' & N & Z). eexists. exists R'.
    split; [reflexivity|]. split; [exact N|exact Z].
Qed.
Print Assumptions coarse_callbacks_consistent.

Lemma legal_watched : forall e ks c v c' v' R, watched e c v R -> legal e c v ks -> (forall k, In k ks -> forall c, no_oom c k) ->
  run (debug e) c v ks = Some (c', v') -> exists R', watched e c' v' R'.
Proof.
  intros e. induction ks as [|k ks IH]; intros c v c' v' R W L NO E; cbn [run] in E; [injection E as <- <-; exists R; exact W|].
  destruct L as (LE & r & S & L). rewrite S in E.
  destruct (proj1 (coarse_callbacks_consistent _ _ _ _ W) k r LE (NO k (or_introl eq_refl) c) S) as (R' & _ & W').
  exact (IH _ _ _ _ _ W' L (fun k' I => NO k' (or_intror I)) E).
Qed.
Example history_watched : exists c v R, watched all_env c v R /\ R P0 = Some pg /\ R (P0 + pg) = Some (15 * pg) /\ R (8 * P0) = Some (100 * pg) /\ R (P0 + 4 * pg) = None.
Proof.
  destruct (run true (fresh_coarse true FASTEST_BUT_ONE) no_view history) as [(c, v)|] eqn:E; [|vm_compute in E; discriminate].
  destruct (legal_watched all_env history (fresh_coarse true FASTEST_BUT_ONE) no_view c v (fun _ => None)) as (R & W); [|exact history_legal| |exact E|].
  - apply watched_new; [lia|reflexivity].
  - unfold history. intros k I c0. cbn [In] in I. repeat (destruct I as [<-|I]; [cbn; auto|]). destruct I.
  - exists c, v, R. split; [exact W|]. pose proof (watched_pieces _ _ _ _ W) as X. rewrite !X. vm_compute in E. injection E as <- <-. vm_compute. repeat split; reflexivity.
Qed.

(* C48 without memory for the new block: the split callback's success is not
   undone; the provider then has two pieces where the allocator has one, and
   the next split call names a piece that does not exist. *)
Theorem coarse_split_callback_oom_refuted :
  exists c v R r R' r2, run true (fresh_coarse true FASTEST_BUT_ONE) no_view [CAlloc (4 * pg) 0 (from_cb (SUCCESS, P0))] = Some (c, v) /\
    (forall q, R q = sz (all_blocks c) q) /\
    step true c (CSplit P0 (4 * pg) pg SUCCESS false) = Some r /\ r_res r = ERR_OUT_OF_HOST_MEMORY /\
    notes R (r_ev r) = Some R' /\ R' P0 = Some pg /\ all_blocks (r_st r) = [Block P0 (4 * pg) true false] /\
    step true (r_st r) (CSplit P0 (4 * pg) pg SUCCESS true) = Some r2 /\ notes R' (r_ev r2) = None.
Proof.
  do 2 eexists. eexists (sz _). do 3 eexists. split; [vm_compute; reflexivity|]. split; [intros q; reflexivity|]. split; [vm_compute; reflexivity|].
  split; [reflexivity|]. split; [vm_compute; reflexivity|]. split; [vm_compute; reflexivity|]. split; [reflexivity|]. split; [vm_compute; reflexivity|]. vm_compute; reflexivity.
Qed.
Print Assumptions coarse_split_callback_oom_refuted.

(* C49.  An allocation served from free memory starts at the first suitably
   aligned address of a free block b; b is no larger than any free block that
   could serve the request whatever its alignment; and according to the
   strategy it is no larger than any that could serve it at all. *)
Theorem coarse_alloc_best_fit : forall e c v size alignment o r,
  reached e c v -> class_ok e = true -> alloc_env e (page_size c) v size alignment o -> alignment = 0 \/ pow2 alignment ->
  step (debug e) c (CAlloc size alignment o) = Some r ->
  let a := Z.max (page_size c) alignment in
  ((forall s a x p, ~ In (EvAlloc s a x p) (r_ev r)) -> r_res r = SUCCESS ->
   exists b q, free_block c b /\ r_ptr r = Some q /\ q mod a = 0 /\ b_data b <= q < b_data b + a /\ q + size <= b_data b + b_size b /\
     (forall f, free_block c f -> size + a <= b_size f -> b_size b <= b_size f) /\
     (strat c = FASTEST -> size + a <= b_size b) /\
     (strat c <> FASTEST -> (forall f, free_block c f -> b_data f mod a = 0) ->
        forall f, free_block c f -> size <= b_size f -> b_size b <= b_size f) /\
     (strat c = CHECK_ALL_SIZE -> forall f, free_block c f -> b_data f mod a = 0 -> size <= b_size f ->
        (forall g, free_block c g -> size <= b_size g -> b_size f <= b_size g) -> b_size b = b_size f)) /\
  (strat c = CHECK_ALL_SIZE -> forall f, free_block c f -> b_data f mod a = 0 -> size <= b_size f ->
     (forall g, free_block c g -> size <= b_size g -> b_size f <= b_size g) -> forall s a x p, ~ In (EvAlloc s a x p) (r_ev r)).
Proof.
  intros e c v size al o r R CO AE PA H. exact (fit_ok (debug e) e c v size al o r (reached_env _ _ _ R) (reached_inv _ _ _ R) CO AE PA H).
Qed.
Print Assumptions coarse_alloc_best_fit.

(* two free blocks of one size, only the second one aligned: CHECK_ALL_SIZE
   finds it, FASTEST_BUT_ONE does not look *)
Definition two_blocks := [CAddFixed (P0 + pg) (2 * pg) true bok; CAddFixed (P0 + 4 * pg) (2 * pg) true bok; CAddFixed (P0 + 9 * pg) (2 * pg) true bok].
Example check_all_size_finds :
  (exists c v r, run true (fresh_coarse false CHECK_ALL_SIZE) no_view two_blocks = Some (c, v) /\
     step true c (CAlloc (2 * pg) (4 * pg) ook) = Some r /\ r_res r = SUCCESS /\ r_ptr r = Some (P0 + 4 * pg)) /\
  (exists c v r, run true (fresh_coarse false FASTEST_BUT_ONE) no_view two_blocks = Some (c, v) /\
     step true c (CAlloc (2 * pg) (4 * pg) ook) = Some r /\ r_res r = ERR_OUT_OF_HOST_MEMORY).
Proof.
  split; do 3 eexists; (split; [vm_compute; reflexivity|]); (split; [vm_compute; reflexivity|]); [split|]; reflexivity.
Qed.
