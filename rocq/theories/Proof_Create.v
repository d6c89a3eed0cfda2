From Verif Require Import Base Model_Utils Proof_Utils Proof_Flags Model_Coarse Spec_Coarse Proof_Coarse Proof_CoarseInv Proof_CoarseAlloc Proof_CoarseOps Proof_CoarseProps
  Model_Create Spec_Create.

Definition fresh_coarse (page : Z) (ha : bool) : coarse := coarse_new page FASTEST_BUT_ONE ha false.

Lemma drop_ok : forall e c v, reached e c v -> drop_coarse (debug e) c = Some [Rel RCoarse].
Proof. intros e c v R. unfold drop_coarse. rewrite (delete_ok (debug e) e c v (reached_inv _ _ _ R)). reflexivity. Qed.

Lemma new_reached : forall e page ha, (debug e = true -> class_ok e = true) -> page_ok page -> reached e (fresh_coarse page ha) no_view.
Proof. intros e page ha D (n & N & ->). exact (reached_new e n FASTEST_BUT_ONE ha false N D). Qed.

(* adding the whole memory as one block *)
Lemma add_reached : forall e page ptr size ok f,
  (debug e = true -> class_ok e = true) -> both (o_back f) -> agrees e f -> page_ok page -> region_ok ptr size ->
  exists r, coarse_add_memory_fixed (debug e) (fresh_coarse page false) ptr size ok f = Some r /\
    (r_res r = SUCCESS -> reached e (r_st r) (View (fun _ => None) [(ptr, size)]) /\ ptr <> 0 /\ size <> 0) /\
    (r_res r <> SUCCESS -> reached e (r_st r) no_view).
Proof.
  intros e page ptr size ok f D B A P (W1 & W2 & L). pose proof (new_reached e page false D P) as R0.
  set (k := CAddFixed ptr size ok f).
  assert (CE : call_env e (page_size (fresh_coarse page false)) no_view k).
  { split; [exact W1|]. split; [exact W2|]. split; [exact B|]. split; [exact A|]. intros N1 N2.
    unfold is_word in *. repeat split; try lia. intros r []. }
  destruct (step_ok (debug e) e (reached_env _ _ _ R0) _ _ k (reached_inv _ _ _ R0) CE) as (r & ST & _).
  exists r. split; [exact ST|]. pose proof (reached_step e _ _ k r R0 CE ST) as R1. unfold observe in R1. split.
  - intros S. rewrite S in R1. split; [exact R1|]. cbn [step k] in ST. unfold coarse_add_memory_fixed in ST.
    destruct (Z.eqb_spec ptr 0) as [->|N1]. { cbn in ST. injection ST as <-. cbn in S. discriminate. }
    destruct (Z.eqb_spec size 0) as [->|N2]. { cbn in ST. injection ST as <-. cbn in S. discriminate. }
    auto.
  - intros N. destruct (r_res r); [contradiction N; reflexivity| | | | | | | | |]; exact R1.
Qed.

(* what initialize must deliver *)
Definition good (e : env) (q : request) (o : outcome) : Prop :=
  let '(r, m, ev) := o in
  match m with
  | None => r <> SUCCESS /\ ledger [] ev = Some []
  | Some m => r = SUCCESS /\ valid q /\ reached e (m_coarse m) (View (fun _ => None) (manages q m)) /\
      exists held, ledger [] ev = Some held /\
        forall c v, reached e c v ->
          exists fev, finalize (debug e) q (Made c (m_base m) (m_size m) (m_prot m)) = Some fev /\ ledger held fev = Some []
  end.

#[local] Arguments res_eq_dec : simpl never.
Ltac led := cbn; repeat (destruct (res_eq_dec _ _); try congruence; cbn); try reflexivity.

Lemma fixed_good : forall e page p w, world_ok e w -> request_ok (QFixed page p) w ->
  exists o, fixed_initialize (debug e) page p w = Some o /\ good e (QFixed page p) o.
Proof.
  intros e page p w (D & B & A) (P & RO). unfold fixed_initialize. destruct p as [(ptr, size)|].
  2: { eexists. split; [reflexivity|]. split; [discriminate|reflexivity]. }
  destruct (w_mem w); cbn [negb].
  2: { eexists. split; [reflexivity|]. split; [discriminate|reflexivity]. }
  destruct (w_new w) eqn:WN; try (eexists; split; [reflexivity|]; split; [discriminate|led]; fail).
  destruct (add_reached e page ptr size (w_block w) (w_back w) D B A P (RO _ _ eq_refl)) as (r & E & S & F).
  unfold fresh_coarse in E. rewrite E. destruct (r_res r) eqn:RR.
  1: { destruct (S eq_refl) as (R & N1 & N2). eexists. split; [reflexivity|]. cbn [good]. split; [reflexivity|].
       split; [exists ptr, size; auto|]. split; [exact R|]. eexists. split; [led|]. intros c v RC. cbn [finalize].
       unfold fixed_finalize. cbn [m_coarse]. rewrite (drop_ok _ _ _ RC). eexists. split; [reflexivity|]. led. }
  all: rewrite (drop_ok _ _ _ (F ltac:(discriminate))); eexists; split; [reflexivity|]; split; [discriminate|led].
Qed.

Lemma two_mb : page_ok 2097152.
Proof. exists 21. split; [lia|reflexivity]. Qed.

Lemma devdax_good : forall e q w, world_ok e w -> request_ok (QDevdax q) w -> path_fits (QDevdax q) ->
  exists o, devdax_initialize (debug e) q w = Some o /\ good e (QDevdax q) o.
Proof.
  intros e q w (D & B & A) RO PF. unfold devdax_initialize. destruct q as [d|].
  2: { eexists. split; [reflexivity|]. split; [discriminate|reflexivity]. }
  destruct (RO d eq_refl) as (WS & WP & MA).
  destruct (d_path d) as [len|] eqn:DP.
  2: { eexists. split; [reflexivity|]. split; [discriminate|reflexivity]. }
  destruct (Z.eqb_spec (d_size d) 0) as [S0|S0]. { eexists. split; [reflexivity|]. split; [discriminate|reflexivity]. }
  destruct (w_mem w); cbn [negb].
  2: { eexists. split; [reflexivity|]. split; [discriminate|reflexivity]. }
  destruct (w_new w) eqn:WN; try (eexists; split; [reflexivity|]; split; [discriminate|led]; fail).
  pose proof (new_reached e 2097152 false D two_mb) as R0. unfold fresh_coarse in R0. change 2097152 with DEVDAX_PAGE_SIZE_2MB in R0.
  rewrite (prot_flags _ WP).
  assert (DR : drop_coarse (debug e) (coarse_new DEVDAX_PAGE_SIZE_2MB FASTEST_BUT_ONE false false) = Some [Rel RCoarse]) by exact (drop_ok _ _ _ R0).
  destruct (Z.ltb_spec (d_prot d) 16) as [L16|L16].
  2: { cbn zeta. rewrite DR. eexists. split; [reflexivity|]. split; [discriminate|led]. }
  cbn zeta. assert (CP : utils_copy_path_fails len PATH_MAX = false).
  { unfold utils_copy_path_fails, PATH_MAX. specialize (PF len DP). destruct (Z.gtb_spec len (4096 - 1)); [lia|reflexivity]. }
  rewrite CP. destruct (w_open w); cbn [negb].
  2: { rewrite DR. eexists. split; [reflexivity|]. split; [discriminate|led]. }
  destruct (w_map w) as [base|] eqn:WM.
  2: { rewrite DR. eexists. split; [reflexivity|]. split; [discriminate|led]. }
  destruct (MA base eq_refl) as (BP & RG).
  destruct (w_dax w); cbn [negb].
  2: { rewrite DR. eexists. split; [reflexivity|]. split; [discriminate|led]. }
  destruct (add_reached e 2097152 base (d_size d) (w_block w) (w_back w) D B A two_mb RG) as (r & E & S & F).
  unfold fresh_coarse in E. unfold DEVDAX_PAGE_SIZE_2MB. rewrite E. destruct (r_res r) eqn:RR.
  1: { destruct (S eq_refl) as (R & N1 & N2). destruct (w_lock w); cbn [negb].
       2: { rewrite (drop_ok _ _ _ R). eexists. split; [reflexivity|]. split; [discriminate|led]. }
       eexists. split; [reflexivity|]. cbn [good]. split; [reflexivity|].
       split; [exists d, len; repeat split; auto; lia|]. split; [exact R|]. eexists. split; [led|]. intros c v RC. cbn [finalize].
       unfold devdax_finalize. cbn [m_coarse m_base m_size]. rewrite (drop_ok _ _ _ RC). eexists. split; [reflexivity|]. led. }
  all: rewrite (drop_ok _ _ _ (F ltac:(discriminate))); eexists; split; [reflexivity|]; split; [discriminate|led].
Qed.

Lemma file_good : forall e page q w, world_ok e w -> request_ok (QFile page q) w -> path_fits (QFile page q) ->
  exists o, file_initialize (debug e) page q w = Some o /\ good e (QFile page q) o.
Proof.
  intros e page q w (D & B & A) (P & RO) PF. unfold file_initialize. destruct q as [f|].
  2: { eexists. split; [reflexivity|]. split; [discriminate|reflexivity]. }
  pose proof (RO f eq_refl) as WP.
  destruct (fp_path f) as [len|] eqn:DP.
  2: { eexists. split; [reflexivity|]. split; [discriminate|reflexivity]. }
  destruct (w_mem w); cbn [negb].
  2: { eexists. split; [reflexivity|]. split; [discriminate|reflexivity]. }
  cbn zeta. rewrite (prot_flags _ WP).
  destruct (Z.ltb_spec (fp_prot f) 16) as [L16|L16].
  2: { eexists. split; [reflexivity|]. split; [discriminate|led]. }
  destruct (fp_vis f) eqn:FV; try (eexists; split; [reflexivity|]; split; [discriminate|led]; fail).
  assert (CP : utils_copy_path_fails len PATH_MAX = false).
  { unfold utils_copy_path_fails, PATH_MAX. specialize (PF len DP). destruct (Z.gtb_spec len (4096 - 1)); [lia|reflexivity]. }
  rewrite CP. destruct (w_open w); cbn [negb].
  2: { eexists. split; [reflexivity|]. split; [discriminate|led]. }
  destruct (w_resize w); cbn [negb].
  2: { eexists. split; [reflexivity|]. split; [discriminate|led]. }
  set (dax := negb (fp_private f) && _ && _).
  set (ps := if dax then FILE_PAGE_SIZE_2MB else page).
  assert (PP : page_ok ps). { unfold ps. destruct dax; [exact two_mb|exact P]. }
  pose proof (new_reached e ps true D PP) as R0. unfold fresh_coarse in R0.
  assert (DR : drop_coarse (debug e) (coarse_new ps FASTEST_BUT_ONE true false) = Some [Rel RCoarse]) by exact (drop_ok _ _ _ R0).
  clearbody dax ps. rewrite DR.
  destruct (w_new w) eqn:WN.
  1: { destruct (w_lock w), (w_offsets w), (w_mmaps w); cbn [negb].
       1: { eexists. split; [reflexivity|]. cbn [good]. split; [reflexivity|].
            split; [exists f, len; repeat split; auto; lia|]. split; [exact R0|].
            eexists. split; [destruct (fp_private f), (w_map w); led|]. intros c v RC. cbn [finalize].
            unfold file_finalize_rest. cbn [m_coarse m_base m_size]. rewrite (drop_ok _ _ _ RC). eexists. split; [reflexivity|]. led. }
       all: eexists; split; [reflexivity|]; split; [discriminate|destruct (fp_private f), (w_map w); led]. }
  all: eexists; split; [reflexivity|]; split; [discriminate|destruct (fp_private f), (w_map w); led].
Qed.

Lemma create_good : forall e q w, world_ok e w -> request_ok q w -> path_fits q ->
  exists o, initialize (debug e) q w = Some o /\ good e q o.
Proof.
  intros e [page p|q|page q] w W R F; cbn [initialize].
  - exact (fixed_good e page p w W R).
  - exact (devdax_good e q w W R F).
  - exact (file_good e page q w W R F).
Qed.

(* a path that does not fit *)
Lemma long_path_devdax : forall e d n w, (debug e = true -> class_ok e = true) -> d_path d = Some n -> 4096 <= n -> d_size d <> 0 -> 0 <= d_prot d < 16 ->
  w_mem w = true -> w_new w = SUCCESS ->
  devdax_initialize (debug e) (Some d) w = Some (SUCCESS, None, [Acq RStruct; Acq RCoarse; Rel RCoarse; Rel RStruct]).
Proof.
  intros e d n w D DP L S P M N. unfold devdax_initialize. rewrite DP. destruct (Z.eqb_spec (d_size d) 0); [contradiction|]. rewrite M, N. cbn [negb].
  rewrite (prot_flags (d_prot d)) by lia. destruct (Z.ltb_spec (d_prot d) 16); [|lia].
  assert (CP : utils_copy_path_fails n PATH_MAX = true). { unfold utils_copy_path_fails, PATH_MAX. destruct (Z.gtb_spec n (4096 - 1)); [reflexivity|lia]. }
  cbn zeta. rewrite CP. pose proof (new_reached e 2097152 false D two_mb) as R0.
  assert (DR : drop_coarse (debug e) (coarse_new DEVDAX_PAGE_SIZE_2MB FASTEST_BUT_ONE false false) = Some [Rel RCoarse]) by exact (drop_ok _ _ _ R0).
  rewrite DR. reflexivity.
Qed.

Lemma long_path_file : forall dbg page f n w, fp_path f = Some n -> 4096 <= n -> 0 <= fp_prot f < 16 -> fp_vis f = SUCCESS -> w_mem w = true ->
  file_initialize dbg page (Some f) w = Some (SUCCESS, None, [Acq RStruct; Rel RStruct]).
Proof.
  intros dbg page f n w DP L P V M. unfold file_initialize. rewrite DP, M, V. cbn [negb].
  rewrite (prot_flags (fp_prot f)) by lia. destruct (Z.ltb_spec (fp_prot f) 16); [|lia].
  assert (CP : utils_copy_path_fails n PATH_MAX = true). { unfold utils_copy_path_fails, PATH_MAX. destruct (Z.gtb_spec n (4096 - 1)); [reflexivity|lia]. }
  cbn zeta. rewrite CP. reflexivity.
Qed.

(* devdax params: the setters keep the object usable *)
Lemma land_mask : forall p, 0 <= p < 2 ^ 32 -> Z.land p (2 ^ 32 - 1 - VALID_FLAGS_ALL) = 0 -> p < 16.
Proof.
  intros p R E. destruct (Z_lt_ge_dec p 16) as [L|G]; [exact L|exfalso].
  assert (X : Z.land (Z.shiftr p 4) (Z.shiftr (2 ^ 32 - 1 - VALID_FLAGS_ALL) 4) = 0) by (rewrite <- Z.shiftr_land, E; reflexivity).
  change (Z.shiftr (2 ^ 32 - 1 - VALID_FLAGS_ALL) 4) with (Z.ones 28) in X. rewrite Z.land_ones in X by lia.
  rewrite Z.shiftr_div_pow2 in X by lia. rewrite Z.mod_small in X.
  - pose proof (Z.div_le_lower_bound p (2 ^ 4) 1). change (2 ^ 4) with 16 in *. lia.
  - change (2 ^ 32) with (2 ^ 28 * 2 ^ 4) in R. split; [apply Z.div_pos; lia|apply Z.div_lt_upper_bound; lia].
Qed.

(* devdax IPC *)
Lemma align_up_2mb : forall n, is_word n -> n + 2097152 <= U64 -> ALIGN_UP n 2097152 mod 2097152 = 0 /\ n <= ALIGN_UP n 2097152 < n + 2097152.
Proof.
  intros n W L. assert (P2 : pow2 2097152) by (exists 21; split; [lia|reflexivity]).
  destruct (Z.eq_dec n 0) as [->|N0]; [vm_compute; repeat split; discriminate|].
  pose proof (ptr_down_size_up_val 0 n 2097152 P2 ltac:(unfold is_word, U64 in *; lia) W) as V. rewrite Z.mod_0_l in V by lia.
  specialize (V ltac:(unfold is_word, U64 in *; lia)). cbv zeta in V. unfold utils_align_ptr_down_size_up in V. rewrite Z.land_0_l in V. cbn [Z.eqb] in V.
  injection V as V. rewrite V, Z.add_0_r.
  pose proof (Z.mod_pos_bound (n + 2097152 - 1) 2097152 ltac:(lia)). split; [|lia].
  rewrite Zminus_mod_idemp_r. rewrite Z.sub_diag. reflexivity.
Qed.

Lemma devdax_ipc_ok : forall m ptr size opened mm dax r a gs us,
  0 < m_base m -> m_base m mod 2097152 = 0 -> ptr mod 2097152 = 0 -> m_base m <= ptr -> ptr + size <= m_base m + m_size m ->
  region_ok (m_base m) (m_size m) -> 0 < size -> size + 2 * 2097152 <= U64 -> (forall a, mm = Some a -> 0 < a /\ a + size <= U64) ->
  devdax_open_ipc_handle (devdax_get_ipc_handle m ptr size) opened mm dax = (r, a, gs, us) ->
  (r <> SUCCESS -> a = 0 /\ gs = us) /\
  (r = SUCCESS -> exists g, gs = [g] /\ us = [] /\ mm = Some a /\
     (forall i, 0 <= i < size -> consumer_byte g (a + i) = Some (device_byte (m_base m) (ptr + i))) /\
     forall ok, snd (devdax_close_ipc_handle a size ok) = (g_addr g, g_len g)).
Proof.
  intros m ptr size opened mm dax r a gs us B0 BM PM LE UP (WB & WS & RU) S0 S2 MM E.
  assert (P2 : pow2 2097152) by (exists 21; split; [lia|reflexivity]).
  assert (WO : wrap (ptr - m_base m) = ptr - m_base m). { apply Z.mod_small. unfold is_word, U64 in *; lia. }
  assert (OM : (ptr - m_base m) mod 2097152 = 0). { rewrite Zminus_mod, PM, BM. reflexivity. }
  unfold devdax_open_ipc_handle, devdax_get_ipc_handle in E. cbn [h_off h_len] in E. rewrite WO in E. unfold DEVDAX_PAGE_SIZE_2MB in E.
  assert (AL : utils_align_ptr_down_size_up (ptr - m_base m) size 2097152 = (ptr - m_base m, ALIGN_UP size 2097152)).
  { unfold utils_align_ptr_down_size_up. assert (R : Z.land (ptr - m_base m) (wrap (2097152 - 1)) = 0).
    { change (wrap (2097152 - 1)) with (Z.ones 21). rewrite Z.land_ones by lia. exact OM. }
    rewrite R. reflexivity. }
  rewrite AL in E. destruct opened; cbn [negb] in E.
  2: { assert (r = ERR_INVALID_ARGUMENT /\ a = 0 /\ gs = [] /\ us = []) as (-> & -> & -> & ->) by (injection E; auto). split; [auto|discriminate]. }
  destruct mm as [b|].
  2: { assert (r = ERR_PROVIDER_SPECIFIC /\ a = 0 /\ gs = [] /\ us = []) as (-> & -> & -> & ->) by (injection E; auto). split; [auto|discriminate]. }
  set (g := Mapping b (ALIGN_UP size 2097152) (ptr - m_base m)) in *.
  destruct dax; cbn [negb] in E.
  2: { assert (r = ERR_UNKNOWN /\ a = 0 /\ gs = [g] /\ us = [g]) as (-> & -> & -> & ->) by (injection E; auto). split; [auto|discriminate]. }
  assert (r = SUCCESS /\ a = b /\ gs = [g] /\ us = []) as (-> & -> & -> & ->) by (injection E; auto).
  split; [contradiction|]. intros _. exists g. split; [reflexivity|]. split; [reflexivity|]. split; [reflexivity|].
  destruct (align_up_2mb size ltac:(unfold is_word, U64 in *; lia) ltac:(lia)) as (_ & AU1 & AU2).
  split.
  - intros i I. unfold consumer_byte, device_byte, g. cbn [g_addr g_len g_off].
    destruct (Z.leb_spec b (b + i)); [|lia]. destruct (Z.ltb_spec (b + i) (b + ALIGN_UP size 2097152)); [|lia]. cbn [andb]. f_equal. lia.
  - intros ok. unfold devdax_close_ipc_handle, DEVDAX_PAGE_SIZE_2MB. destruct (negb ok && _); reflexivity.
Qed.
