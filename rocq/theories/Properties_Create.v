(* C44: creating fixed, devdax and file providers.  C69: devdax IPC.  [initialize],
   [finalize], [ledger] and the requests are in Spec_Create.v; [reached] (the states of
   the allocator inside a provider, with the client's view) in Spec_Coarse.v. *)
From Verif Require Import Base Model_Utils Model_Coarse Spec_Coarse Proof_CoarseOps Proof_CoarseProps Model_Create Spec_Create Proof_Create.

(* C44, for paths that fit into PATH_MAX.  Whatever fails, initialize comes to an end
   (no assertion fails); an error goes with no provider and with everything given back
   exactly once; success goes with valid parameters and a provider whose allocator
   manages exactly the memory it was made for, with nothing allocated; and from any
   state its clients can bring it into, finalize gives back exactly what is held. *)
Theorem provider_creation_partial : forall e q w, world_ok e w -> request_ok q w -> path_fits q ->
  exists r m ev, initialize (debug e) q w = Some (r, m, ev) /\
    (r <> SUCCESS -> m = None /\ ledger [] ev = Some [] /\ provider_create (r, m, ev) = (r, None)) /\
    (r = SUCCESS -> valid q /\ exists m', m = Some m' /\ provider_create (r, m, ev) = (SUCCESS, Some (Ready m')) /\
       reached e (m_coarse m') (View (fun _ => None) (manages q m')) /\
       exists held, ledger [] ev = Some held /\
         forall c v, reached e c v ->
           exists fev, finalize (debug e) q (Made c (m_base m') (m_size m') (m_prot m')) = Some fev /\ ledger held fev = Some []).
Proof.
  intros e q w W R F. destruct (create_good e q w W R F) as (((r, m), ev) & E & G). exists r, m, ev. split; [exact E|].
  destruct m as [m|]; cbn [good] in G.
  - destruct G as (-> & V & RC & H). split; [contradiction|]. intros _. split; [exact V|]. exists m. auto.
  - destruct G as (N & L). split; [|contradiction]. intros _. split; [reflexivity|]. split; [exact L|]. unfold provider_create. destruct r; try reflexivity; contradiction.
Qed.
Print Assumptions provider_creation_partial.

(* C44 refuted for longer paths: the creation reports success, nothing was created and
   the handle holds an indeterminate pointer. *)
Theorem provider_creation_refuted : forall e n w, 4096 <= n -> (debug e = true -> class_ok e = true) -> w_mem w = true -> w_new w = SUCCESS ->
  (forall size prot, size <> 0 -> 0 <= prot < 16 ->
     exists ev, initialize (debug e) (QDevdax (Some (Dparams (Some n) size prot))) w = Some (SUCCESS, None, ev) /\ ledger [] ev = Some [] /\
       provider_create (SUCCESS, None, ev) = (SUCCESS, Some Indeterminate)) /\
  (forall page prot priv, 0 <= prot < 16 ->
     exists ev, initialize (debug e) (QFile page (Some (Fparams (Some n) prot SUCCESS priv))) w = Some (SUCCESS, None, ev) /\ ledger [] ev = Some [] /\
       provider_create (SUCCESS, None, ev) = (SUCCESS, Some Indeterminate)).
Proof.
  intros e n w L D M N. split.
  - intros size prot S P. eexists. split; [exact (long_path_devdax e (Dparams (Some n) size prot) n w D eq_refl L S P M N)|]. split; reflexivity.
  - intros page prot priv P. eexists. split; [exact (long_path_file (debug e) page (Fparams (Some n) prot SUCCESS priv) n w eq_refl L P eq_refl M)|]. split; reflexivity.
Qed.
Print Assumptions provider_creation_refuted.

(* C44: such a params object can be made through the API, for every path length. *)
Theorem devdax_params_any_path : forall n size, 0 < n ->
  devdax_params_create (Some 1) (Some n) size true true = (SUCCESS, Some (Dparams (Some n) size 6)).
Proof. intros n size P. unfold devdax_params_create. destruct (Z.eqb_spec n 0); [lia|reflexivity]. Qed.
Print Assumptions devdax_params_any_path.

(* C44: a protection the setter accepts is one initialize accepts, and a refused one
   changes nothing. *)
Theorem devdax_protection_setter : forall q p r q', 0 <= p < 2 ^ 32 -> devdax_params_set_protection q p = (r, q') ->
  (r = SUCCESS /\ 0 < p < 16 /\ q' = Dparams (d_path q) (d_size q) p) \/ (r = ERR_INVALID_ARGUMENT /\ (p = 0 \/ 16 <= p) /\ q' = q).
Proof.
  intros q p r q' R E. unfold devdax_params_set_protection in E.
  destruct (Z.eqb_spec p 0) as [->|N0]. { rewrite orb_true_r in E. assert (r = ERR_INVALID_ARGUMENT /\ q' = q) as (-> & ->) by (injection E; auto). right. auto. }
  rewrite orb_false_r in E. destruct (Z.eqb_spec (Z.land p (2 ^ 32 - 1 - VALID_FLAGS_ALL)) 0) as [L|L]; cbn [negb] in E.
  - assert (r = SUCCESS /\ q' = Dparams (d_path q) (d_size q) p) as (-> & ->) by (injection E; auto). left. pose proof (land_mask p R L). split; [reflexivity|]. split; [lia|reflexivity].
  - assert (r = ERR_INVALID_ARGUMENT /\ q' = q) as (-> & ->) by (injection E; auto). right. split; [reflexivity|]. split; [|reflexivity].
    destruct (Z_lt_ge_dec p 16) as [LT|G]; [exfalso|lia]. apply L.
    assert (C : forallb (fun x => Z.land x (2 ^ 32 - 1 - VALID_FLAGS_ALL) =? 0) [1;2;3;4;5;6;7;8;9;10;11;12;13;14;15] = true) by reflexivity.
    rewrite forallb_forall in C. apply Z.eqb_eq. apply C. cbn. lia.
Qed.
Print Assumptions devdax_protection_setter.

(* C69, for allocations at 2 MB boundaries of a mapping that starts at one.  A
   successful open maps once, byte i of the returned address is byte i of the
   allocation, and close unmaps exactly that mapping; a failed open leaves nothing
   mapped. *)
Theorem devdax_ipc_same_bytes_partial : forall m ptr size opened mm dax r a gs us,
  0 < m_base m -> m_base m mod 2097152 = 0 -> ptr mod 2097152 = 0 -> m_base m <= ptr -> ptr + size <= m_base m + m_size m ->
  region_ok (m_base m) (m_size m) -> 0 < size -> size + 2 * 2097152 <= U64 -> (forall a, mm = Some a -> 0 < a /\ a + size <= U64) ->
  devdax_open_ipc_handle (devdax_get_ipc_handle m ptr size) opened mm dax = (r, a, gs, us) ->
  (r <> SUCCESS -> a = 0 /\ gs = us) /\
  (r = SUCCESS -> exists g, gs = [g] /\ us = [] /\ mm = Some a /\
     (forall i, 0 <= i < size -> consumer_byte g (a + i) = Some (device_byte (m_base m) (ptr + i))) /\
     forall ok, snd (devdax_close_ipc_handle a size ok) = (g_addr g, g_len g)).
Proof. exact devdax_ipc_ok. Qed.
Print Assumptions devdax_ipc_same_bytes_partial.

(* ---- concrete cases ---- *)
Definition calm : world := World true SUCCESS true true (Some 4194304) true true (BackOracle SUCCESS SUCCESS (AddOracle true true)) true true true.
Definition e0 : env := Env true true true.

(* creation succeeds for each kind, and fails cleanly at a late fault *)
Example creation_instances :
  let d := QDevdax (Some (Dparams (Some 12) 8388608 6)) in
  let f := QFile 4096 (Some (Fparams (Some 12) 6 SUCCESS false)) in
  let x := QFixed 4096 (Some (1048576, 65536)) in
  (exists m ev, initialize true d calm = Some (SUCCESS, Some m, ev) /\ ledger [] ev = Some [RLock; RMap 4194304 8388608; RCoarse; RStruct]) /\
  (exists m ev, initialize true f calm = Some (SUCCESS, Some m, ev) /\ ledger [] ev = Some [RMmaps; ROffsets; RLock; RCoarse; RFd; RStruct]) /\
  (exists m ev, initialize true x calm = Some (SUCCESS, Some m, ev) /\ ledger [] ev = Some [RCoarse; RStruct]) /\
  (exists ev, initialize true d (World true SUCCESS true true (Some 4194304) true true (BackOracle SUCCESS SUCCESS (AddOracle true true)) false true true)
     = Some (ERR_UNKNOWN, None, ev) /\ ledger [] ev = Some [] /\ List.length ev = 8%nat).
Proof.
  cbv zeta. split; [|split; [|split]].
  - exists (Made (Coarse 2097152 FASTEST_BUT_ONE false false [Block 4194304 8388608 false true] [(8388608, [4194304])] 0 8388608) 4194304 8388608 3),
      [Acq RStruct; Acq RCoarse; Acq RFd; Acq (RMap 4194304 8388608); Rel RFd; Acq RLock]. split; vm_compute; reflexivity.
  - exists (Made (coarse_new 2097152 FASTEST_BUT_ONE true false) 0 2097152 3),
      [Acq RStruct; Acq RFd; Acq (RMap 4194304 2097152); Rel (RMap 4194304 2097152); Acq RCoarse; Acq RLock; Acq ROffsets; Acq RMmaps]. split; vm_compute; reflexivity.
  - exists (Made (Coarse 4096 FASTEST_BUT_ONE false false [Block 1048576 65536 false true] [(65536, [1048576])] 0 65536) 1048576 65536 0), [Acq RStruct; Acq RCoarse]. split; vm_compute; reflexivity.
  - exists [Acq RStruct; Acq RCoarse; Acq RFd; Acq (RMap 4194304 8388608); Rel RFd; Rel (RMap 4194304 8388608); Rel RCoarse; Rel RStruct]. split; [vm_compute; reflexivity|]. split; vm_compute; reflexivity.
Qed.

(* C69 refuted: an allocation split away from a 2 MB boundary.  The consumer's address
   shows the device from the boundary on, and close unmaps less than was mapped. *)
Definition grow : add_oracle := AddOracle true true.
Definition back : back_oracle := BackOracle SUCCESS SUCCESS grow.
Definition plain : alloc_oracle := AllocOracle SUCCESS true false grow SUCCESS true grow back (ERR_OUT_OF_HOST_MEMORY, 0) true.
Definition cst (bs : list block) (f : list (Z * list Z)) (u : Z) : coarse := Coarse 2097152 FASTEST_BUT_ONE false false bs f u 8388608.
Definition c0 : coarse := cst [Block 4194304 8388608 false true] [(8388608, [4194304])] 0.
Definition c1 : coarse := cst [Block 4194304 4194304 true false; Block 8388608 4194304 false true] [(4194304, [8388608])] 4194304.
Definition c2 : coarse := cst [Block 4194304 2093056 true false; Block 6287360 2101248 true false; Block 8388608 4194304 false true] [(4194304, [8388608])] 4194304.
Definition c3 : coarse := cst [Block 4194304 2093056 true false; Block 6287360 8192 true false; Block 6295552 2093056 true false; Block 8388608 4194304 false true] [(4194304, [8388608])] 4194304.
Definition r1 : reply := Reply SUCCESS (Some 4194304) [EvSplit 4194304 8388608 4194304 SUCCESS] c1.
Definition r2 : reply := Reply SUCCESS None [EvSplit 4194304 4194304 2093056 SUCCESS] c2.
Definition r3 : reply := Reply SUCCESS None [EvSplit 6287360 2101248 8192 SUCCESS] c3.
Definition k1 : call := CAlloc 4194304 0 plain.
Definition k2 : call := CSplit 4194304 4194304 2093056 SUCCESS true.
Definition k3 : call := CSplit 6287360 2101248 8192 SUCCESS true.
Definition req : request := QDevdax (Some (Dparams (Some 12) 8388608 6)).
Definition m0 : made := Made c0 4194304 8388608 3.
Definition ev0 : list revent := [Acq RStruct; Acq RCoarse; Acq RFd; Acq (RMap 4194304 8388608); Rel RFd; Acq RLock].
Lemma made_m0 : initialize true req calm = Some (SUCCESS, Some m0, ev0).
Proof. vm_compute. reflexivity. Qed.
Lemma step1 : step true c0 k1 = Some r1.
Proof. vm_compute. reflexivity. Qed.
Lemma step2 : step true c1 k2 = Some r2.
Proof. vm_compute. reflexivity. Qed.
Lemma step3 : step true c2 k3 = Some r3.
Proof. vm_compute. reflexivity. Qed.
Lemma word_small : forall x, 0 <= x < 100000000 -> is_word x.
Proof. intros x H. unfold is_word, U64. lia. Qed.
Lemma req_ok : request_ok req calm.
Proof.
  intros d H. assert (d = Dparams (Some 12) 8388608 6) as -> by congruence. cbn [d_size d_prot].
  split; [apply word_small; lia|]. split; [lia|]. intros a E. assert (a = 4194304) as -> by (injection E; auto).
  split; [lia|]. split; [apply word_small; lia|]. split; [apply word_small; lia|]. unfold U64. lia.
Qed.
Lemma reached0 : reached e0 c0 (View (fun _ => None) [(4194304, 8388608)]).
Proof.
  assert (W : world_ok e0 calm) by (split; [reflexivity|]; split; [split; reflexivity|]; intros _; split; reflexivity).
  assert (F : path_fits req) by (intros n H; cbn [path_len req d_path] in H; assert (n = 12) as -> by congruence; lia).
  destruct (provider_creation_partial e0 req calm W req_ok F) as (r & m & ev & E & _ & S).
  change (debug e0) with true in E. rewrite made_m0 in E. assert (r = SUCCESS /\ m = Some m0) as (-> & ->) by (split; congruence).
  destruct (S eq_refl) as (_ & m' & EM & _ & RC & _). assert (m' = m0) as -> by congruence. exact RC.
Qed.
Definition v0 : view := View (fun _ => None) [(4194304, 8388608)].
Lemma reached3 : reached e0 c3 (observe (observe (observe v0 k1 r1) k2 r2) k3 r3).
Proof.
  assert (W : forall x, 0 <= x < 100000000 -> is_word x) by exact word_small.
  assert (R1 : reached e0 (r_st r1) (observe v0 k1 r1)).
  { apply (reached_step e0 c0 v0 k1 r1 reached0); [|exact step1]. unfold k1, call_env, alloc_env.
    split; [unfold U64; lia|]. split; [apply W; lia|]. split; [reflexivity|]. split; [reflexivity|]. split; [split; reflexivity|]. split; [reflexivity|].
    split; [intros _; split; split; reflexivity|]. split; [intros _; split; reflexivity|]. intros p H. discriminate H. }
  assert (R2 : reached e0 (r_st r2) (observe (observe v0 k1 r1) k2 r2)).
  { apply (reached_step e0 c1 _ k2 r2 R1); [|exact step2]. unfold k2, call_env. split; [apply W; lia|]. split; apply W; lia. }
  apply (reached_step e0 c2 _ k3 r3 R2); [|exact step3]. unfold k3, call_env. split; [apply W; lia|]. split; apply W; lia.
Qed.

Theorem devdax_ipc_same_bytes_refuted :
  initialize (debug e0) req calm = Some (SUCCESS, Some m0, ev0) /\
  exists c v, reached e0 c v /\ live v 6287360 = Some 8192 /\
    let m := Made c (m_base m0) (m_size m0) (m_prot m0) in
    let '(r, a, gs, us) := devdax_open_ipc_handle (devdax_get_ipc_handle m 6287360 8192) true (Some 16777216) true in
    r = SUCCESS /\ us = [] /\ device_byte (m_base m) 6287360 = 2093056 /\
    (exists g, gs = [g] /\ consumer_byte g a = Some 0 /\ g_len g = 4194304) /\
    devdax_close_ipc_handle a 8192 true = (SUCCESS, (a, 2097152)).
Proof.
  split; [exact made_m0|]. exists c3, (observe (observe (observe v0 k1 r1) k2 r2) k3 r3). split; [exact reached3|]. split; [reflexivity|].
  cbv zeta. assert (O : devdax_open_ipc_handle (devdax_get_ipc_handle (Made c3 (m_base m0) (m_size m0) (m_prot m0)) 6287360 8192) true (Some 16777216) true
    = (SUCCESS, 16777216, [Mapping 16777216 4194304 0], [])) by (vm_compute; reflexivity).
  rewrite O. split; [reflexivity|]. split; [reflexivity|]. split; [reflexivity|].
  split; [|vm_compute; reflexivity]. exists (Mapping 16777216 4194304 0). split; [reflexivity|]. split; reflexivity.
Qed.
Print Assumptions devdax_ipc_same_bytes_refuted.

Example devdax_ipc_instance :
  let m := Made (coarse_new 2097152 FASTEST_BUT_ONE false false) 4194304 8388608 3 in
  let '(r, a, gs, us) := devdax_open_ipc_handle (devdax_get_ipc_handle m 6291456 5000) true (Some 16777216) true in
  r = SUCCESS /\ gs = [Mapping 16777216 2097152 2097152] /\ consumer_byte (Mapping 16777216 2097152 2097152) (a + 4999) = Some (device_byte 4194304 (6291456 + 4999)).
Proof. vm_compute. repeat split. Qed.
