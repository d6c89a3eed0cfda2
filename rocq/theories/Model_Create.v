(* Model of how the fixed, devdax and file providers are created and destroyed
   (initialize/finalize of src/provider/provider_{fixed,devdax,file}_memory.c), of
   the params objects of the devdax and fixed providers, and of the devdax
   provider's IPC functions.

   Simplifications that hold for the whole file:
   - A path is its length; only the length decides what the code below does.
   - Whether memory, files, mappings and locks can be had is an oracle; each thing
     acquired or given back is an event.
   - coarse_new gets valid parameters here; its failure (out of memory, no lock) is
     an oracle, and it cleans up after itself.
   - Logging and the last native error are left out. *)
From Verif Require Import Base Model_Utils Model_Coarse.

(* what a provider holds *)
Inductive res := RStruct | RCoarse | RMap (base size : Z) | RFd | RLock | ROffsets | RMmaps.
Inductive revent := Acq (r : res) | Rel (r : res).

(* include limits.h *)
Definition PATH_MAX : Z := 4096.
(* utils_common.c:91-105; true: -1, the path does not fit *)
Definition utils_copy_path_fails (len path_max : Z) : bool := len >? path_max - 1.

(* The outcome of initialize: the code, what was written to *provider (None: it was
   not written), the events. *)
Record made := Made { m_coarse : coarse; m_base : Z; m_size : Z; m_prot : Z }.
Definition outcome : Type := result * option made * list revent.

(* oracles of one creation *)
Record world := World {
  w_mem : bool;              (* memory for the provider struct *)
  w_new : result;            (* coarse_new *)
  w_open : bool;             (* the file or device can be opened *)
  w_resize : bool;           (* utils_set_file_size *)
  w_map : option Z;          (* utils_mmap_file *)
  w_dax : bool;              (* mapped with MAP_SYNC *)
  w_block : bool; w_back : back_oracle;   (* coarse_add_memory_fixed *)
  w_lock : bool;             (* utils_mutex_init *)
  w_offsets : bool; w_mmaps : bool }.     (* critnib_new *)

Section Create.
Variable dbg : bool.

(* coarse_delete as the providers use it: None = an assertion of coarse.c fails *)
Definition drop_coarse (c : coarse) : option (list revent) :=
  match coarse_delete dbg c with Some _ => Some [Rel RCoarse] | None => None end.

(* provider_fixed_memory.c:84-143; params: NULL or (ptr, size) *)
Definition fixed_initialize (page : Z) (params : option (Z * Z)) (w : world) : option outcome :=
  match params with
  | None => Some (ERR_INVALID_ARGUMENT, None, [])
  | Some (ptr, size) =>
      if negb (w_mem w) then Some (ERR_OUT_OF_HOST_MEMORY, None, [])
      else
      match w_new w with
      | SUCCESS =>
          do r <- coarse_add_memory_fixed dbg (coarse_new page FASTEST_BUT_ONE false false) ptr size (w_block w) (w_back w);
          match r_res r with
          | SUCCESS => Some (SUCCESS, Some (Made (r_st r) ptr size 0), [Acq RStruct; Acq RCoarse])
          | e => do d <- drop_coarse (r_st r);
                 Some (e, None, [Acq RStruct; Acq RCoarse] ++ d ++ [Rel RStruct])
          end
      | e => Some (e, None, [Acq RStruct; Rel RStruct])
      end
  end.
(* 145-149 *)
Definition fixed_finalize (m : made) : option (list revent) :=
  do d <- drop_coarse (m_coarse m); Some (d ++ [Rel RStruct]).

Definition DEVDAX_PAGE_SIZE_2MB : Z := 2097152.
(* provider_devdax_memory.c:89-93; path: NULL or its length *)
Record dparams := Dparams { d_path : option Z; d_size : Z; d_prot : Z }.

(* provider_devdax_memory.c:151-267 *)
Definition devdax_initialize (params : option dparams) (w : world) : option outcome :=
  match params with
  | None => Some (ERR_INVALID_ARGUMENT, None, [])
  | Some q =>
      match d_path q with
      | None => Some (ERR_INVALID_ARGUMENT, None, [])
      | Some len =>
          if d_size q =? 0 then Some (ERR_INVALID_ARGUMENT, None, [])
          else if negb (w_mem w) then Some (ERR_OUT_OF_HOST_MEMORY, None, [])
          else
          match w_new w with
          | SUCCESS =>
              let c := coarse_new DEVDAX_PAGE_SIZE_2MB FASTEST_BUT_ONE false false in
              let held := [Acq RStruct; Acq RCoarse] in
              let err_coarse_delete e c ev := do d <- drop_coarse c; Some (e, None, ev ++ d ++ [Rel RStruct]) in
              do (tr, prot) <- utils_translate_mem_protection_flags (d_prot q);
              match tr with
              | SUCCESS =>
                  (* 206-208: the error label is reached with ret = SUCCESS *)
                  if utils_copy_path_fails len PATH_MAX then err_coarse_delete SUCCESS c held
                  else if negb (w_open w) then err_coarse_delete ERR_INVALID_ARGUMENT c held
                  else
                  match w_map w with
                  | None => err_coarse_delete ERR_UNKNOWN c (held ++ [Acq RFd; Rel RFd])
                  | Some base =>
                      let held := held ++ [Acq RFd; Acq (RMap base (d_size q)); Rel RFd] in
                      let err_unmap e c := err_coarse_delete e c (held ++ [Rel (RMap base (d_size q))]) in
                      if negb (w_dax w) then err_unmap ERR_UNKNOWN c
                      else
                      do r <- coarse_add_memory_fixed dbg c base (d_size q) (w_block w) (w_back w);
                      match r_res r with
                      | SUCCESS =>
                          if negb (w_lock w) then err_unmap ERR_UNKNOWN (r_st r)
                          else Some (SUCCESS, Some (Made (r_st r) base (d_size q) prot), held ++ [Acq RLock])
                      | e => err_unmap e (r_st r)
                      end
                  end
              | e => err_coarse_delete e c held
              end
          | e => Some (e, None, [Acq RStruct; Rel RStruct])
          end
      end
  end.
(* 269-275 *)
Definition devdax_finalize (m : made) : option (list revent) :=
  do d <- drop_coarse (m_coarse m); Some ([Rel RLock; Rel (RMap (m_base m) (m_size m))] ++ d ++ [Rel RStruct]).

(* provider_file_memory.c:117-121; fp_vis is the translation of the visibility flag,
   fp_private: the visibility has the UMF_MEM_MAP_PRIVATE bit *)
Record fparams := Fparams { fp_path : option Z; fp_prot : Z; fp_vis : result; fp_private : bool }.
Definition FILE_PAGE_SIZE_2MB : Z := 2097152.

(* provider_file_memory.c:188-307; the probing mapping of 240-249 is acquired and given
   back at once *)
Definition file_initialize (page : Z) (params : option fparams) (w : world) : option outcome :=
  match params with
  | None => Some (ERR_INVALID_ARGUMENT, None, [])
  | Some q =>
      match fp_path q with
      | None => Some (ERR_INVALID_ARGUMENT, None, [])
      | Some len =>
          if negb (w_mem w) then Some (ERR_OUT_OF_HOST_MEMORY, None, [])
          else
          let fail e ev := Some (e, None, [Acq RStruct] ++ ev ++ [Rel RStruct]) in
          do (tr, prot) <- utils_translate_mem_protection_flags (fp_prot q);
          match tr with
          | SUCCESS =>
              match fp_vis q with
              | SUCCESS =>
                  (* 216-218: the error label is reached with ret = SUCCESS *)
                  if utils_copy_path_fails len PATH_MAX then fail SUCCESS []
                  else if negb (w_open w) then fail ERR_INVALID_ARGUMENT []
                  else if negb (w_resize w) then fail ERR_UNKNOWN [Acq RFd; Rel RFd]
                  else
                  let probe := if fp_private q then [] else
                    match w_map w with
                    | Some a => [Acq (RMap a FILE_PAGE_SIZE_2MB); Rel (RMap a FILE_PAGE_SIZE_2MB)]
                    | None => []
                    end in
                  let dax := negb (fp_private q) && (match w_map w with Some _ => true | None => false end) && w_dax w in
                  let ps := if dax then FILE_PAGE_SIZE_2MB else page in
                  let ev := [Acq RFd] ++ probe in
                  match w_new w with
                  | SUCCESS =>
                      let c := coarse_new ps FASTEST_BUT_ONE true false in
                      let err_coarse e ev' := do d <- drop_coarse c; fail e (ev ++ [Acq RCoarse] ++ ev' ++ d ++ [Rel RFd]) in
                      if negb (w_lock w) then err_coarse ERR_UNKNOWN []
                      else if negb (w_offsets w) then err_coarse ERR_OUT_OF_HOST_MEMORY [Acq RLock; Rel RLock]
                      else if negb (w_mmaps w) then err_coarse ERR_OUT_OF_HOST_MEMORY [Acq RLock; Acq ROffsets; Rel ROffsets; Rel RLock]
                      else Some (SUCCESS, Some (Made c 0 FILE_PAGE_SIZE_2MB prot),
                                 [Acq RStruct] ++ ev ++ [Acq RCoarse; Acq RLock; Acq ROffsets; Acq RMmaps])
                  | e => fail e (ev ++ [Rel RFd])
                  end
              | e => fail e []
              end
          | e => fail e []
          end
      end
  end.
(* 309-329, the mappings made meanwhile left to Model_FileProvider.file_finalize *)
Definition file_finalize_rest (m : made) : option (list revent) :=
  do d <- drop_coarse (m_coarse m); Some ([Rel RLock; Rel RFd; Rel ROffsets; Rel RMmaps] ++ d ++ [Rel RStruct]).

End Create.

(* memory_provider.c:186-223 with one of the initialize functions above: the code and
   the provider_priv of the new handle.  Indeterminate is the uninitialised local of
   line 209. *)
Inductive priv := Ready (m : made) | Indeterminate.
Definition provider_create (o : outcome) : result * option priv :=
  let '(r, m, _) := o in
  match r with
  | SUCCESS => (SUCCESS, Some (match m with Some m => Ready m | None => Indeterminate end))
  | e => (e, None)
  end.

(* provider_devdax_memory.c:556-592, 604-638: create a params object ([out]: hParams,
   [mem]/[pmem]: the allocations succeed), set its protection *)
Definition devdax_params_create (out path : option Z) (size : Z) (mem pmem : bool) : result * option dparams :=
  match out, path with
  | None, _ | _, None => (ERR_INVALID_ARGUMENT, None)
  | Some _, Some len =>
      if negb mem then (ERR_OUT_OF_HOST_MEMORY, None)
      else if len =? 0 then (ERR_INVALID_ARGUMENT, None)
      else if negb pmem then (ERR_OUT_OF_HOST_MEMORY, None)
      else (SUCCESS, Some (Dparams (Some len) size (Z.lor UMF_PROTECTION_READ UMF_PROTECTION_WRITE)))
  end.
(* 640-664; unsigned arithmetic *)
Definition VALID_FLAGS_ALL : Z := Z.shiftl (UMF_PROTECTION_MAX - 1) 1 - 1.
Definition devdax_params_set_protection (q : dparams) (protection : Z) : result * dparams :=
  if negb (Z.land protection (2 ^ 32 - 1 - VALID_FLAGS_ALL) =? 0) || (protection =? 0)
  then (ERR_INVALID_ARGUMENT, q)
  else (SUCCESS, Dparams (d_path q) (d_size q) protection).

(* provider_devdax_memory.c:399-405, 415-429; the path and the protection are copied
   unchanged *)
Record dhandle := Dhandle { h_off : Z; h_len : Z }.
Definition devdax_get_ipc_handle (m : made) (ptr size : Z) : dhandle := Dhandle (wrap (ptr - m_base m)) size.

(* A mapping of the device: address, length, offset in the device. *)
Record mapping := Mapping { g_addr : Z; g_len : Z; g_off : Z }.
(* 447-505; [opened], [mm], [dax]: oracles.  The code, *ptr, the mappings made and undone *)
Definition devdax_open_ipc_handle (d : dhandle) (opened : bool) (mm : option Z) (dax : bool) : result * Z * list mapping * list mapping :=
  if negb opened then (ERR_INVALID_ARGUMENT, 0, [], [])
  else
  let (off, len) := utils_align_ptr_down_size_up (h_off d) (h_len d) DEVDAX_PAGE_SIZE_2MB in
  match mm with
  | None => (ERR_PROVIDER_SPECIFIC, 0, [], [])
  | Some a =>
      let g := Mapping a len off in
      if negb dax then (ERR_UNKNOWN, 0, [g], [g]) else (SUCCESS, a, [g], [])
  end.
(* 507-524; the range given to munmap *)
Definition devdax_close_ipc_handle (ptr size : Z) (ok : bool) : result * (Z * Z) :=
  let size := ALIGN_UP size DEVDAX_PAGE_SIZE_2MB in
  if negb ok && (size >? 0) then (ERR_PROVIDER_SPECIFIC, (ptr, size)) else (SUCCESS, (ptr, size)).
