From Verif Require Import Base Spec_Utils Model_OsNuma Spec_OsNuma Proof_OsNumaSplit Proof_OsNuma.

(* The NUMA parameters are accepted exactly when they make sense; checking and
   translating them never goes wrong. *)
Theorem numa_params_accepted : forall page all q, power_of_two page -> is_word (q_part q) ->
  ((exists u, translate_params page all q = Some (SUCCESS, Some u)) <-> sensible page q) /\ translate_params page all q <> None.
Proof. intros. split; [now apply accepted_lemma|apply translate_defined]. Qed.
Print Assumptions numa_params_accepted.
Example numa_params_accepted_case : translate_params 4096 [0; 1] (Params [0; 1] M_SPLIT 0 [(2, 1); (1, 0)]) <> None /\
  translate_params 4096 [0; 1] (Params [0; 1] M_SPLIT 0 [(2, 7)]) = Some (ERR_INVALID_ARGUMENT, None).
Proof. split; [discriminate|reflexivity]. Qed.

(* C29.  Split mode: whatever was allocated before, the calls cover the
   allocation page by page without gaps, and every page is bound to exactly the
   nodes of the partitions whose proportional share of the allocation touches it. *)
Theorem numa_split_exact : forall page all q u h u1 addr P, 0 < page ->
  translate_params page all q = Some (SUCCESS, Some u) -> q_mode q = M_SPLIT ->
  (forall w, In w (map fst (shares q)) -> 0 <= w /\ P * w < U64) -> total (map fst (shares q)) <= 2 ^ 63 ->
  allocations page u h u1 -> 0 < P -> P * page < U64 ->
  exists calls u2, os_bind u1 addr (P * page) page = Some (calls, u2) /\ tiles addr (P * page) calls /\ whole_pages page addr calls /\
    forall p x v, 0 <= p < P -> p * page <= x < (p + 1) * page ->
      (bound_to calls (addr + x) v <-> exists i w, nth_error (shares q) i = Some (w, v) /\ in_share (map fst (shares q)) P i p).
Proof. exact split_lemma. Qed.
Print Assumptions numa_split_exact.
(* 5 pages, weights 2:1 on nodes 1 and 0: pages 0-2 on node 1, page 3 on both,
   page 4 on node 0 *)
Definition two_to_one : params := Params [0; 1] M_SPLIT 0 [(2, 1); (1, 0)].
Example numa_split_case : exists u, translate_params 4096 [0; 1] two_to_one = Some (SUCCESS, Some u) /\
  os_bind u 0 20480 4096 = Some ([Bind 0 12288 [1]; Bind 12288 4096 [1; 0]; Bind 16384 4096 [0]], u).
Proof. eexists. split; [vm_compute; reflexivity|vm_compute; reflexivity]. Qed.

(* The product of pages and weight is computed in 64 bits: two equal weights of
   2^31 and an allocation of 32 TiB read past the partition table. *)
Theorem numa_split_huge_refuted : ~ forall page all q u addr P, 0 < page ->
  translate_params page all q = Some (SUCCESS, Some u) -> q_mode q = M_SPLIT -> (forall w, In w (map fst (shares q)) -> 0 < w < 2 ^ 32) ->
  0 < P -> P * page < 2 ^ 47 -> os_bind u addr (P * page) page <> None.
Proof.
  intros H. specialize (H 4096 [0; 1] (Params [0; 1] M_SPLIT 0 [(2 ^ 31, 0); (2 ^ 31, 1)])).
  specialize (H (Numa M_SPLIT [[0]; [1]] 0 0 [(2 ^ 31, [0]); (2 ^ 31, [1])] (2 ^ 32)) 0 (2 ^ 33)).
  apply H.
  - lia.
  - vm_compute. reflexivity.
  - reflexivity.
  - cbn [shares q_parts map fst In]. intros w [<-|[<-|[]]]; lia.
  - lia.
  - reflexivity.
  - unfold os_bind, membindFirst, policy_default. cbn [nu_mode nu_nodeset].
    replace (nextBind _ _) with (@None membind); [reflexivity|]. vm_compute. reflexivity.
Qed.
Print Assumptions numa_split_huge_refuted.

(* C30.  Interleave mode with a part size: the calls cover the allocation
   contiguously; its k-th part (the part size rounded up to pages) goes to node
   number s/part_size + k, cyclically, where s is what was allocated before. *)
Theorem numa_interleave_exact : forall page all q u h u1 addr size B, power_of_two page ->
  translate_params page all q = Some (SUCCESS, Some u) -> q_mode q = M_INTERLEAVE -> 0 < q_part q < U64 -> rounded_up (q_part q) page B ->
  allocations page u h u1 -> total h < U64 -> 0 < size < U64 -> size mod page = 0 ->
  exists calls u2, os_bind u1 addr size page = Some (calls, u2) /\ tiles addr size calls /\ whole_pages page addr calls /\
    forall x v, 0 <= x < size ->
      (bound_to calls (addr + x) v <-> nth_error (q_nodes q) (Z.to_nat ((total h / q_part q + x / B) mod Z.of_nat (length (q_nodes q)))) = Some v).
Proof. exact interleave_lemma. Qed.
Print Assumptions numa_interleave_exact.
Definition by_two_pages : params := Params [3; 5; 8] M_INTERLEAVE 8192 [].
Example numa_interleave_case : exists u u1, translate_params 4096 [] by_two_pages = Some (SUCCESS, Some u) /\
  os_bind u 0 8192 4096 = Some ([Bind 0 8192 [3]], u1) /\
  exists u2, os_bind u1 65536 20480 4096 = Some ([Bind 65536 8192 [5]; Bind 73728 8192 [8]; Bind 81920 4096 [3]], u2).
Proof. eexists _, _. split; [vm_compute; reflexivity|]. split; [vm_compute; reflexivity|]. eexists. vm_compute. reflexivity. Qed.

(* If the part size is a multiple of the page size and every allocation so far
   was a multiple of the part size, all allocations together are interleaved:
   byte y of the concatenation of all allocations goes to node y/part_size. *)
Theorem numa_interleave_stream_partial : forall page all q u h u1 addr size, power_of_two page ->
  translate_params page all q = Some (SUCCESS, Some u) -> q_mode q = M_INTERLEAVE -> 0 < q_part q < U64 -> q_part q mod page = 0 ->
  allocations page u h u1 -> (forall s, In s h -> s mod q_part q = 0) -> total h < U64 -> 0 < size < U64 -> size mod page = 0 ->
  exists calls u2, os_bind u1 addr size page = Some (calls, u2) /\ tiles addr size calls /\ whole_pages page addr calls /\
    forall x v, 0 <= x < size ->
      (bound_to calls (addr + x) v <-> nth_error (q_nodes q) (Z.to_nat ((total h + x) / q_part q mod Z.of_nat (length (q_nodes q)))) = Some v).
Proof. exact stream_lemma. Qed.
Print Assumptions numa_interleave_stream_partial.
(* Without that it is not so: after one page, two more pages with a part size of
   two pages all go to the first node. *)
Theorem numa_interleave_stream_refuted : ~ forall page all q u h u1 addr size calls u2 x v, power_of_two page ->
  translate_params page all q = Some (SUCCESS, Some u) -> q_mode q = M_INTERLEAVE -> 0 < q_part q < U64 -> q_part q mod page = 0 ->
  allocations page u h u1 -> total h < U64 -> 0 < size < U64 -> size mod page = 0 ->
  os_bind u1 addr size page = Some (calls, u2) -> 0 <= x < size -> bound_to calls (addr + x) v ->
  nth_error (q_nodes q) (Z.to_nat ((total h + x) / q_part q mod Z.of_nat (length (q_nodes q)))) = Some v.
Proof.
  intros H.
  specialize (H 4096 [] by_two_pages (Numa M_INTERLEAVE [[3]; [5]; [8]] 8192 0 [] 0) [4096] (Numa M_INTERLEAVE [[3]; [5]; [8]] 8192 4096 [] 0) 65536 8192
                [Bind 65536 8192 [3]] (Numa M_INTERLEAVE [[3]; [5]; [8]] 8192 12288 [] 0) 4096 3).
  assert (X : nth_error (q_nodes by_two_pages) (Z.to_nat ((total [4096] + 4096) / q_part by_two_pages mod Z.of_nat (length (q_nodes by_two_pages)))) = Some 3).
  { apply H.
    - exists 12. split; [lia|reflexivity].
    - vm_compute. reflexivity.
    - reflexivity.
    - split; reflexivity.
    - reflexivity.
    - change [4096] with ([] ++ [4096]). eapply (allocs_next 4096 _ [] _ 0 4096 [Bind 0 4096 [3]]); [apply allocs_none|split; reflexivity|reflexivity|]. vm_compute. reflexivity.
    - reflexivity.
    - split; reflexivity.
    - reflexivity.
    - vm_compute. reflexivity.
    - split; [discriminate|reflexivity].
    - exists (Bind 65536 8192 [3]). split; [now left|]. cbn [c_addr c_len c_nodes]. split; [split; [discriminate|reflexivity]|now left]. }
  vm_compute in X. discriminate.
Qed.
Print Assumptions numa_interleave_stream_refuted.
(* And a part size that is not a multiple of the page size is rounded up for the
   bind calls but not for the choice of the node: with part size 1 and two nodes
   every one-page allocation, after any history, goes to the first node. *)
Theorem numa_small_parts_refuted : forall page all a b u h u1 addr, power_of_two page -> 2 <= page -> page < 2 ^ 63 ->
  translate_params page all (Params [a; b] M_INTERLEAVE 1 []) = Some (SUCCESS, Some u) ->
  allocations page u h u1 -> exists u2, os_bind u1 addr page page = Some ([Bind addr page [a]], u2).
Proof. exact small_parts_lemma. Qed.
Print Assumptions numa_small_parts_refuted.
Example numa_small_parts_case : exists u, translate_params 4096 [] (Params [3; 5] M_INTERLEAVE 1 []) = Some (SUCCESS, Some u) /\
  exists u1, allocations 4096 u [4096; 4096] u1.
Proof.
  eexists. split; [vm_compute; reflexivity|]. eexists. change [4096; 4096] with (([] ++ [4096]) ++ [4096]).
  eapply (allocs_next 4096 _ _ _ 0 4096 [Bind 0 4096 [3]]); [|split; reflexivity|reflexivity|].
  - eapply (allocs_next 4096 _ _ _ 0 4096 [Bind 0 4096 [3]]); [apply allocs_none|split; reflexivity|reflexivity|vm_compute; reflexivity].
  - vm_compute. reflexivity.
Qed.

(* All other modes bind the whole allocation in one call to the listed nodes (all
   nodes if none is listed); the default mode binds nothing. *)
Theorem numa_other_modes : forall page all q u h u1 addr size,
  translate_params page all q = Some (SUCCESS, Some u) -> q_mode q <> M_SPLIT -> (q_mode q = M_INTERLEAVE -> q_part q = 0) ->
  allocations page u h u1 -> 0 < size < U64 ->
  os_bind u1 addr size page = Some (match q_mode q with M_DEFAULT => [] | _ => [Bind addr size (match q_nodes q with [] => all | l => l end)] end, u1).
Proof.
  intros page all q u h u1 addr size T M1 M2 AL SZ. eapply whole_lemma; [exact T| |exact AL|exact SZ].
  unfold dedicated_node_bind. destruct (q_mode q); try reflexivity; [rewrite (M2 eq_refl); reflexivity|now destruct M1].
Qed.
Print Assumptions numa_other_modes.
Example numa_other_modes_case : exists u, translate_params 4096 [0; 1] (Params [0; 1] M_BIND 0 []) = Some (SUCCESS, Some u) /\
  os_bind u 0 20480 4096 = Some ([Bind 0 20480 [0; 1]], u).
Proof. eexists. split; [vm_compute; reflexivity|vm_compute; reflexivity]. Qed.
