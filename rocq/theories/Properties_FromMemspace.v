(* C84: a provider made from a memory space places memory on the nodes of that
   space, as the policy says. *)
From Verif Require Import Base Spec_Utils Model_Memspace Spec_Memspace Model_OsNuma Spec_OsNuma Model_FromMemspace Spec_FromMemspace Proof_FromMemspace.

Definition made page all k s p rd inner m u m' := umfMemoryProviderCreateFromMemspace page all k s p rd inner m = Some (SUCCESS, Some u, m').
Definition numa_space (m : mem) (s : space) (ids : list Z) : Prop := members m s (map (fun i => (0, i)) ids).
Definition partitions (p : option policy) (rd : Z -> list (Z * Z)) (ps : list (Z * Z)) : Prop := match p with Some q => custom q rd ps | None => ps = [] end.

(* Every allocation of such a provider, whatever it allocated before, is bound
   page by page as the policy says, to the nodes of the space; with no policy it is
   bound to the nodes as a whole, and not at all for the space of all nodes.
   Partial: the sizes must fit the code's arithmetic ([fits], [moderate]), and of
   the space of highest capacity only the first node is used. *)
Theorem C84_placed_partial : forall page all k s p rd inner m u m' ids, power_of_two page -> numa_space m s ids -> fits ids p ->
  made page all k s p rd inner m u m' -> exists ps, partitions p rd ps /\
  forall h u1 addr size, allocations page u h u1 -> Spec_OsNuma.total h < U64 -> 0 < size < U64 -> size mod page = 0 ->
  (forall a n, p = Some (PolSplit a n) -> moderate page size (map fst (wanted (used k ids) ps))) ->
  exists calls u2, os_bind u1 addr size page = Some (calls, u2) /\ placed page k ids p ps (Spec_OsNuma.total h) addr size calls.
Proof.
  intros page all k s p rd inner m u m' ids PG NS F M. apply ids_members in NS.
  destruct (top_core _ _ _ _ _ _ _ _ _ _ _ _ NS F M) as (_ & _ & H). destruct (H eq_refl) as (NE & ps & G & T). exists ps. split; [exact G|].
  intros. eapply placed_core; try eassumption. intros ->. clear - M. unfold made, umfMemoryProviderCreateFromMemspace, numa_create in M.
  destruct (nodes s); [discriminate|]. destruct (galloc _ m) as [[] ?]; cbn [negb] in M; [|discriminate]. destruct (ids_of _ _); [|discriminate].
  cbn [choose_mode] in M. match type of M with context [if ?c then _ else _] => destruct c end; discriminate.
Qed.
Print Assumptions C84_placed_partial.

(* No allocation is ever bound to a node outside the space: here the arithmetic
   may do what it likes. *)
Theorem C84_inside : forall page all k s p rd inner m u m' ids, numa_space m s ids -> fits ids p -> made page all k s p rd inner m u m' ->
  forall h u1 addr size calls u2 c v, allocations page u h u1 -> os_bind u1 addr size page = Some (calls, u2) -> In c calls -> In v (c_nodes c) -> In v ids.
Proof.
  intros page all k s p rd inner m u m' ids NS F M h u1 addr size calls u2 c v AL O C V. apply ids_members in NS.
  destruct (top_core _ _ _ _ _ _ _ _ _ _ _ _ NS F M) as (_ & _ & H). destruct (H eq_refl) as (NE & ps & G & T).
  pose proof (inside_core _ _ _ _ _ _ _ _ _ _ _ _ _ NE T AL O c C v V) as I. unfold used in I. destruct k; try exact I.
  destruct ids as [|i ids]; [destruct I|]. destruct I as [I|[]]. left. exact I.
Qed.
Print Assumptions C84_inside.

(* Successful or not, the creation leaves the space as it was and keeps none of the
   library's memory for itself. *)
Theorem C84_clean : forall page all k s p rd inner m r u m' ids, numa_space m s ids -> fits ids p ->
  umfMemoryProviderCreateFromMemspace page all k s p rd inner m = Some (r, u, m') -> blocks m' = blocks m /\ numa_space m' s ids.
Proof.
  intros page all k s p rd inner m r u m' ids NS F M. pose proof NS as NS'. apply ids_members in NS'.
  destruct (top_core _ _ _ _ _ _ _ _ _ _ _ _ NS' F M) as (B & H & _). split; [exact B|]. apply ids_members. rewrite (ids_heap _ _ H). exact NS'.
Qed.
Print Assumptions C84_clean.

(* If no memory is refused, a space that is not empty and a policy give a provider
   exactly when the policy makes sense for the nodes used. *)
Theorem C84_accepted_partial : forall page all k s p rd m ids ps, power_of_two page -> numa_space m s ids -> ids <> [] -> fits ids p -> partitions p rd ps ->
  p <> Some PolUnknown -> answers m = [] ->
  exists r u m', umfMemoryProviderCreateFromMemspace page all k s p rd SUCCESS m = Some (r, u, m') /\
    (r = SUCCESS <-> suits page (used k ids) p ps) /\ (r = SUCCESS <-> u <> None).
Proof. intros page all k s p rd m ids ps PG NS. apply ids_members in NS. exact (accept_core page all k s p rd m ids ps PG NS). Qed.
Print Assumptions C84_accepted_partial.

Definition two : mem := Mem [(10, (0, 4)); (11, (0, 6))] 12 [] 6.
Definition both : space := Space [10; 11] true.
Example two_space : numa_space two both [4; 6].
Proof. reflexivity. Qed.

(* A split that names nodes of the space only may be refused all the same: for the
   space of highest capacity only its first node is known to the provider. *)
Theorem C84_highest_capacity_refuted : ~ (forall page all k s a n rd m ids r u m', numa_space m s ids -> fits ids (Some (PolSplit a n)) -> answers m = [] ->
  partitions (Some (PolSplit a n)) rd (rd a) -> suits page ids (Some (PolSplit a n)) (rd a) ->
  umfMemoryProviderCreateFromMemspace page all k s (Some (PolSplit a n)) rd SUCCESS m = Some (r, u, m') -> r = SUCCESS).
Proof.
  intros H. assert (X : exists r u m', umfMemoryProviderCreateFromMemspace 4096 [4; 6] HighestCapacity both (Some (PolSplit 16 2)) (fun _ => [(1, 4); (1, 6)]) SUCCESS two = Some (r, u, m') /\ r <> SUCCESS).
  { eexists _, _, _. split; [vm_compute; reflexivity|discriminate]. }
  destruct X as (r & u & m' & E & N). apply N. eapply H; [apply two_space| | | | |exact E].
  - split; cbn; lia.
  - reflexivity.
  - cbn. split; [reflexivity|lia].
  - cbn. split; [discriminate|]. intros w t [[= <- <-]|[[= <- <-]|[]]]; split; try discriminate; auto.
Qed.
Print Assumptions C84_highest_capacity_refuted.

(* The policy keeps the address of the caller's partitions, not the partitions:
   what counts is what is there when the provider is made. *)
Theorem C84_partitions_kept_refuted : ~ (forall page all k s list len junk rd0 rd inner m r p u m',
  umfMempolicySetCustomSplitPartitions (umfMempolicyCreate T_SPLIT junk) list len = (r, p) ->
  umfMemoryProviderCreateFromMemspace page all k s (Some p) rd inner m = Some (SUCCESS, Some u, m') ->
  umfMemoryProviderCreateFromMemspace page all k s (Some p) rd0 inner m = Some (SUCCESS, Some u, m')).
Proof.
  intros H. specialize (H 4096 [4; 6] OtherSpace both 16 1 0 (fun _ => [(1, 4)]) (fun _ => [(1, 6)]) SUCCESS two SUCCESS (PolSplit 16 1)).
  assert (X : exists u m', umfMemoryProviderCreateFromMemspace 4096 [4; 6] OtherSpace both (Some (PolSplit 16 1)) (fun _ => [(1, 6)]) SUCCESS two = Some (SUCCESS, Some u, m') /\
    umfMemoryProviderCreateFromMemspace 4096 [4; 6] OtherSpace both (Some (PolSplit 16 1)) (fun _ => [(1, 4)]) SUCCESS two <> Some (SUCCESS, Some u, m')).
  { eexists _, _. split; [vm_compute; reflexivity|vm_compute; discriminate]. }
  destruct X as (u & m' & E & N). apply N. apply H; [reflexivity|exact E].
Qed.
Print Assumptions C84_partitions_kept_refuted.

(* The number of partitions is cut to 32 bits: of 2^32 partitions, with no weight
   and on no node of the space, none is seen and the provider is made. *)
Lemma many_made : forall rd, exists u m', made 4096 [4; 6] OtherSpace both (Some (PolSplit 16 (2 ^ 32))) rd SUCCESS two u m'.
Proof. intros rd. eexists _, _. vm_compute. reflexivity. Qed.
Lemma many_length : 2 ^ 32 = Z.of_nat (length (repeat (0, 9) (Z.to_nat (2 ^ 32)))).
Proof. rewrite repeat_length, Z2Nat.id; [reflexivity|lia]. Qed.
Lemma many_in n : 0 < n -> In (0, 9) (repeat (0, 9) (Z.to_nat n)).
Proof. intros N. destruct (Z.to_nat n) eqn:E; [lia|left; reflexivity]. Qed.
Theorem C84_many_partitions_refuted : ~ (forall page all k s a n rd m ids u m', numa_space m s ids ->
  0 <= n < U64 -> n = Z.of_nat (length (rd a)) -> made page all k s (Some (PolSplit a n)) rd SUCCESS m u m' ->
  forall w t, In (w, t) (rd a) -> w <> 0 /\ In t ids).
Proof.
  intros H. destruct (many_made (fun _ => repeat (0, 9) (Z.to_nat (2 ^ 32)))) as (u & m' & M).
  assert (R : 0 <= 2 ^ 32 < U64) by (unfold U64; lia).
  destruct (H _ _ _ _ _ _ (fun _ => repeat (0, 9) (Z.to_nat (2 ^ 32))) _ _ _ _ two_space R many_length M 0 9 (many_in (2 ^ 32) ltac:(lia))) as [W _].
  apply W. reflexivity.
Qed.
Print Assumptions C84_many_partitions_refuted.

(* Two nodes, weights 1:3, allocations of 4 pages: the first page on node 6, the
   others on node 4; and a space with no policy. *)
Example C84_example_split : exists u m', made 4096 [4; 6] OtherSpace both (Some (PolSplit 16 2)) (fun _ => [(1, 6); (3, 4)]) SUCCESS two u m' /\
  fits [4; 6] (Some (PolSplit 16 2)) /\ moderate 4096 16384 [1; 3] /\
  os_bind u 65536 16384 4096 = Some ([Bind 65536 4096 [6]; Bind 69632 12288 [4]], u).
Proof.
  eexists _, _. split; [vm_compute; reflexivity|]. split; [split; cbn; lia|]. split; [split; [intros w [<-|[<-|[]]]; cbn; unfold U64; lia|cbn; lia]|]. vm_compute. reflexivity.
Qed.
Example C84_example_bind : exists u m', made 4096 [4; 5; 6] OtherSpace both None (fun _ => []) SUCCESS two u m' /\
  os_bind u 65536 16384 4096 = Some ([Bind 65536 16384 [4; 6]], u).
Proof. eexists _, _. split; [vm_compute; reflexivity|vm_compute; reflexivity]. Qed.
Example C84_example_failed : exists m', umfMemoryProviderCreateFromMemspace 4096 [4; 6] OtherSpace both (Some (PolSplit 16 1)) (fun _ => [(1, 6)]) SUCCESS
  (Mem (heap two) 12 [true; true; true; true; false] 6) = Some (ERR_OUT_OF_HOST_MEMORY, None, m') /\ blocks m' = 6.
Proof. eexists. split; vm_compute; reflexivity. Qed.
