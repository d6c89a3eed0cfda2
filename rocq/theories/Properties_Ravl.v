(* C11, C12: the balanced tree (src/ravl/ravl.c). *)
From Verif Require Import Base Model_Ravl Spec_OrderedSet Proof_Ravl.

(* C11. For every comparison callback that is a total preorder and every
   history of inserts (with allocation failures) and find-then-removes: no
   assertion fails, every answer is the one of an ordered set, traversal is
   strictly ascending and lists exactly the current members; find (five
   predicates), first, last, and successor/predecessor of any node of the tree
   give the true neighbours. *)
Theorem ravl_is_ordered_set : forall (A : Type) (cmp : A -> A -> Z) (ops : list (op A)),
  total_order cmp ->
  exists t outs S,
    exec cmp Null ops = Some (t, outs) /\
    runs cmp empty ops outs S /\
    ascending cmp (ravl_foreach t) /\ (forall x, In x (ravl_foreach t) <-> S x) /\
    (forall x p, nearest cmp S p x (data_of (ravl_find cmp t x p))) /\
    least cmp S (data_of (ravl_first t)) /\ greatest cmp S (data_of (ravl_last t)) /\
    (ravl_empty t = true <-> forall x, ~ S x) /\
    (forall n, plug (fst n) (snd n) = t -> fst n <> Null ->
       exists y, ravl_data n = Some y /\ S y /\
         nearest cmp S P_GREATER y (data_of (ravl_node_successor n)) /\
         nearest cmp S P_LESS y (data_of (ravl_node_predecessor n))).
Proof.
  intros A cmp ops TO.
  destruct (exec_inv cmp TO ops Null empty 0 (inv_empty cmp)) as (t & rs & S & E & R & I).
  exists t, rs, S. split; [exact E|]. split; [exact R|]. pose proof I as (I1 & I2 & _).
  split; [exact I1|]. split; [exact I2|].
  split; [intros x p; exact (find_data cmp TO _ _ _ x p I)|].
  destruct (ends_data cmp TO _ _ _ I) as (D1 & D2 & D3).
  split; [exact D1|]. split; [exact D2|]. split; [exact D3|].
  intros n P N. destruct (node_pos t n P N) as (a & y & b & AP & D). exists y. split; [exact D|].
  split; [apply I2; destruct (at_pos_list _ _ _ _ _ AP) as (-> & _); apply in_or_app; right; left; reflexivity|].
  exact (cessor_data cmp TO _ _ _ _ _ _ _ I AP).
Qed.
Print Assumptions ravl_is_ordered_set.

(* C12. After any history, interleaved with removals in any way, the height is
   bounded by a Fibonacci inverse of the number of successful inserts, hence
   logarithmic; and a removal never increases it. *)
Theorem ravl_height_logarithmic : forall (A : Type) (cmp : A -> A -> Z) (ops : list (op A)),
  total_order cmp ->
  exists t outs,
    exec cmp Null ops = Some (t, outs) /\
    fibonacci (Z.to_nat (height t) + 2) <= inserts outs + 2 /\
    2 ^ (height t / 2) <= inserts outs + 2 /\
    (forall x p t' r, step cmp t (OpRemove x p) = Some (t', r) -> height t' <= height t).
Proof.
  intros A cmp ops TO.
  destruct (exec_inv cmp TO ops Null empty 0 (inv_empty cmp)) as (t & rs & S & E & R & I).
  exists t, rs. split; [exact E|]. destruct (height_bound cmp t S _ I) as (H1 & H2).
  split; [|split; [exact H2|]].
  - replace (Z.to_nat (height t) + 2)%nat with (Z.to_nat (height t + 2)) by (pose proof (height_nonneg t); lia).
    exact H1.
  - intros x p t' r. apply (step_height cmp TO). exact (proj1 I).
Qed.
Print Assumptions ravl_height_logarithmic.

(* A concrete comparator and history: ascending inserts force rotations, a
   duplicate, an allocation failure, removal of a two-children node. *)
Definition zcmp (x y : Z) : Z := if x <? y then -1 else if x >? y then 1 else 0.
Example zcmp_order : total_order zcmp.
Proof.
  split; unfold zcmp.
  - intros x y. destruct (Z.ltb_spec x y); destruct (Z.ltb_spec y x); try lia; destruct (x >? y) eqn:E1; destruct (y >? x) eqn:E2; cbn; lia.
  - intros x y z. destruct (Z.ltb_spec x y); destruct (Z.ltb_spec y z); destruct (Z.ltb_spec x z); destruct (x >? y) eqn:?; destruct (y >? z) eqn:?; destruct (x >? z) eqn:?; lia.
Qed.
Example ravl_history :
  exists t, exec zcmp Null
    [OpInsert true 1; OpInsert true 2; OpInsert true 3; OpInsert true 4; OpInsert true 5;
     OpInsert true 6; OpInsert true 3; OpInsert false 9; OpRemove 4 P_EQUAL; OpRemove 100 P_LESS; OpRemove 100 P_GREATER]
   = Some (t, [OutIns EM_OK; OutIns EM_OK; OutIns EM_OK; OutIns EM_OK; OutIns EM_OK; OutIns EM_OK;
               OutIns EM_EXIST; OutIns EM_NOMEM; OutRem (Some 4); OutRem (Some 6); OutRem None])
   /\ ravl_foreach t = [1; 2; 3; 5] /\ height t = 3
   /\ data_of (ravl_find zcmp t 4 P_GREATER_EQUAL) = Some 5.
Proof. eexists. split; [vm_compute; reflexivity|]. vm_compute. repeat split; reflexivity. Qed.
