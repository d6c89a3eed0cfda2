(* C08, C09, C10: the radix map (src/critnib/critnib.c). *)
From Verif Require Import Base Model_Critnib Spec_Map Proof_CritnibMap.

(* C08. Every sequence of inserts/removes (with arbitrary allocation failures)
   runs without tripping an assertion, every answer is the one a finite map
   gives, and afterwards lookup agrees with that finite map on all keys. *)
Theorem critnib_is_finite_map : forall (V : Type) (ops : list (op V)),
  Forall op_word ops ->
  exists t outs m,
    exec Nil ops = Some (t, outs) /\
    runs empty ops outs m /\
    forall key, critnib_get t key = m key.
Proof.
  intros V ops W. destruct (exec_rep ops Nil empty rep_empty W) as (t & outs & m & E & R & P).
  exists t, outs, m. split; [exact E|]. split; [exact R|]. intros key. exact (get_rep t m key P).
Qed.
Print Assumptions critnib_is_finite_map.

(* C09. Same histories: all five ordered queries return the true neighbour. *)
Theorem critnib_neighbours : forall (V : Type) (ops : list (op V)),
  Forall op_word ops ->
  exists t outs m,
    exec Nil ops = Some (t, outs) /\
    runs empty ops outs m /\
    forall key dir, is_word key ->
      neighbour m key dir (critnib_find t key dir) /\
      critnib_find_le t key = option_map snd (critnib_find t key FIND_LE).
Proof.
  intros V ops W. destruct (exec_rep ops Nil empty rep_empty W) as (t & outs & m & E & R & P).
  exists t, outs, m. split; [exact E|]. split; [exact R|]. intros key dir Wk.
  split; [exact (find_rep t m key dir P Wk)|reflexivity].
Qed.
Print Assumptions critnib_neighbours.

(* C10, positive half: with min = 0 iteration visits exactly the entries with
   key <= max, ascending, up to the first one the callback stops at.
   Missing from the full statement: min > 0 (see the refutation below). *)
Theorem critnib_iter_exact_partial : forall (V : Type) (ops : list (op V)),
  Forall op_word ops ->
  exists t outs m,
    exec Nil ops = Some (t, outs) /\
    runs empty ops outs m /\
    forall max f, exists l, enumerates m 0 max l /\ critnib_iter t 0 max f = upto f l.
Proof.
  intros V ops W. destruct (exec_rep ops Nil empty rep_empty W) as (t & outs & m & E & R & P).
  exists t, outs, m. split; [exact E|]. split; [exact R|]. intros max f. exact (iter_rep t m max f P).
Qed.
Print Assumptions critnib_iter_exact_partial.

(* C10 for any range: what is visited is in the map and in the range, ascending (so
   nothing twice), and nothing follows the entry the callback stops at. *)
Theorem critnib_iter_sound : forall (V : Type) (ops : list (op V)),
  Forall op_word ops ->
  exists t outs m,
    exec Nil ops = Some (t, outs) /\
    runs empty ops outs m /\
    forall min max f, let l := critnib_iter t min max f in
      ascending l /\ l = upto f l /\ forall k v, In (k, v) l -> m k = Some v /\ min <= k <= max.
Proof.
  intros V ops W. destruct (exec_rep ops Nil empty rep_empty W) as (t & outs & m & E & R & P).
  exists t, outs, m. split; [exact E|]. split; [exact R|]. intros min max f. exact (iter_any t m min max f P).
Qed.
Print Assumptions critnib_iter_sound.

(* C10, full statement refuted: after storing keys 0 and 2^60, iterating over
   [1, 2^64-1] visits nothing although 2^60 is stored and in range
   (critnib.c:800 compares path|path_mask instead of path|~path_mask). *)
Theorem critnib_iter_range_refuted :
  exists (ops : list (op Z)) t outs m min max,
    Forall op_word ops /\ exec Nil ops = Some (t, outs) /\ runs empty ops outs m /\
    0 <= min <= max /\ max < U64 /\
    (exists k v, m k = Some v /\ min <= k <= max) /\
    critnib_iter t min max (fun _ _ => false) = [].
Proof.
  pose (ops := [OpInsert true true 0 10 false; OpInsert true true (2 ^ 60) 11 false]).
  assert (W : Forall op_word ops).
  { unfold ops. repeat constructor; cbn; unfold is_word, U64; lia. }
  destruct (exec_rep ops Nil empty rep_empty W) as (t & outs & m & E & R & P).
  exists ops, t, outs, m, 1, (U64 - 1).
  split; [exact W|]. split; [exact E|]. split; [exact R|].
  split; [unfold U64; lia|]. split; [unfold U64; lia|].
  assert (Et : exists t', exec Nil ops = Some t' /\ critnib_iter (fst t') 1 (U64 - 1) (fun _ _ => false) = []
                /\ critnib_get (fst t') (2 ^ 60) = Some 11).
  { eexists. split; [vm_compute; reflexivity|]. split; vm_compute; reflexivity. }
  destruct Et as (t' & E1 & E2 & E3). rewrite E in E1. injection E1 as <-. cbn [fst] in *.
  split; [|exact E2].
  exists (2 ^ 60), 11. rewrite <- (get_rep t m _ P). split; [exact E3|]. unfold U64. lia.
Qed.
Print Assumptions critnib_iter_range_refuted.

(* A concrete history meeting the hypotheses: root split, path split, update,
   duplicate, removal with collapse, out-of-memory. *)
Example critnib_history :
  let ops := [OpInsert true true 4096 1 false; OpInsert true true 4112 2 false;
              OpInsert true true (U64 - 1) 3 false; OpInsert true true 4112 9 false;
              OpInsert true true 4112 5 true; OpInsert true false 77 6 false;
              OpRemove 4096; OpRemove 5] in
  Forall op_word ops /\
  exists t, exec Nil ops = Some (t, [OutIns INS_OK; OutIns INS_OK; OutIns INS_OK;
      OutIns INS_EEXIST; OutIns INS_OK; OutIns INS_ENOMEM; OutRem (Some 1); OutRem None])
   /\ critnib_find t 9000 FIND_LE = Some (4112, 5)
   /\ critnib_find t 4113 FIND_G = Some (U64 - 1, 3)
   /\ critnib_find t 4112 FIND_L = None.
Proof.
  cbv zeta. split.
  - repeat constructor; cbn; unfold is_word, U64; lia.
  - eexists. split; [vm_compute; reflexivity|]. repeat split; vm_compute; reflexivity.
Qed.
