(* C70: lock-free ordered lookups in the radix map *)
From Verif Require Import Base Model_Critnib Spec_Map Model_CritnibConc Spec_CritnibConc Proof_CritnibConcSys Model_CritnibFind
  Proof_CritnibFindSys Properties_CritnibConc.

(* Beside any sequence of inserts and removes, with the same moments of effect that serve
   the exact lookups: an ordered lookup ("the largest key not above k") answers only with an
   entry that was in the map, below or at the key, at some moment of the call; it answers
   with the neighbour if that is the same key during the whole call, with a value it had
   then; and it finds nothing if there was nothing during the whole call. *)
Theorem find_le_stable : forall h wl, empty_heap h ->
  Forall (fun a => is_write a = true /\ action_word a) wl -> Z.of_nat (length wl) + 16 < 2 ^ 64 ->
  exists E, effects h wl E /\
  (forall k al n s r, is_word k -> (n <= length wl)%nat -> filter is_write al = firstn n wl ->
    sexec k (start h) al = Some s -> reader s = RDone r -> held h wl E (before al) n k r) /\
  (forall k al n s r, is_word k -> (n <= length wl)%nat -> filter is_write al = firstn n wl ->
    fexec k (start h, FStart) al = Some (s, FDone r) ->
    (forall a v, r = Some (a, v) -> a <= k /\ once h wl E (before al) n (fun m => option_map User (m a) = Some v)) /\
    (forall a, is_word a -> always h wl E (before al) n (nearest k a) ->
      exists v, r = Some (a, v) /\ once h wl E (before al) n (fun m => option_map User (m a) = Some v)) /\
    (always h wl E (before al) n (none_below k) -> r = None)).
Proof.
  intros h wl He W B. destruct (history_exists h wl He W B) as (ST & E & M & H). exists E.
  split; [exact (effects_ok h wl ST E M H)|]. split.
  - intros k al n s r Wk Hn F Es Er. exact (reader_result h wl ST E M H B k al n s r Wk Hn F Es Er).
  - intros k al n s r Wk Hn F Es. destruct (find_result h wl ST E M H B k Wk al n s r Hn F Es) as (X & Y). split; [|split].
    + intros a v ->. exact X.
    + exact Y.
    + exact (find_none h wl ST E M H B k Wk al n s r Hn F Es).
Qed.
Print Assumptions find_le_stable.

(* nothing goes wrong at any interleaving *)
Theorem find_no_crash : forall h al k, empty_heap h -> Forall action_word al -> is_word k ->
  Z.of_nat (length al) + 16 < 2 ^ 64 -> exists s pc, fexec k (start h, FStart) al = Some (s, pc).
Proof.
  intros h al k He W Wk B.
  assert (L : (length (filter is_write al) <= length al)%nat) by (clear; induction al as [|a al IH]; [reflexivity|]; destruct a; cbn [filter is_write length]; lia).
  assert (W' : Forall (fun a => is_write a = true /\ action_word a) (filter is_write al)).
  { apply Forall_forall. intros a Ha. apply filter_In in Ha. split; [apply Ha|]. exact (proj1 (Forall_forall _ _) W a (proj1 Ha)). }
  assert (B' : Z.of_nat (length (filter is_write al)) + 16 < U64) by (change U64 with (2 ^ 64); lia).
  destruct (history_exists h _ He W' B') as (ST & E & M & H).
  destruct (find_run h _ ST E M H B' k Wk al _ (Nat.le_refl _)) as (s & pc & Es & _); [rewrite firstn_all; reflexivity|]. eauto.
Qed.
Print Assumptions find_no_crash.

(* 16 stays the neighbour of 47 while keys above come and go (and with them the node the
   lookup has entered) *)
Example neighbour_stays : exists s,
  fexec 47 (start fresh, FStart) (ins 16 1 ++ ins 80 2 ++ repeat RLoad 4 ++ rem 80 ++ ins 4096 5 ++ repeat RLoad 40) = Some (s, FDone (Some (16, User 1))).
Proof. eexists. vm_compute. reflexivity. Qed.
Example nothing_below : exists s,
  fexec 9 (start fresh, FStart) (ins 16 1 ++ ins 80 2 ++ repeat RLoad 4 ++ rem 80 ++ repeat RLoad 40) = Some (s, FDone None).
Proof. eexists. vm_compute. reflexivity. Qed.
(* seventeen removes during the call: the lookup notices and starts again *)
Example starts_again : exists s,
  fexec 47 (start fresh, FStart) (ins 16 1 ++ repeat RLoad 3 ++ concat (repeat (ins 20 2 ++ rem 20) 17) ++ repeat RLoad 40) = Some (s, FDone (Some (16, User 1))).
Proof. eexists. vm_compute. reflexivity. Qed.

(* The code's comment (critnib.c:82-84) promises more for find_le, as for get: an answer
   that was right at some moment of the call.  That is false. *)
Definition right (k : Z) (r : option (Z * word)) (m : amap (V := Z)) : Prop :=
  match r with
  | Some (a, User v) => neighbour m k FIND_LE (Some (a, v))
  | Some (_, Link _) => False
  | None => neighbour m k FIND_LE None
  end.
Definition writes (al : list action) : list action := filter is_write al.

(* Keys 16 and 24; the lookup of 47 has seen the place of 24 taken, 24 is removed, the second
   load of find_predecessor gives NULL: not found, although 16 was there all the time. *)
Definition miss : list action := ins 16 1 ++ ins 24 2 ++ repeat RLoad 13 ++ rem 24 ++ repeat RLoad 5.
(* Keys 16 and 39; the lookup of 37 has found nothing beside 39; 36 is inserted, then 24: the
   answer is 24, although 36 was in the map whenever 24 was. *)
Definition wrong : list action := ins 16 1 ++ ins 39 3 ++ repeat RLoad 7 ++ ins 36 4 ++ ins 24 2 ++ repeat RLoad 22.

Definition never_right (k : Z) (al : list action) (r : option (Z * word)) : Prop :=
  Forall action_word al /\
  (exists s, fexec k (start fresh, FStart) al = Some (s, FDone r)) /\
  forall E, effects fresh (writes al) E ->
  always fresh (writes al) E (before al) (length (writes al)) (fun m => ~ right k r m).

Example trace_miss : option_map snd (fexec 47 (start fresh, FStart) miss) = Some (FDone None).
Proof. vm_compute. reflexivity. Qed.
Example trace_wrong : option_map snd (fexec 37 (start fresh, FStart) wrong) = Some (FDone (Some (24, User 2))).
Proof. vm_compute. reflexivity. Qed.

(* the log at the end, and at each moment of the call a beginning of it *)
Definition final (al : list action) : list (op Z * out Z) :=
  match sexec 0 (start fresh) (writes al) with Some s => log s | None => [] end.
Definition moment_ok (al : list action) (lo i : nat) : Prop :=
  match sexec 0 (start fresh) (firstn i (writes al)) with
  | Some s => log s = firstn (length (log s)) (final al) /\ Nat.leb lo (completed s) = true
              /\ Nat.leb (length (log s)) (length (final al)) = true
  | None => False
  end.
Lemma window_logs : forall al lo E k r,
  (forall i, In i (seq (before al) (S (length (writes al) - before al))) -> moment_ok al lo i) ->
  (forall n m, (lo <= n <= length (final al))%nat -> after (final al) n m -> ~ right k r m) ->
  effects fresh (writes al) E ->
  always fresh (writes al) E (before al) (length (writes al)) (fun m => ~ right k r m).
Proof.
  intros al lo E k r A B EF i s m Hi Es Hm.
  specialize (A i). unfold moment_ok in A. rewrite Es in A.
  destruct A as (L & C & D); [apply in_seq; lia|]. apply Nat.leb_le in C, D.
  destruct (EF i (proj2 Hi)) as (_ & s' & Es' & F & _). rewrite Es in Es'. injection Es' as <-. unfold begun in F.
  apply (B (E i)); [lia|]. unfold after in *. rewrite L in Hm. rewrite firstn_firstn, Nat.min_l in Hm by lia. exact Hm.
Qed.
Ltac replay :=
  repeat match goal with
  | X : runs _ (_ :: _) _ _ |- _ => inversion X; clear X; subst
  | X : runs _ [] _ _ |- _ => inversion X; clear X; subst
  | X : allowed _ (_ _) _ _ |- _ => inversion X; clear X; subst
  end.

Lemma miss_never : never_right 47 miss None.
Proof.
  split; [|split].
  - let l := eval vm_compute in miss in change miss with l.
    repeat (apply Forall_cons; [vm_compute; first [exact I | split; [discriminate|reflexivity]]|]). apply Forall_nil.
  - destruct (fexec 47 (start fresh, FStart) miss) as [[s pc]|] eqn:X; pose proof trace_miss as T; rewrite X in T; [|discriminate T].
    exists s. cbn [option_map snd] in T. injection T as ->. reflexivity.
  - intros E EF. apply (window_logs miss 2); [| |exact EF].
    + apply Forall_forall. vm_compute before. vm_compute length. cbn [seq Nat.sub].
      repeat (constructor; [vm_compute; repeat split|]). constructor.
    + replace (final miss) with [(OpInsert true true 16 1 false, OutIns INS_OK); (OpInsert true true 24 2 false, OutIns INS_OK);
                                 (OpRemove 24, OutRem (Some 2))] by (vm_compute; reflexivity).
      intros n m Hn Hm. cbn [length] in Hn. intros X. cbn [right neighbour] in X. apply (X 16); [|cbn; lia].
      assert (n = 2 \/ n = 3)%nat as [-> | ->] by lia; unfold after in Hm; cbn [firstn map fst snd] in Hm; replay; vm_compute; discriminate.
Qed.
Lemma wrong_never : never_right 37 wrong (Some (24, User 2)).
Proof.
  split; [|split].
  - let l := eval vm_compute in wrong in change wrong with l.
    repeat (apply Forall_cons; [vm_compute; first [exact I | split; [discriminate|reflexivity]]|]). apply Forall_nil.
  - destruct (fexec 37 (start fresh, FStart) wrong) as [[s pc]|] eqn:X; pose proof trace_wrong as T; rewrite X in T; [|discriminate T].
    exists s. cbn [option_map snd] in T. injection T as ->. reflexivity.
  - intros E EF. apply (window_logs wrong 2); [| |exact EF].
    + apply Forall_forall. vm_compute before. vm_compute length. cbn [seq Nat.sub].
      repeat (constructor; [vm_compute; repeat split|]). constructor.
    + replace (final wrong) with ([(OpInsert true true 16 1 false, OutIns INS_OK); (OpInsert true true 39 3 false, OutIns INS_OK);
           (OpInsert true true 36 4 false, OutIns INS_OK); (OpInsert true true 24 2 false, OutIns INS_OK)] : list (op Z * out Z)) by (vm_compute; reflexivity).
      intros n m Hn Hm (X & _ & Y). cbn [length] in Hn.
      assert (n = 2 \/ n = 3 \/ n = 4)%nat as [-> | [-> | ->]] by lia; unfold after in Hm; cbn [firstn map fst snd] in Hm; replay;
        try (vm_compute in X; discriminate X).
      specialize (Y 36). cbn [rel nearer] in Y. assert (36 <= 24) by (apply Y; [vm_compute; discriminate | lia]). lia.
Qed.

(* not found, with 16 in the map at every moment of the call *)
Theorem find_le_misses_refuted : exists k al, is_word k /\ never_right k al None.
Proof. exists 47, miss. split; [split; [discriminate|reflexivity]|exact miss_never]. Qed.
Print Assumptions find_le_misses_refuted.
(* found, but at no moment of the call the nearest key *)
Theorem find_le_linearizable_refuted : exists k al a v, is_word k /\ never_right k al (Some (a, User v)).
Proof. exists 37, wrong, 24, 2. split; [split; [discriminate|reflexivity]|exact wrong_never]. Qed.
Print Assumptions find_le_linearizable_refuted.
