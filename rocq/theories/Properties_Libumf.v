(* C36: initialisation and teardown of the library. *)
From Verif Require Import Base Model_Libumf Spec_Libumf Proof_Libumf.

(* Calls one after the other, every umfTearDown belonging to an earlier umfInit: the
   tracker and the IPC cache exist exactly while umfInit calls outnumber umfTearDown
   calls (if they could be created when the period started); no tracker is destroyed
   twice, and every tracker ever created is the current one or destroyed. *)
Theorem libumf_state_partial : forall g d good n, story g d good n ->
  refs g = d /\ (tracker g <> None <-> 0 < d /\ fst good = true) /\ (ipc g = true <-> 0 < d /\ snd good = true) /\
  NoDup (freed g) /\ (forall t, tracker g = Some t -> ~ In t (freed g)) /\
  (forall t, 0 <= t < made g <-> tracker g = Some t \/ In t (freed g)).
Proof. exact story_state. Qed.
Print Assumptions libumf_state_partial.

(* umfInit fails exactly if it is the first of a period and cannot create the tracker
   or the IPC cache.  Partial: fewer than 100 periods before, see
   [libumf_periods_refuted]. *)
Theorem libumf_init_partial : forall g d good n tok iok, story g d good n -> d + 1 < 2 ^ 64 -> (d = 0 -> tok && iok = true -> n < 100) ->
  exists g', call g DoInit tok iok = Some (g', if (d =? 0) && negb (tok && iok) then -1 else 0).
Proof. exact story_init. Qed.
Print Assumptions libumf_init_partial.
Theorem libumf_teardown : forall g d good n tok iok, story g d good n -> 0 < d -> exists g', call g DoTear tok iok = Some (g', 0).
Proof. exact story_tear. Qed.
Print Assumptions libumf_teardown.

(* While one client keeps the library initialised, any threads may initialise and tear
   down at the same time: the tracker stays, every umfInit returns 0, and nobody is
   stuck. *)
Theorem libumf_kept_partial : forall ts g ps hold, NoDup ts -> kept ts g ps hold ->
  tracker g <> None /\ ipc g = true /\ (forall t r, ps t = IRet r -> r = 0) /\ (forall t, exists a g' ps', mstep g ps t a = Some (g', ps')).
Proof. exact kept_safe. Qed.
Print Assumptions libumf_kept_partial.
Theorem libumf_kept_tracker_partial : forall ts g ps hold, NoDup ts -> kept ts g ps hold -> forall t a g' ps', In t ts -> (a = DoTear -> 0 < hold t) ->
  mstep g ps t a = Some (g', ps') -> tracker g' = tracker g /\ made g' = made g /\ freed g' = freed g.
Proof. exact kept_tracker. Qed.
Print Assumptions libumf_kept_tracker_partial.

(* ---- a concrete story: two periods, the first with nested calls, the second with a
   failure, then a third ---- *)
Fixpoint tell (g : global) (d : Z) (good : bool * bool) (n : Z) (cs : list (act * bool * bool)) : option (global * Z * (bool * bool) * Z) :=
  match cs with
  | [] => Some (g, d, good, n)
  | (a, tok, iok) :: cs =>
      match a, call g a tok iok with
      | DoInit, Some (g', _) => if d + 1 <? U64 then tell g' (d + 1) (if d =? 0 then (tok, tok && iok) else good) (if (d =? 0) && tok && iok then n + 1 else n) cs else None
      | DoTear, Some (g', _) => if 0 <? d then tell g' (d - 1) good n cs else None
      | _, _ => None
      end
  end.
Lemma tell_ok : forall cs g d good n g' d' good' n', story g d good n -> tell g d good n cs = Some (g', d', good', n') -> story g' d' good' n'.
Proof.
  induction cs as [|((a & tok) & iok) cs IH]; cbn [tell]; intros g d good n g' d' good' n' S T; [injection T as <- <- <- <-; exact S|].
  destruct a; try discriminate; destruct (call g _ tok iok) as [(g1 & r)|] eqn:C; try discriminate.
  - destruct (d + 1 <? U64) eqn:L; [|discriminate]. apply Z.ltb_lt in L. exact (IH _ _ _ _ _ _ _ _ (s_init _ _ _ _ _ _ _ _ S L C) T).
  - destruct (0 <? d) eqn:L; [|discriminate]. apply Z.ltb_lt in L. exact (IH _ _ _ _ _ _ _ _ (s_tear _ _ _ _ _ _ _ _ S L C) T).
Qed.
Definition calls := [(DoInit, true, true); (DoInit, true, true); (DoTear, true, true); (DoInit, true, true); (DoTear, true, true); (DoTear, true, true);
  (DoInit, true, false); (DoTear, true, true); (DoInit, true, true)].
Example three_periods : story (Global 1 (Some 2) true 2 3 [1; 0]) 1 (true, true) 2.
Proof. apply (tell_ok calls _ _ _ _ _ _ _ _ s_start). vm_compute. reflexivity. Qed.

(* ---- what does not hold ---- *)
(* After a failed umfInit the next one returns 0 although there is no tracker. *)
Theorem libumf_after_failure_refuted : exists g g', call g_start DoInit false true = Some (g, -1) /\ call g DoInit true true = Some (g', 0) /\ tracker g' = None.
Proof. eexists _, _. split; [reflexivity|]. split; reflexivity. Qed.
Print Assumptions libumf_after_failure_refuted.
(* An umfTearDown too many is not harmless: the next umfInit returns 0 and there is no
   tracker. *)
Theorem libumf_extra_teardown_refuted : exists g g', call g_start DoTear true true = Some (g, 0) /\ call g DoInit true true = Some (g', 0) /\ tracker g' = None.
Proof.
  exists (Global 18446744073709551615 None false 0 0 []), (Global 0 None false 0 0 []). split; [vm_compute; reflexivity|]. split; vm_compute; reflexivity.
Qed.
Print Assumptions libumf_extra_teardown_refuted.
(* After 100 periods umfInit writes outside the array of modules. *)
Definition many : list (act * bool * bool) := List.concat (List.repeat [(DoInit, true, true); (DoTear, true, true)] 100).
Definition worn := match tell g_start 0 (false, false) 0 many with Some (g, _, _, _) => g | None => g_start end.
Definition worn_good := match tell g_start 0 (false, false) 0 many with Some (_, _, x, _) => x | None => (false, false) end.
Theorem libumf_periods_refuted : exists g d good n, story g d good n /\ d = 0 /\ call g DoInit true true = None.
Proof.
  exists worn, 0, worn_good, 100. split; [|split; [reflexivity|vm_compute; reflexivity]]. apply (tell_ok many _ _ _ _ _ _ _ _ s_start). vm_compute. reflexivity.
Qed.
Print Assumptions libumf_periods_refuted.

(* playing an execution with threads *)
Fixpoint play (g : global) (ps : Z -> pc) (ms : list (Z * act)) : option (global * (Z -> pc)) :=
  match ms with
  | [] => Some (g, ps)
  | (t, a) :: ms => match mstep g ps t a with Some (g', ps') => play g' ps' ms | None => None end
  end.
Lemma play_ok : forall ms g ps g' ps', exec g ps -> play g ps ms = Some (g', ps') -> exec g' ps'.
Proof.
  induction ms as [|(t & a) ms IH]; cbn [play]; intros g ps g' ps' E P; [injection P as <- <-; exact E|].
  destruct (mstep g ps t a) as [(g1 & p1)|] eqn:M; [|discriminate]. exact (IH _ _ _ _ (e_step _ _ _ _ _ _ E M) P).
Qed.
Definition played (ms : list (Z * act)) : global * (Z -> pc) := match play g_start (fun _ => Rest) ms with Some x => x | None => (g_start, fun _ => Rest) end.
Lemma played_ok : forall ms, exec (fst (played ms)) (snd (played ms)).
Proof. intros ms. unfold played. destruct (play g_start (fun _ => Rest) ms) as [(g & ps)|] eqn:P; [exact (play_ok _ _ _ _ _ e_start P)|exact e_start]. Qed.
(* While thread 1 initialises, the umfInit of thread 2 returns 0: no tracker yet. *)
Theorem libumf_early_return_refuted : exists g ps, exec g ps /\ ps 2 = IRet 0 /\ tracker g = None.
Proof.
  exists (fst (played [(1, DoInit); (2, DoInit)])), (snd (played [(1, DoInit); (2, DoInit)])). split; [apply played_ok|]. split; vm_compute; reflexivity.
Qed.
Print Assumptions libumf_early_return_refuted.
(* Thread 1 tears down what it initialised; thread 2 initialises before the tracker is
   destroyed: the tracker of thread 2 is destroyed, that of thread 1 lost, and thread 2
   has initialised the library (refs = 1) without there being a tracker. *)
Definition overlap : list (Z * act) := [(1, DoInit); (1, Go true); (1, Go true); (1, Go true); (1, Go true); (1, DoTear); (1, Go true); (2, DoInit); (2, Go true); (2, Go true); (2, Go true); (1, Go true); (1, Go true)].
Theorem libumf_overlap_refuted : exists g ps, exec g ps /\ ps 2 = IRet 0 /\ ps 1 = Rest /\ refs g = 1 /\ tracker g = None /\ made g = 2 /\ freed g = [1].
Proof.
  exists (fst (played overlap)), (snd (played overlap)). split; [apply played_ok|]. repeat split; vm_compute; reflexivity.
Qed.
Print Assumptions libumf_overlap_refuted.

(* the hypothesis of [libumf_kept_partial] in a case: thread 1 is in umfInit, thread 2
   holds the library *)
Definition settled := Global 1 (Some 0) true 1 1 [].
Example two_clients : exists g ps hold, kept [1; 2] g ps hold /\ refs g = 3 /\ hold 2 = 1 /\ ps 1 = IRet 0.
Proof.
  assert (K0 : kept [1; 2] settled (fun _ => Rest) (fun _ => 0)) by (apply k_start; try reflexivity; discriminate).
  assert (K1 := k_init [1; 2] _ _ _ 2 _ _ K0 (or_intror (or_introl eq_refl)) ltac:(reflexivity) eq_refl).
  assert (K2 := k_go [1; 2] _ _ _ 2 true _ _ K1 (or_intror (or_introl eq_refl)) eq_refl).
  assert (K3 := k_init [1; 2] _ _ _ 1 _ _ K2 (or_introl eq_refl) ltac:(reflexivity) eq_refl).
  eexists _, _, _. split; [exact K3|]. repeat split.
Qed.
