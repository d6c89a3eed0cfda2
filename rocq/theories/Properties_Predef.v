(* C86, C87: the predefined memory spaces and the description of the machine. *)
From Verif Require Import Base Model_Memspace Spec_Memspace Proof_Memspace Proof_MemspaceApi Model_Predef Spec_Predef Proof_Predef Proof_PredefLife Proof_PredefBest.

(* ---- C86: their life over any number of initialisations and tear-downs ---- *)
(* No history crashes in which the description is asked for before each tear-down. *)
Theorem C86_safe_partial : forall M attr srt os, words attr -> sorts srt -> M <> [] -> uses 0 false false os -> exists w, run M attr srt start os = Some w.
Proof. intros M attr srt os W S NM U. exact (uses_safe M attr srt W S os 0 false false start NM (inv_start M attr) eq_refl ltac:(discriminate) ltac:(reflexivity) U). Qed.
Print Assumptions C86_safe_partial.
(* The last tear-down leaves nothing. *)
Theorem C86_clean : forall M attr srt os w w', words attr -> sorts srt -> run M attr srt start os = Some w -> depth os = 1 -> step M attr srt w Tear = Some w' -> clean w'.
Proof. intros M attr srt os w w' W S. exact (run_clean M attr srt W S os w w'). Qed.
Print Assumptions C86_clean.
(* Asking never crashes; what is returned is there, and shares no target with others. *)
Theorem C86_live : forall M attr srt os w k ok, words attr -> sorts srt -> run M attr srt start os = Some w -> exists o w', get M attr srt k ok w = Some (o, w') /\ tidy (exist w') (wm w') /\ (forall s, o = Some s -> In s (exist w')).
Proof. intros M attr srt os w k ok W S E. destruct (run_get M attr srt W S os w k ok E) as (o & w' & E1 & T & H). exists o, w'. split; [exact E1|]. split; [exact T|]. intros s P. exact (proj1 (H s P)). Qed.
Print Assumptions C86_live.
(* Until the library is torn down the answer stays the same, and so do its targets. *)
Theorem C86_same : forall M attr srt before w k ok o w1 os w2 ok' o' w3, words attr -> sorts srt -> run M attr srt start before = Some w -> 0 <= depth before < U64 -> get M attr srt k ok w = Some (o, w1) -> within (depth before) os -> run M attr srt w1 os = Some w2 -> get M attr srt k ok' w2 = Some (o', w3) ->
  o' = o /\ forall s ts, o = Some s -> members (wm w1) s ts -> members (wm w3) s ts.
Proof. intros M attr srt before w k ok o w1 os w2 ok' o' w3 W S. exact (run_same M attr srt W S before w k ok o w1 os w2 ok' o' w3). Qed.
Print Assumptions C86_same.
(* If hwloc never fails, the spaces of all nodes and of the highest capacity are there
   after any history; and so is that of the highest bandwidth. *)
Theorem C86_available_partial : forall M attr srt os w k, words attr -> sorts srt -> M <> [] -> loads os -> run M attr srt start os = Some w -> k = All \/ k = Cap \/ (k = Bw /\ in_order M /\ known M attr false) -> exists s w', get M attr srt k true w = Some (Some s, w').
Proof. intros M attr srt os w k W S NM L E K. apply (run_available M attr srt W S os w k NM L E). destruct K as [K|[K|(K & O & KN)]]; [auto|auto|right; right; split; [exact K|exact (answered_known M attr O false KN)]]. Qed.
Print Assumptions C86_available_partial.

Definition one : list hw := [HW 0 10 [0]].
Definition five (lat : bool) (c : list Z) (n : hw) : result * Z := (SUCCESS, 5).
Lemma five_words : words five.
Proof. intros lat c n. cbn. unfold U64. lia. Qed.
Lemma one_known : forall lat, known one five lat.
Proof. intros lat a b _ _ _. reflexivity. Qed.
Lemma one_order : in_order one.
Proof. intros [|[|i]] n E; cbn in E; [injection E as <-; reflexivity|discriminate|discriminate]. Qed.
Definition two_periods : list op := [Init; Get Bw true; Init; Ask true; Tear; Tear; Init; Get All true; Get Bw true; Get Cap true].
Example two_uses : uses 0 false false (two_periods ++ [Tear]).
Proof. cbn. unfold U64. intuition lia. Qed.
Example two_ends : exists w w', run one five isort start two_periods = Some w /\ depth two_periods = 1 /\ List.length (exist w) = 3%nat /\ t_all w = [1] /\ step one five isort w Tear = Some w' /\ clean w'.
Proof.
  assert (R : exists w w', run one five isort start two_periods = Some w /\ List.length (exist w) = 3%nat /\ t_all w = [1] /\ step one five isort w Tear = Some w') by (eexists _, _; split; [vm_compute; reflexivity|]; split; [vm_compute; reflexivity|]; split; vm_compute; reflexivity).
  destruct R as (w & w' & R1 & R2 & R3 & R4). exists w, w'. split; [exact R1|]. split; [reflexivity|]. split; [exact R2|]. split; [exact R3|]. split; [exact R4|]. exact (C86_clean one five isort two_periods w w' five_words isort_sorts R1 eq_refl R4).
Qed.

(* The pointer to the description is kept when it is destroyed: tearing down twice, with
   nothing asked for in between, destroys it twice. *)
Theorem C86_twice_refuted : ~ (forall M attr srt os, words attr -> sorts srt -> M <> [] -> loads os -> proper 0 os -> run M attr srt start os <> None).
Proof.
  intros H. apply (H one five isort [Init; Get All true; Tear; Init; Tear] five_words isort_sorts); [discriminate| |cbn; unfold U64; lia|vm_compute; reflexivity].
  intros o I. cbn in I. intuition (subst; cbn; auto).
Qed.
Print Assumptions C86_twice_refuted.
(* So does asking for the space of the lowest latency in each period. *)
Theorem C86_asked_refuted : ~ (forall M attr srt n, words attr -> sorts srt -> M <> [] -> in_order M -> known M attr true -> run M attr srt start (List.concat (List.repeat [Init; Get Lat true; Tear] n)) <> None).
Proof. intros H. apply (H one five isort 2%nat five_words isort_sorts); [discriminate|exact one_order|exact (one_known true)|vm_compute; reflexivity]. Qed.
Print Assumptions C86_asked_refuted.
(* That space is there in the first period only. *)
Theorem C86_latency_refuted : ~ (forall M attr srt os w, words attr -> sorts srt -> M <> [] -> in_order M -> known M attr true -> loads os -> uses 0 false false os -> run M attr srt start os = Some w -> exists s w', get M attr srt Lat true w = Some (Some s, w')).
Proof.
  intros H. assert (R : exists w, run one five isort start [Init; Ask true; Get Lat true; Tear; Init] = Some w /\ match get one five isort Lat true w with Some (Some _, _) => False | _ => True end) by (eexists; split; vm_compute; [reflexivity|exact I]). destruct R as (w & E & N).
  destruct (H one five isort [Init; Ask true; Get Lat true; Tear; Init] w five_words isort_sorts ltac:(discriminate) one_order (one_known true) ltac:(intros o I; cbn in I; intuition (subst; cbn; auto)) ltac:(cbn; unfold U64; intuition lia) E) as (s & w' & G). rewrite G in N. exact N.
Qed.
Print Assumptions C86_latency_refuted.
Example latency_first : exists w s w', run one five isort start [Init] = Some w /\ get one five isort Lat true w = Some (Some s, w').
Proof. eexists _, _, _. split; vm_compute; reflexivity. Qed.
(* If hwloc fails once, the spaces are not there in any later period either. *)
Theorem C86_sticky_refuted : ~ (forall M attr srt os w, words attr -> sorts srt -> M <> [] -> uses 0 false false (os ++ [Init]) -> depth os = 0 -> run M attr srt start (os ++ [Init]) = Some w -> exists s w', get M attr srt All true w = Some (Some s, w')).
Proof.
  intros H. assert (R : exists w, run one five isort start ([Init; Get All false; Tear] ++ [Init]) = Some w /\ match get one five isort All true w with Some (Some _, _) => False | _ => True end) by (eexists; split; vm_compute; [reflexivity|exact I]). destruct R as (w & E & N).
  destruct (H one five isort [Init; Get All false; Tear] w five_words isort_sorts ltac:(discriminate) ltac:(cbn; unfold U64; intuition lia) eq_refl E) as (s & w' & G). rewrite G in N. exact N.
Qed.
Print Assumptions C86_sticky_refuted.

(* ---- C87: what they contain ---- *)
(* all nodes, in logical order *)
Theorem C87_all : forall M attr srt os w ok s w', words attr -> sorts srt -> run M attr srt start os = Some w -> get M attr srt All ok w = Some (Some s, w') -> members (wm w') s (map stands M).
Proof. intros M attr srt os w ok s w' W S E G. destruct (run_get M attr srt W S os w All ok E) as (o & w1 & E1 & _ & H). rewrite G in E1. injection E1 as <- <-. exact (all_members M attr _ _ (proj2 (H s eq_refl))). Qed.
Print Assumptions C87_all.
(* all nodes, those with more memory first *)
Theorem C87_capacity : forall M attr srt os w ok s w', words attr -> sorts srt -> NoDup (map os_index M) -> run M attr srt start os = Some w -> get M attr srt Cap ok w = Some (Some s, w') ->
  exists ns, Permutation M ns /\ members (wm w') s (map stands ns) /\ forall i j a b, (i < j)%nat -> nth_error ns i = Some a -> nth_error ns j = Some b -> memory b <= memory a.
Proof. intros M attr srt os w ok s w' W S N E G. destruct (run_get M attr srt W S os w Cap ok E) as (o & w1 & E1 & _ & H). rewrite G in E1. injection E1 as <- <-. exact (cap_members M attr N _ _ (proj2 (H s eq_refl))). Qed.
Print Assumptions C87_capacity.
(* the best node for each node, if the system's numbers are the logical ones *)
Theorem C87_bandwidth_partial : forall M attr srt os w ok s w', words attr -> sorts srt -> in_order M -> run M attr srt start os = Some w -> get M attr srt Bw ok w = Some (Some s, w') -> exists ts, members (wm w') s ts /\ best_nodes M attr false ts.
Proof. intros M attr srt os w ok s w' W S O E G. destruct (run_get M attr srt W S os w Bw ok E) as (o & w1 & E1 & _ & H). rewrite G in E1. injection E1 as <- <-. exact (picks_best M attr O false _ _ (proj2 (H s eq_refl))). Qed.
Print Assumptions C87_bandwidth_partial.
Theorem C87_latency_partial : forall M attr srt os w ok s w', words attr -> sorts srt -> in_order M -> run M attr srt start os = Some w -> get M attr srt Lat ok w = Some (Some s, w') -> exists ts, members (wm w') s ts /\ best_nodes M attr true ts.
Proof. intros M attr srt os w ok s w' W S O E G. destruct (run_get M attr srt W S os w Lat ok E) as (o & w1 & E1 & _ & H). rewrite G in E1. injection E1 as <- <-. exact (picks_best M attr O true _ _ (proj2 (H s eq_refl))). Qed.
Print Assumptions C87_latency_partial.

(* two nodes used by the same CPUs, the one numbered 1 much faster but smaller *)
Definition fast (lat : bool) (c : list Z) (n : hw) : result * Z := (SUCCESS, if os_index n =? 1 then (if lat then 2 else 9) else (if lat then 7 else 4)).
Lemma fast_words : words fast.
Proof. intros lat c n. unfold fast. cbn [snd]. unfold U64. destruct (os_index n =? 1), lat; lia. Qed.
Definition straight : list hw := [HW 0 20 [0; 1]; HW 1 10 [0; 1]].
Definition crossed : list hw := [HW 1 10 [0; 1]; HW 0 20 [0; 1]].
Definition gap : list hw := [HW 0 20 [0; 1]; HW 2 10 [0; 1]].
Lemma straight_order : in_order straight.
Proof. intros [|[|[|i]]] n E; cbn in E; [injection E as <-; reflexivity|injection E as <-; reflexivity|discriminate|discriminate]. Qed.
Example straight_best : exists w s w' s2 w2, run straight fast isort start [Init] = Some w /\ get straight fast isort Bw true w = Some (Some s, w') /\ members (wm w') s [(0, 1)] /\ get straight fast isort Cap true w' = Some (Some s2, w2) /\ members (wm w2) s2 [(0, 0); (0, 1)].
Proof. eexists _, _, _, _, _. split; [vm_compute; reflexivity|]. split; [vm_compute; reflexivity|]. split; [vm_compute; reflexivity|]. split; vm_compute; reflexivity. Qed.
Lemma says_val : forall attr lat a b v, says attr lat a b v -> share a b -> attr lat (cpus a) b = (SUCCESS, v).
Proof. intros attr lat a b v S H. destruct S as [v _ E|N]; [exact E|contradiction]. Qed.
(* The number of a node is taken for its place: with other numbers the wrong node wins. *)
Theorem C87_bandwidth_refuted : ~ (forall M attr srt os w ok s w', words attr -> sorts srt -> NoDup (map os_index M) -> run M attr srt start os = Some w -> get M attr srt Bw ok w = Some (Some s, w') -> exists ts, members (wm w') s ts /\ best_nodes M attr false ts).
Proof.
  intros H. assert (R : exists w s w', run crossed fast isort start [Init] = Some w /\ get crossed fast isort Bw true w = Some (Some s, w') /\ members (wm w') s [(0, 0)]) by (eexists _, _, _; split; [vm_compute; reflexivity|]; split; vm_compute; reflexivity). destruct R as (w & s & w' & E & G & ME).
  destruct (H crossed fast isort [Init] w true s w' fast_words isort_sorts) as (ts & ME2 & _ & B & _); [cbn; repeat constructor; cbn; intuition discriminate|exact E|exact G|]. rewrite (members_one _ _ _ _ ME2 ME) in B.
  destruct (B (HW 1 10 [0; 1]) ltac:(left; reflexivity)) as (b & (Ib & v & SV & BE) & IT). destruct Ib as [<-|[<-|[]]]; [cbn in IT; intuition discriminate|].
  destruct (BE (HW 1 10 [0; 1]) ltac:(left; reflexivity)) as (u & SU & NB). unfold better in NB.
  assert (SH : forall x y, In x crossed -> In y crossed -> share x y) by (intros x y [<-|[<-|[]]] [<-|[<-|[]]]; exists 0; cbn; auto).
  apply says_val in SV; [|apply SH; cbn; auto]. apply says_val in SU; [|apply SH; cbn; auto]. vm_compute in SV, SU. injection SV as <-. injection SU as <-. lia.
Qed.
Print Assumptions C87_bandwidth_refuted.
(* With a gap in the numbers there is no such space, although hwloc knows every value. *)
Theorem C87_gap_refuted : ~ (forall M attr srt os w, words attr -> sorts srt -> M <> [] -> NoDup (map os_index M) -> known M attr false -> loads os -> run M attr srt start os = Some w -> exists s w', get M attr srt Bw true w = Some (Some s, w')).
Proof.
  intros H. assert (R : exists w, run gap fast isort start [Init] = Some w /\ match get gap fast isort Bw true w with Some (Some _, _) => False | _ => True end) by (eexists; split; vm_compute; [reflexivity|exact I]). destruct R as (w & E & N).
  destruct (H gap fast isort [Init] w fast_words isort_sorts ltac:(discriminate)) as (s & w' & G); [cbn; repeat constructor; cbn; intuition discriminate|intros a b _ _ _; reflexivity|intros o [<-|[]]; exact I|exact E|]. rewrite G in N. exact N.
Qed.
Print Assumptions C87_gap_refuted.
