(* Theorems about the statistics of the OS memory provider under concurrency. *)
From Verif Require Import Base Model_Utils Model_OsStats Spec_OsStats Proof_OsStats.

(* C31, the counter.  In every interleaving of any number of threads, with resets
   anywhere: when no call is running the counter is the sum of the sizes of the live
   allocations (modulo 2^64). *)
Theorem stats_counter_exact : forall k s h, exec k s h -> quiet s -> t_alloc s = sum (t_live s) mod 2 ^ 64.
Proof. exact quiet_exact. Qed.
Print Assumptions stats_counter_exact.

(* C31, the peak, where resets do not overlap other calls: the peak is at every moment a value the counter had since the last reset, and when no call is
   running it is at least each of these values. *)
Theorem stats_peak_exact : forall k s h, exec_alone k s h ->
  In (t_peak s) h /\ (quiet s -> (forall v, In v h -> v <= t_peak s) /\ t_alloc s = sum (t_live s)).
Proof. exact quiet_peak. Qed.
Print Assumptions stats_peak_exact.

(* boolean executions *)
Definition go (st : option (stats * list Z)) (x : nat * act) : option (stats * list Z) :=
  match st with
  | None => None
  | Some (s, h) =>
      match tstep s (fst x) (snd x) with
      | Some s' => Some (s', if resets s (fst x) (snd x) then [t_alloc s'] else t_alloc s' :: h)
      | None => None
      end
  end.
Definition play (k : nat) (l : list (nat * act)) : option (stats * list Z) := fold_left go l (Some (t_start k, [0])).
Lemma play_exec : forall k l s h, play k l = Some (s, h) -> exec k s h.
Proof.
  intros k l. induction l as [|x l IH] using rev_ind; intros s h H.
  - injection H as <- <-. constructor.
  - unfold play in *. rewrite fold_left_app in H. cbn [fold_left] in H. destruct (fold_left go l (Some (t_start k, [0]))) as [[s0 h0]|]; [|discriminate].
    cbn [go] in H. destruct (tstep s0 (fst x) (snd x)) as [s'|] eqn:E; [|discriminate]. injection H as <- <-. econstructor; [apply IH; reflexivity|exact E].
Qed.

(* C64 is false: a reset may overlap an allocation.  In this run thread 0 loads the counter for a
   reset, thread 1 allocates 100 bytes and raises the peak, thread 0 stores the old
   value.  Nothing runs any more, 100 bytes are live, and the peak is 0. *)
Definition race : list (nat * act) := [(0, BeginReset); (1, BeginAlloc 100); (1, Go); (1, Go); (1, Go); (0, Go)]%nat.
Theorem stats_reset_race_refuted : ~ forall k s h, exec k s h -> quiet s -> t_alloc s <= t_peak s.
Proof.
  intros C. assert (E : play 2 race = Some (Stats 100 0 [Idle; Idle] [100], [100])) by reflexivity.
  specialize (C _ _ _ (play_exec _ _ _ _ E)). cbn [t_alloc t_peak] in C. assert (X : 100 <= 0); [|lia]. apply C.
  intros i p H. cbn [t_pc] in H. destruct i as [|[|i]]; cbn in H; [now injection H as <-|now injection H as <-|destruct i; discriminate].
Qed.
Print Assumptions stats_reset_race_refuted.

(* Non-vacuity: two threads allocate at the same time; the peak is loaded by both
   before either raises it, and the one with the smaller value retries. *)
Definition contended : list (nat * act) :=
  [(0, BeginAlloc 100); (1, BeginAlloc 50); (0, Go); (1, Go); (0, Go); (1, Go); (1, Go); (0, Go); (0, Go); (0, BeginFree 100); (0, Go)]%nat.
Example contended_runs : play 2 contended = Some (Stats 50 150 [Idle; Idle] [50], [50; 150; 150; 150; 150; 150; 150; 150; 100; 0; 0; 0]).
Proof. reflexivity. Qed.
(* the same under the restriction of the second theorem *)
Definition idle (p : pc) : bool := match p with Idle => true | _ => false end.
Definition storing (p : pc) : bool := match p with PStore _ => true | _ => false end.
Definition go_alone (st : option (stats * list Z)) (x : nat * act) : option (stats * list Z) :=
  match st with
  | None => None
  | Some (s, h) =>
      match tstep s (fst x) (snd x) with
      | Some s' =>
          if (total s' <? 2 ^ 64) && (match snd x with BeginReset => forallb idle (t_pc s) | _ => true end) && (negb (existsb storing (t_pc s)) || resets s (fst x) (snd x))
          then Some (s', if resets s (fst x) (snd x) then [t_alloc s'] else t_alloc s' :: h) else None
      | None => None
      end
  end.
Definition play_alone (k : nat) (l : list (nat * act)) : option (stats * list Z) := fold_left go_alone l (Some (t_start k, [0])).
Lemma play_alone_exec : forall k l s h, play_alone k l = Some (s, h) -> exec_alone k s h.
Proof.
  intros k l. induction l as [|x l IH] using rev_ind; intros s h H.
  - injection H as <- <-. constructor.
  - unfold play_alone in *. rewrite fold_left_app in H. cbn [fold_left] in H. destruct (fold_left go_alone l (Some (t_start k, [0]))) as [[s0 h0]|]; [|discriminate].
    cbn [go_alone] in H. destruct (tstep s0 (fst x) (snd x)) as [s'|] eqn:E; [|discriminate].
    destruct ((total s' <? 2 ^ 64) && _ && _) eqn:B; [|discriminate]. injection H as <- <-.
    apply andb_true_iff in B. destruct B as [B B3]. apply andb_true_iff in B. destruct B as [B1 B2].
    econstructor; [apply IH; reflexivity|exact E|now apply Z.ltb_lt| |].
    + intros R. rewrite R in B2. intros i p I. rewrite forallb_forall in B2. apply nth_error_In in I. specialize (B2 _ I). destruct p; try discriminate. reflexivity.
    + intros (i & v & I). apply orb_true_iff in B3. destruct B3 as [B3|B3]; [|exact B3]. apply negb_true_iff in B3.
      assert (X : existsb storing (t_pc s0) = true) by (apply existsb_exists; exists (PStore v); split; [eapply nth_error_In, I|reflexivity]). congruence.
Qed.
Example contended_alone : exists s h, exec_alone 2 s h /\ quiet s /\ t_peak s = 150 /\ t_live s = [50] /\ t_alloc s = 50.
Proof.
  assert (E : play_alone 2 contended = Some (Stats 50 150 [Idle; Idle] [50], [50; 150; 150; 150; 150; 150; 150; 150; 100; 0; 0; 0])) by reflexivity.
  apply play_alone_exec in E. eexists _, _. split; [exact E|]. split; [|split; [reflexivity|split; reflexivity]].
  intros i p H. cbn [t_pc] in H. destruct i as [|[|i]]; cbn in H; [now injection H as <-|now injection H as <-|destruct i; discriminate].
Qed.
(* a reset between calls lowers the peak *)
Example reset_alone : exists s h, exec_alone 2 s h /\ t_peak s = 50 /\ h = [50].
Proof.
  assert (E : play_alone 2 (contended ++ [(1, BeginReset); (1, Go)]%nat) = Some (Stats 50 50 [Idle; Idle] [50], [50])) by reflexivity.
  apply play_alone_exec in E. eexists _, _. split; [exact E|]. split; reflexivity.
Qed.
