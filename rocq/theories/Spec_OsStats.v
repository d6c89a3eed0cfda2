(* Specification of the statistics: executions, quiescence, history of the counter. *)
From Verif Require Import Base Model_OsStats.

Definition quiet (s : stats) : Prop := forall i p, nth_error (t_pc s) i = Some p -> p = Idle.
Definition sum (l : list Z) : Z := fold_right Z.add 0 l.
(* sizes counted: held by the client or in the middle of a call *)
Definition counted (p : pc) : Z := match p with PLoad n _ | PLoop n _ _ | PSub n => n | _ => 0 end.
Definition total (s : stats) : Z := sum (t_live s) + sum (map counted (t_pc s)).
(* is the step the completion of a reset? *)
Definition resets (s : stats) (i : nat) (a : act) : bool := match nth_error (t_pc s) i, a with Some (PStore _), Go => true | _, _ => false end.

(* executions with any number of threads; h: the values of the counter since the last
   completed reset *)
Inductive exec (k : nat) : stats -> list Z -> Prop :=
| ex_start : exec k (t_start k) [0]
| ex_step : forall s h i a s', exec k s h -> tstep s i a = Some s' -> exec k s' (if resets s i a then [t_alloc s'] else t_alloc s' :: h).
(* the same, but every reset runs alone, and the true amount of memory fits 64 bits *)
Definition resetting (s : stats) : Prop := exists i v, nth_error (t_pc s) i = Some (PStore v).
Inductive exec_alone (k : nat) : stats -> list Z -> Prop :=
| ea_start : exec_alone k (t_start k) [0]
| ea_step : forall s h i a s', exec_alone k s h -> tstep s i a = Some s' -> total s' < 2 ^ 64 ->
    (a = BeginReset -> quiet s) -> (resetting s -> resets s i a = true) ->
    exec_alone k s' (if resets s i a then [t_alloc s'] else t_alloc s' :: h).
