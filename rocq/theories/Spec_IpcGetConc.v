(* What concurrent umfGetIPCHandle calls promise. *)
From Verif Require Import Base Model_IpcGetConc.

(* some call returned SUCCESS with data [v] and number [i] for memory at [p],
   which has not been freed since *)
Definition answered (ts : list gpc) (p v i : Z) : Prop := In (GDone p v i) ts.
(* nobody is inside a call *)
Definition settled (ts : list gpc) : Prop := forall t, In t ts -> gdone t = true.
(* upstream take-back of [v], as one step of the system *)
Definition takes_back (s s' : gstate) (v : Z) : Prop := In v (g_up s) /\ (~ In v (g_up s') \/ (In v (g_lost s') /\ ~ In v (g_lost s))).
(* how often a call has been round the loop *)
Definition rounds (t : gpc) : nat :=
  match t with GGet _ n | GSize _ n | GUp _ n | GInc _ n _ | GIns _ n _ _ | GPut _ n _ _ => n | _ => 0%nat end.
