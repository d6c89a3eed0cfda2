(* What IPC handles of shared OS memory promise: opening one gives the memory it was made
   for. *)
From Verif Require Import Base Model_SharedFile.
Open Scope Z_scope.

(* the kernel gives descriptors that are free in the process *)
Definition valid (k : kern) (s : step) : Prop :=
  match s with
  | Create pid _ fd _ _ => 0 < fd /\ fds k pid fd = None
  | _ => True
  end.

(* histories of any number of processes and providers *)
Inductive history : list step -> kern -> Prop :=
| history_nil : history [] boot
| history_snoc : forall l k s, history l k -> valid k s -> history (l ++ [s]) (exec k s).

(* the step takes the name away from whoever has it *)
Definition takes (n : Z) (s : step) : Prop :=
  match s with
  | Create _ name _ _ _ => name = Some n
  | Open h _ _ => h_name h = Some n
  | Destroy _ => False
  end.

(* the codes of umf_result_t (include/umf/base.h:34-52) *)
Definition result_code (c : Z) : Prop := 0 <= c <= 8 \/ c = 2147483646.
