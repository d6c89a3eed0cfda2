(* Specification of the tag of a pool: a register whose operations happen at one
   moment between call and return. *)
From Verif Require Import Base Model_PoolTag.

(* executions of the code; the events latest first *)
Inductive run : pstate -> list event -> Prop :=
| r_start : run p_start []
| r_call : forall s tr t c, run s tr -> p_pc s t = Idle -> run (at_pc s t (Begin c)) (Call t c :: tr)
| r_step : forall s tr t s' e, run s tr -> advance s t = Some (s', e) -> run s' (match e with Some e => e :: tr | None => tr end).

(* the register: effect of a call on the tag, and its answer *)
Definition answer (c : call) (tag : Z) : Z * (result * option Z) :=
  match c with
  | SetTag false n old => (n, (SUCCESS, if old then Some tag else None))
  | GetTag false true => (tag, (SUCCESS, Some tag))
  | _ => (tag, (ERR_INVALID_ARGUMENT, None))
  end.
Inductive moment := Ev (e : event) | Effect (t : Z).
Inductive phase := Free | Asked (c : call) | Answered (r : result) (v : option Z).
(* a history of the register, latest moment first *)
Inductive atomic : list moment -> Z -> (Z -> phase) -> Prop :=
| at_start : forall ph, (forall t, ph t = Free) -> atomic [] 0 ph
| at_call : forall ms g ph ph' t c, atomic ms g ph -> ph t = Free -> (forall u, ph' u = upd ph t (Asked c) u) -> atomic (Ev (Call t c) :: ms) g ph'
| at_effect : forall ms g ph ph' t c g' r v, atomic ms g ph -> ph t = Asked c -> answer c g = (g', (r, v)) -> (forall u, ph' u = upd ph t (Answered r v) u) -> atomic (Effect t :: ms) g' ph'
| at_return : forall ms g ph ph' t r v, atomic ms g ph -> ph t = Answered r v -> (forall u, ph' u = upd ph t Free u) -> atomic (Ev (Return t r v) :: ms) g ph'.
Definition visible (ms : list moment) : list event := flat_map (fun m => match m with Ev e => [e] | Effect _ => [] end) ms.

(* does the thread read or write the tag next? *)
Definition touches (p : pc) : Prop := match p with Held _ | Copied _ _ => True | _ => False end.
