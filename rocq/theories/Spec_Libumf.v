(* Specification of the initialisation of the library. *)
From Verif Require Import Base Model_Libumf.

(* Histories of calls one after the other: every umfTearDown belongs to an earlier
   umfInit.  depth: umfInit calls without their umfTearDown; good: whether tracker and
   IPC cache could be created at the start of the period (of the calls with depth > 0);
   periods: number of periods that started well. *)
Inductive story : global -> Z -> bool * bool -> Z -> Prop :=
| s_start : story g_start 0 (false, false) 0
| s_init : forall g d good n tok iok g' r, story g d good n -> d + 1 < 2 ^ 64 -> call g DoInit tok iok = Some (g', r) ->
    story g' (d + 1) (if d =? 0 then (tok, tok && iok) else good) (if (d =? 0) && tok && iok then n + 1 else n)
| s_tear : forall g d good n tok iok g' r, story g d good n -> 0 < d -> call g DoTear tok iok = Some (g', r) -> story g' (d - 1) good n.

(* Concurrent callers while somebody keeps the library initialised: hold t is the
   number of umfInit calls of thread t that returned and were not yet torn down *)
Definition one (f : Z -> Z) (t : Z) (n : Z) : Z -> Z := fun u => if u =? t then n else f u.
Inductive kept (threads : list Z) : global -> (Z -> pc) -> (Z -> Z) -> Prop :=
| k_start : forall g ps hold, refs g = 1 -> tracker g <> None -> ipc g = true -> (forall t, ps t = Rest) -> (forall t, hold t = 0) -> kept threads g ps hold
| k_init : forall g ps hold t g' ps', kept threads g ps hold -> In t threads -> refs g + 1 < 2 ^ 64 -> mstep g ps t DoInit = Some (g', ps') -> kept threads g' ps' hold
| k_tear : forall g ps hold t g' ps', kept threads g ps hold -> In t threads -> 0 < hold t -> mstep g ps t DoTear = Some (g', ps') -> kept threads g' ps' (one hold t (hold t - 1))
| k_go : forall g ps hold t ok g' ps', kept threads g ps hold -> In t threads -> mstep g ps t (Go ok) = Some (g', ps') ->
    kept threads g' ps' (match ps t with IRet 0 => one hold t (hold t + 1) | _ => hold end).
(* any executions *)
Inductive exec : global -> (Z -> pc) -> Prop :=
| e_start : exec g_start (fun _ => Rest)
| e_step : forall g ps t a g' ps', exec g ps -> mstep g ps t a = Some (g', ps') -> exec g' ps'.
