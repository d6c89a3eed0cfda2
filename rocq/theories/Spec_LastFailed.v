(* What umfGetLastFailedMemoryProvider promises (memory_provider.h:224-233), in terms of
   what the providers returned. *)
From Verif Require Import Base Model_LastFailed.
Open Scope Z_scope.

(* a return of a provider: its handle, the user's provider it stands for, its result *)
Definition ret := (Z * Z * result)%type.

Definition pool_returns (p : pool) (c : list result * result) : list ret :=
  if tracked p
  then map (fun r => (provider p, provider p, r)) (fst c) ++ [(wrapper p, provider p, snd c)]
  else [(provider p, provider p, snd c)].

(* the returns a thread saw in a step, in order *)
Definition returns (t : Z) (s : step) : list ret :=
  match s with
  | NewProvider _ | DropProvider _ => []
  | Direct t' h r => if t' =? t then [(h, h, r)] else []
  | NewPool t' p cs _ | PoolCall t' p cs | DropPool t' p _ cs =>
      if t' =? t then flat_map (pool_returns p) cs else []
  end.

Definition failures (l : list ret) : list ret :=
  filter (fun x => negb (result_eqb (snd x) SUCCESS)) l.

(* the handle of the last failure, NULL if there is none *)
Definition last_failure (l : list ret) : Z :=
  match rev (failures l) with [] => 0 | (h, _, _) :: _ => h end.

(* A correct client: it uses live providers and pools, it destroys each once, and no
   provider before the pools on it; new handles are at free addresses. *)
Definition unused (w : world) (h : Z) : Prop :=
  forall a, alive w a <> Some (Tracking h).

Definition pool_live (w : world) (p : pool) : Prop :=
  alive w (provider p) = Some Plain /\
  (tracked p = true -> alive w (wrapper p) = Some (Tracking (provider p))).

Definition allowed (w : world) (s : step) : Prop :=
  match s with
  | NewProvider h => h <> 0 /\ alive w h = None
  | DropProvider h => alive w h = Some Plain /\ unused w h
  | Direct _ h _ => alive w h = Some Plain
  | NewPool _ p _ _ =>
      alive w (provider p) = Some Plain /\
      (tracked p = true -> wrapper p <> 0 /\ alive w (wrapper p) = None)
  | PoolCall _ p _ => pool_live w p
  | DropPool _ p own _ =>
      pool_live w p /\
      (own = true -> forall a, alive w a = Some (Tracking (provider p)) ->
         tracked p = true /\ a = wrapper p)
  end.

(* the worlds correct clients reach; a freed handle is never used by the library *)
Inductive reach : list step -> world -> Prop :=
| reach_nil : reach [] empty
| reach_snoc : forall l w s w', reach l w -> allowed w s -> exec w s = Some w' ->
    reach (l ++ [s]) w'.

(* the step frees the handle *)
Definition frees (s : step) (h : Z) : Prop :=
  match s with
  | DropProvider h' => h = h'
  | NewPool _ p _ ok => ok = false /\ tracked p = true /\ h = wrapper p
  | DropPool _ p own _ =>
      (tracked p = true /\ h = wrapper p) \/ (own = true /\ h = provider p)
  | _ => False
  end.
