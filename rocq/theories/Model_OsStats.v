(* Model of the statistics of the OS memory provider under concurrency
   (src/provider/provider_os_memory.c: os_alloc, os_free, the handlers of
   stats.allocated_memory, stats.peak_memory and stats.reset).

   Simplifications that hold for the whole file:
   - Each atomic operation is one step and steps interleave (sequential
     consistency; the code uses acquire/release orders on two variables).
   - Only calls that succeed are shown, from the moment the memory is mapped (or
     unmapped): the others do not touch the statistics. *)
From Verif Require Import Base Model_Utils.

(* where a thread is: outside, before the addition (size), before the load of the
   peak (size, allocated), in the loop (size, allocated, peak), before the
   subtraction (size), before the store of a reset (value loaded) *)
Inductive pc := Idle | PAdd (n : Z) | PLoad (n al : Z) | PLoop (n al pk : Z) | PSub (n : Z) | PStore (v : Z).
(* the two counters, the threads, and the sizes of the allocations the client holds *)
Record stats := Stats { t_alloc : Z; t_peak : Z; t_pc : list pc; t_live : list Z }.
(* what a thread does next: start a call or go on with it *)
Inductive act := BeginAlloc (n : Z) | BeginFree (n : Z) | BeginReset | Go.

Definition set_pc (l : list pc) (i : nat) (p : pc) : list pc := firstn i l ++ p :: skipn (S i) l.
Fixpoint drop (n : Z) (l : list Z) : option (list Z) :=
  match l with
  | [] => None
  | x :: r => if x =? n then Some r else match drop n r with Some r' => Some (x :: r') | None => None end
  end.

(* provider_os_memory.c:1185-1203 (allocation), 1233-1236 (free), 229-251 (reset) *)
Definition tstep (s : stats) (i : nat) (a : act) : option stats :=
  match nth_error (t_pc s) i, a with
  | Some Idle, BeginAlloc n => if (0 <=? n) && (n <? U64) then Some (Stats (t_alloc s) (t_peak s) (set_pc (t_pc s) i (PAdd n)) (t_live s)) else None
  | Some Idle, BeginFree n =>
      match drop n (t_live s) with
      | Some l => Some (Stats (t_alloc s) (t_peak s) (set_pc (t_pc s) i (PSub n)) l)
      | None => None
      end
  | Some Idle, BeginReset => Some (Stats (t_alloc s) (t_peak s) (set_pc (t_pc s) i (PStore (t_alloc s))) (t_live s))
  | Some (PAdd n), Go =>
      let al := wrap (t_alloc s + n) in
      Some (Stats al (t_peak s) (set_pc (t_pc s) i (PLoad n al)) (t_live s))
  | Some (PLoad n al), Go => Some (Stats (t_alloc s) (t_peak s) (set_pc (t_pc s) i (PLoop n al (t_peak s))) (t_live s))
  | Some (PLoop n al pk), Go =>
      if pk <? al then
        if t_peak s =? pk then Some (Stats (t_alloc s) al (set_pc (t_pc s) i Idle) (n :: t_live s))
        else Some (Stats (t_alloc s) (t_peak s) (set_pc (t_pc s) i (PLoop n al (t_peak s))) (t_live s))
      else Some (Stats (t_alloc s) (t_peak s) (set_pc (t_pc s) i Idle) (n :: t_live s))
  | Some (PSub n), Go => Some (Stats (wrap (t_alloc s - n)) (t_peak s) (set_pc (t_pc s) i Idle) (t_live s))
  | Some (PStore v), Go => Some (Stats (t_alloc s) v (set_pc (t_pc s) i Idle) (t_live s))
  | _, _ => None
  end.
Definition t_start (threads : nat) : stats := Stats 0 0 (repeat Idle threads) [].
