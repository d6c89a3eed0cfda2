(* Specification of a log line. *)
From Verif Require Import Base Model_Ctl Model_Parse Model_LogLine.

(* a C string has no NUL inside *)
Definition cstring (s : str) : Prop := ~ In NUL s.
(* what is to be said *)
Definition message (func msg : str) (err : option (str * bool)) : str := func ++ s_ ": " ++ msg ++ match err with Some (e, _) => s_ ": " ++ e | None => [] end.
Definition cut_error (err : option (str * bool)) : bool := match err with Some (_, b) => b | None => false end.
(* who is heard *)
Definition heard (c : config) (l : level) : Prop := (out c <> None \/ l = Fatal) /\ rank (lvl c) <= rank l.
(* the text shown: everything, or a beginning with a mark *)
Definition shows (full : str) (cut : bool) (t post : str) : Prop :=
  (len full < LOG_MAX /\ t = full /\ post = if cut then truncated else []) \/
  (LOG_MAX <= len full /\ post = truncated /\ exists r, full = t ++ r /\ LOG_MAX - 3 < len t < LOG_MAX).
