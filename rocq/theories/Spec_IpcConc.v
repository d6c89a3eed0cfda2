(* What concurrent opening and closing of IPC handles promises, in terms of
   calls and what they return. *)
From Verif Require Import Base Model_IpcConc.

(* a call returned address [a] for the handle [h] of key [k], and nobody has
   begun to close it *)
Definition holds (ps : list pc) (k h a : Z) : Prop := exists e, In (Held k h e a) ps.
(* between returning and the end of the closing call *)
Definition closing (ps : list pc) (k h a : Z) : Prop := exists e, In (CGet k h e a) ps.

(* The producer keeps one handle per memory at a time (property C77), so while
   a handle of [k] is being opened, held or closed, no other handle of [k] is
   opened. *)
Definition one_handle (ps : list pc) (k h : Z) : Prop := forall p, In p ps -> pc_key p = k -> pc_hid p = h.

(* nobody is inside a call *)
Definition quiet (ps : list pc) : Prop := forall p, In p ps -> exists k h e a, p = Held k h e a.

(* upstream close of [a], as one step of the system *)
Definition unmaps (s s' : cstate) (a : Z) : Prop := In a (s_mapped s) /\ ~ In a (s_mapped s').
