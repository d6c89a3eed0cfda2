(* Specification of option strings: elements between semicolons. *)
From Verif Require Import Base Model_Ctl Spec_Ctl Model_Parse.

Definition elements (v : str) : list str := split ";" v.
Definition contains (e o : str) : Prop := exists a b, e = a ++ o ++ b.
(* an option, with an argument *)
Definition listed (v o : str) : Prop := In o (elements v).
Definition given (v o a : str) : Prop := In (o ++ ","%char :: a) (elements v).
Definition plain (o : str) : Prop := o <> [] /\ ~ In ";"%char o.
(* the first listed of a list of choices *)
Fixpoint choose (v : str) (l : list (string * level)) (d : level) (r : level) : Prop :=
  match l with [] => r = d | (k, x) :: l => (listed v (s_ k) /\ r = x) \/ (~ listed v (s_ k) /\ choose v l d r) end.
(* the words that the logger knows *)
Definition words_known : list str := map s_ ["output:stdout"; "output:stderr"; "timestamp:yes"; "timestamp:no"; "pid:yes"; "pid:no"; "level:debug"; "level:info"; "level:warning"; "level:error"; "level:fatal"; "flush:debug"; "flush:info"; "flush:warning"; "flush:error"; "flush:fatal"]%string.
(* no element hides a word that the logger knows *)
Definition clean (v : str) : Prop := forall e o, In e (elements v) -> In o words_known -> contains e o -> e = o.
(* the levels, in the order in which they are looked for *)
Definition levels (key : string) : list (string * level) := map (fun p => ((key ++ fst p)%string, snd p)) [("debug"%string, Debug); ("info"%string, Info); ("warning"%string, Warning); ("error"%string, Error); ("fatal"%string, Fatal)].
(* where the log goes *)
Definition goes_to (opens : str -> bool) (v : str) (o : option output) : Prop :=
  (listed v (s_ "output:stdout") /\ o = Some Stdout) \/
  (~ listed v (s_ "output:stdout") /\ listed v (s_ "output:stderr") /\ o = Some Stderr) \/
  (~ listed v (s_ "output:stdout") /\ ~ listed v (s_ "output:stderr") /\
   ((exists pre path post, elements v = pre ++ (s_ "output:file," ++ path) :: post /\ (forall x, In x pre -> ~ contains x (s_ "output:file")) /\ (List.length path <= 256)%nat /\ opens path = true /\ o = Some (File path)) \/
    (o = None /\ forall pre path post, elements v = pre ++ (s_ "output:file," ++ path) :: post -> (forall x, In x pre -> ~ contains x (s_ "output:file")) -> (256 < List.length path)%nat \/ opens path = false))).
