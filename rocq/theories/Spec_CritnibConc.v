(* What concurrent callers of the map expect: the writers' operations take effect one
   after the other, each at one moment between its begin and its end, and a lock-free
   lookup answers with what the map held at one moment of its own call. *)
From Verif Require Import Base Model_Critnib Spec_Map Model_CritnibConc.

Definition start (h : heap) : system := System h [] [] RStart.
Definition is_write (a : action) : bool := match a with RLoad => false | _ => true end.
Definition action_word (a : action) : Prop := match a with WBegin o => op_word o | _ => True end.

(* operations that were given the mutex, and those that have returned *)
Definition begun (s : system) : nat := length (log s).
Definition completed (s : system) : nat := match todo s with [] => length (log s) | _ => pred (length (log s)) end.

(* [m]: the contents after the first [n] operations of the log, carried out one by one *)
Definition after (l : list (op Z * out Z)) (n : nat) (m : amap (V := Z)) : Prop :=
  runs empty (map fst (firstn n l)) (map snd (firstn n l)) m.

(* [E n]: how many operations have taken effect after [n] steps of the writers.  The count
   never falls, covers every operation that has returned, and none that has not begun. *)
Definition effects (h : heap) (wl : list action) (E : nat -> nat) : Prop :=
  forall n, (n <= length wl)%nat ->
  (forall i, (i <= n)%nat -> (E i <= E n)%nat) /\
  exists s, sexec 0 (start h) (firstn n wl) = Some s /\ (completed s <= E n <= begun s)%nat /\
  exists m, after (log s) (E n) m.

(* steps the writers made before the reader's first load *)
Fixpoint before (al : list action) : nat :=
  match al with
  | [] => O
  | RLoad :: _ => O
  | _ :: al => S (before al)
  end.

(* [r] is what the map held under [k] at a moment from [a] to [b] *)
Definition held (h : heap) (wl : list action) (E : nat -> nat) (a b : nat) (k : Z) (r : option word) : Prop :=
  exists i s m, (a <= i <= b)%nat /\ sexec 0 (start h) (firstn i wl) = Some s /\
  after (log s) (E i) m /\ r = option_map User (m k).

(* at some moment from [a] to [b], at every such moment *)
Definition once (h : heap) (wl : list action) (E : nat -> nat) (a b : nat) (Q : amap (V := Z) -> Prop) : Prop :=
  exists i s m, (a <= i <= b)%nat /\ sexec 0 (start h) (firstn i wl) = Some s /\ after (log s) (E i) m /\ Q m.
Definition always (h : heap) (wl : list action) (E : nat -> nat) (a b : nat) (Q : amap (V := Z) -> Prop) : Prop :=
  forall i s m, (a <= i <= b)%nat -> sexec 0 (start h) (firstn i wl) = Some s -> after (log s) (E i) m -> Q m.
(* [a] is the largest key of the map that is not above [k] *)
Definition nearest (k a : Z) (m : amap (V := Z)) : Prop :=
  m a <> None /\ a <= k /\ forall b, m b <> None -> b <= k -> b <= a.
Definition none_below (k : Z) (m : amap (V := Z)) : Prop := forall b, m b <> None -> k < b.
