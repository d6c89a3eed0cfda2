(* What the tracker promises to several threads. *)
From Verif Require Import Base Model_TrackerConc.

Definition disjoint (p q : reg) : Prop := r_ptr p + r_size p <= r_ptr q \/ r_ptr q + r_size q <= r_ptr p.

(* The upstream providers return memory overlapping nothing allocated: no pool
   takes its memory from another pool. *)
Definition flat (ts : list tpc) (r : reg) : Prop := 0 < r_size r /\ forall q, In q (flat_map region ts) -> disjoint r q.
(* Pools may also take their memory from another: new memory overlaps nothing
   allocated, or lies inside one allocation held by a caller and overlaps
   nothing else inside it. *)
Definition nested (ts : list tpc) (r : reg) : Prop :=
  0 < r_size r /\ exists parents, (length parents <= 1)%nat /\
  (forall q, In q parents -> (exists c, In (Live q c) ts) /\ r_ptr q <= r_ptr r /\ r_ptr r + r_size r <= r_ptr q + r_size q) /\
  forall q, In q (flat_map region ts) -> In q parents \/ disjoint r q.

(* a record is given back only when no call will still read it *)
Definition unread (ts : list tpc) (c : Z) : Prop := ~ In c (flat_map refers ts).
(* what the code does: at once *)
Definition at_once (ts : list tpc) (c : Z) : Prop := True.

(* The answer of a lookup inside an allocation that its holder keeps meanwhile. *)
Definition right_answer (r : reg) (ans : option (Z * Z * Z)) : Prop := ans = Some (r_ptr r, r_size r, r_pool r).
(* no call is in progress *)
Definition at_rest (ts : list tpc) : Prop := forall t, In t ts -> exists r c, t = Live r c.
