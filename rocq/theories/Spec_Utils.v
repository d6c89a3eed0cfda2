(* Independent vocabulary for the rounding and flag statements. *)
From Verif Require Import Base.

Definition power_of_two (a : Z) : Prop := exists n, 0 <= n < 64 /\ a = 2 ^ n.
Definition multiple_of (m a : Z) : Prop := exists q, m = q * a.
(* m is the least multiple of a that is >= v, over all integers *)
Definition least_multiple_above (v a m : Z) : Prop :=
  multiple_of m a /\ v <= m /\ forall m', multiple_of m' a -> v <= m' -> m <= m'.
Definition greatest_multiple_below (v a m : Z) : Prop :=
  multiple_of m a /\ m <= v /\ forall m', multiple_of m' a -> m' <= v -> m' <= m.
(* a byte range [p, p+s) *)
Definition in_range (x p s : Z) : Prop := p <= x < p + s.
(* flag bit k is set in word f *)
Definition flag_set (f k : Z) : Prop := Z.testbit f k = true.
