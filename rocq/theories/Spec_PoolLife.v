(* Creating and destroying a pool costs nothing in the end. *)
From Coq Require Import Permutation.
From Verif Require Import Base Model_PoolLife.

(* the library holds exactly [l], and nothing went wrong *)
Definition holds (h : heap) (l : list Z) : Prop := h_bad h = false /\ Permutation (h_live h) l.
(* with the provider the pool is to own, if any *)
Definition with_own (own : option Z) (l : list Z) : list Z := match own with Some u => u :: l | None => l end.
(* the answer to request number [i] (from 0) *)
Definition granted (h : heap) (i : nat) : Prop := nth i (h_ok h) true = true.
