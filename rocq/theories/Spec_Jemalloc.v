(* What jemalloc pools promise about the memory of their providers. *)
From Coq Require Import Permutation.
From Verif Require Import Base Model_Jemalloc.

(* the extents of the arenas of live pools, each with the provider of its pool *)
Definition of_pools (pv : Z -> Z) (s : jstate) : list (Z * range) :=
  flat_map (fun pi => map (fun r => (pv (fst pi), r)) (mine (snd pi) (exts s))) (live s).
(* an arena index is not used again before its entry of the table was reset *)
Definition calm (s : jstate) (e : jev) : Prop := match e with ArenaCreate _ i => ~ In i (clearing s) | _ => True end.
(* the provider takes everything back *)
Definition takes_back (e : jev) : Prop :=
  match e with
  | ArenaDestroy _ _ oks => Forall (eq true) oks
  | Hook _ _ (Alloc _ _ _ freed) => freed = true
  | Hook _ _ (Destroy _ ok) => ok = true
  | _ => True
  end.
