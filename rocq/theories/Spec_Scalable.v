(* What scalable pools promise about the memory of their providers. *)
From Coq Require Import Permutation.
From Verif Require Import Base Model_Jemalloc Model_Scalable.

(* the provider of TBB pool t: that of the block it was created with *)
Definition owner (s : sstate) (t : Z) : Z :=
  match tb s t with
  | Some (d, _) => match blk s d with Some (v, _) => v | None => 0 end
  | None => 0
  end.
(* the raw memory TBB holds, each with the provider of its pool *)
Definition of_pools (s : sstate) : list (Z * range) := map (fun x => (owner s (fst x), snd x)) (raws s).
(* the providers take everything back *)
Definition takes_back (e : sev) : Prop := match e with CbFree _ _ _ ret => ret = SUCCESS | _ => True end.
(* the last granularity accepted, the last choice of keep_all_memory *)
Definition grans (cs : list setter) : list Z := flat_map (fun c => match c with SetGranularity g => if g =? 0 then [] else [g] | _ => [] end) cs.
Definition keeps (cs : list setter) : list bool := flat_map (fun c => match c with SetKeepAllMemory b => [b] | _ => [] end) cs.
(* runs of given steps *)
Fixpoint runs (s : sstate) (es : list sev) : sstate := match es with [] => s | e :: es => runs (fst (sstep s e)) es end.
Fixpoint allowed (ok : sev -> Prop) (s : sstate) (es : list sev) : Prop :=
  match es with [] => True | e :: es => enabled s e /\ ok e /\ allowed ok (fst (sstep s e)) es end.
(* the thread that takes a step *)
Definition thread (e : sev) : Z :=
  match e with
  | BInit th _ _ _ _ _ | RInit th _ | BAlloc th _ _ | RAlloc th _ | BRealloc th _ _ _ _ | RRealloc th _ | BFree th _ _ _ | RFree th _ | BFin th _ | RFin th
  | CbAlloc th _ _ _ | CbFree th _ _ _ => th
  end.
(* thread th does nothing but serve callbacks: it is inside one call *)
Definition callbacks_only (th : Z) (es : list sev) : Prop :=
  forall e, In e es -> thread e = th -> match e with CbAlloc _ _ _ _ | CbFree _ _ _ _ => True | _ => False end.
(* a provider refused memory asked for by thread th *)
Definition refused_to (th : Z) (e : sev) : bool := match e with CbAlloc th' _ _ None => th' =? th | _ => false end.
