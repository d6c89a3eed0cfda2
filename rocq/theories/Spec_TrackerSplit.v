(* What the tracker promises to several threads that split and merge. *)
From Verif Require Import Base Model_TrackerConc Model_TrackerSplit.

(* a record is given back only when no other call will still read it *)
Definition sunread (ts : list spc) (c : Z) : Prop := ~ In c (flat_map srefers ts).
(* what the code does: at once *)
Definition sat_once (ts : list spc) (c : Z) : Prop := True.

(* The answer of a lookup of [a] in memory of pool [p]: an allocation of that
   pool which contains [a] and is among those in [seen]. *)
Definition good_answer (seen : list reg) (p a : Z) (ans : option (Z * Z * Z)) : Prop :=
  exists k n, ans = Some (k, n, p) /\ k <= a < k + n /\ In (Reg k n p) seen.

(* calls that have returned *)
Definition returned (t : spc) : bool :=
  match t with SDone _ _ | MDone _ _ | Look _ _ _ (LDone _ _ _) => true | _ => false end.
(* no call is in progress *)
Definition s_rest (ts : list spc) : Prop := forall t, In t ts -> returned t = true.

(* the tracker has an entry saying: [n] bytes at [k] belong to pool [p] *)
Definition entry_of (s : tstate) (k n p : Z) : Prop := exists c, In (k, c) (t_map s 0) /\ t_info s c = TInfo p n 0.
