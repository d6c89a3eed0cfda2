(* Specification of the predefined memory spaces over initialisations and tear-downs. *)
From Verif Require Import Base Model_Memspace Spec_Memspace Model_Predef.

(* the predefined spaces that exist *)
Definition exist (w : world) : list space := flat_map (fun k => match ptr w k with Some s => [s] | None => [] end) [All; Cap; Bw; Lat].
(* nothing is left: no space, no target, no memory, no description of the machine *)
Definition clean (w : world) : Prop := (forall k, ptr w k = None) /\ heap (wm w) = [] /\ blocks (wm w) = 0 /\ t_all w = [].
(* initialisations less tear-downs *)
Fixpoint depth (os : list op) : Z := match os with [] => 0 | Init :: os => 1 + depth os | Tear :: os => depth os - 1 | _ :: os => depth os end.
(* the library, initialised [d] times, is not torn down completely *)
Fixpoint within (d : Z) (os : list op) : Prop :=
  match os with
  | [] => True
  | Init :: os => d + 1 < U64 /\ within (d + 1) os
  | Tear :: os => 1 < d /\ within (d - 1) os
  | _ :: os => within d os
  end.
(* the library is never torn down more often than initialised, and before each complete
   tear-down the description of the machine is asked for ([used]): by a query or for the
   space of all nodes or of the highest capacity; unless nothing was ever asked for *)
Fixpoint uses (d : Z) (ever used : bool) (os : list op) : Prop :=
  match os with
  | [] => True
  | Init :: os => d + 1 < U64 /\ uses (d + 1) ever used os
  | Tear :: os => 0 < d /\ if d =? 1 then (used = true \/ ever = false) /\ uses 0 ever false os else uses (d - 1) ever used os
  | Get k _ :: os => uses d true (used || match k with All | Cap => true | _ => false end) os
  | Ask _ :: os => uses d true true os
  end.
(* the library is never torn down more often than initialised *)
Fixpoint proper (d : Z) (os : list op) : Prop :=
  match os with
  | [] => True
  | Init :: os => d + 1 < U64 /\ proper (d + 1) os
  | Tear :: os => 0 < d /\ proper (d - 1) os
  | _ :: os => proper d os
  end.
(* hwloc could always describe the machine *)
Definition loads (os : list op) : Prop := forall o, In o os -> match o with Get _ ok | Ask ok => ok = true | _ => True end.

Section Machine.
Variables (M : list hw) (attr : bool -> list Z -> hw -> result * Z).
(* the target that stands for a node *)
Definition stands (n : hw) : target := (0, os_index n).
(* the system numbers the nodes as hwloc orders them *)
Definition in_order : Prop := forall i n, nth_error M i = Some n -> os_index n = Z.of_nat i.
(* what hwloc says of two nodes; nothing for nodes that share no CPU *)
Definition share (a b : hw) : Prop := exists c, In c (cpus a) /\ In c (cpus b).
Inductive says (lat : bool) (a b : hw) : Z -> Prop :=
| says_value : forall v, share a b -> attr lat (cpus a) b = (SUCCESS, v) -> says lat a b v
| says_nothing : ~ share a b -> says lat a b (if lat then U64 - 1 else 0).
(* no node is better for [a] than [b] *)
Definition better (lat : bool) (v u : Z) : Prop := if lat then v < u else u < v.
Definition best_for (lat : bool) (a b : hw) : Prop := In b M /\ exists v, says lat a b v /\ forall c, In c M -> exists u, says lat a c u /\ ~ better lat u v.
(* the space has the best node for each node, and no others *)
Definition best_nodes (lat : bool) (ts : list target) : Prop :=
  NoDup ts /\ (forall a, In a M -> exists b, best_for lat a b /\ In (stands b) ts) /\
  (forall t, In t ts -> exists a b, In a M /\ best_for lat a b /\ t = stands b).
(* hwloc knows the attribute for all nodes that share a CPU *)
Definition known (lat : bool) : Prop := forall a b, In a M -> In b M -> share a b -> fst (attr lat (cpus a) b) = SUCCESS.
(* its values are 64-bit words *)
Definition words : Prop := forall lat c n, 0 <= snd (attr lat c n) < U64.
End Machine.
