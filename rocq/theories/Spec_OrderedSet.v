(* Ordered sets over a comparison callback, independent of trees. *)
From Verif Require Import Base Model_Ravl.

(* what a comparison callback must satisfy (a total preorder) *)
Record total_order {A} (cmp : A -> A -> Z) : Prop := {
  to_sym : forall x y, Z.sgn (cmp x y) = - Z.sgn (cmp y x);
  to_trans : forall x y z, cmp x y <= 0 -> cmp y z <= 0 -> cmp x z <= 0
}.

Section Spec.
Context {A : Type} (cmp : A -> A -> Z).
Definition aset := A -> Prop.
Definition empty : aset := fun _ => False.

(* the search relations: y qualifies for a search starting from x *)
Definition qualifies (p : predicate) (x y : A) : Prop :=
  match p with
  | P_EQUAL => cmp x y = 0
  | P_GREATER => cmp x y < 0
  | P_LESS => cmp x y > 0
  | P_LESS_EQUAL => cmp x y >= 0
  | P_GREATER_EQUAL => cmp x y <= 0
  end.
(* y is at least as close to x as y', among qualifying elements *)
Definition closer (p : predicate) (y y' : A) : Prop :=
  match p with
  | P_EQUAL => cmp y y' = 0
  | P_GREATER | P_GREATER_EQUAL => cmp y y' <= 0
  | P_LESS | P_LESS_EQUAL => cmp y y' >= 0
  end.
Definition nearest (S : aset) (p : predicate) (x : A) (o : option A) : Prop :=
  match o with
  | None => forall y, S y -> ~ qualifies p x y
  | Some y => S y /\ qualifies p x y /\
              forall y', S y' -> qualifies p x y' -> closer p y y'
  end.

Inductive ascending : list A -> Prop :=
| asc_nil : ascending []
| asc_cons x l : ascending l -> (forall y, In y l -> cmp x y < 0) -> ascending (x :: l).

(* one step of the abstract ordered set *)
Inductive allowed (S : aset) : op A -> out A -> aset -> Prop :=
| al_nomem x : allowed S (OpInsert false x) (OutIns EM_NOMEM) S
| al_exist x y : S y -> cmp x y = 0 -> allowed S (OpInsert true x) (OutIns EM_EXIST) S
| al_new x S' : (forall y, S y -> cmp x y <> 0) -> (forall z, S' z <-> z = x \/ S z) ->
    allowed S (OpInsert true x) (OutIns EM_OK) S'
| al_none x p : nearest S p x None -> allowed S (OpRemove x p) (OutRem None) S
| al_rem x p y S' : nearest S p x (Some y) -> (forall z, S' z <-> S z /\ cmp z y <> 0) ->
    allowed S (OpRemove x p) (OutRem (Some y)) S'.
Inductive runs (S : aset) : list (op A) -> list (out A) -> aset -> Prop :=
| runs_nil : runs S [] [] S
| runs_cons o os r rs S1 S2 : allowed S o r S1 -> runs S1 os rs S2 -> runs S (o :: os) (r :: rs) S2.

(* number of successful inserts of a history *)
Fixpoint inserts (outs : list (out A)) : Z :=
  match outs with
  | [] => 0
  | OutIns EM_OK :: l => 1 + inserts l
  | _ :: l => inserts l
  end.
End Spec.

(* number of nodes on the longest root-to-leaf path *)
Fixpoint height {A} (t : tree A) : Z :=
  match t with Null => 0 | Node l _ _ r => 1 + Z.max (height l) (height r) end.

Fixpoint fibonacci (n : nat) : Z :=
  match n with O => 0 | S O => 1 | S (S k as m) => fibonacci m + fibonacci k end.

(* least / greatest element of a set *)
Section Ends.
Context {A : Type} (cmp : A -> A -> Z).
Definition least (S : A -> Prop) (o : option A) : Prop :=
  match o with None => forall y, ~ S y | Some x => S x /\ forall y, S y -> cmp x y <= 0 end.
Definition greatest (S : A -> Prop) (o : option A) : Prop :=
  match o with None => forall y, ~ S y | Some x => S x /\ forall y, S y -> cmp x y >= 0 end.
End Ends.
(* data of a possibly-NULL node *)
Definition data_of {A} (n : option (loc A)) : option A :=
  match n with None => None | Some m => ravl_data m end.
