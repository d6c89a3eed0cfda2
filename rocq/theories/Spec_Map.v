(* What a user of an ordered 64-bit map expects: independent of the tree. *)
From Verif Require Import Base Model_Critnib.

Section Spec.
Context {V : Type}.
Definition amap := Z -> option V.
Definition empty : amap := fun _ => None.
Definition set (m : amap) (k : Z) (v : V) : amap :=
  fun k' => if k' =? k then Some v else m k'.
Definition clear (m : amap) (k : Z) : amap :=
  fun k' => if k' =? k then None else m k'.

(* [allowed m o r m']: starting from contents [m], operation [o] may answer
   [r] and then leaves contents [m'].  (The tree's internal assertion failing
   is never an allowed answer.) *)
Inductive allowed (m : amap) : op V -> out V -> amap -> Prop :=
| al_new : forall lo no k v u, m k = None ->
    allowed m (OpInsert lo no k v u) (OutIns INS_OK) (set m k v)
| al_update : forall lo no k v v0, m k = Some v0 ->
    allowed m (OpInsert lo no k v true) (OutIns INS_OK) (set m k v)
| al_exists : forall lo no k v v0, m k = Some v0 ->
    allowed m (OpInsert lo no k v false) (OutIns INS_EEXIST) m
| al_nomem : forall lo no k v u, lo && no = false ->
    allowed m (OpInsert lo no k v u) (OutIns INS_ENOMEM) m
| al_remove : forall k,
    allowed m (OpRemove k) (OutRem (m k)) (clear m k).

Inductive runs : amap -> list (op V) -> list (out V) -> amap -> Prop :=
| runs_nil : forall m, runs m [] [] m
| runs_cons : forall m o r m' os rs m'',
    allowed m o r m' -> runs m' os rs m'' -> runs m (o :: os) (r :: rs) m''.

(* key relation of a query direction *)
Definition rel (d : find_dir) (k key : Z) : Prop :=
  match d with
  | FIND_L => k < key | FIND_LE => k <= key | FIND_EQ => k = key
  | FIND_GE => key <= k | FIND_G => key < k
  end.
(* [a] is at least as near to the query key as [b] *)
Definition nearer (d : find_dir) (a b : Z) : Prop :=
  match d with
  | FIND_L | FIND_LE => b <= a
  | FIND_EQ => a = b
  | FIND_GE | FIND_G => a <= b
  end.
Definition neighbour (m : amap) (key : Z) (d : find_dir) (r : option (Z * V)) : Prop :=
  match r with
  | Some (k, v) => m k = Some v /\ rel d k key /\
                   forall k', m k' <> None -> rel d k' key -> nearer d k k'
  | None => forall k', m k' <> None -> ~ rel d k' key
  end.

Definition op_word (o : op V) : Prop :=
  match o with OpInsert _ _ k _ _ => is_word k | OpRemove k => is_word k end.

(* iteration: entries until (and including) the first on which f says stop *)
Fixpoint upto (f : Z -> V -> bool) (l : list (Z * V)) : list (Z * V) :=
  match l with
  | [] => []
  | (k, v) :: l' => if f k v then [(k, v)] else (k, v) :: upto f l'
  end.
(* [l] enumerates the entries of [m] with key in [lo, hi] in increasing order *)
Fixpoint ascending (l : list (Z * V)) : Prop :=
  match l with
  | [] => True
  | (k, _) :: l' => (forall k' v', In (k', v') l' -> k < k') /\ ascending l'
  end.
Definition enumerates (m : amap) (lo hi : Z) (l : list (Z * V)) : Prop :=
  ascending l /\ forall k v, In (k, v) l <-> m k = Some v /\ lo <= k <= hi.
End Spec.
