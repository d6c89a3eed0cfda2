(* Model of src/critnib/critnib.c (sequential view: each operation runs to
   completion; the lock-free reader protocol is treated separately).
   Simplifications: pointers to nodes are inlined (a node is a value), NULL is
   [Nil]; the recycling lists deleted_node / deleted_leaf / pending_del_* do
   not influence the contents and are not part of this view.  Allocation
   failure of a leaf or node is an argument of insert. *)
From Verif Require Import Base Model_Utils.

(* critnib.c:95-119: struct critnib_node and struct critnib_leaf.  child[16]
   is a function; only indices 0..15 are ever used. *)
Inductive tree (V : Type) :=
| Nil
| Leaf (key : Z) (value : V)
| Node (path : Z) (shift : Z) (child : Z -> tree V).
Arguments Nil {V}.
Arguments Leaf {V} _ _.
Arguments Node {V} _ _ _.

Section Critnib.
Context {V : Type}.

(* critnib.c:86-90: SLICE 4, NIB 15, SLNODES 16 *)
Definition SLICE : Z := 4.
Definition NIB : Z := 15.
Definition slots : list Z := [0;1;2;3;4;5;6;7;8;9;10;11;12;13;14;15].

(* critnib.c:153  ~NIB << shift, on 64 bits *)
Definition path_mask (shift : Z) : Z := wrap (Z.shiftl (wnot NIB) shift).
(* critnib.c:158-160 *)
Definition slice_index (key shift : Z) : Z := Z.land (Z.shiftr key shift) NIB.

Definition upd (ch : Z -> tree V) (i : Z) (t : tree V) : Z -> tree V :=
  fun j => if j =? i then t else ch j.

Inductive ins_code := INS_OK | INS_EEXIST | INS_ENOMEM | INS_ASSERT.

(* critnib.c:353-395: the new key leaves the path of [n] (leaf or node) *)
Definition ins_diverge (node_ok : bool) (n : tree V) (path key : Z) (v : V)
           (update : bool) : tree V * ins_code :=
  let at_ := Z.lxor path key in
  if at_ =? 0 then
    match n with
    | Leaf k v0 => if update then (Leaf k v, INS_OK) else (n, INS_EEXIST)
    | _ => (n, INS_ASSERT)                    (* ASSERT(is_leaf(n)), 357 *)
    end
  else
    let sh := Z.land (utils_msb64 at_) (255 - (SLICE - 1)) in
    if node_ok then
      (* 383-390: all children NULL, then child[key] = kn, child[path] = n *)
      let ch := upd (upd (fun _ => Nil) (slice_index key sh) (Leaf key v))
                    (slice_index path sh) n in
      (Node (Z.land key (path_mask sh)) sh ch, INS_OK)
    else (n, INS_ENOMEM).

(* critnib.c:327-351 descend while the key matches the node's path *)
Fixpoint ins (node_ok : bool) (n : tree V) (key : Z) (v : V) (update : bool)
  : tree V * ins_code :=
  match n with
  | Nil => (Leaf key v, INS_OK)
  | Leaf k _ => ins_diverge node_ok n k key v update
  | Node path sh ch =>
      if Z.land key (path_mask sh) =? path then
        let i := slice_index key sh in
        let (t, c) := ins node_ok (ch i) key v update in
        (Node path sh (upd ch i t), c)
      else ins_diverge node_ok n path key v update
  end.

(* critnib.c:310-396.  [leaf_ok]/[node_ok]: did alloc_leaf/alloc_node succeed *)
Definition critnib_insert (leaf_ok node_ok : bool) (root : tree V)
           (key : Z) (v : V) (update : bool) : tree V * ins_code :=
  if leaf_ok then ins node_ok root key v update else (root, INS_ENOMEM).

Definition is_nil (t : tree V) : bool := match t with Nil => true | _ => false end.

(* critnib.c:455-469: the children that remain, left to right *)
Definition live_slots (ch : Z -> tree V) : list Z :=
  filter (fun i => negb (is_nil (ch i))) slots.

(* critnib.c:447-469: [n] is the parent of the removed leaf *)
Definition rem_collapse (path sh : Z) (ch : Z -> tree V) : option (tree V) :=
  match live_slots ch with
  | [] => None                                 (* ASSERTne(ochild, -1), 467 *)
  | [o] => Some (ch o)
  | _ => Some (Node path sh ch)
  end.

(* critnib.c:401-479.  Result: new tree, value of the removed entry if any;
   the outer None is the failed assertion of line 467. *)
Fixpoint rem (n : tree V) (key : Z) : option (tree V * option V) :=
  match n with
  | Nil => Some (Nil, None)
  | Leaf k v => if k =? key then Some (Nil, Some v) else Some (n, None)
  | Node path sh ch =>
      let i := slice_index key sh in
      match ch i with
      | Nil => Some (n, None)
      | Leaf k v =>
          if k =? key then
            match rem_collapse path sh (upd ch i Nil) with
            | Some t => Some (t, Some v)
            | None => None
            end
          else Some (n, None)
      | Node _ _ _ =>
          match rem (ch i) key with
          | Some (t, r) => Some (Node path sh (upd ch i t), r)
          | None => None
          end
      end
  end.
Definition critnib_remove := rem.

(* critnib.c:506-513 and 752-759 *)
Fixpoint get_leaf (n : tree V) (key : Z) : option (Z * V) :=
  match n with
  | Nil => None
  | Leaf k v => if k =? key then Some (k, v) else None
  | Node _ sh ch => get_leaf (ch (slice_index key sh)) key
  end.
(* critnib.c:491-518 *)
Definition critnib_get (n : tree V) (key : Z) : option V :=
  option_map snd (get_leaf n key).

(* critnib.c:523-549: child with the largest index, repeatedly *)
Definition rightmost (ch : Z -> tree V) : option Z :=
  find (fun i => negb (is_nil (ch i))) (rev slots).
Fixpoint find_predecessor (n : tree V) : option (Z * V) :=
  match n with
  | Nil => None
  | Leaf k v => Some (k, v)
  | Node _ _ ch =>
      match rightmost ch with
      | None => None
      | Some i => find_predecessor (ch i)
      end
  end.

(* critnib.c:644-669: child with the smallest index, repeatedly *)
Definition leftmost (ch : Z -> tree V) : option Z :=
  find (fun i => negb (is_nil (ch i))) slots.
Fixpoint find_successor (n : tree V) : option (Z * V) :=
  match n with
  | Nil => None
  | Leaf k v => Some (k, v)
  | Node _ _ ch =>
      match leftmost ch with
      | None => None
      | Some i => find_successor (ch i)
      end
  end.

(* critnib.c:572 and 685: (key ^ path) >> shift & ~NIB, non-zero? *)
Definition outside (key path sh : Z) : bool :=
  negb (Z.land (Z.shiftr (Z.lxor key path) sh) (wnot NIB) =? 0).

(* critnib.c:604-615 scan slots nib-1 .. 0; 609-613: a leaf is returned, for a
   node its predecessor - both are [find_predecessor] of the child *)
Definition slots_below (nib : Z) : list Z := filter (fun i => i <? nib) (rev slots).
Definition slots_above (nib : Z) : list Z := filter (fun i => nib <? i) slots.

(* critnib.c:554-618 *)
Fixpoint find_le (n : tree V) (key : Z) : option (Z * V) :=
  match n with
  | Nil => None
  | Leaf k v => if k <=? key then Some (k, v) else None
  | Node path sh ch =>
      if outside key path sh then
        if path <? key then find_predecessor n else None
      else
        let nib := slice_index key sh in
        match find_le (ch nib) key with
        | Some e => Some e
        | None =>
            match find (fun i => negb (is_nil (ch i))) (slots_below nib) with
            | Some i => find_predecessor (ch i)
            | None => None
            end
        end
  end.
(* critnib.c:625-639 *)
Definition critnib_find_le (n : tree V) (key : Z) : option V :=
  option_map snd (find_le n key).

(* critnib.c:674-717 *)
Fixpoint find_ge (n : tree V) (key : Z) : option (Z * V) :=
  match n with
  | Nil => None
  | Leaf k v => if k >=? key then Some (k, v) else None
  | Node path sh ch =>
      if outside key path sh then
        if path >? key then find_successor n else None
      else
        let nib := slice_index key sh in
        match find_ge (ch nib) key with
        | Some e => Some e
        | None =>
            match find (fun i => negb (is_nil (ch i))) (slots_above nib) with
            | Some i => find_successor (ch i)
            | None => None
            end
        end
  end.

(* critnib.h enum find_dir_t: FIND_L=-2, FIND_LE=-1, FIND_EQ=0, FIND_GE=1,
   FIND_G=2 *)
Inductive find_dir := FIND_L | FIND_LE | FIND_EQ | FIND_GE | FIND_G.

(* critnib.c:722-779 *)
Definition critnib_find (n : tree V) (key : Z) (dir : find_dir)
  : option (Z * V) :=
  match dir with
  | FIND_L => if key =? 0 then None else find_le n (key - 1)
  | FIND_LE => find_le n key
  | FIND_EQ => get_leaf n key
  | FIND_GE => find_ge n key
  | FIND_G => if key =? U64 - 1 then None else find_ge n (key + 1)
  end.

(* critnib.c:786-812.  The callback is [f]: true = abort (non-zero).  The
   result pairs the list of visited entries with the abort flag. *)
Fixpoint iter (n : tree V) (min max : Z) (f : Z -> V -> bool)
  : list (Z * V) * bool :=
  match n with
  | Nil => ([], false)
  | Leaf k v =>
      if (min <=? k) && (k <=? max) then ([(k, v)], f k v) else ([], false)
  | Node path sh ch =>
      if path >? max then ([], true)
      else if Z.lor path (path_mask sh) <? min then ([], false)
      else
        (fix loop (l : list Z) : list (Z * V) * bool :=
           match l with
           | [] => ([], false)
           | i :: l' =>
               let (v1, stop) := iter (ch i) min max f in
               if stop then (v1, true)
               else let (v2, stop2) := loop l' in (v1 ++ v2, stop2)
           end) slots
  end.
(* critnib.c:814-822 *)
Definition critnib_iter (root : tree V) (min max : Z) (f : Z -> V -> bool)
  : list (Z * V) := fst (iter root min max f).

(* Contents in slot order; used in statements (through membership only). *)
Fixpoint entries (n : tree V) : list (Z * V) :=
  match n with
  | Nil => []
  | Leaf k v => [(k, v)]
  | Node _ _ ch => flat_map (fun i => entries (ch i)) slots
  end.

(* Operation sequences with their observable outcomes; None = an ASSERT of the
   C code failed. *)
Inductive op :=
| OpInsert (leaf_ok node_ok : bool) (key : Z) (v : V) (update : bool)
| OpRemove (key : Z).
Inductive out :=
| OutIns (c : ins_code)
| OutRem (v : option V).

Definition step (t : tree V) (o : op) : option (tree V * out) :=
  match o with
  | OpInsert lo no k v u =>
      match critnib_insert lo no t k v u with
      | (_, INS_ASSERT) => None
      | (t', c) => Some (t', OutIns c)
      end
  | OpRemove k =>
      match critnib_remove t k with
      | Some (t', r) => Some (t', OutRem r)
      | None => None
      end
  end.
Fixpoint exec (t : tree V) (ops : list op) : option (tree V * list out) :=
  match ops with
  | [] => Some (t, [])
  | o :: ops' =>
      match step t o with
      | None => None
      | Some (t', r) =>
          match exec t' ops' with
          | None => None
          | Some (t'', rs) => Some (t'', r :: rs)
          end
      end
  end.
End Critnib.
Arguments op : clear implicits.
Arguments out : clear implicits.
