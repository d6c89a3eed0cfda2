(* Model of src/ravl/ravl.c: rank-balanced binary tree.

   Heap nodes with parent pointers are represented by zippers: a node is the
   pair (subtree rooted at it, list of frames up to the root), so following
   n->parent is dropping a frame.  The comparison callback is a parameter; its
   int result is a Z.  Simplification: pointer_based nodes and by-copy nodes
   are not distinguished (a tree stores elements of A), and the recursive
   free of ravl_delete is not modelled. *)
From Verif Require Import Base.

Section Ravl.
Context {A : Type}.
Variable compare : A -> A -> Z.

(* ravl.c:37-43  struct ravl_node; Null is the NULL pointer *)
Inductive tree : Type :=
| Null
| Node (l : tree) (rank : Z) (x : A) (r : tree).

(* parent frame: which slot of the parent we are in, and the rest of it *)
Inductive frame : Type :=
| InLeft (rank : Z) (x : A) (r : tree)
| InRight (l : tree) (rank : Z) (x : A).

Definition loc : Type := (tree * list frame)%type.

(* the parent node, given the node in its slot *)
Definition parent_of (n : tree) (f : frame) : tree :=
  match f with
  | InLeft rk x r => Node n rk x r
  | InRight l rk x => Node l rk x n
  end.
(* the whole tree (ravl->root) *)
Fixpoint plug (n : tree) (p : list frame) : tree :=
  match p with
  | [] => n
  | f :: q => plug (parent_of n f) q
  end.

(* ravl.c:78-93  ravl_foreach_node (callback order) *)
Fixpoint ravl_foreach (t : tree) : list A :=
  match t with
  | Null => []
  | Node l _ x r => ravl_foreach l ++ x :: ravl_foreach r
  end.

(* ravl.c:119-121 *)
Definition ravl_empty (t : tree) : bool :=
  match t with Null => true | _ => false end.

(* ravl.c:243-245  ravl_node_rank *)
Definition node_rank (t : tree) : Z :=
  match t with Null => -1 | Node _ rk _ _ => rk end.

(* ravl.c:194-201  ravl_node_sibling (non-root) *)
Definition sibling (f : frame) : tree :=
  match f with InLeft _ _ r => r | InRight l _ _ => l end.
Definition frame_rank (f : frame) : Z :=
  match f with InLeft rk _ _ => rk | InRight _ rk _ => rk end.

(* ravl.c:255-262  ravl_node_rank_difference_parent *)
Definition rank_difference_parent (p n : tree) : Z := node_rank p - node_rank n.

(* ravl.c:277-280  ravl_node_is_i_j; 285-287  ravl_node_is *)
Definition node_is_i_j (n : tree) (i j : Z) : bool :=
  match n with
  | Null => false
  | Node l rk x r => (rank_difference_parent n l =? i) && (rank_difference_parent n r =? j)
  end.
Definition node_is (n : tree) (i j : Z) : bool := node_is_i_j n i j || node_is_i_j n j i.

(* ravl.c:292  ravl_node_promote *)
Definition promote (n : tree) : tree :=
  match n with Null => Null | Node l rk x r => Node l (rk + 1) x r end.
(* ravl.c:297-300  ravl_node_demote; None = assert(n->rank > 0) fails *)
Definition demote (n : tree) : option tree :=
  match n with
  | Null => None
  | Node l rk x r => if rk >? 0 then Some (Node l (rk - 1) x r) else None
  end.

(* ravl.c:220-236  ravl_rotate: n swaps place with its parent (frame f);
   None = n is NULL *)
Definition rotate (n : tree) (f : frame) : option tree :=
  match n, f with
  | Node nl nr nx b, InLeft ry y s => Some (Node nl nr nx (Node b ry y s))
  | Node b nr nx nr', InRight s ry y => Some (Node (Node s ry y b) nr nx nr')
  | Null, _ => None
  end.

(* demote a child slot in place *)
Definition demote_left (t : tree) : option tree :=
  match t with
  | Null => None
  | Node l rk x r => option_map (fun l' => Node l' rk x r) (demote l)
  end.
Definition demote_right (t : tree) : option tree :=
  match t with
  | Null => None
  | Node l rk x r => option_map (fun r' => Node l rk x r') (demote r)
  end.
Definition bind {X Y} (o : option X) (f : X -> option Y) : option Y :=
  match o with Some x => f x | None => None end.

(* ravl.c:324-341  the part of ravl_balance after the promotion loop, once n is
   known to be a 0-child of the node of frame f.  Result: new subtree in
   the place of the parent. *)
Definition balance_rotate (n : tree) (f : frame) : option tree :=
  match n, f with
  | Null, _ => None
  | Node nl nr nx z, InLeft ry y s =>            (* n is a left child, z its right child *)
      match z with
      | Null => bind (rotate n f) demote_right
      | Node _ _ _ _ =>
          if rank_difference_parent n z =? 2 then bind (rotate n f) demote_right
          else if rank_difference_parent n z =? 1 then
            bind (rotate z (InRight nl nr nx)) (fun z1 =>
            bind (rotate z1 f) (fun z2 =>
            bind (demote_left (promote z2)) demote_right))
          else Some (parent_of n f)
      end
  | Node z nr nx nrt, InRight s ry y =>          (* mirror image *)
      match z with
      | Null => bind (rotate n f) demote_left
      | Node _ _ _ _ =>
          if rank_difference_parent n z =? 2 then bind (rotate n f) demote_left
          else if rank_difference_parent n z =? 1 then
            bind (rotate z (InLeft nr nx nrt)) (fun z1 =>
            bind (rotate z1 f) (fun z2 =>
            bind (demote_right (promote z2)) demote_left))
          else Some (parent_of n f)
      end
  end.

(* ravl.c:308-341  ravl_balance.  At the root the parent is NULL (rank -1) and
   the sibling NULL. None = a failed assert or a NULL dereference. *)
Fixpoint balance (n : tree) (p : list frame) : option tree :=
  match p with
  | [] =>
      if ((-1) - node_rank n =? 0) && ((-1) - (-1) >? 1) then None else Some n
  | f :: q =>
      let y := parent_of n f in
      if node_is y 0 1 then balance (promote y) q
      else if (rank_difference_parent y n =? 0) && (rank_difference_parent y (sibling f) >? 1)
      then option_map (fun t => plug t q) (balance_rotate n f)
      else Some (plug y q)
  end.

(* ravl.c:367-378  descent of ravl_emplace; None = duplicate *)
Fixpoint descend (x : A) (t : tree) (p : list frame) : option (list frame) :=
  match t with
  | Null => Some p
  | Node l rk y r =>
      let c := compare x y in
      if c =? 0 then None
      else if c >? 0 then descend x r (InRight l rk y :: p)
      else descend x l (InLeft rk y r :: p)
  end.

Inductive em_code : Type := EM_OK | EM_EXIST | EM_NOMEM.
(* ravl.c:360-389  ravl_emplace; alloc_ok = outcome of ravl_new_node.
   None = assertion failure. *)
Definition ravl_emplace (alloc_ok : bool) (t : tree) (x : A) : option (tree * em_code) :=
  if negb alloc_ok then Some (t, EM_NOMEM)
  else match descend x t [] with
       | None => Some (t, EM_EXIST)
       | Some p => option_map (fun t' => (t', EM_OK)) (balance (Node Null 0 x Null) p)
       end.

Inductive slot : Type := LEFT | RIGHT.

(* ravl.c:395-402  ravl_node_type_most (n not NULL) *)
Fixpoint type_most (n : tree) (p : list frame) (s : slot) : loc :=
  match n with
  | Null => (n, p)
  | Node l rk x r =>
      match s with
      | LEFT => match l with Null => (n, p) | _ => type_most l (InLeft rk x r :: p) s end
      | RIGHT => match r with Null => (n, p) | _ => type_most r (InRight l rk x :: p) s end
      end
  end.

(* ravl.c:419-423  the climbing loop of ravl_node_cessor *)
Fixpoint climb (n : tree) (p : list frame) (s : slot) : option loc :=
  match p with
  | [] => None
  | f :: q =>
      match f, s with
      | InLeft _ _ _, LEFT | InRight _ _ _, RIGHT => climb (parent_of n f) q s
      | _, _ => Some (parent_of n f, q)
      end
  end.

(* ravl.c:408-424  ravl_node_cessor *)
Definition cessor (n : loc) (s : slot) : option loc :=
  match fst n with
  | Null => None
  | Node l rk x r =>
      match s with
      | LEFT => match l with
                | Null => climb (fst n) (snd n) s
                | _ => Some (type_most l (InLeft rk x r :: snd n) RIGHT)
                end
      | RIGHT => match r with
                 | Null => climb (fst n) (snd n) s
                 | _ => Some (type_most r (InRight l rk x :: snd n) LEFT)
                 end
      end
  end.
(* ravl.c:431-442 *)
Definition ravl_node_successor (n : loc) : option loc := cessor n RIGHT.
Definition ravl_node_predecessor (n : loc) : option loc := cessor n LEFT.

(* ravl.h:25-33  enum ravl_predicate *)
Inductive predicate : Type := P_EQUAL | P_GREATER | P_LESS | P_LESS_EQUAL | P_GREATER_EQUAL.
Definition has_equal (p : predicate) : bool :=
  match p with P_EQUAL | P_LESS_EQUAL | P_GREATER_EQUAL => true | _ => false end.
Definition has_greater (p : predicate) : bool :=
  match p with P_GREATER | P_GREATER_EQUAL => true | _ => false end.
Definition has_less (p : predicate) : bool :=
  match p with P_LESS | P_LESS_EQUAL => true | _ => false end.

(* ravl.c:451-480  ravl_predicate_holds: (new *ret, stop?) *)
Definition predicate_holds (result : Z) (ret : option loc) (n : loc) (fl : predicate)
  : option loc * bool :=
  if has_equal fl && (result =? 0) then (Some n, true)
  else if has_greater fl && (result <? 0) then (Some n, false)
  else if has_greater fl && (result =? 0) then (ravl_node_successor n, true)
  else if has_less fl && (result >? 0) then (Some n, false)
  else if has_less fl && (result =? 0) then (ravl_node_predecessor n, true)
  else (ret, false).

(* ravl.c:485-499  ravl_find *)
Fixpoint find_loop (x : A) (fl : predicate) (t : tree) (p : list frame) (r : option loc)
  : option loc :=
  match t with
  | Null => r
  | Node l rk y rt =>
      let result := compare x y in
      let (r', stop) := predicate_holds result r (t, p) fl in
      if stop then r'
      else if result >? 0 then find_loop x fl rt (InRight l rk y :: p) r'
      else find_loop x fl l (InLeft rk y rt :: p) r'
  end.
Definition ravl_find (t : tree) (x : A) (fl : predicate) : option loc :=
  find_loop x fl t [] None.

(* ravl.c:504-522  ravl_remove, the branch with at most one child *)
Definition remove_simple (n : tree) (p : list frame) : tree :=
  match n with
  | Null => plug Null p
  | Node Null _ _ r => plug r p
  | Node l _ _ _ => plug l p
  end.
(* ravl.c:504-522  ravl_remove; result is the new root.  With two children the
   successor's data is copied into n and the successor is removed; the
   recursive call cannot take the two-children branch again because the
   successor has no left child. *)
Definition ravl_remove (n : loc) : tree :=
  match fst n with
  | Node (Node _ _ _ _ as l) rk x (Node _ _ _ _ as r) =>
      match fst (type_most r (InRight l rk x :: snd n) LEFT) with
      | Node _ _ sx _ =>
          let s := type_most r (InRight l rk sx :: snd n) LEFT in
          remove_simple (fst s) (snd s)
      | Null => plug (fst n) (snd n)
      end
  | _ => remove_simple (fst n) (snd n)
  end.

(* ravl.c:527-535  ravl_data *)
Definition ravl_data (n : loc) : option A :=
  match fst n with Null => None | Node _ _ x _ => Some x end.

(* ravl.c:540-557  ravl_first, ravl_last *)
Definition ravl_first (t : tree) : option loc :=
  match t with Null => None | _ => Some (type_most t [] LEFT) end.
Definition ravl_last (t : tree) : option loc :=
  match t with Null => None | _ => Some (type_most t [] RIGHT) end.

(* Histories: insert, and find-then-remove as all callers do. *)
Inductive op : Type :=
| OpInsert (alloc_ok : bool) (x : A)
| OpRemove (x : A) (fl : predicate).
Inductive out : Type := OutIns (c : em_code) | OutRem (x : option A).

Definition step (t : tree) (o : op) : option (tree * out) :=
  match o with
  | OpInsert ok x => option_map (fun r => (fst r, OutIns (snd r))) (ravl_emplace ok t x)
  | OpRemove x fl =>
      match ravl_find t x fl with
      | None => Some (t, OutRem None)
      | Some n => Some (ravl_remove n, OutRem (ravl_data n))
      end
  end.
Fixpoint exec (t : tree) (ops : list op) : option (tree * list out) :=
  match ops with
  | [] => Some (t, [])
  | o :: os =>
      match step t o with
      | None => None
      | Some (t1, r) =>
          match exec t1 os with
          | None => None
          | Some (t2, rs) => Some (t2, r :: rs)
          end
      end
  end.
End Ravl.
Arguments tree : clear implicits.
Arguments frame : clear implicits.
Arguments loc : clear implicits.
Arguments op : clear implicits.
Arguments out : clear implicits.

