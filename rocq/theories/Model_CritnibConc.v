(* Model of src/critnib/critnib.c with its memory: nodes and leaves are objects in a
   heap that are recycled, one writer at a time (the mutex) changes the heap by single
   stores, and a lock-free reader loads one word at a time in between.

   Simplifications that hold for the whole file:
   - Memory is sequentially consistent; a word is loaded or stored at once.
   - A pointer with its tag bit is PNull, PLeaf or PNode; objects are numbered and
     fresh ones come from a counter.  What a fresh object contains is arbitrary.
   - A writer holds the mutex from its first load to its last store, so what it
     stores is a function of the heap it finds: [insert] and [remove] give the answer
     and the list of stores in the order of the code.  None: an assertion fails, or a
     word is used as the wrong kind of thing.
   - Whether umf_ba_global_alloc has memory is an argument.
   - A reader's loads never change anything, so one reader is enough. *)
From Verif Require Import Base Model_Utils Model_Critnib.

Inductive ptr := PNull | PLeaf (x : Z) | PNode (n : Z).
(* the field critnib_leaf.value: a user's value, or the link of the list of free
   leaves (280) *)
Inductive word := User (v : Z) | Link (next : option Z).

(* critnib.c:95-135: the objects and struct critnib *)
Record heap := Heap {
  root : ptr;
  child : Z -> Z -> ptr; npath : Z -> Z; nshift : Z -> Z;      (* nodes *)
  lkey : Z -> Z; lval : Z -> word;                             (* leaves *)
  deleted_node : ptr; deleted_leaf : option Z;
  pend_node : Z -> option Z; pend_leaf : Z -> option Z;
  remove_count : Z;
  next_node : Z; next_leaf : Z }.                              (* umf_ba_global_alloc *)

(* one store to memory *)
Inductive store :=
| SRoot (p : ptr) | SChild (n i : Z) (p : ptr) | SPath (n w : Z) | SShift (n s : Z)
| SKey (x k : Z) | SVal (x : Z) (v : word)
| SDelNode (p : ptr) | SDelLeaf (o : option Z)
| SPendNode (j : Z) (o : option Z) | SPendLeaf (j : Z) (o : option Z)
| SCount
| SNewNode | SNewLeaf.

Definition put {A} (f : Z -> A) (i : Z) (a : A) : Z -> A := fun j => if j =? i then a else f j.
Definition put2 {A} (f : Z -> Z -> A) (n i : Z) (a : A) : Z -> Z -> A := fun m j => if (m =? n) && (j =? i) then a else f m j.

Definition apply (h : heap) (s : store) : heap :=
  let '(Heap r c p s' k v dn dl pn pl rc nn nl) := h in
  match s with
  | SRoot q => Heap q c p s' k v dn dl pn pl rc nn nl
  | SChild n i q => Heap r (put2 c n i q) p s' k v dn dl pn pl rc nn nl
  | SPath n w => Heap r c (put p n w) s' k v dn dl pn pl rc nn nl
  | SShift n w => Heap r c p (put s' n w) k v dn dl pn pl rc nn nl
  | SKey x w => Heap r c p s' (put k x w) v dn dl pn pl rc nn nl
  | SVal x w => Heap r c p s' k (put v x w) dn dl pn pl rc nn nl
  | SDelNode q => Heap r c p s' k v q dl pn pl rc nn nl
  | SDelLeaf o => Heap r c p s' k v dn o pn pl rc nn nl
  | SPendNode j o => Heap r c p s' k v dn dl (put pn j o) pl rc nn nl
  | SPendLeaf j o => Heap r c p s' k v dn dl pn (put pl j o) rc nn nl
  | SCount => Heap r c p s' k v dn dl pn pl (wrap (rc + 1)) nn nl
  | SNewNode => Heap r c p s' k v dn dl pn pl rc (nn + 1) nl
  | SNewLeaf => Heap r c p s' k v dn dl pn pl rc nn (nl + 1)
  end.
Definition applys (h : heap) (ss : list store) : heap := fold_left apply ss h.

(* critnib.c:165-185: an empty map; the objects are whatever memory holds *)
Definition empty_heap (h : heap) : Prop :=
  root h = PNull /\ deleted_node h = PNull /\ deleted_leaf h = None /\
  (forall j, pend_node h j = None) /\ (forall j, pend_leaf h j = None) /\ remove_count h = 0.

(* the places a pointer to a subtree is stored in *)
Inductive loc := LRoot | LChild (n i : Z).
Definition deref (h : heap) (l : loc) : ptr := match l with LRoot => root h | LChild n i => child h n i end.
Definition store_at (l : loc) (p : ptr) : store := match l with LRoot => SRoot p | LChild n i => SChild n i p end.

(* critnib.c:242-251 *)
Definition free_node (h : heap) (n : option Z) : list store :=
  match n with None => [] | Some n => [SChild n 0 (deleted_node h); SDelNode (PNode n)] end.
(* 256-267 *)
Definition alloc_node (h : heap) (mem : bool) : option (option Z * list store) :=
  match deleted_node h with
  | PNull => Some (if mem then (Some (next_node h), [SNewNode]) else (None, []))
  | PNode n => match child h n 0 with PLeaf _ => None | p => Some (Some n, [SDelNode p]) end
  | PLeaf _ => None
  end.
(* 274-282 *)
Definition free_leaf (h : heap) (x : option Z) : list store :=
  match x with None => [] | Some x => [SVal x (Link (deleted_leaf h)); SDelLeaf (Some x)] end.
(* 287-298 *)
Definition alloc_leaf (h : heap) (mem : bool) : option (option Z * list store) :=
  match deleted_leaf h with
  | None => Some (if mem then (Some (next_leaf h), [SNewLeaf]) else (None, []))
  | Some x => match lval h x with Link o => Some (Some x, [SDelLeaf o]) | User _ => None end
  end.

(* 16 nodes deep at most; one more never happens *)
Definition DEPTH : nat := 18.

(* 334-341: (n, parent, prev) after the loop *)
Fixpoint descend (fuel : nat) (h : heap) (key : Z) (parent : loc) (prev : option Z) : option (ptr * loc * option Z) :=
  match fuel with
  | O => None
  | S f =>
      match deref h parent with
      | PNode n =>
          if Z.land key (path_mask (nshift h n)) =? npath h n
          then descend f h key (LChild n (slice_index key (nshift h n))) (Some n)
          else Some (PNode n, parent, prev)
      | p => Some (p, parent, prev)
      end
  end.

(* 383-390: fill in the new node *)
Definition fill (m kx key path sh : Z) (n : ptr) : list store :=
  map (fun i => SChild m i PNull) slots ++
  [SChild m (slice_index key sh) (PLeaf kx); SChild m (slice_index path sh) n;
   SShift m sh; SPath m (Z.land key (path_mask sh))].

(* critnib.c:334-395: the map is not empty, the new leaf is [kx] *)
Definition insert_below (h1 : heap) (kx key v : Z) (update memN : bool) : option (ins_code * list store) :=
  match descend DEPTH h1 key LRoot None with
  | None => None
  | Some (n, parent, prev) =>
      let diverge path :=
        let at_ := Z.lxor path key in
        if at_ =? 0 then
          match n with
          | PLeaf x =>
              if update then Some (INS_OK, free_leaf h1 (Some kx) ++ [SVal x (User v)]) else Some (INS_EEXIST, free_leaf h1 (Some kx))
          | _ => None                                       (* ASSERT(is_leaf(n)), 357 *)
          end
        else
          let sh := Z.land (utils_msb64 at_) (255 - (SLICE - 1)) in
          match alloc_node h1 memN with
          | None => None
          | Some (None, s2) => Some (INS_ENOMEM, s2 ++ free_leaf h1 (Some kx))
          | Some (Some m, s2) => Some (INS_OK, s2 ++ fill m kx key path sh n ++ [store_at parent (PNode m)])
          end in
      match n with
      | PNull =>
          match prev with
          | None => None
          | Some q => Some (INS_OK, [SChild q (slice_index key (nshift h1 q)) (PLeaf kx)])
          end
      | PLeaf x => diverge (lkey h1 x)
      | PNode n => diverge (npath h1 n)
      end
  end.

(* critnib.c:310-396 *)
Definition insert (h : heap) (key v : Z) (update memL memN : bool) : option (ins_code * list store) :=
  match alloc_leaf h memL with
  | None => None
  | Some (None, s0) => Some (INS_ENOMEM, s0)
  | Some (Some kx, s0) =>
      let s1 := s0 ++ [SKey kx key; SVal kx (User v)] in
      let h1 := applys h s1 in
      match root h1 with
      | PNull => Some (INS_OK, s1 ++ [SRoot (PLeaf kx)])
      | _ => match insert_below h1 kx key v update memN with
             | Some (c, s2) => Some (c, s1 ++ s2)
             | None => None
             end
      end
  end.

(* 432-447: the leaf found, its parent node and where that is stored *)
Fixpoint find_leaf (fuel : nat) (h : heap) (key : Z) (n : Z) (n_parent : loc) : option (option (Z * Z * loc)) :=
  match fuel with
  | O => None
  | S f =>
      match child h n (slice_index key (nshift h n)) with
      | PNull => Some None
      | PLeaf x => Some (Some (x, n, n_parent))
      | PNode n' => find_leaf f h key n' (LChild n (slice_index key (nshift h n)))
      end
  end.

Definition DELETED_LIFE : Z := 16.

Definition nonnull (p : ptr) : bool := match p with PNull => false | _ => true end.
(* 456-465: the slots that are still taken *)
Definition taken (h : heap) (n : Z) : list Z := filter (fun i => nonnull (child h n i)) slots.

(* critnib.c:401-479: the value removed, or NULL *)
Definition remove (h : heap) (key : Z) : option (option Z * list store) :=
  match root h with
  | PNull => Some (None, [])
  | r =>
      let del := remove_count h mod DELETED_LIFE in
      let s1 := [SCount] in
      let s2 := s1 ++ free_node (applys h s1) (pend_node h del) in
      let s3 := s2 ++ free_leaf (applys h s2) (pend_leaf h del) ++ [SPendNode del None; SPendLeaf del None] in
      let h3 := applys h s3 in
      let del_leaf s x :=
        match lval (applys h s) x with
        | User v => Some (Some v, s ++ [SPendLeaf del (Some x)])
        | Link _ => None
        end in
      match r with
      | PNull => None
      | PLeaf x => if lkey h3 x =? key then del_leaf (s3 ++ [SRoot PNull]) x else Some (None, s3)
      | PNode n0 =>
          match find_leaf DEPTH h3 key n0 LRoot with
          | None => None
          | Some None => Some (None, s3)
          | Some (Some (x, n, n_parent)) =>
              if negb (lkey h3 x =? key) then Some (None, s3)
              else
              let s4 := s3 ++ [SChild n (slice_index key (nshift h3 n)) PNull] in
              let h4 := applys h s4 in
              match taken h4 n with
              | [] => None                                  (* ASSERTne(ochild, -1) *)
              | [o] => del_leaf (s4 ++ [store_at n_parent (child h4 n o); SPendNode del (Some n)]) x
              | _ => del_leaf s4 x
              end
          end
      end
  end.

(* The reader of critnib_get (491-518); w: wrs1. *)
Inductive rpc :=
| RStart | RRoot (w : Z) | RAt (w : Z) (p : ptr) | RSlot (w n sh : Z)
| RVal (w x : Z) | RRes (w : Z) (r : option word) | RDone (r : option word).
Definition get_step (h : heap) (key : Z) (pc : rpc) : rpc :=
  match pc with
  | RStart => RRoot (remove_count h)                        (* 499 *)
  | RRoot w => RAt w (root h)                               (* 500 *)
  | RAt w PNull => RRes w None
  | RAt w (PNode n) => RSlot w n (nshift h n)               (* 509: n->shift *)
  | RSlot w n sh => RAt w (child h n (slice_index key sh))  (* 508-510 *)
  | RAt w (PLeaf x) => if lkey h x =? key then RVal w x else RRes w None   (* 514: k->key *)
  | RVal w x => RRes w (Some (lval h x))                    (* 514: k->value *)
  | RRes w r => if wrap (w + DELETED_LIFE) <=? remove_count h then RStart else RDone r   (* 515-516 *)
  | RDone r => RDone r
  end.

(* One writer after the other, store by store, and a reader in between.  [log]: the
   writers' operations with their answers, in the order in which they got the mutex;
   [todo]: what the one inside still has to store. *)
Record system := System { mem : heap; log : list (op Z * out Z); todo : list store; reader : rpc }.
Inductive action := WBegin (o : op Z) | WStore | RLoad.
Definition plan (h : heap) (o : op Z) : option (out Z * list store) :=
  match o with
  | OpInsert ml mn k v u => match insert h k v u ml mn with Some (c, ss) => Some (OutIns c, ss) | None => None end
  | OpRemove k => match remove h k with Some (r, ss) => Some (OutRem r, ss) | None => None end
  end.
(* None: a failed assertion or a confused pointer; an action that is not possible now
   (the mutex is taken, nothing to store) changes nothing *)
Definition sstep (key : Z) (s : system) (a : action) : option system :=
  match a with
  | WBegin o =>
      match todo s with
      | [] => match plan (mem s) o with
              | Some (r, ss) => Some (System (mem s) (log s ++ [(o, r)]) ss (reader s))
              | None => None
              end
      | _ => Some s
      end
  | WStore =>
      match todo s with
      | [] => Some s
      | t :: ss => Some (System (apply (mem s) t) (log s) ss (reader s))
      end
  | RLoad => Some (System (mem s) (log s) (todo s) (get_step (mem s) key (reader s)))
  end.
Fixpoint sexec (key : Z) (s : system) (al : list action) : option system :=
  match al with
  | [] => Some s
  | a :: al => match sstep key s a with Some s' => sexec key s' al | None => None end
  end.
