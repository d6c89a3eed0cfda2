(* critnib.c: the lock-free ordered lookup, load by load, beside writers.  critnib_find
   with FIND_LE (FIND_L is FIND_LE of the key below, 730-735); critnib_find_le returns the
   value only.  The searches to the right (find_ge, find_successor) are not modelled.
   Memory is sequentially consistent, as in Model_CritnibConc. *)
From Verif Require Import Base Model_Critnib Model_CritnibConc.

(* Where the reader is.  [w]: wrs1.  [stk]: the calls of find_le that wait for the one
   below, as (node, nib); the innermost first. *)
Inductive fpc :=
| FStart
| FRoot (w : Z)
| FAt (w : Z) (stk : list (Z * Z)) (p : ptr)             (* find_le(p) *)
| FShift (w : Z) (stk : list (Z * Z)) (n path : Z)       (* n->path is read *)
| FCmp (w : Z) (stk : list (Z * Z)) (n : Z)              (* the key is outside n *)
| FNib (w : Z) (stk : list (Z * Z)) (n : Z)              (* the key is inside n *)
| FChild (w : Z) (stk : list (Z * Z)) (n nib : Z)
| FBack (w : Z) (stk : list (Z * Z))                     (* a call returns NULL *)
| FPred (w : Z) (stk : list (Z * Z)) (n nib : Z)         (* find_predecessor: the loop over nib *)
| FPred2 (w : Z) (stk : list (Z * Z)) (n nib : Z)        (* find_predecessor: the second load *)
| FFound (w x : Z)                                       (* all calls return leaf x *)
| FVal (w x k : Z)
| FRes (w : Z) (r : option (Z * word))
| FDone (r : option (Z * word)).

(* critnib.c:523-549 (find_predecessor), 554-618 (find_le), 742-772 (critnib_find) *)
Definition find_step (h : heap) (key : Z) (pc : fpc) : fpc :=
  match pc with
  | FStart => FRoot (remove_count h)                                      (* 743 *)
  | FRoot w => FAt w [] (root h)                                          (* 745 *)
  | FAt w stk PNull => FBack w stk                                        (* 556-558 *)
  | FAt w stk (PLeaf x) => if lkey h x <=? key then FFound w x else FBack w stk   (* 560-563 *)
  | FAt w stk (PNode n) => FShift w stk n (npath h n)                     (* 572: n->path *)
  | FShift w stk n path => if outside key path (nshift h n) then FCmp w stk n else FNib w stk n   (* 572: n->shift *)
  | FCmp w stk n => if npath h n <? key then FPred w stk n 15 else FBack w stk   (* 577-585 *)
  | FNib w stk n => FChild w stk n (slice_index key (nshift h n))         (* 588 *)
  | FChild w stk n nib => FAt w ((n, nib) :: stk) (child h n nib)         (* 592-593 *)
  | FBack w [] => FRes w None
  | FBack w ((n, nib) :: stk) =>                                          (* 604-617 *)
      if 0 <? nib then
        match child h n (nib - 1) with
        | PNull => FBack w ((n, nib - 1) :: stk)
        | PLeaf x => FFound w x
        | PNode m => FPred w stk m 15
        end
      else FBack w stk
  | FPred w stk n nib =>                                                  (* 527-537 *)
      if nib <? 0 then FBack w stk
      else match child h n nib with PNull => FPred w stk n (nib - 1) | _ => FPred2 w stk n nib end
  | FPred2 w stk n nib =>                                                 (* 539-547 *)
      match child h n nib with
      | PNull => FBack w stk
      | PLeaf x => FFound w x
      | PNode m => FPred w stk m 15
      end
  | FFound w x => FVal w x (lkey h x)                                     (* 762 *)
  | FVal w x k => FRes w (Some (k, lval h x))                             (* 763 *)
  | FRes w r => if wrap (w + DELETED_LIFE) <=? remove_count h then FStart else FDone r   (* 765-766 *)
  | FDone r => FDone r
  end.

(* the writers of Model_CritnibConc and such a reader *)
Definition fsystem := (system * fpc)%type.
Definition fstep (key : Z) (s : fsystem) (a : action) : option fsystem :=
  match a with
  | RLoad => Some (fst s, find_step (mem (fst s)) key (snd s))
  | _ => match sstep 0 (fst s) a with Some t => Some (t, snd s) | None => None end
  end.
Fixpoint fexec (key : Z) (s : fsystem) (al : list action) : option fsystem :=
  match al with
  | [] => Some s
  | a :: al => match fstep key s a with Some s' => fexec key s' al | None => None end
  end.
