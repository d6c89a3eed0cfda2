(* Specification of memory spaces. *)
From Coq Require Export Permutation.
From Verif Require Import Base Model_Memspace.

(* the targets of a space, in order *)
Definition members (m : mem) (s : space) (ts : list target) : Prop := map (fun h => lookup h m) (nodes s) = map Some ts.
(* the handles in use, and the blocks they and the spaces take *)
Definition owned (ss : list space) : list Z := flat_map nodes ss.
Definition weight (s : space) : Z := 1 + (if array s then 1 else 0) + 2 * Z.of_nat (List.length (nodes s)).
Definition total (ss : list space) : Z := fold_right (fun s n => weight s + n) 0 ss.
(* every target is live and belongs to exactly one space, once; nothing else is live *)
Record tidy (ss : list space) (m : mem) : Prop := Tidy {
  t_once : NoDup (owned ss);
  t_live : forall h, In h (owned ss) <-> exists t, lookup h m = Some t;
  t_heap : List.length (heap m) = List.length (owned ss);
  t_blocks : blocks m = total ss;
  t_array : forall s, In s ss -> nodes s <> [] -> array s = true;
  t_fresh : forall h, In h (owned ss) -> h < fresh m }.
(* the targets of the other spaces are untouched *)
Definition untouched (m m' : mem) (hs : list Z) : Prop := forall h, In h hs -> lookup h m' = lookup h m.
(* nothing happened *)
Definition unchanged (s s' : space) (m m' : mem) : Prop := s' = s /\ heap m' = heap m /\ blocks m' = blocks m.
Definition conflict (t u : target) : Prop := fst t <> fst u \/ t = u.
(* no two targets of a space are the same *)
Definition is_set (m : mem) (s : space) : Prop := forall ts, members m s ts -> NoDup ts.
Definition sorts (srt : list (Z * Z) -> list (Z * Z)) : Prop := forall l, Permutation l (srt l) /\ forall i j a b, (i < j)%nat -> nth_error (srt l) i = Some a -> nth_error (srt l) j = Some b -> fst b <= fst a.
