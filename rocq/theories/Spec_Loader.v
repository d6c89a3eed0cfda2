(* What an application may rely on when UMF loads libraries. *)
From Verif Require Import Base Model_Loader.

(* Objects are used and destroyed only while they live, and the library is torn
   down only when there are none. *)
Fixpoint proper (l : lib) (has : Z -> bool) (s : lstate) (es : list lev) : Prop :=
  match es with
  | [] => True
  | e :: es =>
      match e with
      | Use x => 0 < live s /\ In x (l_loaded l)
      | Destroy => 0 < live s
      | TearDown _ => live s = 0
      | _ => True
      end /\ proper l has (fst (lstep l has s e)) es
  end.
(* nothing undefined happens, and no reference of the application is taken away *)
Definition defined (o : list seen) : Prop := ~ In CallNull o /\ ~ In CallUnmapped o /\ ~ In OverClosed o.
(* nothing is created once the library has been torn down *)
Fixpoint one_period (down : bool) (es : list lev) : Prop :=
  match es with
  | [] => True
  | Create _ _ :: es => down = false /\ one_period down es
  | TearDown _ :: es => one_period true es
  | _ :: es => one_period down es
  end.
(* only functions that were required to be there, or are tested before use *)
Definition uses_required (l : lib) (es : list lev) : Prop := forall x, In (Use x) es -> In x (l_checked l) \/ In x (l_guarded l).
Definition closes_succeed (es : list lev) : Prop := forall e, In e es -> match e with Create _ cl | TearDown cl => cl = true | _ => True end.
(* the library has every function required of it *)
Definition complete (l : lib) (has : Z -> bool) : Prop := forall x, In x (l_checked l) -> has x = true.
