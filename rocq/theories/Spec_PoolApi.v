(* Specification of the life of pools and providers: what a client holds, and what
   the library must therefore hold. *)
From Verif Require Import Base Model_PoolApi.

(* mine: providers the client must destroy; pools: pools the client must destroy, with
   their provider, whether they own it, and whether they are tracked; gone: providers
   destroyed by the client or by their pool *)
Record ledger := Ledger { mine : list Z; pools : list (Z * (Z * bool * bool)); gone : list Z }.
Definition uses (v : ledger) (h : Z) : Prop := exists p own tr, In (p, (h, own, tr)) (pools v).

Definition without (l : list Z) (h : Z) : list Z := filter (fun x => negb (x =? h)) l.
Definition closed (l : list (Z * (Z * bool * bool))) (p : Z) := filter (fun x => negb (fst x =? p)) l.

(* Calls of a client: providers are destroyed once, after the pools that use them and
   unless a pool owns them; a pool that is to own its provider is its only pool; pools
   are destroyed once.  The IPC cache of a pool can be allocated; in a [lucky] history
   the tracking provider as well. *)
Inductive move :=
| MProvider (mem : bool) (ini : result) | MDestroy (h : Z)
| MPool (up : Z) (own untracked out : bool) (k : luck) | MPoolDestroy (p : Z).
Definition allowed (lucky : bool) (v : ledger) (m : move) : Prop :=
  match m with
  | MProvider _ _ => True
  | MDestroy h => In h (mine v) /\ ~ uses v h
  | MPool up own _ _ k => In up (mine v) /\ (own = true -> ~ uses v up) /\ k_cache k = true /\ (lucky = true -> k_handle k = true /\ k_track k = true)
  | MPoolDestroy p => exists x, In (p, x) (pools v)
  end.
Definition perform (l : lib) (m : move) : option (result * option Z * lib) :=
  match m with
  | MProvider mem ini => provider_create l mem ini
  | MDestroy h => match provider_destroy l h with Some l => Some (SUCCESS, None, l) | None => None end
  | MPool up own untracked out k => pool_create l up own untracked out k
  | MPoolDestroy p => match pool_destroy l p with Some l => Some (SUCCESS, None, l) | None => None end
  end.
Definition noted (v : ledger) (m : move) (h : option Z) : ledger :=
  match m, h with
  | MProvider _ _, Some h => Ledger (h :: mine v) (pools v) (gone v)
  | MDestroy h, _ => Ledger (without (mine v) h) (pools v) (h :: gone v)
  | MPool up own untracked _ _, Some p => Ledger (if own then without (mine v) up else mine v) ((p, (up, own, negb untracked)) :: pools v) (gone v)
  | MPoolDestroy p, _ =>
      Ledger (mine v) (closed (pools v) p) (match find (pools v) p with Some (up, true, _) => up :: gone v | _ => gone v end)
  | _, None => v
  end.
Inductive history (lucky : bool) : lib -> ledger -> Prop :=
| h_new : forall tracker, history lucky (Lib (Heap 1 []) [] [] tracker []) (Ledger [] [] [])
| h_move : forall l v m r h l', history lucky l v -> allowed lucky v m -> perform l m = Some (r, h, l') -> history lucky l' (noted v m h).

Definition count (l : lib) (k : kind) : nat := List.length (filter (fun x => if kind_eq_dec (snd x) k then true else false) (h_objs (l_heap l))).
Definition owning (v : ledger) : nat := List.length (filter (fun x => let '(_, (_, own, _)) := x in own) (pools v)).
Definition tracked (v : ledger) : nat := List.length (filter (fun x => let '(_, (_, _, tr)) := x in tr) (pools v)).
(* the resources that what the client holds stands for *)
Definition due (v : ledger) (k : kind) : nat :=
  match k with
  | KProvPriv => List.length (mine v) + owning v
  | KProvider => List.length (mine v) + owning v + tracked v
  | KPool | KPoolPriv | KMutex => List.length (pools v)
  | KTracking | KCritnib | KIpcCache => tracked v
  end.
