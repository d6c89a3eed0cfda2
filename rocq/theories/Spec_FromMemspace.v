(* What a memory space and a policy promise about where memory is placed. *)
From Verif Require Import Base Model_OsNuma Spec_OsNuma Model_FromMemspace.

(* the nodes of a space that are used: of the space of highest capacity, sorted by
   capacity, only the first *)
Definition used (k : kind) (ids : list Z) : list Z := match k with HighestCapacity => firstn 1 ids | _ => ids end.
(* the caller's partitions, or equal ones on the nodes *)
Definition wanted (ns : list Z) (ps : list (Z * Z)) : list (Z * Z) := match ps with [] => map (fun n => (1, n)) ns | _ => ps end.
(* the partitions a policy stands for when a provider is made of it *)
Definition custom (p : policy) (rd : Z -> list (Z * Z)) (ps : list (Z * Z)) : Prop :=
  match p with PolSplit a n => if n =? 0 then ps = [] else ps = firstn (Z.to_nat n) (rd a) /\ n <= Z.of_nat (length (rd a)) | _ => ps = [] end.
(* The bytes [addr, addr + size) are placed as the policy says. [before]: what the
   provider allocated before; [ps]: the partitions. *)
Definition placed (page : Z) (k : kind) (ids : list Z) (p : option policy) (ps : list (Z * Z)) (before addr size : Z) (calls : list bind_call) : Prop :=
  match p with
  | None => match k with
            | HostAll => calls = []
            | _ => tiles addr size calls /\ forall x v, 0 <= x < size -> (bound_to calls (addr + x) v <-> In v (used k ids))
            end
  | Some (PolInterleave part) =>
      tiles addr size calls /\ forall x v, 0 <= x < size -> 
      if part =? 0 then bound_to calls (addr + x) v <-> In v (used k ids)
      else forall B, rounded_up part page B ->
        (bound_to calls (addr + x) v <-> nth_error (used k ids) (Z.to_nat ((before / part + x / B) mod Z.of_nat (length (used k ids)))) = Some v)
  | Some (PolSplit _ _) =>
      tiles addr size calls /\ forall q x v, 0 <= q < size / page -> q * page <= x < (q + 1) * page ->
        (bound_to calls (addr + x) v <->
         exists i w, nth_error (wanted (used k ids) ps) i = Some (w, v) /\ in_share (map fst (wanted (used k ids) ps)) (size / page) i q)
  | Some _ => tiles addr size calls /\ forall x v, 0 <= x < size -> (bound_to calls (addr + x) v <-> In v (used k ids))
  end.
(* sizes that fit the code's arithmetic: 32-bit counts, 64-bit products *)
Definition fits (ids : list Z) (p : option policy) : Prop :=
  Z.of_nat (length ids) < 2 ^ 32 /\
  match p with Some (PolSplit _ n) => 0 <= n < 2 ^ 32 | Some (PolInterleave part) => 0 <= part < U64 | _ => True end.
(* a policy that makes sense for the nodes *)
Definition suits (page : Z) (ns : list Z) (p : option policy) (ps : list (Z * Z)) : Prop :=
  match p with
  | Some (PolInterleave part) => part + page - 1 < U64
  | Some (PolSplit a n) => (n <> 0 -> a <> 0) /\ forall w t, In (w, t) ps -> w <> 0 /\ In t ns
  | Some PolUnknown => False
  | _ => True
  end.
(* products of the split mode that fit in 64 bits *)
Definition moderate (page size : Z) (ws : list Z) : Prop := (forall w, In w ws -> 0 <= w /\ size / page * w < U64) /\ total ws <= 2 ^ 63.
