(* Model of the creation of a provider from a memory space and a policy
   (src/memspace.c:40-55, 84-112; src/mempolicy.c; src/memtargets/
   memtarget_numa.c:49-190; the setters of src/provider/provider_os_memory.c:
   1566-1749), on top of the memory spaces of Model_Memspace and the NUMA part of
   the OS provider of Model_OsNuma.

   Simplifications: the parts of creating an OS provider that do not concern the
   NUMA parameters are one answer [inner] (success, or why not), and its own
   memory is not counted here; every target is a NUMA node, the only type there
   is; arguments are not NULL where the functions check for it. *)
From Verif Require Import Base Model_Memspace Model_OsNuma.

(* the two predefined spaces the code asks for by name, and all others *)
Inductive kind := HostAll | HighestCapacity | OtherSpace.
(* mempolicy_internal.h: umf_mempolicy_t; a custom split is the address of the
   caller's array and its length. PolUnknown: a type outside the enumeration. *)
Inductive policy := PolInterleave (part : Z) | PolBind | PolPreferred | PolSplit (parts len : Z) | PolUnknown.

(* mempolicy.c:14-34 (the address stays uninitialised: [junk]), 41-53, 55-69 *)
Inductive membind_type := T_INTERLEAVE | T_BIND | T_PREFERRED | T_SPLIT | T_OTHER.
Definition umfMempolicyCreate (t : membind_type) (junk : Z) : policy :=
  match t with T_INTERLEAVE => PolInterleave 0 | T_BIND => PolBind | T_PREFERRED => PolPreferred | T_SPLIT => PolSplit junk 0 | T_OTHER => PolUnknown end.
Definition umfMempolicySetInterleavePartSize (p : policy) (size : Z) : result * policy :=
  match p with PolInterleave _ => (SUCCESS, PolInterleave size) | _ => (ERR_INVALID_ARGUMENT, p) end.
Definition umfMempolicySetCustomSplitPartitions (p : policy) (list len : Z) : result * policy :=
  match p with PolSplit _ _ => (SUCCESS, PolSplit list len) | _ => (ERR_INVALID_ARGUMENT, p) end.

Definition low32 (x : Z) : Z := x mod 2 ^ 32.
(* memtarget_numa.c:79-127 *)
Definition choose_mode (k : kind) (p : option policy) : option (mode * Z * Z * Z) :=
  match p with
  | Some (PolInterleave part) => Some (M_INTERLEAVE, part, 0, 0)
  | Some PolBind => Some (M_BIND, 0, 0, 0)
  | Some PolPreferred => Some (M_PREFERRED, 0, 0, 0)
  | Some (PolSplit parts n) => Some (M_SPLIT, 0, parts, low32 n)
  | Some PolUnknown => None
  | None => Some (match k with HostAll => M_DEFAULT | _ => M_BIND end, 0, 0, 0)
  end.
(* the first n entries of an array; None: it is shorter *)
Fixpoint take {A} (n : nat) (l : list A) : option (list A) :=
  match n, l with
  | O, _ => Some []
  | S n, x :: l => match take n l with Some t => Some (x :: t) | None => None end
  | S _, [] => None
  end.
Definition block (b : bool) : Z := if b then 1 else 0.
(* memtarget_numa.c:49-190; [rd]: the caller's arrays at this moment *)
Definition numa_create (page : Z) (all : list Z) (k : kind) (ids : list Z) (p : option policy) (rd : Z -> list (Z * Z)) (inner : result) (m : mem)
  : option (result * option numa * mem) :=
  let nn := match k with HighestCapacity => 1 | _ => len ids end in
  if nn =? 0 then Some (ERR_INVALID_ARGUMENT, None, m) else
  match choose_mode k p with
  | None => Some (ERR_INVALID_ARGUMENT, None, m)
  | Some (md, part, parts, plen) =>
      let no_list := match k, p with HostAll, None => true | _, _ => false end in
      let '(o1, m1) := if no_list then (true, m) else galloc (4 * nn) m in
      if negb o1 then Some (ERR_OUT_OF_HOST_MEMORY, None, m1) else
      match (if no_list then Some [] else take (Z.to_nat nn) ids) with
      | None => None
      | Some numa_list =>
          let done r u m := Some (r, u, gfree (block (negb no_list)) m) in
          let '(o2, m2) := galloc 80 m1 in
          if negb o2 then done ERR_OUT_OF_HOST_MEMORY None m2 else
          let nlen := if no_list then 0 else low32 nn in
          let '(o3, m3) := if nlen =? 0 then (true, m2) else galloc (4 * nlen) m2 in
          if negb o3 then done ERR_OUT_OF_HOST_MEMORY None (gfree 1 m3) else
          let b3 := 1 + block (negb (nlen =? 0)) in
          if negb (plen =? 0) && (parts =? 0) then done ERR_INVALID_ARGUMENT None (gfree b3 m3) else
          let '(o4, m4) := if plen =? 0 then (true, m3) else galloc (8 * plen) m3 in
          if negb o4 then done ERR_OUT_OF_HOST_MEMORY None (gfree b3 m4) else
          match take (Z.to_nat nlen) numa_list, (if plen =? 0 then Some [] else take (Z.to_nat plen) (rd parts)) with
          | Some l, Some ps =>
              let b4 := b3 + block (negb (plen =? 0)) in
              match inner with
              | SUCCESS =>
                  match translate_params page all (Params l md part ps) with
                  | None => None
                  | Some (r, u) => done r u (gfree b4 m4)
                  end
              | r => done r None (gfree b4 m4)
              end
          | _, _ => None
          end
      end
  end.
(* the physical ids of the targets, which are all of the NUMA type (0) *)
Fixpoint ids_of (hs : list Z) (m : mem) : option (list Z) :=
  match hs with
  | [] => Some []
  | h :: hs => match lookup h m, ids_of hs m with Some (0, i), Some l => Some (i :: l) | _, _ => None end
  end.
(* memspace.c:84-112 with 40-55 *)
Definition umfMemoryProviderCreateFromMemspace (page : Z) (all : list Z) (k : kind) (s : space) (p : option policy) (rd : Z -> list (Z * Z)) (inner : result) (m : mem)
  : option (result * option numa * mem) :=
  match nodes s with
  | [] => Some (ERR_INVALID_ARGUMENT, None, m)
  | _ =>
      let '(o, m1) := galloc (8 * len (nodes s)) m in
      if negb o then Some (ERR_OUT_OF_HOST_MEMORY, None, m1) else
      match ids_of (nodes s) m1 with
      | None => None
      | Some ids =>
          match numa_create page all k ids p rd inner m1 with
          | None => None
          | Some (r, u, m2) => Some (r, u, gfree 1 m2)
          end
      end
  end.
