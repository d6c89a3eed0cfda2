(* Model of the library's predefined memory spaces and its description of the machine,
   over any number of initialisations and tear-downs (src/topology.c,
   src/memspaces/memspace_{host_all,highest_capacity,highest_bandwidth,lowest_latency}.c,
   src/memtargets/memtarget_numa.c: attribute queries, src/libumf.c: umfTearDown).

   Simplifications that hold for the whole file:
   - The machine does not change: hwloc describes the same NUMA nodes every time.  Each
     description is an object with a number; using or destroying one that is not there
     any more is None (a crash).
   - One thread; no spaces but the predefined ones; asserts are compiled out (release
     build).  The tracker, IPC cache and base allocator are not part of this model.
   - Spaces and allocations are those of Model_Memspace. *)
From Verif Require Import Base Model_Memspace.

(* a NUMA node as hwloc describes it: the number the system gives it, its memory, its
   CPUs.  Its place in the list of nodes is its logical index. *)
Record hw := HW { os_index : Z; memory : Z; cpus : list Z }.
Inductive kind := All | Cap | Bw | Lat.
Definition kind_eqb (a b : kind) : bool := match a, b with All, All | Cap, Cap | Bw, Bw | Lat, Lat => true | _, _ => false end.
(* umfRefCount (libumf.c:28); topology and its once flag (topology.c:15-16), the
   descriptions that exist and the next number; UMF_MEMSPACE_* and their once flags *)
Record world := World { refs : Z; t_fired : bool; t_ptr : option Z; t_all : list Z; t_next : Z; fired : kind -> bool; ptr : kind -> option space; wm : mem }.
Definition start : world := World 0 false None [] 0 (fun _ => false) (fun _ => None) (Mem [] 1 [] 0).
Definition w_refs (w : world) (r : Z) : world := World r (t_fired w) (t_ptr w) (t_all w) (t_next w) (fired w) (ptr w) (wm w).
Definition w_topo (w : world) (f : bool) (p : option Z) (l : list Z) (n : Z) : world := World (refs w) f p l n (fired w) (ptr w) (wm w).
Definition w_mem (w : world) (m : mem) : world := World (refs w) (t_fired w) (t_ptr w) (t_all w) (t_next w) (fired w) (ptr w) m.
Definition w_fire (w : world) (k : kind) (b : bool) : world := World (refs w) (t_fired w) (t_ptr w) (t_all w) (t_next w) (fun j => if kind_eqb j k then b else fired w j) (ptr w) (wm w).
Definition w_ptr (w : world) (k : kind) (o : option space) : world := World (refs w) (t_fired w) (t_ptr w) (t_all w) (t_next w) (fired w) (fun j => if kind_eqb j k then o else ptr w j) (wm w).

Section Machine.
(* the nodes in logical order; hwloc_memattr_get_value: latency (true) or bandwidth from
   CPUs to a node, or how it fails; qsort *)
Variables (M : list hw) (attr : bool -> list Z -> hw -> result * Z) (srt : list (Z * Z) -> list (Z * Z)).

(* topology.c:29-46; [ok]: hwloc can describe the machine *)
Definition get_topo (ok : bool) (w : world) : option Z * world :=
  if t_fired w then (t_ptr w, w)
  else if ok then (Some (t_next w), w_topo w true (Some (t_next w)) (t_next w :: t_all w) (t_next w + 1))
  else (None, w_topo w true None (t_all w) (t_next w)).
Definition there (w : world) (t : Z) : bool := existsb (Z.eqb t) (t_all w).
(* topology.c:18-27: the pointer keeps its value *)
Definition destroy_topo (w : world) : option world :=
  match t_ptr w with
  | None => Some w
  | Some t => if there w t then Some (w_topo w false (Some t) (filter (fun x => negb (x =? t)) (t_all w)) (t_next w)) else None
  end.

(* memtarget_numa.c:216-237: the node with this number *)
Definition by_os (i : Z) : option hw := find (fun n => os_index n =? i) M.
Definition capacity (m : mem) (h : Z) : result * Z :=
  match lookup h m with
  | Some (_, i) => match by_os i with Some n => (SUCCESS, memory n) | None => (ERR_INVALID_ARGUMENT, 0) end
  | None => (ERR_INVALID_ARGUMENT, 0)
  end.
(* memtarget_numa.c:257-321: the node at this place (hwloc_get_obj_by_type) *)
Definition by_place (i : Z) : option hw := if i <? 0 then None else nth_error M (Z.to_nat i).
Definition intersects (a b : list Z) : bool := existsb (fun c => existsb (Z.eqb c) b) a.
Definition worst (lat : bool) : Z := if lat then U64 - 1 else 0.
Definition query (lat : bool) (m : mem) (a b : Z) : result * Z :=
  match lookup a m, lookup b m with
  | Some (_, i), Some (_, j) =>
      match by_place i, by_place j with
      | Some x, Some y => if intersects (cpus x) (cpus y) then attr lat (cpus x) y else (SUCCESS, worst lat)
      | _, _ => (ERR_INVALID_ARGUMENT, 0)
      end
  | _, _ => (ERR_INVALID_ARGUMENT, 0)
  end.

(* memspace_host_all.c:33-79, 96-109 *)
Definition get_all (ok : bool) (w : world) : option (option space * world) :=
  if fired w All then Some (ptr w All, w)
  else
    let w := w_fire w All true in
    match get_topo ok w with
    | (None, w) => Some (ptr w All, w)
    | (Some t, w) =>
        if negb (there w t) then None else
        let '(o, m) := galloc (4 * Z.of_nat (List.length M)) (wm w) in
        if negb o then Some (ptr w All, w_mem w m) else
        match space_from_numa (map os_index M) m with
        | None => None
        | Some (SUCCESS, Some s, m) => let w := w_ptr (w_mem w (gfree 1 m)) All (Some s) in Some (ptr w All, w)
        | Some (_, _, m) => Some (ptr w All, w_mem w (gfree 1 m))
        end
    end.
(* memspace_highest_capacity.c:34-59, 77-88; memspace_highest_bandwidth.c:36-84, 101-116;
   memspace_lowest_latency.c:36-84, 97-116.  The queries use the description of the
   machine, made here if need be. *)
Definition make (k : kind) (t : option Z) (s : space) (m : mem) : option (result * option space * mem) :=
  match k with
  | Cap =>
      match space_clone s m with
      | None => None
      | Some (SUCCESS, Some s, m) =>
          match space_sort srt (match t with Some _ => capacity m | None => fun _ => (ERR_NOT_SUPPORTED, 0) end) s m with
          | (SUCCESS, s, m) => Some (SUCCESS, Some s, m)
          | (r, _, m) => Some (r, None, m)
          end
      | Some (r, _, m) => Some (r, None, m)
      end
  | Lat => space_select (best_latency (match t with Some _ => query true m | None => fun _ _ => (ERR_NOT_SUPPORTED, 0) end) (nodes s)) s m
  | _ => space_select (best_bandwidth (match t with Some _ => query false m | None => fun _ _ => (ERR_NOT_SUPPORTED, 0) end) (nodes s)) s m
  end.
Definition get_made (k : kind) (ok : bool) (w : world) : option (option space * world) :=
  if fired w k then Some (ptr w k, w)
  else
    match get_all ok (w_fire w k true) with
    | None => None
    | Some (None, w) => Some (ptr w k, w)
    | Some (Some s, w) =>
        let '(t, w) := get_topo ok w in
        if match t with Some t => negb (there w t) | None => false end then None else
        match make k t s (wm w) with
        | None => None
        | Some (SUCCESS, Some s, m) => let w := w_ptr (w_mem w m) k (Some s) in Some (ptr w k, w)
        | Some (_, _, m) => Some (ptr w k, w_mem w m)
        end
    end.
Definition get (k : kind) (ok : bool) (w : world) : option (option space * world) := match k with All => get_all ok w | _ => get_made k ok w end.
(* a query of the user (umfMemtargetGetCapacity, ...): uses the description *)
Definition ask (ok : bool) (w : world) : option world :=
  match get_topo ok w with (Some t, w) => if there w t then Some w else None | (None, w) => Some w end.

(* memspace_host_all.c:84-94, memspace_highest_capacity.c:65-75,
   memspace_highest_bandwidth.c:89-99, memspace_lowest_latency.c:90-95 (the last does
   not reset its flag) *)
Definition destroy (k : kind) (w : world) : option world :=
  match ptr w k with
  | None => Some w
  | Some s =>
      match space_destroy s (wm w) with
      | None => None
      | Some m => let w := w_ptr (w_mem w m) k None in Some (match k with Lat => w | _ => w_fire w k false end)
      end
  end.
Definition andthen (x : option world) (f : world -> option world) : option world := match x with Some w => f w | None => None end.
(* libumf.c:63-72 *)
Definition tear (w : world) : option world :=
  let last := refs w =? 1 in
  let w := w_refs w (wrap (refs w - 1)) in
  if last then andthen (andthen (andthen (andthen (destroy All w) (destroy Cap)) (destroy Bw)) (destroy Lat)) destroy_topo else Some w.

Inductive op := Init | Tear | Get (k : kind) (ok : bool) | Ask (ok : bool).
(* libumf.c:36 for Init *)
Definition step (w : world) (o : op) : option world :=
  match o with
  | Init => Some (w_refs w (wrap (refs w + 1)))
  | Tear => tear w
  | Get k ok => match get k ok w with Some (_, w) => Some w | None => None end
  | Ask ok => ask ok w
  end.
Fixpoint run (w : world) (os : list op) : option world := match os with [] => Some w | o :: os => match step w o with Some w => run w os | None => None end end.
End Machine.
