(* Model of memory spaces and memory targets (src/memspace.c, src/memtarget.c,
   src/memtargets/memtarget_numa.c, src/memspaces/*.c).

   Simplifications that hold for the whole file:
   - Handles and arrays of the library are blocks of umf_ba_global_alloc; the model
     counts the blocks and gives targets fresh handles, so a destroyed handle is never
     valid again.  Use of a destroyed handle or of a freed array is None (a crash).
   - Which allocations fail is an input: a list of answers, consumed in order; after its
     end all succeed.  An allocation of size 0 gives NULL without being asked
     (base_alloc_global.c:165-167).
   - The checks for NULL arguments are left out. *)
From Verif Require Import Base.

(* a target: its type and its physical id (memtarget_numa.c:25-27) *)
Definition target := (Z * Z)%type.
Record mem := Mem { heap : list (Z * target); fresh : Z; answers : list bool; blocks : Z }.
(* memspace_internal.h:22-25; [array]: nodes != NULL *)
Record space := Space { nodes : list Z; array : bool }.

Definition galloc (size : Z) (m : mem) : bool * mem :=
  if size =? 0 then (false, m)
  else match answers m with
       | false :: r => (false, Mem (heap m) (fresh m) r (blocks m))
       | a => (true, Mem (heap m) (fresh m) (tl a) (blocks m + 1))
       end.
Definition gfree (n : Z) (m : mem) : mem := Mem (heap m) (fresh m) (answers m) (blocks m - n).
Definition lookup (h : Z) (m : mem) : option target := match find (fun p => fst p =? h) (heap m) with Some p => Some (snd p) | None => None end.
Definition len (l : list Z) : Z := Z.of_nat (List.length l).

(* memtarget.c:20-53 with memtarget_numa.c:29-46 (and 204-217 for a clone) *)
Definition target_make (t : target) (m : mem) : result * Z * mem :=
  let '(o1, m1) := galloc 16 m in
  if o1 then
    let '(o2, m2) := galloc 4 m1 in
    if o2 then (SUCCESS, fresh m2, Mem ((fresh m2, t) :: heap m2) (fresh m2 + 1) (answers m2) (blocks m2))
    else (ERR_OUT_OF_HOST_MEMORY, 0, gfree 1 m2)
  else (ERR_OUT_OF_HOST_MEMORY, 0, m1).
(* memtarget.c:61-82 *)
Definition target_clone (h : Z) (m : mem) : option (result * Z * mem) := match lookup h m with None => None | Some t => Some (target_make t m) end.
(* memtarget.c:55-59 *)
Definition target_destroy (h : Z) (m : mem) : option mem :=
  match lookup h m with None => None | Some _ => Some (Mem (filter (fun p => negb (fst p =? h)) (heap m)) (fresh m) (answers m) (blocks m - 2)) end.
Fixpoint destroy_all (hs : list Z) (m : mem) : option mem :=
  match hs with [] => Some m | h :: hs => match target_destroy h m with None => None | Some m => destroy_all hs m end end.
(* memtarget.c:133-161 with memtarget_numa.c:378-390 *)
Definition compare (a b : Z) (m : mem) : option Z :=
  match lookup a m, lookup b m with
  | Some (ta, ia), Some (tb, ib) => Some (if negb (ta =? tb) then -1 else if negb (ia =? ib) then 1 else 0)
  | _, _ => None
  end.

(* memspace.c:114-131, 133-141 *)
Definition space_new (m : mem) : result * option space * mem :=
  let '(o, m1) := galloc 16 m in if o then (SUCCESS, Some (Space [] false), m1) else (ERR_OUT_OF_HOST_MEMORY, None, m1).
Definition space_destroy (s : space) (m : mem) : option mem :=
  match destroy_all (nodes s) m with None => None | Some m => Some (gfree (if array s then 2 else 1) m) end.
(* the loops of memspace.c:163-168 and 294-300, with their error paths 175-183 and
   307-314: the copies made are destroyed, latest first; then [n] blocks are freed *)
Fixpoint clone_loop (hs done : list Z) (n : Z) (m : mem) : option (result * list Z * mem) :=
  match hs with
  | [] => Some (SUCCESS, List.rev done, m)
  | h :: hs =>
      match target_clone h m with
      | None => None
      | Some (SUCCESS, h', m1) => clone_loop hs (h' :: done) n m1
      | Some (r, _, m1) => match destroy_all done m1 with None => None | Some m2 => Some (r, [], gfree n m2) end
      end
  end.
(* memspace.c:143-184 *)
Definition space_clone (s : space) (m : mem) : option (result * option space * mem) :=
  let '(o1, m1) := galloc 16 m in
  if negb o1 then Some (ERR_OUT_OF_HOST_MEMORY, None, m1) else
  let '(o2, m2) := galloc (8 * len (nodes s)) m1 in
  if negb o2 then Some (ERR_OUT_OF_HOST_MEMORY, None, gfree 1 m2) else
  match clone_loop (nodes s) [] 2 m2 with
  | None => None
  | Some (SUCCESS, hs, m3) => Some (SUCCESS, Some (Space hs true), m3)
  | Some (r, _, m3) => Some (r, None, m3)
  end.
(* memspaces/memspace_numa.c:36-75; the error path reads memspace->nodes after freeing
   it, if a target had been made *)
Fixpoint numa_loop (ids done : list Z) (m : mem) : option (result * list Z * mem) :=
  match ids with
  | [] => Some (SUCCESS, List.rev done, m)
  | i :: ids =>
      match target_make (0, i) m with
      | (SUCCESS, h, m1) => numa_loop ids (h :: done) m1
      | (r, _, m1) => match done with [] => Some (r, [], gfree 2 m1) | _ => None end
      end
  end.
Definition space_from_numa (ids : list Z) (m : mem) : option (result * option space * mem) :=
  match ids with
  | [] => Some (ERR_INVALID_ARGUMENT, None, m)
  | _ =>
      let '(o1, m1) := galloc 16 m in
      if negb o1 then Some (ERR_OUT_OF_HOST_MEMORY, None, m1) else
      let '(o2, m2) := galloc (8 * len ids) m1 in
      if negb o2 then Some (ERR_OUT_OF_HOST_MEMORY, None, gfree 1 m2) else
      match numa_loop ids [] m2 with
      | None => None
      | Some (SUCCESS, hs, m3) => Some (SUCCESS, Some (Space hs true), m3)
      | Some (r, _, m3) => Some (r, None, m3)
      end
  end.

(* memspace.c:338-383 *)
Fixpoint add_check (hs : list Z) (h : Z) (m : mem) : option bool :=
  match hs with
  | [] => Some true
  | x :: hs => match compare x h m with None => None | Some c => if c <=? 0 then Some false else add_check hs h m end
  end.
Definition space_add (s : space) (h : Z) (m : mem) : option (result * space * mem) :=
  match add_check (nodes s) h m with
  | None => None
  | Some false => Some (ERR_INVALID_ARGUMENT, s, m)
  | Some true =>
      let '(o, m1) := galloc (8 * (len (nodes s) + 1)) m in
      if negb o then Some (ERR_OUT_OF_HOST_MEMORY, s, m1) else
      match target_clone h m1 with
      | None => None
      | Some (SUCCESS, h', m2) => Some (SUCCESS, Space (nodes s ++ [h']) true, gfree (if array s then 1 else 0) m2)
      | Some (r, _, m2) => Some (r, s, gfree 1 m2)
      end
  end.
(* memspace.c:385-428: the nodes before the first equal one, that one, the others *)
Fixpoint split_equal (pre hs : list Z) (h : Z) (m : mem) : option (option (list Z * Z * list Z)) :=
  match hs with
  | [] => Some None
  | x :: hs => match compare x h m with None => None | Some c => if c =? 0 then Some (Some (pre, x, hs)) else split_equal (pre ++ [x]) hs h m end
  end.
Definition space_remove (s : space) (h : Z) (m : mem) : option (result * space * mem) :=
  match split_equal [] (nodes s) h m with
  | None => None
  | Some None => Some (ERR_INVALID_ARGUMENT, s, m)
  | Some (Some (pre, x, post)) =>
      let '(o, m1) := galloc (8 * (len (nodes s) - 1)) m in
      if negb o then Some (ERR_OUT_OF_HOST_MEMORY, s, m1) else
      match target_destroy x m1 with None => None | Some m2 => Some (SUCCESS, Space (pre ++ post) true, gfree 1 m2) end
  end.

(* memspace.c:204-238; [srt]: qsort with propertyCmp *)
Fixpoint properties (prop : Z -> result * Z) (hs : list Z) : result * list (Z * Z) :=
  match hs with
  | [] => (SUCCESS, [])
  | h :: hs => match prop h with (SUCCESS, v) => let '(r, es) := properties prop hs in (r, (v, h) :: es) | (r, _) => (r, []) end
  end.
Definition space_sort (srt : list (Z * Z) -> list (Z * Z)) (prop : Z -> result * Z) (s : space) (m : mem) : result * space * mem :=
  let '(o, m1) := galloc (16 * len (nodes s)) m in
  if negb o then (ERR_OUT_OF_HOST_MEMORY, s, m1) else
  match properties prop (nodes s) with
  | (SUCCESS, es) => (SUCCESS, Space (map snd (srt es)) (array s), gfree 1 m1)
  | (r, _) => (r, s, gfree 1 m1)
  end.

(* memspace.c:432-482.  The filter's answer for a node: keep it, drop it, or an error. *)
Inductive verdict := Keep | Drop | Fail (r : result).
Fixpoint collect (f : Z -> verdict) (hs : list Z) : option result * list Z :=
  match hs with
  | [] => (None, [])
  | h :: hs => match f h with Keep => collect f hs | Drop => let '(r, l) := collect f hs in (r, h :: l) | Fail r => (Some r, []) end
  end.
Fixpoint re_add (s : space) (hs : list Z) (r : result) (m : mem) : option (result * space * mem) :=
  match hs with
  | [] => Some (r, s, m)
  | h :: hs => match space_add s h m with None => None | Some (SUCCESS, s, m) => re_add s hs r m | Some (_, s, m) => Some (ERR_UNKNOWN, s, m) end
  end.
Fixpoint remove_all (s : space) (hs done : list Z) (m : mem) : option (result * space * mem) :=
  match hs with
  | [] => Some (SUCCESS, s, m)
  | h :: hs =>
      match space_remove s h m with
      | None => None
      | Some (SUCCESS, s, m) => remove_all s hs (done ++ [h]) m
      | Some (r, s, m) => re_add s done r m
      end
  end.
(* memspace.c:484-497 for a user's filter ([fail] turns every error into USER_SPECIFIC),
   561-572 and 574-598 for the predefined ones ([fail] is the identity) *)
Definition space_filter (fail : result -> result) (f : Z -> verdict) (s : space) (m : mem) : option (result * space * mem) :=
  let '(o, m1) := galloc (8 * len (nodes s)) m in
  if negb o then Some (ERR_OUT_OF_HOST_MEMORY, s, m1) else
  match collect f (nodes s) with
  | (None, drop) => match remove_all s drop [] m1 with None => None | Some (r, s, m2) => Some (r, s, gfree 1 m2) end
  | (Some r, _) => Some (fail r, s, gfree 1 m1)
  end.
Definition user_fail (r : result) : result := ERR_USER_SPECIFIC.
(* memspace.c:512-531 and 533-548; [cap] is the capacity hwloc reports *)
Definition by_id (ids : list Z) (m : mem) (h : Z) : verdict := match lookup h m with Some (_, i) => if existsb (Z.eqb i) ids then Keep else Drop | None => Fail ERR_INVALID_ARGUMENT end.
Definition by_capacity (cap : Z -> result * Z) (least : Z) (m : mem) (h : Z) : verdict :=
  match lookup h m with Some (_, i) => match cap i with (SUCCESS, c) => if least <=? c then Keep else Drop | (r, _) => Fail r end | None => Fail ERR_INVALID_ARGUMENT end.

(* memspace.c:240-320 *)
Fixpoint best_targets (g : Z -> result * Z) (hs acc : list Z) : result * list Z :=
  match hs with
  | [] => (SUCCESS, acc)
  | h :: hs => match g h with (SUCCESS, t) => best_targets g hs (if existsb (Z.eqb t) acc then acc else acc ++ [t]) | (r, _) => (r, []) end
  end.
Definition space_select (g : Z -> result * Z) (s : space) (m : mem) : option (result * option space * mem) :=
  let '(o1, m1) := galloc (8 * len (nodes s)) m in
  if negb o1 then Some (ERR_OUT_OF_HOST_MEMORY, None, m1) else
  match best_targets g (nodes s) [] with
  | (SUCCESS, best) =>
      let '(o2, m2) := galloc 16 m1 in
      if negb o2 then Some (ERR_OUT_OF_HOST_MEMORY, None, gfree 1 m2) else
      let '(o3, m3) := galloc (8 * len best) m2 in
      if negb o3 then Some (ERR_OUT_OF_HOST_MEMORY, None, gfree 2 m3) else
      match clone_loop best [] 3 m3 with
      | None => None
      | Some (SUCCESS, hs, m4) => Some (SUCCESS, Some (Space hs true), gfree 1 m4)
      | Some (r, _, m4) => Some (r, None, m4)
      end
  | (r, _) => Some (r, None, gfree 1 m1)
  end.
(* memspaces/memspace_highest_bandwidth.c:36-59; [bw]: bandwidth from the initiator to a
   node, as query_attribute_value reports it *)
Fixpoint best_loop (bw : Z -> result * Z) (hs : list Z) (best top : Z) : result * Z :=
  match hs with
  | [] => (SUCCESS, best)
  | h :: hs => match bw h with (SUCCESS, v) => if top <? v then best_loop bw hs h v else best_loop bw hs best top | (r, _) => (r, 0) end
  end.
Definition best_bandwidth (bw : Z -> Z -> result * Z) (hs : list Z) (initiator : Z) : result * Z := best_loop (bw initiator) hs (hd 0 hs) 0.
(* memspaces/memspace_lowest_latency.c:36-59 *)
Fixpoint least_loop (lat : Z -> result * Z) (hs : list Z) (best top : Z) : result * Z :=
  match hs with
  | [] => (SUCCESS, best)
  | h :: hs => match lat h with (SUCCESS, v) => if v <? top then least_loop lat hs h v else least_loop lat hs best top | (r, _) => (r, 0) end
  end.
Definition best_latency (lat : Z -> Z -> result * Z) (hs : list Z) (initiator : Z) : result * Z := least_loop (lat initiator) hs (hd 0 hs) (U64 - 1).
(* memspaces/memspace_highest_capacity.c:33-59: if sorting fails the copy is lost *)
Definition highest_capacity (srt : list (Z * Z) -> list (Z * Z)) (prop : Z -> result * Z) (all : space) (m : mem) : option (result * option space * mem) :=
  match space_clone all m with
  | None => None
  | Some (SUCCESS, Some s, m1) =>
      match space_sort srt prop s m1 with
      | (SUCCESS, s, m2) => Some (SUCCESS, Some s, m2)
      | (r, _, m2) => Some (r, None, m2)
      end
  | Some (r, _, m1) => Some (r, None, m1)
  end.

(* ---- histories: any number of spaces; a target argument is the k-th node of the j-th
   space, as umfMemspaceMemtargetGet gives it (322-336); None: no such space or node,
   or a crash (Crashed) ---- *)
Inductive op :=
| ONew | ONuma (ids : list Z) | OClone (i : nat) | ODestroy (i : nat) | OAdd (i j k : nat) | ORemove (i j k : nat)
| OSort (i : nat) (prop : Z -> result * Z) | OFilter (i : nat) (f : Z -> verdict) | OBandwidth (i : nat) (bw : Z -> Z -> result * Z).
Inductive world := Crashed | World (spaces : list space) (m : mem).
Definition replace (i : nat) (s : space) (l : list space) : list space := firstn i l ++ s :: skipn (S i) l.
Definition push (l : list space) (o : option space) : list space := match o with Some s => l ++ [s] | None => l end.
Definition step (srt : list (Z * Z) -> list (Z * Z)) (w : list space * mem) (o : op) : world :=
  let '(ss, m) := w in
  let made (x : option (result * option space * mem)) := match x with None => Crashed | Some (_, s, m) => World (push ss s) m end in
  let changed i (x : option (result * space * mem)) := match x with None => Crashed | Some (_, s, m) => World (replace i s ss) m end in
  match o with
  | ONew => made (Some (space_new m))
  | ONuma ids => made (space_from_numa ids m)
  | OClone i => match nth_error ss i with Some s => made (space_clone s m) | None => World ss m end
  | ODestroy i => match nth_error ss i with Some s => match space_destroy s m with None => Crashed | Some m => World (firstn i ss ++ skipn (S i) ss) m end | None => World ss m end
  | OAdd i j k => match nth_error ss i, nth_error ss j with Some s, Some s' => match nth_error (nodes s') k with Some h => changed i (space_add s h m) | None => World ss m end | _, _ => World ss m end
  | ORemove i j k => match nth_error ss i, nth_error ss j with Some s, Some s' => match nth_error (nodes s') k with Some h => changed i (space_remove s h m) | None => World ss m end | _, _ => World ss m end
  | OSort i prop => match nth_error ss i with Some s => changed i (Some (space_sort srt prop s m)) | None => World ss m end
  | OFilter i f => match nth_error ss i with Some s => changed i (space_filter user_fail f s m) | None => World ss m end
  | OBandwidth i bw => match nth_error ss i with Some s => made (space_select (best_bandwidth bw (nodes s)) s m) | None => World ss m end
  end.
Fixpoint run (srt : list (Z * Z) -> list (Z * Z)) (w : list space * mem) (os : list op) : world :=
  match os with [] => World (fst w) (snd w) | o :: os => match step srt w o with Crashed => Crashed | World ss m => run srt (ss, m) os end end.
