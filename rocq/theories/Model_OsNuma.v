(* Model of the NUMA binding of the OS memory provider
   (src/provider/provider_os_memory.c): checking and translating the parameters
   and the iterator that produces the bind calls of one allocation.

   Simplifications that hold for the whole file:
   - A bitmap of hwloc is the list of its members, a set (order and repetition
     do not matter).
   - Allocations of bitmaps and of the partition table succeed.
   - The outcome None is undefined behaviour (access past the partition table,
     division by zero), a failed assert, or a loop that does not end. *)
From Verif Require Import Base Model_Utils.

(* include/umf/providers/provider_os_memory.h: umf_numa_mode_t *)
Inductive mode := M_DEFAULT | M_BIND | M_INTERLEAVE | M_PREFERRED | M_SPLIT | M_LOCAL.
Definition mode_eqb (a b : mode) : bool :=
  match a, b with
  | M_DEFAULT, M_DEFAULT | M_BIND, M_BIND | M_INTERLEAVE, M_INTERLEAVE
  | M_PREFERRED, M_PREFERRED | M_SPLIT, M_SPLIT | M_LOCAL, M_LOCAL => true
  | _, _ => false
  end.
(* provider_os_memory.c:108-133, the NUMA part: numa_list, numa_mode, part_size,
   partitions (weight, target) *)
Record params := Params { q_nodes : list Z; q_mode : mode; q_part : Z; q_parts : list (Z * Z) }.

(* provider_os_memory.c:333-357; true: success *)
Definition validate_numa_mode (m : mode) (empty : bool) : bool :=
  match m with
  | M_DEFAULT | M_LOCAL => empty
  | M_BIND | M_INTERLEAVE | M_SPLIT => negb empty
  | M_PREFERRED => true
  end.
(* provider_os_memory.c:505-531 *)
Definition validatePartitions (q : params) : bool :=
  forallb (fun x => negb (fst x =? 0) && existsb (fun n => n =? snd x) (q_nodes q)) (q_parts q).
(* provider_os_memory.c:536-547 *)
Definition validatePartSize (page : Z) (q : params) : bool := negb (ALIGN_UP (q_part q) page <? q_part q).
(* provider_os_memory.c:385-393 *)
Definition dedicated_node_bind (q : params) : bool :=
  match q_mode q with M_INTERLEAVE => 0 <? q_part q | M_SPLIT => true | _ => false end.
(* provider_os_memory.c:359-381: whether the policy is HWLOC_MEMBIND_DEFAULT, in
   which case os_alloc binds nothing.  The kind of the other policies and the
   flags (395-406) are left out. *)
Definition policy_default (m : mode) : bool := match m with M_DEFAULT => true | _ => false end.

(* provider_os_memory_internal.h:51-68 *)
Record numa := Numa { nu_mode : mode; nu_nodeset : list (list Z); nu_part : Z; nu_sum : Z; nu_parts : list (Z * list Z); nu_wsum : Z }.

(* provider_os_memory.c:270-331; [all]: the complete nodeset of the machine *)
Definition initialize_nodeset (all nodes : list Z) (separate : bool) : list (list Z) :=
  match nodes with
  | [] => [all]
  | _ => if separate then map (fun n => [n]) nodes else [nodes]
  end.
(* provider_os_memory.c:583-591: the first entry of numa_list that equals the
   target; without one the entry would stay uninitialised *)
Fixpoint find_target (nodes : list Z) (ns : list (list Z)) (t : Z) : option (list Z) :=
  match nodes, ns with
  | n :: nodes', s :: ns' => if n =? t then Some s else find_target nodes' ns' t
  | _, _ => None
  end.
Fixpoint fill_parts (nodes : list Z) (ns : list (list Z)) (ps : list (Z * Z)) : option (list (Z * list Z)) :=
  match ps with
  | [] => Some []
  | (w, t) :: r =>
      match find_target nodes ns t, fill_parts nodes ns r with
      | Some s, Some l => Some ((w, s) :: l)
      | _, _ => None
      end
  end.
(* provider_os_memory.c:556-597: the table and partitions_weight_sum *)
Definition initializePartitions (q : params) (ns : list (list Z)) : option (list (Z * list Z) * Z) :=
  match q_mode q with
  | M_SPLIT =>
      match q_parts q with
      | [] => Some (map (fun s => (1, s)) (firstn (length (q_nodes q)) ns), Z.of_nat (length (q_nodes q)))
      | _ =>
          match fill_parts (q_nodes q) ns (q_parts q) with
          | Some l => Some (l, fold_left (fun a x => wrap (a + fst x)) (q_parts q) 0)
          | None => None
          end
      end
  | _ => Some ([], 0)
  end.
(* provider_os_memory.c:599-665 from the NUMA configuration on *)
Definition translate_params (page : Z) (all : list Z) (q : params) : option (result * option numa) :=
  if negb (validate_numa_mode (q_mode q) (match q_nodes q with [] => true | _ => false end)) then Some (ERR_INVALID_ARGUMENT, None)
  else if negb (validatePartitions q) then Some (ERR_INVALID_ARGUMENT, None)
  else if mode_eqb (q_mode q) M_INTERLEAVE && negb (validatePartSize page q) then Some (ERR_INVALID_ARGUMENT, None)
  else
    let ns := initialize_nodeset all (q_nodes q) (dedicated_node_bind q) in
    match initializePartitions q ns with
    | None => None
    | Some (ps, w) => Some (SUCCESS, Some (Numa (q_mode q) ns (q_part q) 0 ps w))
    end.

(* provider_os_memory.c:909-935 *)
Record membind := Membind { mb_set : list Z; mb_bind : Z; mb_addr : Z; mb_alloc : Z; mb_node : nat; mb_page : Z; mb_rest : Z; mb_pages : Z; mb_left : Z }.

(* provider_os_memory.c:966-993, the while loop: node, bind, rest, bitmap and
   bind_border_page after it.  The loop visits each node at most once. *)
Fixpoint bind_loop (fuel : nat) (ps : list (Z * list Z)) (W pages : Z) (node : nat) (rest : Z) (bm : list Z) (border : bool) : option (nat * Z * Z * list Z * bool) :=
  match fuel with
  | O => None
  | S f =>
      match nth_error ps node with
      | None => None
      | Some (w, t) =>
          if W =? 0 then None
          else
            let bind := wrap (pages * w) / W in
            let rest' := wrap (rest + wrap (pages * w) mod W) in
            let carry := W <=? rest' in
            let bind' := if carry then wrap (bind + 1) else bind in
            let rest'' := if carry then rest' - W else rest' in
            let bm' := bm ++ t in
            if bind' =? 0 then bind_loop f ps W pages (S node) rest'' bm' true
            else Some (node, bind', rest'', bm', border)
      end
  end.
(* provider_os_memory.c:938-1012 *)
Definition nextBind (u : numa) (m : membind) : option membind :=
  let ps := nu_parts u in
  if Nat.eqb (mb_node m) (length ps) then
    if mb_alloc m =? 0 then Some m else None
  else
    match nth_error ps (mb_node m) with
    | None => None
    | Some (_, t) =>
        let here := negb (mb_left m =? 0) in
        let split_page := negb here && negb (mb_rest m =? 0) in
        let bm := if here || split_page then t else [] in
        let node := if split_page then S (mb_node m) else mb_node m in
        let after :=
          if here then Some (node, mb_left m, mb_rest m, bm, false)
          else bind_loop (S (length ps)) ps (nu_wsum u) (mb_pages m) node (mb_rest m) bm split_page in
        match after with
        | None => None
        | Some (node', bind, rest, bm', border) =>
            let bsize := if border then mb_page m else wrap (mb_page m * bind) in
            let left := if border then bind - 1 else 0 in
            let node'' := if (rest =? 0) && (left =? 0) then S node' else node' in
            Some (Membind bm' bsize (mb_addr m) (mb_alloc m) node'' (mb_page m) rest (mb_pages m) left)
        end
    end.

(* provider_os_memory.c:1029-1035 and 1066-1074 *)
Definition interleave_bind (u : numa) (page alloc : Z) : Z :=
  let b := ALIGN_UP (nu_part u) page in
  if alloc <? b then alloc else b.
Definition nth_set (u : numa) (i : Z) : option (list Z) := nth_error (nu_nodeset u) (Z.to_nat i).
Definition set_sum (u : numa) (s : Z) : numa := Numa (nu_mode u) (nu_nodeset u) (nu_part u) s (nu_parts u) (nu_wsum u).
(* provider_os_memory.c:1015-1052 *)
Definition membindFirst (u : numa) (addr size page : Z) : option (membind * numa) :=
  let pages := size / page in
  match nu_nodeset u with
  | [s] => Some (Membind s size addr size 0 page 0 pages 0, u)
  | _ =>
      match nu_mode u with
      | M_INTERLEAVE =>
          if nu_part u =? 0 then None
          else
            let node := nu_sum u / nu_part u mod Z.of_nat (length (nu_nodeset u)) in
            match nth_set u node with
            | None => None
            | Some s => Some (Membind s (interleave_bind u page size) addr size (Z.to_nat node) page 0 pages 0, set_sum u (wrap (nu_sum u + size)))
            end
      | M_SPLIT =>
          match nextBind u (Membind [] 0 addr size 0 page 0 pages 0) with
          | Some m => Some (m, u)
          | None => None
          end
      | _ => None
      end
  end.
(* provider_os_memory.c:1054-1081 *)
Definition membindNext (u : numa) (m : membind) : option membind :=
  let alloc := wrap (mb_alloc m - mb_bind m) in
  let addr := mb_addr m + mb_bind m in
  if alloc =? 0 then Some (Membind (mb_set m) 0 addr 0 (mb_node m) (mb_page m) (mb_rest m) (mb_pages m) (mb_left m))
  else
    match nu_nodeset u with
    | [_] => None
    | _ =>
        match nu_mode u with
        | M_INTERLEAVE =>
            let node := Z.of_nat (S (mb_node m)) mod Z.of_nat (length (nu_nodeset u)) in
            match nth_set u node with
            | None => None
            | Some s => Some (Membind s (interleave_bind u (mb_page m) alloc) addr alloc (Z.to_nat node) (mb_page m) (mb_rest m) (mb_pages m) (mb_left m))
            end
        | M_SPLIT => nextBind u (Membind (mb_set m) (mb_bind m) addr alloc (mb_node m) (mb_page m) (mb_rest m) (mb_pages m) (mb_left m))
        | _ => None
        end
    end.

(* one call of hwloc_set_area_membind: address, length, nodes *)
Record bind_call := Bind { c_addr : Z; c_len : Z; c_nodes : list Z }.
(* provider_os_memory.c:1139-1163: the calls of the do-while loop if every one of
   them succeeds (or is not implemented) *)
Fixpoint bind_calls (fuel : nat) (u : numa) (m : membind) : option (list bind_call) :=
  match fuel with
  | O => None
  | S f =>
      let c := Bind (mb_addr m) (mb_bind m) (mb_set m) in
      match membindNext u m with
      | None => None
      | Some m' =>
          if 0 <? mb_alloc m' then match bind_calls f u m' with Some l => Some (c :: l) | None => None end
          else Some [c]
      end
  end.
(* provider_os_memory.c:1127-1163 for a size that is a positive multiple of the
   page size: the bind calls and the state after them.  Every call binds at
   least one page, which bounds their number. *)
Definition os_bind (u : numa) (addr size page : Z) : option (list bind_call * numa) :=
  if policy_default (nu_mode u) then Some ([], u)
  else
    match membindFirst u addr size page with
    | None => None
    | Some (m, u') =>
        match bind_calls (S (Z.to_nat (size / page))) u' m with
        | Some l => Some (l, u')
        | None => None
        end
    end.
