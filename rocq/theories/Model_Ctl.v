(* Model of the control interface (src/ctl/ctl.c), of the trees it is used with, and of
   the public entry points umfCtlGet, umfCtlSet, umfCtlExec.

   Simplifications that hold for the whole file:
   - Memory allocation succeeds; errno is left out.
   - Strings are lists of characters without NUL.  The trees are values; an array of
     nodes ends at its terminator, and a missing array (NULL) is None.
   - A callback is a number; what it returns is an oracle that may depend on the calls
     made before. *)
From Coq Require Export Ascii String.
From Verif Require Import Base.
Definition str := list ascii.
Definition s_ (s : string) : str := list_ascii_of_string s.
Definition aeqb (a b : ascii) : bool := Ascii.eqb a b.
Fixpoint seqb (a b : str) : bool := match a, b with [], [] => true | x :: a, y :: b => aeqb x y && seqb a b | _, _ => false end.

(* strtok_r called until it gives NULL, with one separator: the tokens, with their
   offsets in the string *)
Definition flush (i : Z) (cur : str) : list (Z * str) := match cur with [] => [] | _ => [(i - Z.of_nat (List.length cur), List.rev cur)] end.
Fixpoint toks (sep : ascii) (s : str) (i : Z) (cur : str) : list (Z * str) :=
  match s with
  | [] => flush i cur
  | c :: s => if aeqb c sep then flush i cur ++ toks sep s (i + 1) [] else toks sep s (i + 1) (c :: cur)
  end.
Definition tokens (sep : ascii) (s : str) : list (Z * str) := toks sep s 0 [].

(* strtol and strtoll with base 0: value, or None if no digits; clamped to 64 bits with
   a flag (ERANGE) *)
Definition code (c : ascii) : Z := Z.of_nat (nat_of_ascii c).
Definition is_space (c : ascii) : bool := (code c =? 32) || ((9 <=? code c) && (code c <=? 13)).
Fixpoint skip_space (s : str) : str := match s with c :: r => if is_space c then skip_space r else s | [] => [] end.
Definition digit (c : ascii) : Z :=
  let v := code c in
  if (48 <=? v) && (v <=? 57) then v - 48 else if (97 <=? v) && (v <=? 122) then v - 87 else if (65 <=? v) && (v <=? 90) then v - 55 else 99.
Fixpoint digits (base : Z) (s : str) (acc : Z) : Z := match s with c :: r => if digit c <? base then digits base r (acc * base + digit c) else acc | [] => acc end.
Definition starts (base : Z) (s : str) : bool := match s with c :: _ => digit c <? base | [] => false end.
Definition magnitude (s : str) : option Z :=
  match s with
  | z :: x :: r => if aeqb z "0" && (aeqb x "x" || aeqb x "X") && starts 16 r then Some (digits 16 r 0)
                   else if aeqb z "0" then Some (digits 8 s 0) else if starts 10 s then Some (digits 10 s 0) else None
  | _ => if starts 10 s then Some (digits 10 s 0) else None
  end.
Definition signed (s : str) : bool * str := match s with c :: r => if aeqb c "-" then (true, r) else if aeqb c "+" then (false, r) else (false, s) | [] => (false, []) end.
Definition strtoll (s : str) : option (Z * bool) :=
  let '(neg, s) := signed (skip_space s) in
  match magnitude s with
  | None => None
  | Some m =>
      let v := if neg then - m else m in
      Some (if v <? - 2 ^ 63 then (- 2 ^ 63, true) else if 2 ^ 63 - 1 <? v then (2 ^ 63 - 1, true) else (v, false))
  end.

(* ctl.h:47-99: types of nodes and queries, argument descriptions *)
Inductive ntype := Named | Leaf | Indexed | Subtree.
Inductive qtype := QRead | QWrite | QRunnable | QSubtree.
Inductive parser := PBool | PInt (size : Z) | PStr (size : Z).
Inductive node := Node (name : str) (ty : ntype) (cb : qtype -> option Z) (arg : list parser) (children : option (list node)).
Definition n_name n := match n with Node x _ _ _ _ => x end.
Definition n_type n := match n with Node _ x _ _ _ => x end.
Definition n_cb n := match n with Node _ _ x _ _ => x end.
Definition n_arg n := match n with Node _ _ _ x _ => x end.
Definition n_children n := match n with Node _ _ _ _ x => x end.

(* ctl.c:122-193.  Crash: nodes == NULL is dereferenced.  The third component of the
   result: the index entries put on the local list, latest first. *)
Inductive found := Found (n : node) (off : Z) | Missing | Crash.
Definition fits (index : option Z) (t : str) (n : node) : bool :=
  match index, n_type n with Some _, Indexed => true | _, _ => seqb (n_name n) t end.
Fixpoint find_loop (nodes : option (list node)) (n : option node) (off : Z) (ts : list (Z * str)) (ix : list (str * Z)) : found * list (str * Z) :=
  match ts with
  | [] => (match n with Some n => Found n off | None => Missing end, ix)
  | (o, t) :: ts =>
      match match n with Some m => match n_type m with Subtree => Some m | _ => None end | None => None end with
      | Some m => (Found m o, ix)
      | None =>
          match nodes with
          | None => (Crash, ix)
          | Some ns =>
              let index := match strtoll t with Some (v, _) => Some v | None => None end in
              match List.find (fits index t) ns with
              | None => (Missing, ix)
              | Some m => find_loop (n_children m) (Some m) o ts (match index with Some v => (n_name m, v) :: ix | None => ix end)
              end
          end
      end
  end.
Definition find_node (nodes : list node) (name : str) : found * list (str * Z) := find_loop (Some nodes) None 0 (tokens "." name) [].

(* ctl.c:605-686: argument parsers *)
Inductive value := VInt (v : Z) | VStr (s : str).
Definition lower (c : ascii) : Z := let v := code c in if (65 <=? v) && (v <=? 90) then v + 32 else v.
Definition parse_one (p : parser) (t : str) : option value :=
  match p with
  | PBool =>
      match t with
      | c :: _ => if (lower c =? 121) || aeqb c "1" then Some (VInt 1) else if (lower c =? 110) || aeqb c "0" then Some (VInt 0) else None
      | [] => None
      end
  | PInt size =>
      match strtoll t with
      | None | Some (_, true) => None
      | Some (v, false) =>
          if v =? - 2 ^ 63 then None
          else if size =? 4 then if (2 ^ 31 - 1 <? v) || (v <? - 2 ^ 31) then None else Some (VInt v)
          else if size =? 8 then Some (VInt v)
          else if size =? 1 then if (255 <? v) || (v <? 0) then None else Some (VInt v)
          else None
      end
  | PStr size => if Z.of_nat (List.length t) <? size then Some (VStr t) else None
  end.
(* ctl.c:216-247 *)
Fixpoint parse_all (ps : list parser) (ts : list str) : option (list value) :=
  match ps with
  | [] => Some []
  | p :: ps =>
      match ts with
      | [] => None
      | t :: ts => match parse_one p t with None => None | Some v => match parse_all ps ts with None => None | Some vs => Some (v :: vs) end end
      end
  end.
Definition parse_args (ps : list parser) (s : str) : option (list value) := parse_all ps (map snd (tokens "," s)).

(* source and argument of a query: from the program (a pointer or NULL) or from a
   configuration (a string) *)
Inductive arg := APtr (p : option Z) | AText (s : str) | AValues (vs : list value).
(* a call of a callback: callback, argument, names and values of the indexes it can
   see, name left over, type of the query *)
Record cbcall := CbCall { c_id : Z; c_arg : arg; c_ix : list (str * Z); c_extra : option str; c_type : option qtype }.
Inductive answer := ACrash | Ans (r : Z) (log : list cbcall).
Definition handlers := list cbcall -> cbcall -> Z.

(* ctl.c:295-368: the four kinds of execution *)
Definition run_cb (h : handlers) (past : list cbcall) (c : cbcall) : answer := Ans (h past c) [c].
Definition exec_query (h : handlers) (past : list cbcall) (n : node) (cb : Z) (a : arg) (ix : list (str * Z)) (extra : str) (kind ty : qtype) : answer :=
  match kind with
  | QRead => match a with APtr None => Ans (-1) [] | _ => run_cb h past (CbCall cb a ix None None) end
  | QWrite =>
      match a with
      | APtr None => Ans (-1) []
      | AText s => match parse_args (n_arg n) s with None => Ans (-1) [] | Some vs => run_cb h past (CbCall cb (AValues vs) ix None None) end
      | _ => run_cb h past (CbCall cb a ix None None)
      end
  | QRunnable => run_cb h past (CbCall cb a ix None None)
  | QSubtree => run_cb h past (CbCall cb a ix (Some extra) (Some ty))
  end.
(* ctl.c:382-428.  [indexes] is passed by value: what ctl_find_node prepends is not seen
   by the callback, which gets the zeroed entry of ctl.c:396, or NULL after the second
   search. *)
Definition zero_entry : str * Z := ([], 0).
Definition query (globals : list node) (ctl : option (list node)) (h : handlers) (past : list cbcall) (a : arg) (name : str) (ty : qtype) : answer :=
  let '(f, ix) := match find_node globals name, ctl with
                  | (Missing, _), Some root => (fst (find_node root name), [])
                  | (f, _), _ => (f, [zero_entry])
                  end in
  match f with
  | Crash => ACrash
  | Missing => Ans (-1) []
  | Found n off =>
      let kind := match n_type n with Subtree => QSubtree | _ => ty end in
      match n_type n, n_cb n kind with
      | (Leaf | Subtree), Some cb => exec_query h past n cb a ix (skipn (Z.to_nat off) name) kind ty
      | _, _ => Ans (-1) []
      end
  end.

(* ctl.c:448-471 *)
Definition parse_query (q : str) : option (str * str) :=
  match map snd (tokens "=" q) with [n; v] => Some (n, v) | _ => None end.
(* ctl.c:476-500; [ctx]: ctx != NULL *)
Fixpoint load_loop (globals : list node) (ctl : option (list node)) (h : handlers) (ctx : bool) (past : list cbcall) (qs : list str) : answer :=
  match qs with
  | [] => Ans 0 past
  | q :: qs =>
      match parse_query q with
      | None => Ans (-1) past
      | Some (n, v) =>
          match query globals ctl h past (AText v) n QWrite with
          | ACrash => ACrash
          | Ans r log => if (r <? 0) && ctx then Ans (-1) (past ++ log) else load_loop globals ctl h ctx (past ++ log) qs
          end
      end
  end.
Definition load_config (globals : list node) (ctl : option (list node)) (h : handlers) (ctx : bool) (buf : str) : answer :=
  load_loop globals ctl h ctx [] (map snd (tokens ";" buf)).
(* ctl.c:561-575: comments and white space of a configuration file *)
Fixpoint sanitize (s : str) (comment : bool) : str :=
  match s with
  | [] => []
  | c :: s =>
      if aeqb c "#" then sanitize s true
      else if code c =? 10 then sanitize s false
      else if negb comment && negb (is_space c) then c :: sanitize s comment else sanitize s comment
  end.
(* ctl.c:518-588; [file]: the content, None if it cannot be opened or measured; a NUL in
   it ends the text.  [room]: memory for the buffer. *)
Fixpoint c_string (s : str) : str := match s with [] => [] | c :: s => if code c =? 0 then [] else c :: c_string s end.
Definition MAX_CONFIG_FILE_LEN : Z := 2 ^ 20.
Definition load_file (globals : list node) (ctl : option (list node)) (h : handlers) (ctx room : bool) (file : option str) : answer :=
  match file with
  | None => Ans (-1) []
  | Some s => if (MAX_CONFIG_FILE_LEN <? Z.of_nat (List.length s)) || negb room then Ans (-1) []
              else load_config globals ctl h ctx (c_string (sanitize s false))
  end.

(* ---- the trees of the library ---- *)
Definition only (q : qtype) (cb : Z) : qtype -> option Z :=
  fun q' => match q, q' with QRead, QRead | QWrite, QWrite | QRunnable, QRunnable | QSubtree, QSubtree => Some cb | _, _ => None end.
Definition none : qtype -> option Z := fun _ => None.
Definition leaf_ro (n : string) (cb : Z) := Node (s_ n) Leaf (only QRead cb) [] None.
Definition leaf_run (n : string) (cb : Z) := Node (s_ n) Leaf (only QRunnable cb) [] None.
Definition child (n : string) (ns : list node) := Node (s_ n) Named none [] (Some ns).
(* libumf.c:30-31, memory_provider.c:35-36, memory_pool.c:38-39 *)
Definition global_tree : list node :=
  [child "umf" [child "provider" [Node (s_ "by_handle") Subtree (only QSubtree 1) [] None]; child "pool" [Node (s_ "by_handle") Subtree (only QSubtree 2) [] None]]].
(* provider_os_memory.c:252-263 *)
Definition os_tree : list node :=
  [child "params" [leaf_ro "ipc_enabled" 10]; child "stats" [leaf_ro "allocated_memory" 11; leaf_ro "peak_memory" 12; leaf_run "reset" 13]].

(* ctl.c:82-113 on an OS provider: the callback by_handle (memory_provider.c:24-33)
   passes the query on (provider_os_memory.c:1531-1538) and returns 0 whatever comes of
   it.  [inner]: the callbacks of the provider.  A callback of the global tree that is
   reached from within would take the provider's private data for a handle: a crash. *)
Inductive api := ApiCrash | Api (r : result) (log : list cbcall).
Definition umf_ctl (inner : handlers) (ty : qtype) (name : option str) (ctx : bool) (p : option Z) : api :=
  match name, p, ctx with
  | Some name, Some _, true =>
      match query global_tree None (fun _ _ => 0) [] (APtr p) name ty with
      | ACrash => ApiCrash
      | Ans r log =>
          let out := if r =? 0 then SUCCESS else ERR_UNKNOWN in
          match log with
          | [CbCall 1 a _ (Some extra) (Some ty')] =>
              match query global_tree (Some os_tree) inner [] a extra ty' with
              | ACrash => ApiCrash
              | Ans _ log' => if existsb (fun c => c_id c <? 10) log' then ApiCrash else Api out log'
              end
          | _ => Api out []
          end
      end
  | _, _, _ => Api ERR_INVALID_ARGUMENT []
  end.
