(* Model of the front end of memory providers (src/memory_provider.c): creation from
   a table of operations, argument checks, the calls handed to the provider, and
   the last failed provider of a thread.

   Simplifications that hold for the whole file:
   - Handles, pointers and output parameters are addresses; 0 is NULL.
   - What the provider's own function does is an oracle: its result.
   - The version check (194-198) only logs; libumfInit does nothing on Linux.
   - Calling a NULL function pointer is the outcome None. *)
From Verif Require Import Base.

(* memory_provider_ops.h: the operations a provider may implement *)
Inductive op :=
| OInitialize | OFinalize | OAlloc | OFree | OLastError | ORecommended | OMinPage | OName
| OLazy | OForce | OSplit | OMerge
| OIpcSize | OIpcGet | OIpcPut | OIpcOpen | OIpcClose | OCtl.
(* a function pointer: NULL, the provider's, or one of the defaults of 38-120 *)
Inductive slot := Null | User | Default.
Definition ops := op -> slot.
Definition is_set (s : slot) : bool := match s with Null => false | _ => true end.

(* 158-163 *)
Definition validateOpsMandatory (o : ops) : bool :=
  is_set (o OAlloc) && is_set (o OFree) && is_set (o ORecommended) && is_set (o OMinPage) && is_set (o OInitialize) && is_set (o OFinalize) &&
  is_set (o OLastError) && is_set (o OName).
(* 165-169 *)
Definition validateOpsExt (o : ops) : bool :=
  (is_set (o OSplit) && is_set (o OMerge)) || (negb (is_set (o OSplit)) && negb (is_set (o OMerge))).
(* 171-179 *)
Definition validateOpsIpc (o : ops) : bool :=
  (is_set (o OIpcSize) && is_set (o OIpcGet) && is_set (o OIpcPut) && is_set (o OIpcOpen) && is_set (o OIpcClose)) ||
  (negb (is_set (o OIpcSize)) && negb (is_set (o OIpcGet)) && negb (is_set (o OIpcPut)) && negb (is_set (o OIpcOpen)) && negb (is_set (o OIpcClose))).
(* 181-184 *)
Definition validateOps (o : ops) : bool := validateOpsMandatory o && validateOpsExt o && validateOpsIpc o.

Definition op_eq_dec (a b : op) : {a = b} + {a <> b}.
Proof. decide equality. Defined.
Definition if_null (o : ops) (x : op) : ops := fun y => if op_eq_dec x y then match o y with Null => Default | s => s end else o y.
(* 122-135 *)
Definition assignOpsExtDefaults (o : ops) : ops := if_null (if_null (if_null (if_null o OLazy) OForce) OSplit) OMerge.
(* 137-156 *)
Definition assignOpsIpcDefaults (o : ops) : ops := if_null (if_null (if_null (if_null (if_null (if_null o OIpcSize) OIpcGet) OIpcPut) OIpcOpen) OIpcClose) OCtl.

(* what happens outside: memory of the handle; a call of the provider's function *)
Inductive effect := HandleAlloc | HandleFree | Up (x : op) (args : list Z).

(* 186-223.  [o]: None is a NULL table; [out]: hProvider; [mem]: the handle can be
   allocated; [r]: result of initialize.  The code, the effects, and the table of the
   new provider. *)
Definition umfMemoryProviderCreate (o : option ops) (params out : Z) (mem : bool) (r : result) : option (result * list effect * option ops) :=
  match o with
  | None => Some (ERR_INVALID_ARGUMENT, [], None)
  | Some o =>
      if (out =? 0) || negb (validateOps o) then Some (ERR_INVALID_ARGUMENT, [], None)
      else if negb mem then Some (ERR_OUT_OF_HOST_MEMORY, [], None)
      else
        match o OInitialize with
        | Null => None
        | _ =>
            match r with
            | SUCCESS => Some (SUCCESS, [HandleAlloc; Up OInitialize [params]], Some (assignOpsIpcDefaults (assignOpsExtDefaults o)))
            | e => Some (e, [HandleAlloc; Up OInitialize [params]; HandleFree], None)
            end
        end
  end.
(* 225-230 *)
Definition umfMemoryProviderDestroy (h : Z) (o : ops) : option (list effect) :=
  if h =? 0 then Some [] else match o OFinalize with Null => None | _ => Some [Up OFinalize []; HandleFree] end.

(* the calls of 240-402 *)
Inductive pcall :=
| PAlloc (h size alignment out : Z) | PFree (h ptr size : Z)
| PRecommended (h size out : Z) | PMinPage (h ptr out : Z)
| PLazy (h ptr size : Z) | PForce (h ptr size : Z)
| PSplit (h ptr total first : Z) | PMerge (h low high total : Z)
| PIpcSize (h out : Z) | PIpcGet (h ptr size data : Z) | PIpcPut (h data : Z) | PIpcOpen (h data out : Z) | PIpcClose (h ptr size : Z).

(* One function of the table: [tab h] is the table of provider h, [r] what the
   provider's function returns.  A default (38-120) returns NOT_SUPPORTED. *)
Definition invoke (tab : Z -> ops) (h : Z) (x : op) (args : list Z) (r : result) : option (result * list (Z * op * list Z)) :=
  match tab h x with
  | Null => None
  | User => Some (r, [(h, x, args)])
  | Default => Some (ERR_NOT_SUPPORTED, [])
  end.
(* 232-238; [last]: the thread's last failed provider *)
Definition checkErrorAndSetLastProvider (r : result) (h last : Z) : Z := match r with SUCCESS => last | _ => h end.
Definition checked (tab : Z -> ops) (h : Z) (x : op) (args : list Z) (r : result) (last : Z) : option (result * list (Z * op * list Z) * Z) :=
  match invoke tab h x args r with Some (e, up) => Some (e, up, checkErrorAndSetLastProvider e h last) | None => None end.
Definition unchecked (tab : Z -> ops) (h : Z) (x : op) (args : list Z) (r : result) (last : Z) : option (result * list (Z * op * list Z) * Z) :=
  match invoke tab h x args r with Some (e, up) => Some (e, up, last) | None => None end.
Definition refuse (last : Z) : option (result * list (Z * op * list Z) * Z) := Some (ERR_INVALID_ARGUMENT, [], last).

(* 240-402: code, calls of the provider's functions, last failed provider *)
Definition api (tab : Z -> ops) (last : Z) (k : pcall) (r : result) : option (result * list (Z * op * list Z) * Z) :=
  match k with
  | PAlloc h size al out => (* 240-248 *)
      if h =? 0 then refuse last else if out =? 0 then refuse last else checked tab h OAlloc [size; al; out] r last
  | PFree h ptr size => (* 250-256 *)
      if h =? 0 then refuse last else checked tab h OFree [ptr; size] r last
  | PRecommended h size out => (* 271-280 *)
      if h =? 0 then refuse last else if out =? 0 then refuse last else checked tab h ORecommended [size; out] r last
  | PMinPage h ptr out => (* 282-291 *)
      if h =? 0 then refuse last else if out =? 0 then refuse last else checked tab h OMinPage [ptr; out] r last
  | PLazy h ptr size => (* 298-306 *)
      if h =? 0 then refuse last else if ptr =? 0 then refuse last else checked tab h OLazy [ptr; size] r last
  | PForce h ptr size => (* 308-316 *)
      if h =? 0 then refuse last else if ptr =? 0 then refuse last else checked tab h OForce [ptr; size] r last
  | PSplit h ptr total first => (* 322-336 *)
      if h =? 0 then refuse last else if ptr =? 0 then refuse last
      else if (first =? 0) || (total =? 0) then refuse last else if total <=? first then refuse last
      else checked tab h OSplit [ptr; total; first] r last
  | PMerge h low high total => (* 338-354 *)
      if h =? 0 then refuse last else if (low =? 0) || (high =? 0) then refuse last
      else if total =? 0 then refuse last else if high <=? low then refuse last
      else if total <=? wrap (high - low) then refuse last
      else checked tab h OMerge [low; high; total] r last
  | PIpcSize h out => (* 356-363 *)
      if h =? 0 then refuse last else if out =? 0 then refuse last else unchecked tab h OIpcSize [out] r last
  | PIpcGet h ptr size data => (* 365-374 *)
      if h =? 0 then refuse last else if ptr =? 0 then refuse last else if data =? 0 then refuse last else unchecked tab h OIpcGet [ptr; size; data] r last
  | PIpcPut h data => (* 376-383 *)
      if h =? 0 then refuse last else if data =? 0 then refuse last else unchecked tab h OIpcPut [data] r last
  | PIpcOpen h data out => (* 385-393 *)
      if h =? 0 then refuse last else if data =? 0 then refuse last else if out =? 0 then refuse last else unchecked tab h OIpcOpen [data; out] r last
  | PIpcClose h ptr size => (* 395-402 *)
      if h =? 0 then refuse last else if ptr =? 0 then refuse last else unchecked tab h OIpcClose [ptr; size] r last
  end.

(* Calls by several threads, each with its own last failed provider (318-320, a
   thread-local variable of memory_provider_get_last_failed.c): the replies, the calls the providers received, and the
   variables. *)
Fixpoint serve (tab : Z -> ops) (last : nat -> Z) (l : list (nat * pcall * result)) : option (list result * list (Z * op * list Z) * (nat -> Z)) :=
  match l with
  | [] => Some ([], [], last)
  | (t, k, r) :: rest =>
      match api tab (last t) k r with
      | None => None
      | Some (e, up, z) =>
          match serve tab (fun u => if Nat.eqb u t then z else last u) rest with
          | None => None
          | Some (es, ups, last') => Some (e :: es, up ++ ups, last')
          end
      end
  end.
