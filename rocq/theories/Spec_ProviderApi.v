(* Specification of the front end of memory providers. *)
From Verif Require Import Base Model_ProviderApi.

(* A usable table: everything mandatory; splitting and merging only together; the IPC
   functions only together. *)
Definition mandatory (x : op) : Prop := match x with OInitialize | OFinalize | OAlloc | OFree | OLastError | ORecommended | OMinPage | OName => True | _ => False end.
Definition ipc (x : op) : Prop := match x with OIpcSize | OIpcGet | OIpcPut | OIpcOpen | OIpcClose => True | _ => False end.
Definition usable (o : ops) : Prop :=
  (forall x, mandatory x -> o x <> Null) /\ (o OSplit = Null <-> o OMerge = Null) /\ (forall x y, ipc x -> ipc y -> o x = Null -> o y = Null).

(* what a call asks of which provider *)
Definition request (k : pcall) : Z * op * list Z :=
  match k with
  | PAlloc h a b c => (h, OAlloc, [a; b; c]) | PFree h a b => (h, OFree, [a; b]) | PRecommended h a b => (h, ORecommended, [a; b]) | PMinPage h a b => (h, OMinPage, [a; b])
  | PLazy h a b => (h, OLazy, [a; b]) | PForce h a b => (h, OForce, [a; b]) | PSplit h a b c => (h, OSplit, [a; b; c]) | PMerge h a b c => (h, OMerge, [a; b; c])
  | PIpcSize h a => (h, OIpcSize, [a]) | PIpcGet h a b c => (h, OIpcGet, [a; b; c]) | PIpcPut h a => (h, OIpcPut, [a]) | PIpcOpen h a b => (h, OIpcOpen, [a; b]) | PIpcClose h a b => (h, OIpcClose, [a; b])
  end.
Definition target (k : pcall) : Z := fst (fst (request k)).
Definition wanted (k : pcall) : op := snd (fst (request k)).
(* arguments are machine words *)
Definition words (k : pcall) : Prop := is_word (target k) /\ forall x, In x (snd (request k)) -> is_word x.

(* the arguments a call needs *)
Definition acceptable (k : pcall) : Prop :=
  target k <> 0 /\
  match k with
  | PAlloc _ _ _ out | PRecommended _ _ out | PMinPage _ _ out | PIpcSize _ out => out <> 0
  | PFree _ _ _ => True
  | PLazy _ ptr _ | PForce _ ptr _ | PIpcClose _ ptr _ => ptr <> 0
  | PSplit _ ptr total first => ptr <> 0 /\ 0 < first < total
  | PMerge _ low high total => 0 < low < high /\ high < low + total
  | PIpcGet _ ptr _ data => ptr <> 0 /\ data <> 0
  | PIpcPut _ data => data <> 0
  | PIpcOpen _ data out => data <> 0 /\ out <> 0
  end.

(* providers created by umfMemoryProviderCreate *)
Definition created (o : ops) : Prop := exists u params out mem r eff, umfMemoryProviderCreate u params out mem r = Some (SUCCESS, eff, Some o) .

(* the reply a caller may expect; r: what the provider's function returns *)
Definition expected (tab : Z -> ops) (k : pcall) (r e : result) : Prop :=
  (~ acceptable k -> e = ERR_INVALID_ARGUMENT) /\
  (acceptable k -> tab (target k) (wanted k) = User -> e = r) /\
  (acceptable k -> tab (target k) (wanted k) <> User -> e = ERR_NOT_SUPPORTED).
Definition reaches (tab : Z -> ops) (k : pcall) : Prop := acceptable k /\ tab (target k) (wanted k) = User.

(* the calls that reach providers, in order *)
Inductive received (tab : Z -> ops) : list (nat * pcall * result) -> list (Z * op * list Z) -> Prop :=
| rc_nil : received tab [] []
| rc_reach : forall t k r l u, reaches tab k -> received tab l u -> received tab ((t, k, r) :: l) (request k :: u)
| rc_not : forall t k r l u, ~ reaches tab k -> received tab l u -> received tab ((t, k, r) :: l) u.

(* a call of thread t that counts as failed for umfGetLastFailedMemoryProvider *)
Definition failed (tab : Z -> ops) (t : nat) (x : nat * pcall * result) : Prop :=
  let '(u, k, r) := x in u = t /\ acceptable k /\ ~ ipc (wanted k) /\ (tab (target k) (wanted k) = User -> r <> SUCCESS).
