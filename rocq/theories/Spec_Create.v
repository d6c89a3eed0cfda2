(* What a caller of umfMemoryProviderCreate may expect from the fixed, devdax and
   file providers. *)
From Verif Require Import Base Model_Utils Model_Coarse Spec_Coarse Model_Create.

(* Keeping account of what is held: giving back what is not held, or taking the same
   thing twice, is an error. *)
Definition res_eq_dec (a b : res) : {a = b} + {a <> b}.
Proof. decide equality; apply Z.eq_dec. Defined.
Fixpoint ledger (held : list res) (evs : list revent) : option (list res) :=
  match evs with
  | [] => Some held
  | Acq r :: evs => if in_dec res_eq_dec r held then None else ledger (r :: held) evs
  | Rel r :: evs => if in_dec res_eq_dec r held then ledger (remove res_eq_dec r held) evs else None
  end.

Inductive request :=
| QFixed (page : Z) (p : option (Z * Z))
| QDevdax (q : option dparams)
| QFile (page : Z) (q : option fparams).
Definition initialize (dbg : bool) (q : request) (w : world) : option outcome :=
  match q with
  | QFixed page p => fixed_initialize dbg page p w
  | QDevdax q => devdax_initialize dbg q w
  | QFile page q => file_initialize dbg page q w
  end.
Definition finalize (dbg : bool) (q : request) (m : made) : option (list revent) :=
  match q with
  | QFixed _ _ => fixed_finalize dbg m
  | QDevdax _ => devdax_finalize dbg m
  | QFile _ _ => file_finalize_rest dbg m
  end.

(* the path, if any, fits into PATH_MAX bytes with its terminator *)
Definition path_len (q : request) : option Z :=
  match q with
  | QDevdax (Some d) => d_path d
  | QFile _ (Some f) => fp_path f
  | _ => None
  end.
Definition path_fits (q : request) : Prop := forall n, path_len q = Some n -> n < 4096.

(* Parameters a provider can be made from. *)
Definition valid (q : request) : Prop :=
  match q with
  | QFixed _ p => exists ptr size, p = Some (ptr, size) /\ ptr <> 0 /\ size <> 0
  | QDevdax q => exists d n, q = Some d /\ d_path d = Some n /\ d_size d <> 0 /\ 0 <= d_prot d < 16
  | QFile _ q => exists f n, q = Some f /\ fp_path f = Some n /\ 0 <= fp_prot f < 16 /\ fp_vis f = SUCCESS
  end.

(* The world: page sizes are powers of two, flags are 32-bit, memory handed over or
   mapped lies in the address space, and the size classes of the allocator's free
   list can be created (see Spec_Coarse). *)
Definition page_ok (page : Z) : Prop := exists n, 0 <= n < 64 /\ page = 2 ^ n.
Definition region_ok (ptr size : Z) : Prop := is_word ptr /\ is_word size /\ ptr + size <= U64.
Definition request_ok (q : request) (w : world) : Prop :=
  match q with
  | QFixed page p => page_ok page /\ forall ptr size, p = Some (ptr, size) -> region_ok ptr size
  | QDevdax q => forall d, q = Some d -> is_word (d_size d) /\ 0 <= d_prot d < 2 ^ 32 /\ forall a, w_map w = Some a -> 0 < a /\ region_ok a (d_size d)
  | QFile page q => page_ok page /\ forall f, q = Some f -> 0 <= fp_prot f < 2 ^ 32
  end.
Definition world_ok (e : env) (w : world) : Prop :=
  (debug e = true -> class_ok e = true) /\ both (o_back (w_back w)) /\ agrees e (w_back w).

(* the memory a fresh provider manages *)
Definition manages (q : request) (m : made) : list (Z * Z) :=
  match q with
  | QFixed _ (Some (ptr, size)) => [(ptr, size)]
  | QDevdax (Some d) => [(m_base m, d_size d)]
  | _ => []
  end.

(* devdax: the byte of the device behind an address, in the provider's own mapping
   and in a mapping g of a consumer *)
Definition device_byte (base addr : Z) : Z := addr - base.
Definition consumer_byte (g : mapping) (addr : Z) : option Z :=
  if (g_addr g <=? addr) && (addr <? g_addr g + g_len g) then Some (g_off g + (addr - g_addr g)) else None.
