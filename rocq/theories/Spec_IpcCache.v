(* What users of opened IPC handles expect, in terms of handles, mappings and
   the calls made to the upstream providers. *)
From Verif Require Import Base Model_IpcCache.

(* a mapping that an upstream provider has opened and not closed *)
Record mapping := Mapping { m_key : key; m_hid : Z; m_base : Z; m_size : Z }.
Definition mcovers (p : Z) (m : mapping) : Prop := m_base m <= p < m_base m + m_size m.
Definition closes (prov base size : Z) (m : mapping) : bool :=
  (k_prov (m_key m) =? prov) && (m_base m =? base) && (m_size m =? size).
Definition after_event (M : list mapping) (e : event) : list mapping :=
  match e with
  | EvOpen k hid b s => Mapping k hid b s :: M
  | EvOpenFail _ _ => M
  | EvClose p b s => filter (fun m => negb (closes p b s m)) M
  end.
Definition after (M : list mapping) (evs : list event) : list mapping := fold_left after_event evs M.
(* every close names a mapping that is open, by provider, address and size
   (closing "no mapping" is allowed) *)
Fixpoint closes_ok (M : list mapping) (evs : list event) : Prop :=
  match evs with
  | [] => True
  | e :: r =>
      match e with
      | EvClose p b s => b = 0 \/ exists m, In m M /\ closes p b s m = true
      | _ => True
      end /\ closes_ok (after_event M e) r
  end.
(* the operating system places new mappings away from open ones *)
Definition mapart (b s : Z) (m : mapping) : Prop := b + s <= m_base m \/ m_base m + m_size m <= b.
Fixpoint opens_ok (M : list mapping) (evs : list event) : Prop :=
  match evs with
  | [] => True
  | e :: r =>
      match e with
      | EvOpen _ _ b s => 0 < b /\ 0 < s /\ b + s < U64 /\ forall m, In m M -> mapart b s m
      | _ => True
      end /\ opens_ok (after_event M e) r
  end.

(* a handle someone holds open; base 0 = the open failed after the cache had
   been told about it *)
Record hold := Hold { h_key : key; h_hid : Z; h_base : Z; h_size : Z }.
Definition holds_key (k : key) (h : hold) : bool := key_eqb (h_key h) k.
(* forget one hold on the mapping that contains the address *)
Fixpoint drop (p : Z) (H : list hold) : list hold :=
  match H with
  | [] => []
  | h :: r => if negb (h_base h =? 0) && (h_base h <=? p) && (p <? h_base h + h_size h) then r else h :: drop p r
  end.
Fixpoint distinct (l : list key) : list key :=
  match l with
  | [] => []
  | k :: r => if existsb (key_eqb k) r then distinct r else k :: distinct r
  end.

(* nobody holds a handle of this remote memory *)
Definition idle (H : list hold) (k : key) : Prop := forall h, In h H -> h_key h <> k.
Definition before {A} (l : list A) (a b : A) : Prop := exists l1 l2 l3, l = l1 ++ a :: l2 ++ b :: l3.

(* the spec state: holds, open mappings, keys by most recent open, and the
   largest number of handles that were ever held at once *)
Record view := View { v_holds : list hold; v_maps : list mapping; v_used : list key; v_peak : Z }.
Definition observe (v : view) (c : call) (r : reply) : view :=
  match c with
  | COpen k hid size offset _ _ =>
      if r_slot r then
        let base := match r_res r with SUCCESS => wrap (r_ptr r - offset) | _ => 0 end in
        let H := Hold k hid base size :: v_holds v in
        View H (after (v_maps v) (r_ev r)) (k :: filter (fun x => negb (key_eqb x k)) (v_used v))
             (Z.max (v_peak v) (Z.of_nat (length (distinct (map h_key H)))))
      else View (v_holds v) (after (v_maps v) (r_ev r)) (v_used v) (v_peak v)
  | CClose p => View (match r_res r with SUCCESS => drop p (v_holds v) | _ => v_holds v end) (after (v_maps v) (r_ev r)) (v_used v) (v_peak v)
  | CDestroy prov => View (filter (fun h => negb (k_prov (h_key h) =? prov)) (v_holds v)) (after (v_maps v) (r_ev r)) (v_used v) (v_peak v)
  end.

Section Env.
(* a handle (remote base, pid, handle id) stands for memory of one size *)
Variable hsize : Z -> Z -> Z -> Z.
(* the configured limit; with a limit, one provider opens all handles *)
Variables limit one : Z.

Definition open_env (v : view) (k : key) (hid size offset : Z) (up : result * Z) (o : open_oracle) : Prop :=
  size = hsize (k_base k) (k_pid k) hid /\ is_word size /\ is_word offset /\ oo_mutex o = true /\ (fst up = SUCCESS -> snd up <> 0).
(* nobody holds an older handle for the same remote address *)
Definition no_clash (v : view) (k : key) (hid : Z) : Prop :=
  forall h, In h (v_holds v) -> h_key h = k -> h_hid h = hid.
Definition call_env (v : view) (c : call) : Prop :=
  match c with
  | COpen k hid size offset up o =>
      open_env v k hid size offset up o /\ no_clash v k hid /\ (limit = 0 \/ k_prov k = one)
  | CClose p => exists h, In h (v_holds v) /\ h_base h <> 0 /\ h_base h <= p < h_base h + h_size h
  | CDestroy prov => forall h, In h (v_holds v) -> h_base h <> 0 -> k_prov (h_key h) <> prov
  end.
Inductive reached_by (env : view -> call -> Prop) : istate -> view -> Prop :=
| reached_new : 0 <= limit -> reached_by env (umfIpcCacheGlobalInit limit) (View [] [] [] 0)
| reached_step : forall s v c r, reached_by env s v -> env v c -> step s c = Some r ->
    opens_ok (v_maps v) (r_ev r) -> reached_by env (r_st r) (observe v c r).
Definition reached := reached_by call_env.
End Env.
