(* What users of the tracker expect, independent of maps, levels and counters:
   the list of regions that are allocated right now, newest first. *)
From Verif Require Import Base Model_Tracker.

Record region := Region { g_base : Z; g_size : Z; g_pool : Z }.
Definition covers (x : Z) (g : region) : bool := (g_base g <=? x) && (x <? g_base g + g_size g).
Definition inside (g h : region) : Prop := g_base h <= g_base g /\ g_base g + g_size g <= g_base h + g_size h.
Definition apart (g h : region) : Prop := g_base g + g_size g <= g_base h \/ g_base h + g_size h <= g_base g.

(* the owner of an address: the newest region that contains it *)
Definition owner (L : list region) (x : Z) : option region := find (covers x) L.
(* forget the owner of an address *)
Fixpoint forget (L : list region) (x : Z) : list region :=
  match L with
  | [] => []
  | g :: r => if covers x g then r else g :: forget r x
  end.
(* replace the owner of an address by other regions *)
Fixpoint replace (L : list region) (x : Z) (by_ : list region) : list region :=
  match L with
  | [] => []
  | g :: r => if covers x g then by_ ++ r else g :: replace r x by_
  end.

(* [free_standing L p g]: p is the start of an allocated region g, which is the
   owner of p, and no allocated region starts strictly inside g. *)
Definition free_standing (L : list region) (p : Z) (g : region) : Prop :=
  owner L p = Some g /\ g_base g = p /\ forall h, In h L -> ~ (p < g_base h < p + g_size g).
Definition free_standingb (L : list region) (p : Z) : bool :=
  match owner L p with
  | Some g => (g_base g =? p) && forallb (fun h => negb ((p <? g_base h) && (g_base h <? p + g_size g))) L
  | None => false
  end.

(* The environment's obligations (upstream provider and callers). *)
Definition call_env (dbg : bool) (L : list region) (k : call) : Prop :=
  match k with
  | TAlloc pool size _ up _ =>
      (* an upstream allocation is non-empty, does not wrap, and is carved out
         of allocated regions or is disjoint from them *)
      pool <> 0 /\
      (fst up = SUCCESS -> snd up <> 0 ->
       0 < size /\ 0 < snd up /\ snd up + size < U64 /\
       forall h, In h L -> inside (Region (snd up) size pool) h \/ apart (Region (snd up) size pool) h)
  | TFree pool ptr size up o =>
      is_word ptr /\
      (* the free call names the region's true size and owner in case the
         upstream provider refuses, and memory for putting it back is there *)
      (up <> SUCCESS -> forall g, free_standing L ptr g ->
         size = g_size g /\ pool = g_pool g /\ o = AddOracle true true true)
  | TSplit pool ptr total first _ _ _ _ => pool <> 0 /\ is_word ptr /\ is_word first /\ is_word total
  | TMerge pool lo hi total _ _ up =>
      pool <> 0 /\ is_word lo /\ is_word hi /\ is_word total /\
      (* upstream only merges adjacent regions; the merged regions have nothing
         allocated inside them and are not themselves inside an allocated one *)
      (up = SUCCESS -> forall g h, owner L lo = Some g -> g_base g = lo -> owner L hi = Some h -> g_base h = hi ->
         lo + g_size g = hi /\ free_standing L lo g /\ free_standing L hi h /\
         owner (forget L lo) lo = None /\ owner (forget L hi) hi = None) /\
      (* a debug build aborts on a bad merge request *)
      (dbg = true -> exists g h, free_standing L lo g /\ free_standing L hi h /\
         length (filter (covers lo) L) = length (filter (covers hi) L) /\ g_pool g = g_pool h /\ g_size g + g_size h = total)
  end.

(* What has happened, from the answer alone. *)
Definition observe (L : list region) (k : call) (r : reply) : list region :=
  match r_res r with
  | SUCCESS =>
      match k with
      | TAlloc pool size _ _ _ => if r_ptr r =? 0 then L else Region (r_ptr r) size pool :: L
      | TFree _ ptr _ _ _ => if free_standingb L ptr then forget L ptr else L
      | TSplit pool ptr total first _ _ _ _ =>
          replace L ptr [Region ptr first pool; Region (ptr + first) (total - first) pool]
      | TMerge pool lo hi total _ _ _ => replace (forget L hi) lo [Region lo total pool]
      end
  | _ => L
  end.

(* states reachable when every call meets the obligations [env] *)
Inductive reached_by (env : list region -> call -> Prop) (dbg : bool) : tracker -> list region -> Prop :=
| reached_new : reached_by env dbg umfMemoryTrackerCreate []
| reached_step : forall t L k r,
    reached_by env dbg t L -> env L k -> step dbg t k = Some r -> reached_by env dbg (r_st r) (observe L k r).
Definition reached (dbg : bool) := reached_by (call_env dbg) dbg.

(* Obligations that any correct caller and upstream provider meet: as
   [call_env], but the two merged regions may lie inside the same allocated
   region, and when a refused free has to be put back memory may be short. *)
Definition fair_env (L : list region) (k : call) : Prop :=
  match k with
  | TAlloc _ _ _ _ _ => call_env false L k
  | TFree pool ptr size _ _ => is_word ptr /\ exists g, free_standing L ptr g /\ size = g_size g /\ pool = g_pool g
  | TSplit pool ptr total first _ _ _ _ =>
      is_word first /\ 0 < first < total /\ exists g, free_standing L ptr g /\ total = g_size g /\ pool = g_pool g
  | TMerge pool lo hi total _ _ _ =>
      exists g h, free_standing L lo g /\ free_standing L hi h /\ lo + g_size g = hi /\ g_size g + g_size h = total /\
        pool = g_pool g /\ pool = g_pool h /\ owner (forget L lo) lo = owner (forget L hi) hi
  end.

(* answers to lookups that agree with the list of allocated regions *)
Definition info_of (og : option region) : result * option (Z * Z * Z) :=
  match og with
  | Some g => (SUCCESS, Some (g_base g, g_size g, g_pool g))
  | None => (ERR_INVALID_ARGUMENT, None)
  end.
Definition pool_of (og : option region) : Z := match og with Some g => g_pool g | None => 0 end.
