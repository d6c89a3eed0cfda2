(* Model of the scalable pool (src/pool/pool_scalable.c) as a client of its
   provider: the callbacks handed to TBB (179-200), the parameters (202-266),
   tbb_pool_initialize (268-315), tbb_pool_finalize (317-321), the allocating
   calls (323-377) and tbb_free (379-402).

   TBB is a client of the callbacks: it may call them from any thread at any time
   while one of its pools lives, to ask for raw memory or to give back raw memory
   it holds; the objects it returns lie in raw memory it holds for that pool.
   Several threads use several pools at once: each step below is the part of a
   call before it enters TBB, one callback, or the part after it returns.
   Simplifications: the answers of providers, TBB and the internal allocator are
   inputs; contents and alignment of objects are left out; a NULL pointer given
   to tbb_free (which returns at once) or to tbb_realloc (which is then a malloc)
   and malloc_usable_size (which asks TBB) are left out. *)
From Verif Require Import Base Model_Jemalloc.

(* 48-51  umf_scalable_pool_params_t *)
Record params := Params { p_gran : Z; p_keep : bool }.
(* 38 *)
Definition DEFAULT_GRANULARITY : Z := 2 * 1024 * 1024.
(* 202-223  umfScalablePoolParamsCreate, for a handle that is not NULL *)
Definition params_create : params := Params DEFAULT_GRANULARITY false.
(* 237-253, 255-266: the setters, for a handle that is not NULL *)
Inductive setter := SetGranularity (g : Z) | SetKeepAllMemory (b : bool).
Definition set_param (p : params) (c : setter) : params * result :=
  match c with
  | SetGranularity g => if g =? 0 then (p, ERR_INVALID_ARGUMENT) else (Params g (p_keep p), SUCCESS)
  | SetKeepAllMemory b => (Params (p_gran p) b, SUCCESS)
  end.
Fixpoint set_params (p : params) (cs : list setter) : params :=
  match cs with [] => p | c :: cs => set_params (fst (set_param p c)) cs end.
(* 270-283: granularity and keep_all_memory of the policy handed to TBB; None =
   no parameters, Some cs = a handle after the calls cs *)
Definition policy (par : option (list setter)) : params :=
  match par with None => Params DEFAULT_GRANULARITY false | Some cs => set_params params_create cs end.

(* what the allocating calls ask of TBB: tbb_malloc (323-335), tbb_calloc
   (337-348, the product wraps), tbb_aligned_malloc (364-377) *)
Inductive kind := Malloc (n : Z) | Calloc (num n : Z) | Aligned (n al : Z).
Definition request (k : kind) : Z := match k with Malloc n => n | Calloc num n => wrap (num * n) | Aligned n _ => n end.

(* a call inside TBB: [d] the address of tbb_memory_pool_t, [t] the TBB pool *)
Inductive call := KInit (d t : Z) | KAlloc (t n : Z) | KRealloc (t a m n : Z) | KFree | KFin (d t : Z).

(* [blk]: the live tbb_memory_pool_t blocks, with mem_provider and tbb_pool (None
   before TBB wrote it); [tb]: the live TBB pools, with the pool_id and policy
   they were created with; [raws]: raw memory TBB holds for each pool; [objs]:
   objects TBB handed out; [given]: provider and range, what the providers gave
   out; [lost]: what they refused to take back; [ae], [fe]: the thread-locals
   TLS_last_allocation_error and TLS_last_free_error; [refusals]: the errors of
   provider frees by a thread since its last tbb_free began; [bad]: a block used
   after its free, or memory given back to a provider that did not give it. *)
Record sstate := SState { blk : Z -> option (Z * option Z); tb : Z -> option (Z * params); raws : list (Z * range);
  objs : list (Z * range); given : list (Z * range); lost : list (Z * range); ae : Z -> result; fe : Z -> result;
  refusals : Z -> list result; pc : Z -> option call; bad : bool }.
Definition sstate0 : sstate :=
  SState (fun _ => None) (fun _ => None) [] [] [] [] (fun _ => SUCCESS) (fun _ => SUCCESS) (fun _ => []) (fun _ => None) false.

Definition up {X} (f : Z -> X) (k : Z) (x : X) : Z -> X := fun j => if j =? k then x else f j.
Definition set_blk s b := SState b (tb s) (raws s) (objs s) (given s) (lost s) (ae s) (fe s) (refusals s) (pc s) (bad s).
Definition set_tb s t := SState (blk s) t (raws s) (objs s) (given s) (lost s) (ae s) (fe s) (refusals s) (pc s) (bad s).
Definition set_mem s r g l := SState (blk s) (tb s) r (objs s) g l (ae s) (fe s) (refusals s) (pc s) (bad s).
Definition set_objs s o := SState (blk s) (tb s) (raws s) o (given s) (lost s) (ae s) (fe s) (refusals s) (pc s) (bad s).
Definition set_ae s th e := SState (blk s) (tb s) (raws s) (objs s) (given s) (lost s) (up (ae s) th e) (fe s) (refusals s) (pc s) (bad s).
Definition set_fe s th e l := SState (blk s) (tb s) (raws s) (objs s) (given s) (lost s) (ae s) (up (fe s) th e) (up (refusals s) th l) (pc s) (bad s).
Definition set_pc s th c := SState (blk s) (tb s) (raws s) (objs s) (given s) (lost s) (ae s) (fe s) (refusals s) (up (pc s) th c) (bad s).
Definition set_bad s := SState (blk s) (tb s) (raws s) (objs s) (given s) (lost s) (ae s) (fe s) (refusals s) (pc s) true.

Inductive sev :=
| BInit (th v : Z) (par : option (list setter)) (od : option Z) (lib : bool) (t : Z)
| RInit (th ret : Z)
| BAlloc (th d : Z) (k : kind)
| RAlloc (th : Z) (got : option Z)
| BRealloc (th d a m n : Z)         (* the object [a, a + m), new size n *)
| RRealloc (th : Z) (got : option Z)
| BFree (th d a m : Z)
| RFree (th : Z) (ok : bool)
| BFin (th d : Z)
| RFin (th : Z)
| CbAlloc (th t bytes : Z) (got : option Z)
| CbFree (th t : Z) (r : range) (ret : result).

(* the error left by a call that returned NULL (327-332) *)
Definition null_error (e : result) : result := match e with SUCCESS => ERR_UNKNOWN | _ => e end.

(* the result, if the step ends a call with one *)
Definition sstep (s : sstate) (e : sev) : sstate * option result :=
  match e with
  | BInit th v par od lib t =>                              (* 285-303 *)
      match od with
      | None => (s, Some ERR_OUT_OF_HOST_MEMORY)
      | Some d =>
          if lib then (set_pc (set_tb (set_blk s (up (blk s) d (Some (v, None)))) (up (tb s) t (Some (d, policy par)))) th (Some (KInit d t)), None)
          else (set_blk s (up (blk s) d None), Some ERR_DEPENDENCY_UNAVAILABLE)
      end
  | RInit th ret =>                                         (* 303-314 *)
      match pc s th with
      | Some (KInit d t) =>
          if ret =? 0 then
            match blk s d with
            | Some (v, _) => (set_pc (set_blk s (up (blk s) d (Some (v, Some t)))) th None, Some SUCCESS)
            | None => (set_bad s, None)
            end
          else (set_pc (set_tb (set_blk s (up (blk s) d None)) (up (tb s) t None)) th None, Some ERR_PROVIDER_SPECIFIC)
      | _ => (s, None)
      end
  | BAlloc th d k =>                                        (* 324-326, 339-340, 365-368 *)
      match blk s d with
      | Some (_, Some t) => (set_pc (set_ae s th SUCCESS) th (Some (KAlloc t (request k))), None)
      | _ => (set_bad s, None)
      end
  | RAlloc th got =>
      match pc s th with
      | Some (KAlloc t n) =>
          match got with
          | Some a => (set_pc (set_objs s ((t, (a, n)) :: objs s)) th None, None)
          | None => (set_pc (set_ae s th (null_error (ae s th))) th None, None)
          end
      | _ => (s, None)
      end
  | BRealloc th d a m n =>                                  (* 351-353 *)
      match blk s d with
      | Some (_, Some t) => (set_pc (set_objs (set_ae s th SUCCESS) (drop (t, (a, m)) (objs s))) th (Some (KRealloc t a m n)), None)
      | _ => (set_bad s, None)
      end
  | RRealloc th got =>                                      (* 354-361 *)
      match pc s th with
      | Some (KRealloc t a m n) =>
          match got with
          | Some b => (set_pc (set_objs s ((t, (b, n)) :: objs s)) th None, None)
          | None => (set_pc (set_ae (set_objs s (if n =? 0 then objs s else (t, (a, m)) :: objs s)) th (null_error (ae s th))) th None, None)
          end
      | _ => (s, None)
      end
  | BFree th d a m =>                                       (* 384-393 *)
      match blk s d with
      | Some (_, Some t) => (set_pc (set_objs (set_fe s th SUCCESS []) (drop (t, (a, m)) (objs s))) th (Some KFree), None)
      | _ => (set_bad s, None)
      end
  | RFree th ok =>                                          (* 393-401 *)
      match pc s th with
      | Some KFree => (set_pc s th None, Some (if ok then SUCCESS else match fe s th with SUCCESS => ERR_UNKNOWN | e => e end))
      | _ => (s, None)
      end
  | BFin th d =>                                            (* 318-319 *)
      match blk s d with
      | Some (_, Some t) => (set_pc (set_objs s (filter (fun x => negb (fst x =? t)) (objs s))) th (Some (KFin d t)), None)
      | _ => (set_bad s, None)
      end
  | RFin th =>                                              (* 319-320 *)
      match pc s th with
      | Some (KFin d t) => (set_pc (set_tb (set_blk s (up (blk s) d None)) (up (tb s) t None)) th None, None)
      | _ => (s, None)
      end
  | CbAlloc th t bytes got =>                               (* 179-190, called with the pool_id of TBB pool t *)
      match tb s t with
      | None => (s, None)
      | Some (d, _) =>
          match blk s d with
          | None => (set_bad s, None)
          | Some (v, _) =>
              match got with
              | Some a => (set_mem s ((t, (a, bytes)) :: raws s) ((v, (a, bytes)) :: given s) (lost s), None)
              | None => (set_ae s th ERR_OUT_OF_HOST_MEMORY, None)
              end
          end
      end
  | CbFree th t r ret =>                                    (* 192-200 *)
      match tb s t with
      | None => (s, None)
      | Some (d, _) =>
          match blk s d with
          | None => (set_bad s, None)
          | Some (v, _) =>
              if held (v, r) (given s) then
                match ret with
                | SUCCESS => (set_mem s (drop (t, r) (raws s)) (drop (v, r) (given s)) (lost s), None)
                | _ => (set_fe (set_mem s (drop (t, r) (raws s)) (given s) ((v, r) :: lost s)) th ret (ret :: refusals s th), None)
                end
              else (set_bad s, None)
          end
      end
  end.

(* ranges *)
Definition apart (x y : range) : Prop := fst x + snd x <= fst y \/ fst y + snd y <= fst x.
Definition inside (x y : range) : Prop := fst y <= fst x /\ fst x + snd x <= fst y + snd y.
(* TBB returns memory it holds for pool t and has not handed out *)
Definition fits (s : sstate) (t : Z) (o : range) : Prop :=
  (exists r, In (t, r) (raws s) /\ inside o r) /\ (forall o', In (t, o') (objs s) -> apart o o').
(* pool d was created and no thread is destroying it *)
Definition usable (s : sstate) (d t : Z) : Prop := (exists v, blk s d = Some (v, Some t)) /\ (forall th, pc s th <> Some (KFin d t)).
Definition on_pool (t : Z) (c : call) : Prop :=
  match c with KInit _ t' | KAlloc t' _ | KRealloc t' _ _ _ | KFin _ t' => t' = t | KFree => False end.

(* whether the step can be taken: the callers use pools that live, free live
   objects and destroy a pool once, and not while they use it; TBB and the
   providers keep their promises; the internal allocator returns fresh memory *)
Definition enabled (s : sstate) (e : sev) : Prop :=
  match e with
  | BInit th v par od lib t => pc s th = None /\ (forall d, od = Some d -> blk s d = None) /\ tb s t = None
  | RInit th ret => exists d t, pc s th = Some (KInit d t) /\ (ret <> 0 -> forall r, ~ In (t, r) (raws s))
  | BAlloc th d k => pc s th = None /\ exists t, usable s d t
  | RAlloc th got => exists t n, pc s th = Some (KAlloc t n) /\ (forall a, got = Some a -> fits s t (a, n))
  | BRealloc th d a m n => pc s th = None /\ exists t, usable s d t /\ In (t, (a, m)) (objs s)
  | RRealloc th got => exists t a m n, pc s th = Some (KRealloc t a m n) /\ (forall b, got = Some b -> fits s t (b, n)) /\
      (got = None -> n <> 0 -> fits s t (a, m))
  | BFree th d a m => pc s th = None /\ exists t, usable s d t /\ In (t, (a, m)) (objs s)
  | RFree th ok => pc s th = Some KFree
  | BFin th d => pc s th = None /\ exists t, usable s d t /\ forall th' c, pc s th' = Some c -> ~ on_pool t c
  | RFin th => exists d t, pc s th = Some (KFin d t) /\ (forall r, ~ In (t, r) (raws s))
  | CbAlloc th t bytes got => tb s t <> None /\ (forall a v r, got = Some a -> In (v, r) (given s) -> apart (a, bytes) r)
  | CbFree th t r ret => In (t, r) (raws s) /\ (forall o, In (t, o) (objs s) -> ~ inside o r)
  end.

(* executions; [ok] restricts the steps taken *)
Inductive sreach (ok : sev -> Prop) : sstate -> Prop :=
| sr_init : sreach ok sstate0
| sr_step : forall s e, sreach ok s -> enabled s e -> ok e -> sreach ok (fst (sstep s e)).
