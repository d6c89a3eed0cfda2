(* Model of a disjoint pool used by several threads at once
   (src/pool/pool_disjoint.c): allocating a chunk (disjoint_pool_allocate,
   disjoint_pool_aligned_malloc 714-786 with bucket_get_free_chunk 318-338,
   bucket_create_slab 344-362, create_slab 72-130), allocating directly from the
   provider (739-752), freeing (disjoint_pool_free 833-905 with
   bucket_free_chunk 275-315, destroy_slab 132-145) and asking for the usable
   size (804-831).

   A step is one lookup or change of known_slabs, one read of a slab_t by a
   thread that does not hold the lock of its bucket, taking a bucket's lock, a
   change of a slab's chunks under it, one call of the provider, or freeing the
   memory of a slab_t.

   Simplifications:
   - critnib operations take effect at one moment (the lookup returns the entry
     of the greatest key not above the address, see C70).
   - The chunks of a slab are a set of used indices (the bitmap is C21's); which
     slab with a free chunk and which free chunk of it is taken, and when a new
     slab is made, is free; so is whether an empty slab is kept.
   - Making a slab (its slab_t and its memory, not yet registered) is one step:
     no other thread knows of it.  A failed registration destroys it in one.
   - The provider hands out any memory apart from what is out and takes back
     what it handed out; the allocator of slab_t any address not in use.
   - Addresses and sizes do not wrap; statistics are left out. *)
From Verif Require Import Base.

(* [k_smin]: params.slab_min_size; [k_size b]: size of bucket [b] *)
Record cfg := Cfg { k_smin : Z; k_size : Z -> Z }.
(* 64-70, 79-80 *)
Definition slab_bytes (g : cfg) (b : Z) : Z := Z.max (k_size g b) (k_smin g).
Definition slab_chunks (g : cfg) (b : Z) : Z := Z.max (k_smin g / k_size g b) 1.

(* slab_t: mem_ptr, the bucket, the chunks in use *)
Record cell := Cell { c_mem : Z; c_bk : Z; c_used : list Z }.

(* where a thread is; [p] a pointer of the caller, [x] the address of a slab_t *)
Inductive pc :=
| Idle
| MLock (b n : Z)            (* allocating [n] bytes, about to lock the bucket, 757 *)
| MHold (b n : Z)            (* the lock is held, 759 *)
| MReg (b n x : Z)           (* a slab was made, about to register it, 351 *)
| FFind (p : Z)              (* freeing, about to look up, 841 *)
| FRead (p x : Z)            (* about to read the slab found, 843 *)
| FWait (p x b : Z)          (* inside the slab, about to lock the bucket, 878 *)
| FHold (p x b : Z)          (* about to mark the chunk free, 883-887 *)
| FBit (x b : Z)             (* marked, about to look whether the slab is empty, 291 *)
| FRem (x b : Z)             (* empty and not to be kept, about to unregister it, 302 *)
| FMem (x b : Z)             (* about to give its memory back, 137 *)
| FCell (x b : Z)            (* about to free the slab_t, 144 *)
| FDirect (p : Z)            (* not in a slab, about to give it to the provider, 856 *)
| UFind (p : Z)              (* usable size: about to look up, 812 *)
| URead (p x : Z)            (* about to read the slab found, 813 *)
| UDirect (p : Z)            (* about to ask the tracker, 816 *)
| UDone (p v : Z).           (* the answer *)

(* [d_mp]: known_slabs, memory to slab_t; [d_cells]: the slab_t not freed;
   [d_lock]: which thread holds a bucket's lock; [d_regs]: what is out of the
   provider, base, size and (not read by any step) the slab_t it is for;
   [d_own]: what the caller has: address to size and (not read by any step) the
   slab_t and chunk; [d_bad]: a freed slab_t was read, an assertion failed, or
   the provider was asked to take what it had not given *)
Record dst := Dst { d_mp : list (Z * Z); d_cells : Z -> option cell; d_lock : Z -> option Z;
                    d_regs : list (Z * Z * option Z); d_own : Z -> option (Z * option (Z * Z));
                    d_pc : Z -> pc; d_bad : bool }.
Definition dinit : dst := Dst [] (fun _ => None) (fun _ => None) [] (fun _ => None) (fun _ => Idle) false.

Definition put {A} (f : Z -> A) (k : Z) (v : A) : Z -> A := fun x => if x =? k then v else f x.
Definition w_pc (s : dst) (t : Z) (q : pc) : dst := Dst (d_mp s) (d_cells s) (d_lock s) (d_regs s) (d_own s) (put (d_pc s) t q) (d_bad s).
Definition w_mp (s : dst) (m : list (Z * Z)) : dst := Dst m (d_cells s) (d_lock s) (d_regs s) (d_own s) (d_pc s) (d_bad s).
Definition w_cell (s : dst) (x : Z) (c : option cell) : dst := Dst (d_mp s) (put (d_cells s) x c) (d_lock s) (d_regs s) (d_own s) (d_pc s) (d_bad s).
Definition w_lock (s : dst) (b : Z) (l : option Z) : dst := Dst (d_mp s) (d_cells s) (put (d_lock s) b l) (d_regs s) (d_own s) (d_pc s) (d_bad s).
Definition w_regs (s : dst) (r : list (Z * Z * option Z)) : dst := Dst (d_mp s) (d_cells s) (d_lock s) r (d_own s) (d_pc s) (d_bad s).
Definition w_own (s : dst) (p : Z) (o : option (Z * option (Z * Z))) : dst := Dst (d_mp s) (d_cells s) (d_lock s) (d_regs s) (put (d_own s) p o) (d_pc s) (d_bad s).
Definition bad (s : dst) : dst := Dst (d_mp s) (d_cells s) (d_lock s) (d_regs s) (d_own s) (d_pc s) true.

(* critnib_find_le, critnib_remove *)
Definition mfind (m : list (Z * Z)) (a : Z) : option (Z * Z) :=
  fold_right (fun x best => if fst x <=? a then match best with Some y => if fst y <=? fst x then Some x else best | None => Some x end else best) None m.
Definition mdel (m : list (Z * Z)) (a : Z) : list (Z * Z) := filter (fun x => negb (fst x =? a)) m.
Definition mhas (m : list (Z * Z)) (a : Z) : bool := existsb (fun x => fst x =? a) m.
(* umfMemoryProviderAlloc, umfMemoryProviderFree and umfMemoryTrackerGetAllocInfo *)
Definition fresh (r : list (Z * Z * option Z)) (a n : Z) : bool :=
  forallb (fun x => (a + n <=? fst (fst x)) || (fst (fst x) + snd (fst x) <=? a)) r.
Definition rdel (r : list (Z * Z * option Z)) (a : Z) : list (Z * Z * option Z) := filter (fun x => negb (fst (fst x) =? a)) r.
Definition rget (r : list (Z * Z * option Z)) (a : Z) : option Z :=
  match find (fun x => fst (fst x) =? a) r with Some x => Some (snd (fst x)) | None => None end.

(* what a thread does: a call, or the next step of one with what it may choose *)
Inductive act :=
| AMalloc (b n : Z)          (* allocate [n] bytes out of bucket [b] *)
| ADirect (p n : Z)          (* allocate [n] bytes from the provider, which answers [p] *)
| AFree (p : Z)
| AUsable (p : Z)
| ATake (x i off : Z)        (* take chunk [i] of slab [x]; aligning moves the pointer by [off] *)
| ANew (x m : Z)             (* make a slab: its slab_t at [x], its memory at [m] *)
| AFail                      (* making a slab fails, or registering it *)
| AKeep                      (* the slab is kept: it is not empty or may be pooled *)
| ADrop                      (* it is empty and not kept *)
| AGo.

Definition unlock (s : dst) (t b : Z) : dst := w_pc (w_lock s b None) t Idle.

Definition dstep (g : cfg) (s : dst) (t : Z) (a : act) : option dst :=
  match a, d_pc s t with
  | AMalloc b n, Idle => if 0 <? n then Some (w_pc s t (MLock b n)) else None
  | AGo, MLock b n => match d_lock s b with None => Some (w_pc (w_lock s b (Some t)) t (MHold b n)) | Some _ => None end
  (* 318-338: a slab of the bucket with a free chunk; 775-777 *)
  | ATake x i off, MHold b n =>
      match d_cells s x with
      | Some c =>
          if (c_bk c =? b) && existsb (fun y => (fst y =? c_mem c) && (snd y =? x)) (d_mp s)
             && (0 <=? i) && (i <? slab_chunks g b) && negb (existsb (Z.eqb i) (c_used c))
             && (0 <=? off) && (off + n <=? k_size g b)
          then Some (unlock (w_own (w_cell s x (Some (Cell (c_mem c) b (i :: c_used c))))
                                   (c_mem c + i * k_size g b + off) (Some (n, Some (x, i)))) t b)
          else None
      | None => None
      end
  (* 72-130 *)
  | ANew x m, MHold b n =>
      match d_cells s x with
      | None => if fresh (d_regs s) m (slab_bytes g b)
                then Some (w_pc (w_regs (w_cell s x (Some (Cell m b []))) ((m, slab_bytes g b, Some x) :: d_regs s)) t (MReg b n x))
                else None
      | Some _ => None
      end
  | AFail, MHold b n => Some (unlock s t b)
  (* 351-358 *)
  | AGo, MReg b n x =>
      match d_cells s x with
      | Some c => if mhas (d_mp s) (c_mem c) then None
                  else Some (w_pc (w_mp s ((c_mem c, x) :: d_mp s)) t (MHold b n))
      | None => Some (bad s)
      end
  | AFail, MReg b n x =>
      match d_cells s x with
      | Some c => Some (unlock (w_cell (w_regs s (rdel (d_regs s) (c_mem c))) x None) t b)
      | None => Some (bad s)
      end
  (* 739-752 *)
  | ADirect p n, Idle =>
      if (0 <? n) && fresh (d_regs s) p n
      then Some (w_own (w_regs s ((p, n, None) :: d_regs s)) p (Some (n, None))) else None
  | AFree p, Idle => Some (w_pc s t (FFind p))
  | AGo, FFind p => match mfind (d_mp s) p with Some (_, x) => Some (w_pc s t (FRead p x)) | None => Some (w_pc s t (FDirect p)) end
  (* slab_get_end 182-185; 843, 870-876 *)
  | AGo, FRead p x =>
      match d_cells s x with
      | Some c => if c_mem c + k_smin g <=? p then Some (w_pc s t (FDirect p))
                  else if p <? c_mem c then Some (bad s)
                  else Some (w_pc s t (FWait p x (c_bk c)))
      | None => Some (bad s)
      end
  | AGo, FWait p x b => match d_lock s b with None => Some (w_pc (w_lock s b (Some t)) t (FHold p x b)) | Some _ => None end
  (* 883-887, slab_free_chunk 187-204 *)
  | AGo, FHold p x b =>
      match d_cells s x with
      | Some c => let i := (p - c_mem c) / k_size g (c_bk c) in
                  if existsb (Z.eqb i) (c_used c)
                  then Some (w_pc (w_own (w_cell s x (Some (Cell (c_mem c) (c_bk c) (filter (fun j => negb (j =? i)) (c_used c))))) p None) t (FBit x b))
                  else Some (bad s)
      | None => Some (bad s)
      end
  | AKeep, FBit x b => Some (unlock s t b)
  (* 291-297 *)
  | ADrop, FBit x b =>
      match d_cells s x with
      | Some c => match c_used c with [] => Some (w_pc s t (FRem x b)) | _ => None end
      | None => Some (bad s)
      end
  (* 302, pool_unregister_slab 236-247 *)
  | AGo, FRem x b =>
      match d_cells s x with
      | Some c => Some (w_pc (w_mp s (mdel (d_mp s) (c_mem c))) t (FMem x b))
      | None => Some (bad s)
      end
  (* 137-138 *)
  | AGo, FMem x b =>
      match d_cells s x with
      | Some c => Some (w_pc (w_regs s (rdel (d_regs s) (c_mem c))) t (FCell x b))
      | None => Some (bad s)
      end
  (* 144, 896 *)
  | AGo, FCell x b => Some (unlock (w_cell s x None) t b)
  (* 846-862 *)
  | AGo, FDirect p =>
      match rget (d_regs s) p with
      | Some _ => Some (w_pc (w_own (w_regs s (rdel (d_regs s) p)) p None) t Idle)
      | None => Some (bad s)
      end
  | AUsable p, Idle => Some (w_pc s t (UFind p))
  | AGo, UFind p => match mfind (d_mp s) p with Some (_, x) => Some (w_pc s t (URead p x)) | None => Some (w_pc s t (UDirect p)) end
  (* 813, 825-830 *)
  | AGo, URead p x =>
      match d_cells s x with
      | Some c => if c_mem c + k_smin g <=? p then Some (w_pc s t (UDirect p))
                  else Some (w_pc s t (UDone p (k_size g (c_bk c) - (p - c_mem c) mod k_size g (c_bk c))))
      | None => Some (bad s)
      end
  (* 815-821 *)
  | AGo, UDirect p => match rget (d_regs s) p with Some n => Some (w_pc s t (UDone p n)) | None => Some (w_pc s t (UDone p 0)) end
  | AGo, UDone p v => Some (w_pc s t Idle)
  | _, _ => None
  end.
