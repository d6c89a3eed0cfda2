(* What umfMemoryProviderGetLastNativeError promises (memory_provider.h:81-97), stated
   without the records: the thread's last call that gave
   UMF_RESULT_ERROR_MEMORY_PROVIDER_SPECIFIC, what went wrong in it and with which errno.
   The codes are those the four public headers give to each event. *)
From Coq Require Import String.
From Verif Require Import Base Model_NativeError.
Open Scope Z_scope.

Inductive event :=
| AllocationFailed | NotAligned | BindingFailed | DeallocationFailed
| LazyPurgeFailed | ForcePurgeFailed | TopologyFailed.

(* the enumerations of the public headers, entry by entry *)
Definition header (k : kind) : Z * list event :=
  match k with
  | OS => (1000, [AllocationFailed; NotAligned; BindingFailed; DeallocationFailed;
                  LazyPurgeFailed; ForcePurgeFailed; TopologyFailed])
  | DEVDAX => (2000, [AllocationFailed; NotAligned; DeallocationFailed; ForcePurgeFailed])
  | FILE => (3000, [AllocationFailed; DeallocationFailed; ForcePurgeFailed])
  | FIXED => (4000, [ForcePurgeFailed])
  end%list.

(* [code] is the number the header of [k] gives to [e] *)
Definition numbered (k : kind) (e : event) (code : Z) : Prop :=
  exists i, nth_error (snd (header k)) i = Some e /\ code = fst (header k) + 1 + Z.of_nat i.

Definition words (e : event) : string :=
  match e with
  | AllocationFailed => "memory allocation failed"
  | NotAligned => "allocated address is not aligned"
  | BindingFailed => "binding memory to NUMA node failed"
  | DeallocationFailed => "memory deallocation failed"
  | LazyPurgeFailed => "lazy purging failed"
  | ForcePurgeFailed => "force purging failed"
  | TopologyFailed => "HWLOC topology discovery failed"
  end.

(* the first binding that failed *)
Fixpoint first_failed (binds : list (option Z)) : Z :=
  match binds with
  | [] => 0
  | Some e :: _ => e
  | None :: rest => first_failed rest
  end.

Definition errno_of (o : option Z) : Z := match o with Some e => e | None => 0 end.

(* what went wrong in a call that gave the provider-specific error, and with which errno
   (0: the message names none) *)
Definition went_wrong (c : call) : event * Z :=
  match c with
  | OsInit _ _ _ => (TopologyFailed, 0)
  | OsAlloc _ mapped aligned _ _ _ binds =>
      if negb mapped then (AllocationFailed, 0)
      else if negb aligned then (NotAligned, 0)
      else (BindingFailed, first_failed binds)
  | OsFree _ e => (DeallocationFailed, errno_of e)
  | OsPurgeLazy e => (LazyPurgeFailed, errno_of e)
  | FileAlloc _ _ _ => (AllocationFailed, 0)
  | PurgeForce _ e => (ForcePurgeFailed, errno_of e)
  | OpenIpc _ _ e _ => (AllocationFailed, errno_of e)
  | CloseIpc _ _ _ e => (DeallocationFailed, errno_of e)
  end.

(* the message: the words, and the system's text for the errno if there is one *)
Definition message (text : Z -> string) (e : event) (errno : Z) : string :=
  if errno =? 0 then words e else (words e ++ ": " ++ text errno)%string.

(* the result of a call; it does not depend on the records (do_call_result) *)
Definition result_of (c : call) : result := fst (do_call c tls_zero).

Definition specific (c : call) : Prop := result_of c = ERR_PROVIDER_SPECIFIC.

(* The executions there are.  The parts below do not give the provider-specific error, a
   call refused early is refused with another error or answered with success, and the
   fixed provider has no IPC. *)
Definition possible (c : call) : Prop :=
  match c with
  | OsInit early _ ret =>
      early <> Some ERR_PROVIDER_SPECIFIC /\ ret <> ERR_PROVIDER_SPECIFIC
  | OsAlloc early _ _ _ _ _ _ => early <> Some ERR_PROVIDER_SPECIFIC
  | FileAlloc early _ ret =>
      early <> Some ERR_PROVIDER_SPECIFIC /\ ret <> ERR_PROVIDER_SPECIFIC
  | OpenIpc k early _ ret =>
      k <> FIXED /\ early <> Some ERR_PROVIDER_SPECIFIC /\ ret <> ERR_PROVIDER_SPECIFIC
  | CloseIpc k _ _ _ => k <> FIXED
  | _ => True
  end.

(* Left out by the positive theorem: an allocation of the OS provider that has no memory
   for its node set, or for which binding is not implemented (ENOSYS, or no errno at all);
   an allocation of the file provider that fails with another error. *)
Definition ordinary (c : call) : Prop :=
  match c with
  | OsAlloc _ _ _ _ _ bitmap binds =>
      bitmap = true /\ forall e, In (Some e) binds -> e <> 38 /\ e <> 0
  | FileAlloc _ aligned_alloc _ =>
      aligned_alloc = SUCCESS \/ aligned_alloc = ERR_PROVIDER_SPECIFIC
  | _ => True
  end.

(* [c] is the last call of thread [t] on providers of kind [k] that gave the
   provider-specific error *)
Definition last_specific (h : list (Z * call)) (t : Z) (k : kind) (c : call) : Prop :=
  exists before after,
    h = before ++ (t, c) :: after /\ kind_of c = k /\ specific c /\
    forall c', In (t, c') after -> kind_of c' = k -> ~ specific c'.

(* texts of the system short enough for the buffer *)
Definition short (text : Z -> string) : Prop :=
  forall e, Z.of_nat (String.length (text e)) <= 900.
