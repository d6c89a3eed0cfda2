(* Shared vocabulary: 64-bit words as integers, result codes, and the small
   arithmetic facts about masks that the component proofs use. *)
From Coq Require Export List ZArith Lia Bool.
From Coq Require Export ZifyBool.
Export ListNotations.
Open Scope Z_scope.
Ltac dlia := Z.to_euclidean_division_equations; lia.

(* size_t / uintptr_t are 64-bit; SIZE_MAX = 2^64-1. *)
Definition U64 : Z := 2 ^ 64.
Definition wrap (x : Z) : Z := x mod U64.
Definition is_word (x : Z) : Prop := 0 <= x < U64.

(* include/umf/base.h: umf_result_t (only the codes the model needs). *)
Inductive result :=
| SUCCESS | ERR_OUT_OF_HOST_MEMORY | ERR_PROVIDER_SPECIFIC
| ERR_INVALID_ARGUMENT | ERR_INVALID_ALIGNMENT | ERR_NOT_SUPPORTED
| ERR_USER_SPECIFIC | ERR_DEPENDENCY_UNAVAILABLE | ERR_OUT_OF_RESOURCES
| ERR_UNKNOWN.

Definition result_eqb (a b : result) : bool :=
  match a, b with
  | SUCCESS, SUCCESS | ERR_OUT_OF_HOST_MEMORY, ERR_OUT_OF_HOST_MEMORY
  | ERR_PROVIDER_SPECIFIC, ERR_PROVIDER_SPECIFIC
  | ERR_INVALID_ARGUMENT, ERR_INVALID_ARGUMENT
  | ERR_INVALID_ALIGNMENT, ERR_INVALID_ALIGNMENT
  | ERR_NOT_SUPPORTED, ERR_NOT_SUPPORTED
  | ERR_USER_SPECIFIC, ERR_USER_SPECIFIC
  | ERR_DEPENDENCY_UNAVAILABLE, ERR_DEPENDENCY_UNAVAILABLE
  | ERR_OUT_OF_RESOURCES, ERR_OUT_OF_RESOURCES
  | ERR_UNKNOWN, ERR_UNKNOWN => true
  | _, _ => false
  end.
