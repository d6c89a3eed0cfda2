(* Model of the alignment macros and helpers of src/utils. *)
From Verif Require Import Base.

(* src/utils/utils_common.h:41  IS_POWER_OF_2(value) *)
Definition IS_POWER_OF_2 (v : Z) : bool :=
  negb (v =? 0) && (Z.land v (wrap (v - 1)) =? 0).

(* src/utils/utils_common.h:43-44  IS_ALIGNED(value, align) *)
Definition IS_ALIGNED (v a : Z) : bool :=
  (a =? 0) || (Z.land v (wrap (a - 1)) =? 0).

(* src/utils/utils_common.h:45-46  IS_NOT_ALIGNED(value, align) *)
Definition IS_NOT_ALIGNED (v a : Z) : bool :=
  negb (a =? 0) && negb (Z.land v (wrap (a - 1)) =? 0).

(* ~x on a 64-bit word *)
Definition wnot (x : Z) : Z := U64 - 1 - x.

(* src/utils/utils_common.h:47  ALIGN_UP(value, align); the sum wraps. *)
Definition ALIGN_UP (v a : Z) : Z :=
  Z.land (wrap (wrap (v + a) - 1)) (wnot (wrap (a - 1))).

(* src/utils/utils_common.h:48-51  ALIGN_UP_SAFE(value, align) *)
Definition ALIGN_UP_SAFE (v a : Z) : Z :=
  if a =? 0 then v
  else if wrap (wrap (v + a) - 1) <? v then 0 else ALIGN_UP v a.

(* src/utils/utils_common.h:52  ALIGN_DOWN(value, align) *)
Definition ALIGN_DOWN (v a : Z) : Z := Z.land v (wnot (wrap (a - 1))).

(* src/utils/utils_common.c:16-31  utils_align_ptr_up_size_down;
   returns (ptr, size).  The ASSERT at 27 is not modelled. *)
Definition utils_align_ptr_up_size_down (p s a : Z) : Z * Z :=
  let rest := Z.land p (wrap (a - 1)) in
  if rest =? 0 then (p, s)
  else (ALIGN_UP p a, wrap (s - wrap (a - rest))).

(* src/utils/utils_common.c:34-53  utils_align_ptr_down_size_up;
   returns (ptr, size).  The ASSERTs at 48-49 are not modelled. *)
Definition utils_align_ptr_down_size_up (p s a : Z) : Z * Z :=
  let rest := Z.land p (wrap (a - 1)) in
  let p' := if rest =? 0 then p else ALIGN_DOWN p a in
  let s' := if rest =? 0 then s else wrap (s + rest) in
  (p', ALIGN_UP s' a).

(* src/utils/utils_math.h:53-57 (non-Windows) utils_msb64: 63 - clz;
   undefined for 0 (callers never pass 0; checked where used). *)
Definition utils_msb64 (x : Z) : Z := Z.log2 x.

(* src/utils/utils_common.c:132-133 *)
Definition utils_max (a b : Z) : Z := if a >? b then a else b.
Definition utils_min (a b : Z) : Z := if a <? b then a else b.

(* src/utils/utils_common.c:107-130  utils_translate_flags.
   unsigned is 32 bits.  [tr n] is the pair (result, *out) of the one-flag
   translator.  [fuel] bounds the doubling loop; None = the loop of the C code
   has not ended after fuel steps (n wraps to 0 when max > 2^31, and 0 < max
   then holds forever). *)
Fixpoint translate_loop (fuel : nat) (n max in_f out_f : Z)
         (tr : Z -> result * Z) : option (result * Z) :=
  match fuel with
  | O => None
  | S f =>
    if n <? max then
      if negb (Z.land in_f n =? 0) then
        match tr n with
        | (SUCCESS, flag) =>
            translate_loop f (Z.shiftl n 1 mod 2 ^ 32) max
              (Z.land in_f (2 ^ 32 - 1 - n)) (Z.lor out_f flag) tr
        | (e, _) => Some (e, 0)
        end
      else translate_loop f (Z.shiftl n 1 mod 2 ^ 32) max in_f out_f tr
    else if in_f =? 0 then Some (SUCCESS, out_f)
    else Some (ERR_INVALID_ARGUMENT, 0)
  end.
Definition utils_translate_flags (in_f max : Z) (tr : Z -> result * Z)
  : option (result * Z) := translate_loop 64 1 max in_f 0 tr.

(* include/umf/memory_provider.h:27-35 *)
Definition UMF_PROTECTION_NONE : Z := 1.
Definition UMF_PROTECTION_READ : Z := 2.
Definition UMF_PROTECTION_WRITE : Z := 4.
Definition UMF_PROTECTION_EXEC : Z := 8.
Definition UMF_PROTECTION_MAX : Z := 9.
(* POSIX sys/mman.h on Linux *)
Definition PROT_NONE : Z := 0.
Definition PROT_READ : Z := 1.
Definition PROT_WRITE : Z := 2.
Definition PROT_EXEC : Z := 4.

(* src/utils/utils_posix_common.c:118-135 *)
Definition utils_translate_mem_protection_one_flag (f : Z) : result * Z :=
  if f =? UMF_PROTECTION_NONE then (SUCCESS, PROT_NONE)
  else if f =? UMF_PROTECTION_READ then (SUCCESS, PROT_READ)
  else if f =? UMF_PROTECTION_WRITE then (SUCCESS, PROT_WRITE)
  else if f =? UMF_PROTECTION_EXEC then (SUCCESS, PROT_EXEC)
  else (ERR_INVALID_ARGUMENT, 0).

(* src/utils/utils_posix_common.c:139-145 *)
Definition utils_translate_mem_protection_flags (f : Z) : option (result * Z) :=
  utils_translate_flags f UMF_PROTECTION_MAX
    utils_translate_mem_protection_one_flag.
