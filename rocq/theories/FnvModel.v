(* Model of include/cista/hash.h (default configuration, FNV-1a) and of the
   scalar byte-order conversion in include/cista/endian/conversion.h. *)
From Verif Require Import Base Bytes.
Local Open Scope N_scope.

(* hash.h:113 *)
Definition BASE_HASH : N := 14695981039346656037.
(* hash.h:117 *)
Definition fnv_prime : N := 1099511628211.

(* hash.h:116-123, one argument: arg is cast to hash_t *)
Definition hash_combine (h arg : N) : N := mul64 (N.lxor h (wrap64 arg)) fnv_prime.

(* hash.h:116-123, the parameter pack *)
Definition hash_combine_all (h : N) (args : list N) : N := fold_left hash_combine args h.

(* hash.h:125-131: hash(std::string_view, h); the bytes of s *)
Definition hash (s : list N) (h : N) : N := fold_left hash_combine s h.

(* endian/conversion.h:22-52: endian_swap<T>, sizeof(T) = w in {1,2,4,8};
   __builtin_bswapN reverses the bytes of the value. *)
Definition endian_swap (w : nat) (x : N) : N := le_dec (rev (le_enc w x)).

(* endian/conversion.h:54-69; [big] = SERIALIZE_BIG_ENDIAN enabled in Mode,
   [host_be] = CISTA_BIG_ENDIAN defined (detection.h defines exactly one). *)
Definition endian_conversion_necessary (big host_be : bool) : bool :=
  if big then (if host_be then false else true)
  else (if host_be then true else false).

(* endian/conversion.h:71-78 *)
Definition convert_endian (big host_be : bool) (w : nat) (x : N) : N :=
  if endian_conversion_necessary big host_be then endian_swap w x else x.

(* Object representation of a w-byte scalar on the host. *)
Definition host_bytes (host_be : bool) (w : nat) (x : N) : list N :=
  if host_be then rev (le_enc w x) else le_enc w x.
Definition host_value (host_be : bool) (l : list N) : N :=
  if host_be then le_dec (rev l) else le_dec l.
