(* Specification vocabulary for C06-C09. *)
From Verif Require Import Base Bytes HeaderModel.

(* Two byte strings that differ in exactly one position i. *)
Definition differ_at (i : nat) (b b' : list N) : Prop :=
  length b' = length b /\ nth_error b i <> nth_error b' i /\
  forall k, k <> i -> nth_error b k = nth_error b' k.

(* The value of a byte string in a fixed byte order (host independent). *)
Definition big_endian_value (l : list N) : N := le_dec (rev l).
Definition little_endian_value (l : list N) : N := le_dec l.

(* A mode that may be passed to serialize: the SKIP_ flags are read-side only. *)
Definition writer_mode (m : N) : Prop :=
  is_mode_enabled m SKIP_VERSION = false /\ is_mode_enabled m SKIP_INTEGRITY = false.

Definition version_enabled (m : N) : bool :=
  (is_mode_enabled m WITH_VERSION || is_mode_enabled m WITH_STATIC_VERSION)%bool.
