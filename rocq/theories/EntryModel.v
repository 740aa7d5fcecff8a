(* Model of the overloads of deserialize of include/cista/serialization.h, 1064-1128: mode CAST, the default end,
   constant memory, containers and string views. *)
From Verif Require Import Base Bytes HeaderModel SerialModel ConvModel.
Local Open Scope Z_scope.

(* mode.h:18 *)
Definition CONST_ : N := 536870912.

Section Entry.
Variable env : list ty.
Variables hb raw strict_i64 : bool.   (* as in ConvModel.convert *)
Variable th : N.
Variable f : nat.
Variable t : ty.
Variable B : Z.                       (* from *)
Variable b : list N.                  (* the bytes at [from] *)

(* 1064-1083 deserialize<T, Mode>(from, to) for any [to]; the subtraction to - from is done on integers.
   Simplification: a [to] behind the bytes is cut to their end. Modes: not DEEP_CHECK. *)
Definition deserialize_to (m : N) (to : Z) : res (Z * mem) :=
  if is_mode_enabled m CAST then Ok (B, at_base B b) else
  let* _ := verify (Z.of_nat (data_start m) <? to - B) in
  let b' := firstn (Z.to_nat (to - B)) b in
  let* _ := check hb m th b' in
  let el := B + Z.of_nat (data_start m) in
  let* m' := conv env hb (is_mode_enabled m SERIALIZE_BIG_ENDIAN) raw
               (negb (is_mode_enabled m UNCHECKED)) strict_i64 B to f t (at_base B b) el in
  Ok (el, m').
(* 1065, 1086: to = nullptr *)
Definition deserialize_from (m : N) : res (Z * mem) := deserialize_to m 0.
(* 1117-1125 unchecked_deserialize *)
Definition unchecked_deserialize (m : N) (to : Z) : res (Z * mem) := deserialize_to (N.lor m UNCHECKED) to.

(* 1085-1100 constant memory; None: rejected by the static_asserts of 1088 and 585. Simplification: raw pointers are rejected
   even if the type has no pointers (the same type with offset pointers stands for it). *)
Definition deserialize_const (m : N) (to : Z) : option (res (Z * mem)) :=
  if negb (Bool.eqb hb (is_mode_enabled m SERIALIZE_BIG_ENDIAN)) || (raw && negb (is_mode_enabled m CAST)) then None
  else Some (deserialize_to (N.lor m CONST_) to).

(* 1112-1115, 1122-1125 a container, 1107-1110 a string_view: &c[0] and &c[0] + c.size(). operator[] of an empty vector,
   span or string_view is undefined (not that of an empty std::string). *)
Definition deserialize_container (m : N) : res (Z * mem) :=
  match b with [] => UB | _ => deserialize_to m (B + Z.of_nat (length b)) end.
Definition deserialize_view (m : N) : option (res (Z * mem)) :=
  match b with [] => Some UB | _ => deserialize_const m (B + Z.of_nat (length b)) end.
End Entry.
