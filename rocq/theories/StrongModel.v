(* Model of include/cista/strong.h: strong<T, Tag> over an integral T, which is given by its limits
   (ity, ArithModel.v). A strong value is its v_. Widths are those of an LP64 host: int has 32 bits.
   Not modelled: T = bool, operator<< to a stream, and operator>>(strong)/operator<<(strong)
   (lines 104-105), whose "return v_ >> o.v_" needs the explicit constructor: they don't compile
   when used. *)
From Verif Require Import Base ArithModel.
Local Open Scope Z_scope.

Definition ty_int : ity := {| it_signed := true; it_bits := 32 |}.
Definition width (t : ity) : Z := Z.of_N (it_bits t).
Definition fits (t : ity) (z : Z) : bool := (it_min t <=? z) && (z <=? it_max t).

(* C++ integral promotion: a type narrower than int is computed in int *)
Definition prom (t : ity) : ity := if (it_bits t <? 32)%N then ty_int else t.

(* static_cast<T>(z): modulo 2^width (implementation defined before C++20 if T is signed; all
   compilers wrap) *)
Definition cast (t : ity) (z : Z) : Z :=
  let r := z mod 2 ^ width t in
  if it_signed t && (2 ^ (width t - 1) <=? r) then r - 2 ^ width t else r.

(* the mathematical result z of an operation computed in the type t *)
Definition arith (t : ity) (z : Z) : res Z :=
  if fits t z then Ok z else if it_signed t then UB else Ok (z mod 2 ^ width t).

Section Strong.
Variable t : ity.

(* 25-30 strong(X&& x), X another integral type *)
Definition mk (x : Z) : Z := cast t x.
(* 40-42 *)
Definition invalid : Z := it_max t.
(* 66-68, 78-80 *)
Definition add (a b : Z) : res Z := let* z := arith (prom t) (a + b) in Ok (cast t z).
(* 69-71, 81-83 *)
Definition sub (a b : Z) : res Z := let* z := arith (prom t) (a - b) in Ok (cast t z).
(* 72-74, 84-86 *)
Definition mul (a b : Z) : res Z := let* z := arith (prom t) (a * b) in Ok (cast t z).
(* 75-77, 87-89; C++ division truncates *)
Definition div (a b : Z) : res Z :=
  if b =? 0 then UB else let* z := arith (prom t) (Z.quot a b) in Ok (cast t z).
(* 44-47 operator++(), 55-58 operator--(): the new v_ *)
Definition pre_inc (a : Z) : res Z := add a 1.
Definition pre_dec (a : Z) : res Z := sub a 1.
(* 49-53, 60-64: (the returned copy, the new v_) *)
Definition post_inc (a : Z) : res (Z * Z) := let* n := add a 1 in Ok (a, n).
Definition post_dec (a : Z) : res (Z * Z) := let* n := sub a 1 in Ok (a, n).
(* 91-98: v_ += i is v_ = T(v_ + i) *)
Definition add_assign (a i : Z) : res Z := add a i.
Definition sub_assign (a i : Z) : res Z := sub a i.
(* 100-102 operator>>(T): computed in the promoted type; on a negative value arithmetic (all compilers) *)
Definition shr (a i : Z) : res Z :=
  if (i <? 0) || (width (prom t) <=? i) then UB else Ok (cast t (Z.shiftr a i)).
(* 103-105 operator<<(T), C++17: a negative left operand is undefined, as is a signed result not
   representable in the unsigned type of the same width *)
Definition shl (a i : Z) : res Z :=
  if (i <? 0) || (width (prom t) <=? i) then UB
  else if it_signed (prom t) && ((a <? 0) || (2 ^ width (prom t) <=? Z.shiftl a i)) then UB
  else Ok (cast t (cast (prom t) (Z.shiftl a i))).
(* 108-115 |=, &= *)
Definition or_assign (a b : Z) : Z := cast t (Z.lor a b).
Definition and_assign (a b : Z) : Z := cast t (Z.land a b).
(* 117-129, both operands have the type T: ==, <, and the others *)
Definition eq (a b : Z) : bool := a =? b.
Definition ne (a b : Z) : bool := negb (a =? b).
Definition lt (a b : Z) : bool := a <? b.
Definition le (a b : Z) : bool := a <=? b.
Definition gt (a b : Z) : bool := b <? a.
Definition ge (a b : Z) : bool := b <=? a.

(* an expression over strong values *)
Inductive expr :=
| EVal (z : Z)
| EAdd (a b : expr) | ESub (a b : expr) | EMul (a b : expr)
| EAddA (a b : expr) | ESubA (a b : expr)     (* a += b, a -= b on a copy *)
| EInc (a : expr) | EDec (a : expr).          (* ++a, --a on a copy *)

Fixpoint eval (e : expr) : res Z :=
  match e with
  | EVal z => Ok z
  | EAdd a b => let* x := eval a in let* y := eval b in add x y
  | ESub a b => let* x := eval a in let* y := eval b in sub x y
  | EMul a b => let* x := eval a in let* y := eval b in mul x y
  | EAddA a b => let* x := eval a in let* y := eval b in add_assign x y
  | ESubA a b => let* x := eval a in let* y := eval b in sub_assign x y
  | EInc a => let* x := eval a in pre_inc x
  | EDec a => let* x := eval a in pre_dec x
  end.
End Strong.
