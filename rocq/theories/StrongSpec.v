(* What index arithmetic means: the integers, reduced modulo 2^width. *)
From Verif Require Import Base ArithModel StrongModel.
Local Open Scope Z_scope.

(* the integer an expression denotes *)
Fixpoint meaning (e : expr) : Z :=
  match e with
  | EVal z => z
  | EAdd a b | EAddA a b => meaning a + meaning b
  | ESub a b | ESubA a b => meaning a - meaning b
  | EMul a b => meaning a * meaning b
  | EInc a => meaning a + 1
  | EDec a => meaning a - 1
  end.

(* every subexpression, itself included, satisfies P *)
Fixpoint every (P : expr -> Prop) (e : expr) : Prop :=
  P e /\ match e with
  | EVal z => True
  | EAdd a b | EAddA a b | ESub a b | ESubA a b | EMul a b => every P a /\ every P b
  | EInc a | EDec a => every P a
  end.

(* the constants of an expression are values of the type *)
Definition constants_fit (t : ity) (e : expr) : Prop :=
  every (fun e => match e with EVal z => in_ity t z | _ => True end) e.
Definition no_product (e : expr) : Prop :=
  every (fun e => match e with EMul _ _ => False | _ => True end) e.
Definition all_fit (t : ity) (e : expr) : Prop := every (fun e => in_ity t (meaning e)) e.

(* r is the value of the type t congruent to z modulo 2^width *)
Definition wraps_to (t : ity) (z r : Z) : Prop := in_ity t r /\ exists k, r = z + k * 2 ^ width t.
