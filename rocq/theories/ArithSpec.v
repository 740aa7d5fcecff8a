(* Mathematical specification of checked arithmetic and bit counting. *)
From Verif Require Import Base.

(* all left-to-right partial results of folding f from a *)
Fixpoint partials (f : Z -> Z -> Z) (a : Z) (l : list Z) : list Z :=
  match l with [] => [] | x :: r => f a x :: partials f (f a x) r end.

(* r is the position of the lowest set bit of the w-bit word t (w if there is none) *)
Definition lowest_set (w t r : N) : Prop :=
  (r <= w)%N /\ (forall i, (i < r)%N -> N.testbit t i = false) /\
  ((r < w)%N -> N.testbit t r = true).

(* number of bits above the highest set bit of the w-bit word t *)
Definition leading_zero_count (w t r : N) : Prop :=
  (r <= w)%N /\ (forall i, (w - r <= i < w)%N -> N.testbit t i = false) /\
  ((r < w)%N -> N.testbit t (w - r - 1) = true).

(* number of set bits among bits 0..w-1 *)
Fixpoint bits_set (t : N) (w : nat) : N :=
  match w with
  | O => 0%N
  | S k => ((if N.testbit t (N.of_nat k) then 1 else 0) + bits_set t k)%N
  end.

Definition is_pow2 (x : N) : Prop := exists k, x = (2 ^ k)%N.
(* p is the least power of two not below n *)
Definition least_pow2_ge (n p : N) : Prop :=
  is_pow2 p /\ (n <= p)%N /\ forall q, is_pow2 q -> (n <= q)%N -> (p <= q)%N.
