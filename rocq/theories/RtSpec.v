(* An rtree is a collection of entries (rectangle, value), in no particular order. *)
From Coq Require Import Permutation.
From Verif Require Import Base RtModel.

(* coordinates: < is a strict weak order (numbers without not-a-number) *)
Definition order_ok {C} (lt : C -> C -> bool) : Prop :=
  (forall a b, lt a b = true -> lt b a = false) /\ (forall a b c, lt a b = false -> lt b c = false -> lt a c = false).

Section Spec.
Variables (C : Type) (lt : C -> C -> bool) (V : Type) (Dims MaxItems Hints : nat).
Notation rect := (rect C).
Notation entry := (rect * V)%type.
(* a and b overlap (borders included) in every dimension *)
Definition overlap (a b : rect) : Prop := forall i p q, nth_error a i = Some p -> nth_error b i = Some q -> lt (snd p) (fst q) = false /\ lt (snd q) (fst p) = false.
(* a lies within b *)
Definition within (a b : rect) : Prop := forall i p q, nth_error a i = Some p -> nth_error b i = Some q -> lt (fst p) (fst q) = false /\ lt (snd q) (snd p) = false.
(* the same rectangle: no coordinate smaller or larger *)
Definition same_rect (a b : rect) : Prop := within a b /\ within b a.

(* the calls of a callback on l that stops at its first answer false *)
Fixpoint upto (fn : entry -> bool) (l : list entry) : list entry := match l with [] => [] | e :: l => if fn e then e :: upto fn l else [e] end.
(* l: exactly the entries of s that satisfy P, each as often as in s *)
Definition selects (P : entry -> Prop) (s l : list entry) : Prop := exists rest, Permutation s (l ++ rest) /\ Forall P l /\ Forall (fun e => ~ P e) rest.

Inductive sstep (veq : V -> V -> bool) : list entry -> op C V -> list entry -> out C V -> Prop :=
  | S_insert s r v s' : Permutation s' ((r, v) :: s) -> sstep veq s (Insert _ _ r v) s' (OUnit _ _)
  (* one entry equal to the given one is removed *)
  | S_delete s r v e s' : Permutation s (e :: s') -> same_rect r (fst e) -> veq v (snd e) = true -> sstep veq s (Delete _ _ r v) s' (OUnit _ _)
  (* there is none *)
  | S_delete_none s r v s' : Permutation s s' -> (forall e, In e s -> same_rect r (fst e) -> veq v (snd e) = true -> False) -> sstep veq s (Delete _ _ r v) s' (OUnit _ _)
  (* one entry that fn accepts is removed *)
  | S_delete_if s r fn e s' : Permutation s (e :: s') -> fn e = true -> sstep veq s (DeleteIf _ _ r fn) s' (OUnit _ _)
  (* there is none within which r lies *)
  | S_delete_if_none s r fn s' : Permutation s s' -> (forall e, In e s -> within r (fst e) -> fn e = true -> False) -> sstep veq s (DeleteIf _ _ r fn) s' (OUnit _ _)
  | S_search s q fn l : selects (fun e => overlap (fst e) q) s l -> sstep veq s (Search _ _ q fn) s (OCalls _ _ (upto fn l))
  | S_size s : sstep veq s (Size _ _) s (OSize _ _ (length s)).
Inductive sruns (veq : V -> V -> bool) : list entry -> list (op C V) -> list entry -> list (out C V) -> Prop :=
  | SR_nil s : sruns veq s [] s []
  | SR_cons s o s' x ops s'' xs : sstep veq s o s' x -> sruns veq s' ops s'' xs -> sruns veq s (o :: ops) s'' (x :: xs).

(* every rectangle has Dims dimensions *)
Definition op_ok (o : op C V) : Prop :=
  match o with Insert _ _ r _ | Delete _ _ r _ | DeleteIf _ _ r _ | Search _ _ r _ => length r = Dims | Size _ _ => True end.
Definition inserts (ops : list (op C V)) : nat := length (filter (fun o => match o with Insert _ _ _ _ => true | _ => false end) ops).
(* m + m^2 + ... + m^n *)
Fixpoint gsum (m n : nat) : nat := match n with O => 0 | S n => gsum m n + m ^ S n end.
End Spec.
