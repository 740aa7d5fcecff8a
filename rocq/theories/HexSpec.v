(* What exceptions of the user's code may do to a hash map. *)
From Verif Require Import Base HashModel HashSpec HexModel.

Section Spec.
Variable K V : Type.
(* the operations that did not throw, and their answers *)
Fixpoint executed (ops : list (op K V)) (xs : list (option (out K V))) : list (op K V) :=
  match ops, xs with
  | o :: ops, Some _ :: xs => o :: executed ops xs
  | _ :: ops, None :: xs => executed ops xs
  | _, _ => []
  end.
Definition answers (xs : list (option (out K V))) : list (out K V) :=
  flat_map (fun x => match x with Some x => [x] | None => [] end) xs.

(* Entries move and fill their slot without exceptions, and whether the hash function throws depends on the key only. Constructing the
   entry to be inserted and comparing keys may throw at any time. *)
Definition harmless (fault : nat -> event K -> bool) : Prop :=
  (forall n, fault n EPlace = false) /\ (forall n, fault n EMove = false) /\
  exists badkey, forall n k, fault n (EHash k) = badkey k.
Definition no_fault (n : nat) (e : event K) : bool := false.
End Spec.
