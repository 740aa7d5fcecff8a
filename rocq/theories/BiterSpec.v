(* What iterators over the buckets of a container mean: positions in the list of buckets, from 0 (begin)
   to its length (end). An operation that leaves this range, or reads at the end, is outside the precondition. *)
From Coq Require Import ZArith.
From Verif Require Import Base FlatModel FlatSpec BiterModel.

(* which differences a - b may be taken: none, those with a not before b, all *)
Inductive diffs := NoDiff | Forward | Any.
Definition diffs_of (w : N) : diffs := if (w =? 32)%N then Forward else Any.
Definition may (d : diffs) (a b : nat) : bool := match d with NoDiff => false | Forward => b <=? a | Any => true end.
Definition bits (w : N) : Prop := w = 8%N \/ w = 16%N \/ w = 32%N \/ w = 64%N.
(* n buckets can be counted with w bits, and with std::ptrdiff_t *)
Definition fits (w : N) (n : nat) : Prop := (Z.of_nat n < 2 ^ Z.of_N w /\ Z.of_nat n < 2 ^ 63)%Z.

Section Spec.
Variable B : Type.
Variable l : list B.                                  (* the buckets *)
Variable d : diffs.

(* variable r becomes position z *)
Definition at_ (rs : list nat) (r : nat) (z : Z) : option (list nat * iout B) :=
  guard ((r <? length rs) && ((0 <=? z) && (z <=? Z.of_nat (length l)))%Z) (upd r (Z.to_nat z) rs, INone B).
Definition with_ {D C} (rs : list D) (r : nat) (f : D -> option C) : option C :=
  match nth_error rs r with Some k => f k | None => None end.
Definition i_spec (rs : list nat) (o : iop) : option (list nat * iout B) :=
  match o with
  | IBegin r => at_ rs r 0
  | IEnd r => at_ rs r (Z.of_nat (length l))
  | IInc r => with_ rs r (fun k => at_ rs r (Z.of_nat k + 1))
  | IDec r => with_ rs r (fun k => at_ rs r (Z.of_nat k - 1))
  | IAdd r n => with_ rs r (fun k => at_ rs r (Z.of_nat k + n))
  | ISub r n => with_ rs r (fun k => at_ rs r (Z.of_nat k - n))
  | IPlus r s n => with_ rs s (fun k => at_ rs r (Z.of_nat k + n))
  | IMinus r s n => with_ rs s (fun k => at_ rs r (Z.of_nat k - n))
  | IDiff r s => with_ rs r (fun j => with_ rs s (fun k =>
      guard (may d j k) (rs, INum B (Z.of_nat j - Z.of_nat k))))
  | IEq r s => with_ rs r (fun j => with_ rs s (fun k => Some (rs, IBool B (j =? k))))
  | INe r s => with_ rs r (fun j => with_ rs s (fun k => Some (rs, IBool B (negb (j =? k)))))
  | IRead r => with_ rs r (fun k => with_ l k (fun x => Some (rs, IVal B x)))
  end.
Fixpoint i_means (rs : list nat) (ops : list iop) : option (list (iout B)) :=
  match ops with
  | [] => Some []
  | o :: ops => match i_spec rs o with
      | Some (rs, x) => match i_means rs ops with Some xs => Some (x :: xs) | None => None end
      | None => None
      end
  end.
End Spec.

(* the number of containers in nested containers, themselves included *)
Fixpoint nodes {A} (c : nest A) : nat :=
  match c with
  | Leaf _ => 1
  | Node ns => 1 + (fix all l := match l with [] => 0 | c :: l => nodes c + all l end) ns
  end.
Definition all_nodes {A} (cs : list (nest A)) : nat := fold_right (fun c s => nodes c + s) 0 cs.
