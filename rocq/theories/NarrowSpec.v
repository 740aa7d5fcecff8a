(* Histories in which, after every step, elements and buckets can be counted with w bits. *)
From Verif Require Import Base FlatModel FlatSpec BiterSpec.

Section Spec.
Variable A : Type.
Variable dflt : A.
Variable w : N.
(* fewer than 2^w *)
Definition few (n : nat) : bool := (N.of_nat n <? 2 ^ w)%N.
Definition vv_small (l : list (list A)) : bool := few (length (concat l)) && few (length l).
Definition vv_spec_w (l : list (list A)) (o : vv_op A) : option (list (list A) * vout A) :=
  match vv_spec A dflt l o with Some (l', x) => guard (vv_small l') (l', x) | None => None end.
Definition fw_small (s : fstate A) : bool := let '(ks, cur, _) := s in few (length (concat ks ++ cur)) && few (length ks).
Definition fw_spec_w (s : fstate A) (o : fw_op A) : option (fstate A * vout A) :=
  match fw_spec A s o with Some (s', x) => guard (fw_small s') (s', x) | None => None end.
(* the number of elements of nested containers *)
Fixpoint count (c : nest A) : nat :=
  match c with
  | Leaf xs => length xs
  | Node ns => (fix all l := match l with [] => 0 | c :: l => count c + all l end) ns
  end.
Definition all_count (cs : list (nest A)) : nat := fold_right (fun c s => count c + s) 0 cs.
Definition nv_small (cs : list (nest A)) : bool := few (all_count cs) && few (all_nodes cs).
End Spec.
