(* What programs over an nvec of depth n mean: the state is the list of the nested containers. *)
From Verif Require Import Base FlatModel FlatSpec NvModel.

Section Spec.
Variable A : Type.
Notation nest := (nest A).

(* all innermost containers are n levels deep *)
Fixpoint deep (n : nat) (c : nest) {struct c} : bool :=
  match c with
  | Leaf _ => n =? 1
  | Node ns => (2 <=? n) && forallb (deep (n - 1)) ns
  end.
(* the container with the elements of the innermost container at the path replaced *)
Fixpoint alter (f : list A -> list A) (c : nest) (path : list nat) : nest :=
  match path, c with
  | [], Leaf xs => Leaf (f xs)
  | i :: path, Node ns => Node (match nth_error ns i with Some c => upd i (alter f c path) ns | None => ns end)
  | _, _ => c
  end.
(* the elements at a path that ends in an innermost container *)
Definition inner (l : list nest) (k : nat) (path : list nat) : option (list A) :=
  match nth_error l k with
  | Some c => match sub A c path with Some (Leaf xs) => Some xs | _ => None end
  | None => None
  end.
Definition below (l : list nest) (k : nat) (path : list nat) : option nest :=
  match nth_error l k with Some c => sub A c path | None => None end.
Definition replace (f : list A -> list A) (l : list nest) (k : nat) (path : list nat) : list nest :=
  match nth_error l k with Some c => upd k (alter f c path) l | None => l end.

(* None: the preconditions of the call do not hold *)
Definition nv_spec (n : nat) (l : list nest) (o : nv_op A) : option (list nest * nv_out A) :=
  match o with
  | NEmplace c => if deep n c then Some (l ++ [c], YNone) else None
  | NSize => Some (l, YNum (length l))
  | NWidth k path => match below l k path with Some c => Some (l, YNum (width A c)) | None => None end
  | NRead k path => match below l k path with Some c => Some (l, YNest c) | None => None end
  | NLast => match rev l with c :: _ => Some (l, YNest c) | [] => None end
  | NGet k path j => match inner l k path with
      | Some xs => match nth_error xs j with Some x => Some (l, YVal x) | None => None end
      | None => None
      end
  | NAt k path j => match inner l k path with
      | Some xs => Some (l, match nth_error xs j with Some x => YVal x | None => YThrow end)
      | None => None
      end
  | NFront k path => match inner l k path with Some (x :: _) => Some (l, YVal x) | _ => None end
  | NBack k path => match inner l k path with
      | Some xs => match rev xs with x :: _ => Some (l, YVal x) | [] => None end
      | None => None
      end
  | NSet k path j x => match inner l k path with
      | Some xs => if j <? length xs then Some (replace (upd j x) l k path, YNone) else None
      | None => None
      end
  | NSetAt k path j x => match inner l k path with
      | Some xs => if j <? length xs then Some (replace (upd j x) l k path, YNone) else Some (l, YThrow)
      | None => None
      end
  | NFill k path x => match inner l k path with
      | Some xs => Some (replace (map (fun _ => x)) l k path, YNone)
      | None => None
      end
  end.
Fixpoint nv_hist (n : nat) (l : list nest) (ops : list (nv_op A)) : option (list nest * list (nv_out A)) :=
  match ops with
  | [] => Some (l, [])
  | o :: ops => match nv_spec n l o with
      | Some (l, x) => match nv_hist n l ops with Some (l, xs) => Some (l, x :: xs) | None => None end
      | None => None
      end
  end.

(* all elements of a nested container, and the container with each of them replaced *)
Fixpoint flat (c : nest) : list A := match c with Leaf xs => xs | Node ns => concat (map flat ns) end.
Fixpoint each (f : A -> A) (c : nest) : nest := match c with Leaf xs => Leaf (map f xs) | Node ns => Node (map (each f) ns) end.
End Spec.
