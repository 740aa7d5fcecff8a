(* What an operation on a sequence may leave behind when it throws. *)
From Verif Require Import Base ExcModel.

Section Spec.
Variable A : Type.
Notation content := (list (option A)).       (* None: an element whose value was moved away *)

(* preconditions: positions inside; an empty forward range only at the end (C14) *)
Definition allowed (o : op A) (xs : content) : Prop :=
  match o with
  | Insert i _ | InsertN i _ _ | InsertInput i _ => i <= length xs
  | InsertRange i vs => i <= length xs /\ (vs = [] -> i = length xs)
  | Pop => xs <> []
  | Erase i => i < length xs
  | _ => True
  end.

(* the effect of an operation that returns *)
Definition effect (o : op A) (xs : content) : content :=
  match o with
  | Push v => xs ++ [Some v]
  | Resize n v => firstn n xs ++ repeat (Some v) (n - length xs)
  | Reserve _ => xs
  | Insert i v => firstn i xs ++ [Some v] ++ skipn i xs
  | InsertN i n v => firstn i xs ++ repeat (Some v) n ++ skipn i xs
  | InsertInput i vs | InsertRange i vs => firstn i xs ++ map Some vs ++ skipn i xs
  | Assign vs => map Some vs
  | Pop => removelast xs
  | Clear => []
  | Erase i => firstn i xs ++ skipn (i + 1) xs
  end.

(* what may be left after an operation that throws *)
Definition remains (o : op A) (xs ys : content) : Prop :=
  match o with
  | Push _ | Resize _ _ | Reserve _ | Insert _ _ => ys = xs
  | InsertN _ n v => exists k, k < n /\ ys = xs ++ repeat (Some v) k
  | InsertInput _ vs => exists k, k < length vs /\ ys = xs ++ map Some (firstn k vs)
  | InsertRange i vs => ys = xs \/ exists k, k < length vs /\
      ys = firstn (length xs) (firstn i xs ++ map Some (firstn k vs) ++ repeat None (length vs - k) ++ skipn i xs)
  | Assign vs => exists k, k <= length vs /\ ys = firstn (length xs) (map Some (firstn k vs)) ++ skipn k xs
  | Pop | Clear | Erase _ => False
  end.

(* one operation, and a history in which exceptions are caught *)
Inductive outcome (o : op A) (xs : content) : how -> content -> Prop :=
| o_done : outcome o xs Done (effect o xs)
| o_threw ys : remains o xs ys -> outcome o xs Threw ys.

Inductive follows : content -> list (op A) -> list how -> content -> Prop :=
| f_nil xs : follows xs [] [] xs
| f_cons xs o h ys ops hs zs : outcome o xs h ys -> follows ys ops hs zs -> follows xs (o :: ops) (h :: hs) zs.

(* a program that calls every operation within its precondition, whatever was thrown before *)
Fixpoint legal (badalloc badcopy : nat -> bool) (ops : list (op A)) (s : st A) : Prop :=
  match ops with
  | [] => True
  | o :: ops => allowed o (contents A s) /\ legal badalloc badcopy ops (fst (step A badalloc badcopy o s))
  end.

(* operations that never lose track of an object, even if copying throws *)
Definition careful (o : op A) : Prop :=
  match o with
  | Push _ | Reserve _ | Insert _ _ | InsertN _ _ _ | InsertInput _ _ | Pop | Clear | Erase _ => True
  | _ => False
  end.
(* a history in which resize never shrinks and copy assignment only goes to an empty vector *)
Fixpoint thrifty (badalloc badcopy : nat -> bool) (ops : list (op A)) (s : st A) : Prop :=
  match ops with
  | [] => True
  | o :: ops =>
      match o with
      | Resize n _ => length (contents A s) <= n
      | Assign _ => contents A s = []
      | _ => True
      end /\ thrifty badalloc badcopy ops (fst (step A badalloc badcopy o s))
  end.
End Spec.

(* strings: the value after an assignment that returns is the new one, after one that throws (only texts that need a block) the empty one *)
Inductive str_follows (A : Type) : list A -> list (list A) -> list how -> list A -> Prop :=
| sf_nil t : str_follows A t [] [] t
| sf_done t cs l hs r : str_follows A cs l hs r -> str_follows A t (cs :: l) (Done :: hs) r
| sf_threw t cs l hs r : 15 < length cs -> str_follows A [] l hs r -> str_follows A t (cs :: l) (Threw :: hs) r.
