(* What adding elements of a sequence to the sequence again means, over plain lists. *)
From Verif Require Import Base ArithModel VecModel VecSpec VownModel.

(* the sequence after one call; None if the position or the element does not exist *)
Definition add_again {A} (xs : list A) (c : call) : option (list A) :=
  let put i n j :=
    match nth_error xs j with
    | Some x => if i <=? length xs then Some (firstn i xs ++ repeat x n ++ skipn i xs) else None
    | None => None
    end in
  match c with
  | CPush j => put (length xs) 1 j
  | CInsert i j => put i 1 j
  | CInsertN i n j => put i n j
  end.
Fixpoint add_all_again {A} (xs : list A) (cs : list call) : option (list A) :=
  match cs with
  | [] => Some xs
  | c :: cs => match add_again xs c with Some ys => add_all_again ys cs | None => None end
  end.
(* the elements from position a up to position b *)
Definition slice {A} (a b : nat) (xs : list A) : list A := firstn (b - a) (skipn a xs).

(* v is a vector that holds xs after some history of calls (C14) over n vectors *)
Definition reached (A : Type) (w : N) (triv : bool) (dflt : A) (eqA ltA : A -> A -> bool) (v : vec A) (xs : list A) : Prop :=
  exists n ops st outs vs r, history A (fits w) (fitsN w) dflt eqA ltA (repeat [] n) ops st outs /\
    run A w triv dflt eqA ltA (repeat vnew n) ops = Ok (vs, outs) /\ nth_error vs r = Some v /\ nth_error st r = Some xs.
