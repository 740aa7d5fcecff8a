(* What paged_vecvec means: a list of lists, each of at most 2^15 elements. *)
From Verif Require Import Base FlatModel FlatSpec MmModel PagedModel.

Section Spec.
Variable A : Type.
Definition page_max : N := 32768.
Definition pfits (n : nat) : bool := (N.of_nat n <=? page_max)%N.
Definition put_in (l : list (list A)) (xs : list A) (l' : list (list A)) : option (list (list A) * vout A) :=
  guard (N.of_nat (length xs) <? 65536)%N
    (if pfits (length xs) then (l', XNone) else (l, XThrow)).
Definition pv_spec (l : list (list A)) (o : pv_op A) : option (list (list A) * vout A) :=
  let b k := nth k l [] in
  match o with
  (* containers of 2^16 elements and more are outside the precondition, see C26_truncates_refuted *)
  | PEmplace xs => put_in l xs (l ++ [xs])
  | PEmplaceEmpty => Some (l ++ [[]], XNone)
  | PInsert k xs => if k <=? length l then put_in l xs (firstn k l ++ xs :: skipn k l) else None
  | PResize n => Some (firstn n l ++ repeat [] (n - length l), XNone)
  | PClear => Some ([], XNone)
  | PPush k v => guard (k <? length l)
      (if pfits (length (b k) + 1) then (upd k (b k ++ [v]) l, XNone) else (l, XThrow))
  | PBInsert k i v => guard ((k <? length l) && (i <=? length (b k)))
      (if pfits (length (b k) + 1) then (upd k (firstn i (b k) ++ v :: skipn i (b k)) l, XNone) else (l, XThrow))
  | PSet k i v => guard (i <? length (b k)) (upd k (upd i v (b k)) l, XNone)
  | PGet k i => match nth_error (b k) i with Some v => Some (l, XVal v) | None => None end
  | PBucketAt k i => guard (k <? length l) (l, match nth_error (b k) i with Some v => XVal v | None => XThrow end)
  | PAt k => Some (l, match nth_error l k with Some b => XList b | None => XThrow end)
  | PFront => Some (l, match l with b :: _ => XList b | [] => XThrow end)
  | PBack => Some (l, match rev l with b :: _ => XList b | [] => XThrow end)
  | PSize => Some (l, XNum (length l))
  (* iterating over an empty paged_vecvec throws, see C26_empty_refuted *)
  | PAll => guard (negb (length l =? 0)) (l, XAll l)
  end.
End Spec.
