(* What mutable_fws_multimap means: a list with one list of elements per key. *)
From Verif Require Import Base FlatModel FlatSpec MmModel.

Section Spec.
Variable A : Type.
Variable lmax : nat.
(* the lists, and the number of elements that were dropped by erase(key) since the last clear() *)
Definition bstate := (list (list A) * nat)%type.
Definition grown (l : list (list A)) (k : nat) : list (list A) := l ++ repeat [] (k + 1 - length l).
Definition fits (n : nat) : bool := n <=? 2 ^ lmax.
Definition mm_spec (s : bstate) (o : mm_op A) : option (bstate * vout A) :=
  let '(l, x) := s in
  let b k := nth k l [] in
  match o with
  | BTouch k | BGetOrCreate k => Some ((grown l k, x), XNone)
  (* a bucket holds at most 2^lmax elements; the call that would exceed this throws *)
  | BPush k v => guard (k <? length l)
      (if fits (length (b k) + 1) then ((upd k (b k ++ [v]) l, x), XNone) else (s, XThrow))
  | BInsert k i v => guard ((k <? length l) && (i <=? length (b k)))
      (if fits (length (b k) + 1) then ((upd k (firstn i (b k) ++ v :: skipn i (b k)) l, x), XNone) else (s, XThrow))
  | BReserve k n => guard ((k <? length l) && (N.of_nat n <? W32)%N)
      (if fits n then (s, XNone) else (s, XThrow))
  | BResize k n v => guard ((k <? length l) && (N.of_nat n <? W32)%N)
      (if fits n then ((upd k (firstn n (b k) ++ repeat v (n - length (b k))) l, x), XNone) else (s, XThrow))
  | BPop k => guard (k <? length l) ((upd k (firstn (length (b k) - 1) (b k)) l, x), XNone)
  | BClear k => guard (k <? length l) ((upd k [] l, x), XNone)
  (* the returned iterator is always end() *)
  | BErase k i => guard (i <? length (b k))
      ((upd k (firstn i (b k) ++ skipn (i + 1) (b k)) l, x), XNum (length (b k) - 1))
  | BEraseRange k i j => guard ((k <? length l) && (i <=? j) && (j <=? length (b k)))
      ((upd k (firstn i (b k) ++ skipn j (b k)) l, x), XNum (length (b k) - (j - i)))
  | BEraseKey k => Some ((upd k [] l, x + length (b k)), XNone)
  | BClearAll => Some (([], 0), XNone)
  | BSet k i v => guard (i <? length (b k)) ((upd k (upd i v (b k)) l, x), XNone)
  | BAt k => Some (s, match nth_error l k with Some b => XList b | None => XThrow end)
  | BGet k i => match nth_error (b k) i with Some v => Some (s, XVal v) | None => None end
  | BBucketAt k i => guard (k <? length l) (s, match nth_error (b k) i with Some v => XVal v | None => XThrow end)
  | BBucketSize k => guard (k <? length l) (s, XNum (length (b k)))
  | BSize => Some (s, XNum (length l))
  (* all elements, plus those that erase(key) dropped without counting them *)
  | BCount => Some (s, XNum (length (concat l) + x))
  | BAll => Some (s, XAll l)
  end.
End Spec.
