(* What a vector means: a mathematical sequence. *)
From Verif Require Import Base VecModel.

(* half the range of a size type of w bits: 2^31 elements for the default 32 *)
Definition fits (w : N) (n : nat) : Prop := (N.of_nat n <= 2 ^ (w - 1))%N.
Definition fitsN (w : N) (n : N) : Prop := (n <= 2 ^ (w - 1))%N.

Section Spec.
Variable A : Type.
Variable limit : nat -> Prop.    (* the sizes the size type can handle *)
Variable limitN : N -> Prop.     (* the same, as an argument of reserve *)
Variable dflt : A.

(* sequences *)
Definition insert_at (i : nat) (ys xs : list A) : list A := firstn i xs ++ ys ++ skipn i xs.
Definition remove (i j : nat) (xs : list A) : list A := firstn i xs ++ skipn j xs.
Definition resized (n : nat) (x : A) (xs : list A) : list A := firstn n xs ++ repeat x (n - length xs).

(* lexicographic order and equality of sequences, for an element order and an element equality *)
Section Order.
Variables (eqA ltA : A -> A -> Prop).
Inductive lex : list A -> list A -> Prop :=
| lex_nil y ys : lex [] (y :: ys)
| lex_head x xs y ys : ltA x y -> lex (x :: xs) (y :: ys)
| lex_tail x xs y ys : ~ ltA x y -> ~ ltA y x -> lex xs ys -> lex (x :: xs) (y :: ys).
End Order.

Variables (eqA ltA : A -> A -> bool).
Notation same := (Forall2 (fun x y => eqA x y = true)).
Notation before := (lex (fun x y => ltA x y = true)).

(* spec st o st' out: what the operation does; operations outside their precondition are not related.
   An empty forward range may only be inserted at the end (see C14_insert_empty_range_refuted).
   The returned positions are those of the code, which differ from std::vector's: all insertions but the
   one of a forward range return the position after the inserted elements, erase of a range returns the end. *)
Inductive on (r : nat) (P : list A -> Prop) (f : list A -> list A) : list (list A) -> list (list A) -> Prop :=
| on_ st xs : nth_error st r = Some xs -> P xs -> limit (length (f xs)) -> on r P f st (upd r (f xs) st).
Definition any (_ : list A) := True.

Inductive spec : list (list A) -> op A -> list (list A) -> out A -> Prop :=
| s_push st st' r x : on r any (fun xs => xs ++ [x]) st st' -> spec st (Push r x) st' ONone
| s_insert st st' r i x : on r (fun xs => i <= length xs) (insert_at i [x]) st st' ->
    spec st (Insert r i x) st' (ONum (i + 1))
| s_insert_n st st' r i n x : on r (fun xs => i <= length xs) (insert_at i (repeat x n)) st st' ->
    spec st (InsertN r i n x) st' (ONum (i + n))
| s_insert_in st st' r i ys : on r (fun xs => i <= length xs) (insert_at i ys) st st' ->
    spec st (InsertInput r i ys) st' (ONum (i + length ys))
| s_insert_rg st st' r i ys : on r (fun xs => i <= length xs /\ (ys = [] -> i = length xs)) (insert_at i ys) st st' ->
    spec st (InsertRange r i ys) st' (ONum i)
| s_set st st' r ys : on r any (fun _ => ys) st st' -> spec st (Set_ r ys) st' ONone
| s_resize st st' r n : on r any (resized n dflt) st st' -> spec st (Resize r n) st' ONone
| s_resize_to st st' r n x : on r any (resized n x) st st' -> spec st (ResizeTo r n x) st' ONone
| s_reserve st st' r n : limitN n -> on r any (fun xs => xs) st st' -> spec st (Reserve r n) st' ONone
| s_pop st st' r : on r (fun xs => xs <> []) (@removelast A) st st' -> spec st (Pop r) st' ONone
| s_clear st st' r : on r any (fun _ => []) st st' -> spec st (Clear r) st' ONone
| s_erase st st' r i : on r (fun xs => i < length xs) (remove i (i + 1)) st st' -> spec st (Erase r i) st' (ONum i)
| s_erase_rg st st' r i j ys : on r (fun xs => i <= j <= length xs) (remove i j) st st' ->
    nth_error st' r = Some ys -> spec st (EraseRange r i j) st' (ONum (length ys))
| s_write st st' r i x : on r (fun xs => i < length xs) (upd i x) st st' -> spec st (Write r i x) st' ONone
| s_copy st st' r r' ys : nth_error st r' = Some ys -> on r any (fun _ => ys) st st' -> spec st (Copy r r') st' ONone
| s_move st r r' xs ys : nth_error st r = Some xs -> nth_error st r' = Some ys ->
    spec st (Move r r') (upd r' [] (upd r ys st)) ONone
| s_new st st' r : on r any (fun _ => []) st st' -> spec st (New r) st' ONone
| s_view st st' r ys : on r any (fun _ => ys) st st' -> spec st (View r ys) st' ONone
| s_at st r i xs x : nth_error st r = Some xs -> nth_error xs i = Some x -> spec st (At r i) st (OVal x)
| s_at_throw st r i xs : nth_error st r = Some xs -> length xs <= i -> spec st (At r i) st OThrow
| s_get st r i xs x : nth_error st r = Some xs -> nth_error xs i = Some x -> spec st (Get r i) st (OVal x)
| s_front st r x xs : nth_error st r = Some (x :: xs) -> spec st (Front r) st (OVal x)
| s_back st r x xs : nth_error st r = Some (xs ++ [x]) -> spec st (Back r) st (OVal x)
| s_size st r xs : nth_error st r = Some xs -> spec st (Size r) st (ONum (length xs))
| s_all st r xs : nth_error st r = Some xs -> spec st (All r) st (OList xs)
| s_eq st r r' xs ys b : nth_error st r = Some xs -> nth_error st r' = Some ys ->
    (b = true <-> same xs ys) -> spec st (Eq r r') st (OBool b)
| s_lt st r r' xs ys b : nth_error st r = Some xs -> nth_error st r' = Some ys ->
    (b = true <-> before xs ys) -> spec st (Lt r r') st (OBool b)
| s_gt st r r' xs ys b : nth_error st r = Some xs -> nth_error st r' = Some ys ->
    (b = true <-> before ys xs) -> spec st (Gt r r') st (OBool b)
| s_le st r r' xs ys b : nth_error st r = Some xs -> nth_error st r' = Some ys ->
    (b = true <-> ~ before ys xs) -> spec st (Le r r') st (OBool b)
| s_ge st r r' xs ys b : nth_error st r = Some xs -> nth_error st r' = Some ys ->
    (b = true <-> ~ before xs ys) -> spec st (Ge r r') st (OBool b).

(* a history inside the preconditions, its final state and its outputs *)
Inductive history : list (list A) -> list (op A) -> list (list A) -> list (out A) -> Prop :=
| h_nil st : history st [] st []
| h_cons st o st1 x ops st2 xs : spec st o st1 x -> history st1 ops st2 xs ->
    history st (o :: ops) st2 (x :: xs).
(* operations that replace elements without destroying them: excluded from the lifetime theorem *)
Definition keeps_objects (st : list (list A)) (o : op A) : Prop :=
  match o with
  | Resize r n | ResizeTo r n _ => forall xs, nth_error st r = Some xs -> length xs <= n
  | Set_ r _ => nth_error st r = Some []
  | Copy r r' => r = r' \/ nth_error st r = Some []
  | _ => True
  end.
Inductive tidy : list (list A) -> list (op A) -> Prop :=
| t_nil st : tidy st []
| t_cons st o st1 x ops : keeps_objects st o -> spec st o st1 x -> tidy st1 ops -> tidy st (o :: ops).
End Spec.
