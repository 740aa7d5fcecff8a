(* What a vector in a file means: a sequence of elements. *)
From Verif Require Import Base FlatModel FlatSpec FileModel MvecModel.
Section Spec.
Variable sz : nat.
Variable zero : bytes.
(* ro: opened read only. exact: the file is as long as the elements; reserve makes it longer or shorter (see C39_reserve_refuted).
   most: the largest number of elements asked for since it was opened, for which there is space *)
Record vs := VS { cells : list bytes; ro : bool; exact : bool; most : nat }.
Definition vopened (l : list bytes) (p : prot) : vs :=
  match p with WRITE => VS [] false true 0 | READ => VS l true true (length l) | MODIFY => VS l false true (length l) end.
Definition with_cells (t : vs) (l : list bytes) : vs := VS l (ro t) true (Nat.max (most t) (length l)).
Definition elem (x : bytes) : bool := length x =? sz.
Definition insert_at {A} (i : nat) (xs l : list A) : list A := firstn i l ++ xs ++ skipn i l.
Definition change (t : vs) (ok : bool) (l : list bytes) (a : vans) : option (vs * vans) :=
  guard ok (if ro t then (t, VThrow) else (with_cells t l, a)).
Definition mv_spec (t : vs) (o : vop) : option (vs * vans) :=
  let l := cells t in
  match o with
  (* read only: see C39_readonly_push_refuted *)
  | VPush x => guard (elem x && negb (ro t)) (with_cells t (l ++ [x]), VNone)
  (* pushing an own element needs reserved space, see C39_alias_refuted *)
  | VPushOwn i => match nth_error l i with
                  | Some x => guard (negb (ro t) && (length l <? most t)) (with_cells t (l ++ [x]), VNone)
                  | None => None end
  | VEmplace x => change t (elem x) (l ++ [x]) VNone
  | VGet i => match nth_error l i with Some x => Some (t, VVal x) | None => None end
  | VPut i x => guard (elem x && (i <? length l) && negb (ro t)) (VS (upd i x l) (ro t) (exact t) (most t), VNone)
  | VSize => Some (t, VNum (length l))
  | VAll => Some (t, VVals l)
  | VReserve n => Some (if ro t then (t, VThrow) else (VS l false (n =? length l) (Nat.max (most t) n), VNone))
  | VResize n => change t true (firstn n l ++ repeat zero (n - length l)) VNone
  | VSet xs => change t (forallb elem xs) xs VNone
  (* the first two do not return the position of the inserted element but the one behind, see C39_position_refuted *)
  | VInsert i x => change t (elem x && (i <=? length l)) (insert_at i [x] l) (VNum (i + 1))
  | VInsertIn i xs => guard (forallb elem xs && (i <=? length l) && negb (ro t) && negb (length xs =? 0)) (with_cells t (insert_at i xs l), VNum (i + length xs))
  | VInsertFwd i xs => change t (forallb elem xs && (i <=? length l)) (insert_at i xs l) (VNum i)
  | VReopen p => guard (exact t) (vopened l p, VNone)
  end.
End Spec.
