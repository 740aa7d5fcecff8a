(* Raw pointers: what C10 compares offset_ptr with. *)
From Verif Require Import Base OffsetPtrModel.
Local Open Scope Z_scope.

Definition user_address (p : Z) : Prop := 0 < p <= 9223372036854775807.
Definition user_or_null (p : Z) : bool := (0 <=? p) && (p <=? 9223372036854775807).

Section Raw.
Variable sz : Z.
Definition rd (st : list Z) (i : nat) : res Z :=
  match nth_error st i with Some p => Ok p | None => UB end.
Definition wr (st : list Z) (i : nat) (p : Z) : res (list Z) :=
  let* _ := rd st i in Ok (upd i p st).
(* the same operations on variables of type T* *)
Definition raw_step (st : list Z) (o : op) : res (list Z * out) :=
  match o with
  | SetNull i => let* st := wr st i 0 in Ok (st, Nothing)
  | SetPtr i p => if user_or_null p then let* st := wr st i p in Ok (st, Nothing) else UB
  | Copy i j | Move i j => let* p := rd st j in let* st := wr st i p in Ok (st, Nothing)
  | PreInc i => let* p := rd st i in let* q := ptr_add sz p 1 in let* st := wr st i q in Ok (st, Nothing)
  | PreDec i => let* p := rd st i in let* q := ptr_add sz p (-1) in let* st := wr st i q in Ok (st, Nothing)
  | Get i => let* p := rd st i in Ok (st, Ptr p)
  | IsSet i => let* p := rd st i in Ok (st, Flag (negb (p =? 0)))
  | Plus i k => let* p := rd st i in let* q := ptr_add sz p k in Ok (st, Ptr q)
  | Minus i k => let* p := rd st i in let* q := ptr_add sz p (- k) in Ok (st, Ptr q)
  | Eq i j => let* p := rd st i in let* q := rd st j in Ok (st, Flag (p =? q))
  | Less i j => let* p := rd st i in let* q := rd st j in Ok (st, Flag (p <? q))
  end.
Fixpoint raw_run (st : list Z) (ops : list op) : res (list Z * list out) :=
  match ops with
  | [] => Ok (st, [])
  | o :: ops => let* ' (st, x) := raw_step st o in
                let* ' (st, xs) := raw_run st ops in Ok (st, x :: xs)
  end.
End Raw.
