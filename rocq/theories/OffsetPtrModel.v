(* Model of include/cista/containers/offset_ptr.h: a pointer stored as the
   distance from its own address. Addresses are intptr_t values (Z), 0 = nullptr.
   Arithmetic is that of int64_t: overflow is UB. *)
From Verif Require Import Base.
Local Open Scope Z_scope.

(* offset_t.h: NULLPTR_OFFSET = numeric_limits<offset_t>::min() *)
Definition NULLPTR_OFFSET : Z := -9223372036854775808.
Definition in_i64 (x : Z) : bool := (-9223372036854775808 <=? x) && (x <=? 9223372036854775807).
Definition i64 (x : Z) : res Z := if in_i64 x then Ok x else UB.

(* offset_ptr.h:57-60: ptr_to_offset *)
Definition ptr_to_offset (this p : Z) : res Z :=
  if p =? 0 then Ok NULLPTR_OFFSET else i64 (p - this).
(* offset_ptr.h:70-76: get *)
Definition get (this off : Z) : res Z :=
  if off =? NULLPTR_OFFSET then Ok 0 else i64 (this + off).
(* offset_ptr.h:62: operator bool *)
Definition to_bool (off : Z) : bool := negb (off =? NULLPTR_OFFSET).

(* T* arithmetic of the compiler: moving a null or wild pointer is UB *)
Definition ptr_add (sz p k : Z) : res Z :=
  if p =? 0 then UB
  else if (0 <? p + k * sz) && (p + k * sz <=? 9223372036854775807)
       then Ok (p + k * sz) else UB.

(* Several offset_ptr<T> objects at addresses [at_]; [st] = their offset_ members. *)
Section Cells.
Variable sz : Z.            (* sizeof(T) *)
Variable at_ : nat -> Z.    (* address of the i-th offset_ptr *)
Definition cells := list Z.
Definition cell (st : cells) (i : nat) : res Z :=
  match nth_error st i with Some o => Ok o | None => UB end.
Definition get_cell (st : cells) (i : nat) : res Z :=
  let* o := cell st i in get (at_ i) o.
Definition set_cell (st : cells) (i : nat) (p : Z) : res cells :=
  let* _ := cell st i in
  let* o := ptr_to_offset (at_ i) p in Ok (upd i o st).

Inductive op : Type :=
| SetNull (i : nat)                 (* offset_ptr.h:39-42 operator=(nullptr_t) *)
| SetPtr (i : nat) (p : Z)          (* offset_ptr.h:35-38 operator=(T const * ) *)
| Copy (i j : nat)                  (* offset_ptr.h:46-49 operator=(offset_ptr const&) *)
| Move (i j : nat)                  (* offset_ptr.h:50-53 operator=(offset_ptr&&) *)
| PreInc (i : nat)                  (* offset_ptr.h:97-100 *)
| PreDec (i : nat)                  (* offset_ptr.h:102-105 *)
| Get (i : nat)                     (* offset_ptr.h:70-76, 65 *)
| IsSet (i : nat)                   (* offset_ptr.h:62 *)
| Plus (i : nat) (k : Z)            (* offset_ptr.h:78-81, and operator[] 68 *)
| Minus (i : nat) (k : Z)           (* offset_ptr.h:83-86 *)
| Eq (i j : nat) | Less (i j : nat) (* via operator T* , offset_ptr.h:65 *).

Inductive out : Type := Nothing | Ptr (p : Z) | Flag (b : bool).

Definition step (st : cells) (o : op) : res (cells * out) :=
  match o with
  | SetNull i => let* _ := cell st i in Ok (upd i NULLPTR_OFFSET st, Nothing)
  | SetPtr i p => let* st := set_cell st i p in Ok (st, Nothing)
  | Copy i j => let* p := get_cell st j in let* st := set_cell st i p in Ok (st, Nothing)
  | Move i j => let* p := get_cell st j in let* st := set_cell st i p in Ok (st, Nothing)
  | PreInc i => let* p := get_cell st i in let* q := ptr_add sz p 1 in
                let* st := set_cell st i q in Ok (st, Nothing)
  | PreDec i => let* p := get_cell st i in let* q := ptr_add sz p (-1) in
                let* st := set_cell st i q in Ok (st, Nothing)
  | Get i => let* p := get_cell st i in Ok (st, Ptr p)
  | IsSet i => let* o := cell st i in Ok (st, Flag (to_bool o))
  | Plus i k => let* p := get_cell st i in let* q := ptr_add sz p k in Ok (st, Ptr q)
  | Minus i k => let* p := get_cell st i in let* q := ptr_add sz p (- k) in Ok (st, Ptr q)
  | Eq i j => let* p := get_cell st i in let* q := get_cell st j in Ok (st, Flag (p =? q))
  | Less i j => let* p := get_cell st i in let* q := get_cell st j in Ok (st, Flag (p <? q))
  end.

Fixpoint run (st : cells) (ops : list op) : res (cells * list out) :=
  match ops with
  | [] => Ok (st, [])
  | o :: ops => let* ' (st, x) := step st o in
                let* ' (st, xs) := run st ops in Ok (st, x :: xs)
  end.

(* offset_ptr.h:107: operator++(int) const returns offset_ptr{get() + 1}; the
   object itself is const. [tmp] is the address of the returned object. *)
Definition post_inc (st : cells) (i : nat) (tmp : Z) : res (cells * Z) :=
  let* p := get_cell st i in let* q := ptr_add sz p 1 in
  let* o := ptr_to_offset tmp q in let* r := get tmp o in Ok (st, r).
End Cells.
