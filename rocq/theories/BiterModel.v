(* Model of the iterators over the buckets of a container of containers: vecvec.h (bucket 21-191, const_bucket
   193-323), nvec.h (const_bucket 13-128, bucket 133-266, const_meta_bucket 270-344, meta_bucket 349-436) and
   paged_vecvec.h (const_bucket 16-119, bucket 121-262).
   A bucket is its own iterator: a pointer to the container and a position i_. Positions are unsigned
   integers of w bits: index_value_type in a bucket of vecvec.h and in the meta buckets of nvec.h, std::size_t in
   a const_bucket of vecvec.h, SizeType in the buckets of nvec.h, Key in paged_vecvec.h (here an integer; for
   strong types see C48). The pointer to the container is the same for all iterators of a program: the
   asserts on it are not modelled. *)
From Coq Require Import ZArith.
From Verif Require Import Base FlatModel MmModel PagedModel.

(* conversion to std::ptrdiff_t *)
Definition to_ptrdiff (z : Z) : Z := let m := (z mod 2 ^ 64)%Z in if (m <? 2 ^ 63)%Z then m else (m - 2 ^ 64)%Z.
(* a value that std::ptrdiff_t can hold *)
Definition in_ptrdiff (z : Z) : bool := ((- 2 ^ 63 <=? z) && (z <? 2 ^ 63))%Z.

Section Iter.
Variable w : N.                                       (* bits of i_: 8, 16, 32 or 64 *)
(* conversion to the type of i_ *)
Definition to_i (z : Z) : N := Z.to_N (z mod 2 ^ Z.of_N w).
(* ++i_, --i_: vecvec.h 143-150, 277-284; nvec.h 83-90, 220-227, 301-308, 393-401; paged_vecvec.h 83-90, 224-231 *)
Definition i_inc (i : N) : N := to_i (Z.of_N i + 1).
Definition i_dec (i : N) : N := to_i (Z.of_N i - 1).
(* i_ += z for a std::ptrdiff_t: computed as unsigned 64 bit number if i_ has 64 bits, as std::ptrdiff_t
   otherwise; then an overflow is UB *)
Definition i_sum (z : Z) : res N :=
  if (w =? 64)%N then Ok (to_i z) else if in_ptrdiff z then Ok (to_i z) else UB.
(* +=, -=: vecvec.h 152-169, 286-303; nvec.h 92-109, 229-246, 309-326, 402-419; paged_vecvec.h 92-109, 233-250 *)
Definition i_add (i : N) (n : Z) : res N := i_sum (Z.of_N i + n).
Definition i_sub (i : N) (n : Z) : res N := i_sum (Z.of_N i - n).
(* a.i_ - b.i_ converted to difference_type: vecvec.h 170-174, 304-308; nvec.h 110-115, 247-251;
   paged_vecvec.h 110-114, 251-254. Numbers of less than 32 bits are converted to int *)
Definition i_diff (a b : N) : Z :=
  let d := (Z.of_N a - Z.of_N b)%Z in
  if (w <? 32)%N then d else to_ptrdiff (d mod 2 ^ Z.of_N w).

Section Prog.
Variable B : Type.
Variable deref : nat -> res B.                        (* what *it and the functions of a bucket read *)
Variables first last : res N.                         (* begin() and end() *)

(* programs with iterator variables *)
Inductive iop :=
| IBegin (r : nat) | IEnd (r : nat)                   (* r = c.begin(), r = c.end() *)
| IInc (r : nat) | IDec (r : nat)                     (* ++r, --r *)
| IAdd (r : nat) (n : Z) | ISub (r : nat) (n : Z)     (* r += n, r -= n *)
| IPlus (r s : nat) (n : Z) | IMinus (r s : nat) (n : Z)  (* r = s + n, r = s - n *)
| IDiff (r s : nat)                                   (* r - s *)
| IEq (r s : nat) | INe (r s : nat)                   (* r == s, r != s *)
| IRead (r : nat).                                    (* *r *)
Inductive iout := INone | INum (z : Z) | IBool (b : bool) | IVal (x : B).

Definition i_step (rs : list N) (o : iop) : res (list N * iout) :=
  match o with
  | IBegin r => let* i := first in let* rs := put rs r i in Ok (rs, INone)
  | IEnd r => let* i := last in let* rs := put rs r i in Ok (rs, INone)
  | IInc r => let* i := idx rs r in let* rs := put rs r (i_inc i) in Ok (rs, INone)
  | IDec r => let* i := idx rs r in let* rs := put rs r (i_dec i) in Ok (rs, INone)
  | IAdd r n => let* i := idx rs r in let* j := i_add i n in let* rs := put rs r j in Ok (rs, INone)
  | ISub r n => let* i := idx rs r in let* j := i_sub i n in let* rs := put rs r j in Ok (rs, INone)
  | IPlus r s n => let* i := idx rs s in let* j := i_add i n in let* rs := put rs r j in Ok (rs, INone)
  | IMinus r s n => let* i := idx rs s in let* j := i_sub i n in let* rs := put rs r j in Ok (rs, INone)
  | IDiff r s => let* i := idx rs r in let* j := idx rs s in Ok (rs, INum (i_diff i j))
  | IEq r s => let* i := idx rs r in let* j := idx rs s in Ok (rs, IBool (i =? j)%N)
  | INe r s => let* i := idx rs r in let* j := idx rs s in Ok (rs, IBool (negb (i =? j)%N))
  | IRead r => let* i := idx rs r in let* x := deref (N.to_nat i) in Ok (rs, IVal x)
  end.
Fixpoint i_run (rs : list N) (ops : list iop) : res (list iout) :=
  match ops with
  | [] => Ok []
  | o :: ops => let* ' (rs, x) := i_step rs o in let* xs := i_run rs ops in Ok (x :: xs)
  end.
(* a program with k variables, all set to begin(): there is no default constructor *)
Definition i_prog (k : nat) (ops : list iop) : res (list iout) := let* b := first in i_run (repeat b k) ops.

(* A caller of the iterators: std::lower_bound with a predicate on the buckets, as in the C++ standard library
   (half the distance, advance, ++). fuel bounds the number of rounds *)
Fixpoint lower_bound (fuel : nat) (p : B -> bool) (i : N) (len : Z) : res N :=
  match fuel with
  | O => Fuel
  | S fuel =>
      if (len <=? 0)%Z then Ok i
      else
        let half := (len / 2)%Z in
        let* mid := i_add i half in
        let* x := deref (N.to_nat mid) in
        if p x then lower_bound fuel p (i_inc mid) (len - half - 1)%Z
        else lower_bound fuel p i half
  end.
Definition search (fuel : nat) (p : B -> bool) : res N :=
  let* b := first in let* e := last in lower_bound fuel p b (i_diff e b).
End Prog.
End Iter.

(* vecvec.h 415-421: begin() and end(), with 0U and size() converted to index_value_type *)
Definition vv_first : res N := Ok 0%N.
Definition vv_last {A} (w : N) (m : vv A) : res N := Ok (to_i w (Z.of_nat (vv_size A m))).
(* paged_vecvec.h 300-303: begin() is front(), which throws if there is no bucket *)
Definition pv_first {A} (m : pv A) : res N := let* _ := verify (0 <? length (pv_idx m)) in Ok 0%N.
Definition pv_last {A} (w : N) (m : pv A) : res N := Ok (to_i w (Z.of_nat (length (pv_idx m)))).
(* nvec.h 457-461: begin() and end() of an nvec of depth n *)
Definition nv_first : res N := Ok 0%N.
Definition nv_last {A} (w : N) (n : nat) (m : nv A) : res N := let* k := nv_size A n m in Ok (to_i w (Z.of_nat k)).
(* nvec.h 290-291, 371-375: begin() and end() of the meta bucket at position p of level L *)
Definition nv_in_first {A} (w : N) (m : nv A) (L p : nat) : res N :=
  let* s := idx (nv_index m) L in let* b := idx s p in Ok (to_i w (Z.of_nat b)).
Definition nv_in_last {A} (w : N) (m : nv A) (L p : nat) : res N :=
  let* s := idx (nv_index m) L in let* e := idx s (p + 1) in Ok (to_i w (Z.of_nat e)).
(* a program with iterators over the buckets of c[j][i]... of an nvec c of depth n, j :: path being the indices *)
Definition nv_in_prog {A} (w : N) (n : nat) (m : nv A) (j : nat) (path : list nat) (k : nat) (ops : list iop) : res (list (iout (nest A))) :=
  let* ' (L, p) := nv_pos A m (n - 1) j path in
  match L with
  | O => UB                                           (* does not compile: a bucket of elements *)
  | S L' => i_prog w _ (nv_below A m L') (nv_in_first w m L p) (nv_in_last w m L p) k ops
  end.
