(* Model of the iterators over the keys of fws_multimap.h (fws_multimap_iterator 55-130) and
   mutable_fws_multimap.h (bucket_iterator 271-381). An iterator is a reference to the map and a number index_: 32
   or 64 bits (index_t) in the former (keys of 8 and 16 bits do not compile: end() would narrow index_.size() - 1),
   32 bits (size_type) in the latter. Iterators cannot be assigned, as they hold a reference; a program creates
   variables and changes them with the operators. The reference is the same for all iterators of a program. *)
From Coq Require Import ZArith.
From Verif Require Import Base FlatModel MmModel.

Inductive kind := Fws | Mut.
(* conversion to int (modular: before C++20 defined by the implementation) *)
Definition to_int (z : Z) : Z := let m := (z mod 2 ^ 32)%Z in if (m <? 2 ^ 31)%Z then m else (m - 2 ^ 32)%Z.
Definition in_int (z : Z) : bool := ((- 2 ^ 31 <=? z) && (z <? 2 ^ 31))%Z.

Section Kiter.
Variable kd : kind.
Variable w : N.                                        (* bits of index_ *)
(* conversion to the type of index_ *)
Definition to_k (z : Z) : N := Z.to_N (z mod 2 ^ Z.of_N w).
(* ++it: 79-82; 310-313 *)
Definition k_inc (i : N) : N := to_k (Z.of_N i + 1).
(* --it: 84-87; 321-324, which counts up *)
Definition k_dec (i : N) : N := match kd with Fws => to_k (Z.of_N i - 1) | Mut => to_k (Z.of_N i + 1) end.
(* it += n, it -= n: 69-77; 300-308 *)
Definition k_add (i : N) (n : Z) : N := to_k (Z.of_N i + n).
Definition k_sub (i : N) (n : Z) : N := to_k (Z.of_N i - n).
(* it + n, it - n: 89-95, where the latter adds; 332-338 *)
Definition k_plus (i : N) (n : Z) : N := to_k (Z.of_N i + n).
Definition k_minus (i : N) (n : Z) : N := match kd with Fws => to_k (Z.of_N i + n) | Mut => to_k (Z.of_N i - n) end.
(* a - b: 97-99, computed in the type of index_; 340-343, computed in int *)
Definition k_diff (i j : N) : res Z :=
  match kd with
  | Fws => Ok (to_int (Z.of_N i - Z.of_N j))
  | Mut => let d := (to_int (Z.of_N i) - to_int (Z.of_N j))%Z in if in_int d then Ok d else UB
  end.
Inductive rel := Lt | Le | Gt | Ge | Eq | Ne.
(* 103-125; 356-373 *)
Definition k_cmp (c : rel) (i j : N) : bool :=
  match c with
  | Lt => (i <? j)%N | Le => (i <=? j)%N | Gt => (j <? i)%N | Ge => (j <=? i)%N | Eq => (i =? j)%N | Ne => negb (i =? j)%N
  end.

Variable B : Type.
Variable deref : nat -> res B.                         (* *it *)
Variable last : N.                                     (* end() *)
Inductive kop :=
| KBegin | KEnd                                        (* auto v = m.begin(); auto v = m.end(); *)
| KInc (r : nat) | KDec (r : nat)                      (* ++r, --r *)
| KPostInc (r : nat) | KPostDec (r : nat)              (* auto v = r++; auto v = r-- *)
| KAdd (r : nat) (n : Z) | KSub (r : nat) (n : Z)      (* r += n, r -= n *)
| KPlus (r : nat) (n : Z) | KMinus (r : nat) (n : Z)   (* auto v = r + n; auto v = r - n; *)
| KDiff (r s : nat) | KCmp (c : rel) (r s : nat)       (* r - s, r < s *)
| KRead (r : nat) | KAt (r : nat) (n : Z).             (* *r, r[n] *)
Inductive kout := KNone | KNum (z : Z) | KBool (b : bool) | KVal (x : B).

(* r++ and r-- (315-319, 326-330) exist in mutable_fws_multimap only; so does r[n] (345-354), as fws_multimap's (101)
   does not compile. n is an int, which the caller's type system sees to *)
Definition k_step (vs : list N) (o : kop) : res (list N * kout) :=
  match o with
  | KBegin => Ok (vs ++ [0%N], KNone)
  | KEnd => Ok (vs ++ [last], KNone)
  | KInc r => let* i := idx vs r in Ok (upd r (k_inc i) vs, KNone)
  | KDec r => let* i := idx vs r in Ok (upd r (k_dec i) vs, KNone)
  | KPostInc r => let* i := idx vs r in Ok (upd r (k_inc i) vs ++ [i], KNone)
  | KPostDec r => let* i := idx vs r in Ok (upd r (k_dec i) vs ++ [i], KNone)
  | KAdd r n => let* i := idx vs r in Ok (upd r (k_add i n) vs, KNone)
  | KSub r n => let* i := idx vs r in Ok (upd r (k_sub i n) vs, KNone)
  | KPlus r n => let* i := idx vs r in Ok (vs ++ [k_plus i n], KNone)
  | KMinus r n => let* i := idx vs r in Ok (vs ++ [k_minus i n], KNone)
  | KDiff r s => let* i := idx vs r in let* j := idx vs s in let* d := k_diff i j in Ok (vs, KNum d)
  | KCmp c r s => let* i := idx vs r in let* j := idx vs s in Ok (vs, KBool (k_cmp c i j))
  | KRead r => let* i := idx vs r in let* x := deref (N.to_nat i) in Ok (vs, KVal x)
  | KAt r n => let* i := idx vs r in let* x := deref (N.to_nat (k_add i n)) in Ok (vs, KVal x)
  end.
Fixpoint k_run (vs : list N) (ops : list kop) : res (list kout) :=
  match ops with
  | [] => Ok []
  | o :: ops => let* ' (vs, x) := k_step vs o in let* xs := k_run vs ops in Ok (x :: xs)
  end.
End Kiter.

(* fws_multimap.h:184-185 end(): index_.size() - 1, computed in 32 bits; 179-182 *it asserts *)
Definition fw_last {A} (m : fw A) : N := Z.to_N ((Z.of_nat (length (fw_index m)) - 1) mod 2 ^ 32).
Definition fw_entry {A} (m : fw A) (k : nat) : res (list A) := if k + 1 <? length (fw_index m) then fw_get A m k else UB.
(* mutable_fws_multimap.h:458-468 end(); 285-288, 391-407 *it is at() *)
Definition mm_last {A} (m : mm A) : N := Z.to_N (Z.of_nat (length (mm_index m)) mod 2 ^ 32).
(* programs with iterators over a map *)
Definition fw_prog {A} (w : N) (m : fw A) (ops : list kop) := k_run Fws w (list A) (fw_entry m) (fw_last m) [] ops.
Definition mm_prog {A} (m : mm A) (ops : list kop) := k_run Mut 32 (list A) (mm_at A m) (mm_last m) [] ops.
