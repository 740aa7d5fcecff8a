(* The order of nested values, independent of types and operators. *)
From Verif Require Import Base OrdModel.

(* lexicographic: equal up to a position where a is smaller, or a is a proper prefix of b *)
Definition lex {A} (lt : A -> A -> Prop) (a b : list A) : Prop :=
  (exists p x y a' b', a = p ++ x :: a' /\ b = p ++ y :: b' /\ lt x y) \/ (exists y b', b = a ++ y :: b').

Inductive less : val -> val -> Prop :=
| less_int x y : (x < y)%Z -> less (VInt x) (VInt y)
| less_float x y : (x < y)%Z -> less (VFloat (Some x)) (VFloat (Some y))
| less_str a b : lex N.lt a b -> less (VStr a) (VStr b)
| less_elem p x y a b : less x y -> less (VList (p ++ x :: a)) (VList (p ++ y :: b))
| less_prefix p y b : less (VList p) (VList (p ++ y :: b))
| less_index i j x y : i < j -> less (VVar i x) (VVar j y)
| less_value i x y : less x y -> less (VVar i x) (VVar i y).

(* v is a value of type t without a NaN and without a valueless variant *)
Inductive has_type : ty -> val -> Prop :=
| ht_int z : has_type TInt (VInt z)
| ht_float z : has_type TFloat (VFloat (Some z))
| ht_str s : has_type TStr (VStr s)
| ht_vec t vs : Forall (has_type t) vs -> has_type (TVec t) (VList vs)
| ht_tup ts vs : Forall2 has_type ts vs -> has_type (TTup ts) (VList vs)
| ht_rec ts vs : Forall2 has_type ts vs -> has_type (TRec ts) (VList vs)
| ht_var ts i t v : nth_error ts i = Some t -> has_type t v -> has_type (TVar ts) (VVar i v).

(* the operator answers the question P *)
Definition answers (r : res bool) (P : Prop) : Prop := exists b, r = Ok b /\ (b = true <-> P).
