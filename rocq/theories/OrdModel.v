(* Model of the comparison operators of nested cista values:
   include/cista/reflection/comparable.h (CISTA_COMPARABLE: std::tuple's operators on the members;
   pair.h uses it), containers/tuple.h:237-295, containers/vector.h:416-437,
   containers/variant.h:133-173, containers/string.h:195-333 and containers/cstring.h:155-287.
   Simplifications: a floating point number is NaN or an integer standing for its rank; C++17 (the
   operators of std::tuple are synthesized from == and < of the members); no pointers, no
   cista::optional (it has no comparison operators). *)
From Verif Require Import Base.

Inductive ty :=
| TInt                 (* an integer, bool, enum, or strong<> of one *)
| TFloat
| TStr                 (* cista string, cstring *)
| TVec (t : ty)        (* cista vector *)
| TTup (ts : list ty)  (* cista::tuple *)
| TRec (ts : list ty)  (* a struct with CISTA_COMPARABLE(), pair *)
| TVar (ts : list ty). (* cista::variant *)

Inductive val :=
| VInt (z : Z)
| VFloat (f : option Z)  (* None: NaN *)
| VStr (s : list N)      (* bytes *)
| VList (vs : list val)  (* elements of a vector, tuple or struct *)
| VVar (i : nat) (v : val)
| VNone.                 (* a variant without value *)

Inductive op := Oeq | One | Olt | Ole | Ogt | Oge.

Definition neg (r : res bool) : res bool := let* b := r in Ok (negb b).

(* the built-in operators of integers, and of floats *)
Definition irel (o : op) (a b : Z) : bool :=
  match o with
  | Oeq => a =? b | One => negb (a =? b) | Olt => a <? b | Ole => a <=? b | Ogt => b <? a | Oge => b <=? a
  end%Z.
Definition frel (o : op) (a b : option Z) : bool :=
  match a, b with
  | Some x, Some y => irel o x y
  | _, _ => match o with One => true | _ => false end
  end.

(* std::string_view: compare() is memcmp on the common length, then by length *)
Fixpoint scmp (a b : list N) : comparison :=
  match a, b with
  | [], [] => Eq
  | [], _ => Lt
  | _, [] => Gt
  | x :: a, y :: b => match (x ?= y)%N with Eq => scmp a b | c => c end
  end.
Definition srel (o : op) (a b : list N) : bool :=
  match o, scmp a b with
  | Oeq, Eq | One, Lt | One, Gt | Olt, Lt | Ole, Lt | Ole, Eq | Ogt, Gt | Oge, Gt | Oge, Eq => true
  | _, _ => false
  end.

(* vector.h:420-437, tuple.h:251-295 and std::tuple: the other four operators from == and < *)
Definition derive (eq lt : list val -> list val -> res bool) (o : op) (a b : list val) : res bool :=
  match o with
  | Oeq => eq a b
  | One => neg (eq a b)
  | Olt => lt a b
  | Ogt => lt b a
  | Ole => neg (lt b a)
  | Oge => neg (lt a b)
  end.

(* vector.h:416-419 std::equal(a.begin(), a.end(), b.begin(), b.end()): lengths first *)
Fixpoint all_eq (eq : val -> val -> res bool) (a b : list val) : res bool :=
  match a, b with
  | x :: a, y :: b => let* e := eq x y in if e then all_eq eq a b else Ok false
  | _, _ => Ok true
  end.
Definition vec_eq (eq : val -> val -> res bool) (a b : list val) : res bool :=
  if length a =? length b then all_eq eq a b else Ok false.
(* vector.h:424-426 std::lexicographical_compare *)
Fixpoint vec_lt (lt : val -> val -> res bool) (a b : list val) : res bool :=
  match a, b with
  | _, [] => Ok false
  | [], _ => Ok true
  | x :: a, y :: b =>
      let* l := lt x y in if l then Ok true else
      let* g := lt y x in if g then Ok false else vec_lt lt a b
  end.

Fixpoint rel (t : ty) : op -> val -> val -> res bool :=
  match t with
  | TInt => fun o a b => match a, b with VInt x, VInt y => Ok (irel o x y) | _, _ => UB end
  | TFloat => fun o a b => match a, b with VFloat x, VFloat y => Ok (frel o x y) | _, _ => UB end
  | TStr => fun o a b => match a, b with VStr x, VStr y => Ok (srel o x y) | _, _ => UB end
  | TVec t => fun o a b =>
      match a, b with
      | VList x, VList y => derive (vec_eq (rel t Oeq)) (vec_lt (rel t Olt)) o x y
      | _, _ => UB
      end
  | TTup ts | TRec ts => fun o a b =>
      (* tuple.h:237-241 eq, 257-271 lt; std::tuple's operators are defined the same way *)
      let eq := (fix eq (ts : list ty) (a b : list val) : res bool :=
        match ts, a, b with
        | [], [], [] => Ok true
        | t :: ts, x :: a, y :: b => let* e := rel t Oeq x y in if e then eq ts a b else Ok false
        | _, _, _ => UB
        end) ts in
      let lt := (fix lt (ts : list ty) (a b : list val) : res bool :=
        match ts, a, b with
        | [], [], [] => Ok false
        | t :: ts, x :: a, y :: b =>
            let* l := rel t Olt x y in if l then Ok true else
            let* g := rel t Olt y x in if g then Ok false else lt ts a b
        | _, _, _ => UB
        end) ts in
      match a, b with
      | VList x, VList y => derive eq lt o x y
      | _, _ => UB
      end
  | TVar ts => fun o a b =>
      let index v := match v with VVar i _ => i | _ => length ts end in (* NO_VALUE is larger *)
      let at_ := (fix at_ (ts : list ty) (i : nat) (x y : val) : res bool :=
        match ts, i with
        | t :: _, O => rel t o x y
        | _ :: ts, S i => at_ ts i x y
        | [], _ => UB  (* 298-301: unreachable code *)
        end) in
      match a, b with
      | VVar i x, VVar j y => if i =? j then at_ ts i x y else Ok (irel o (Z.of_nat i) (Z.of_nat j))
      | VNone, VNone => UB  (* apply with NO_VALUE: unreachable code *)
      | VVar _ _, VNone | VNone, VVar _ _ => Ok (irel o (Z.of_nat (index a)) (Z.of_nat (index b)))
      | _, _ => UB
      end
  end.
