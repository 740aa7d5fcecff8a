(* What key values are: the types, and the meaning of a value. *)
From Coq Require Import ZArith.
From Verif Require Import Base FnvModel KeyModel.

Inductive ty :=
  | TInt (s : bool) (w : nat) | TNum | TPtr | TStr | TSeq (t : ty) | TStruct (ts : list ty) | TPair (a b : ty) | TTuple (ts : list ty)
  | TVar (std : bool) (ts : list ty) | TStrong (t : ty) | TOpt (std : bool) (t : ty) | TBits (n : nat).

Definition int_range (s : bool) (w : nat) (z : Z) : Prop :=
  (if s then - 2 ^ (8 * Z.of_nat w - 1) <= z < 2 ^ (8 * Z.of_nat w - 1) else 0 <= z < 2 ^ (8 * Z.of_nat w))%Z.
(* -1 < (-1)^neg * m * 2^e < 2^64 *)
Definition num_range (neg : bool) (m : N) (e : Z) : Prop :=
  if neg then (Z.of_N m * 2 ^ Z.max e 0 < 2 ^ Z.max (- e) 0)%Z
  else (Z.of_N m * 2 ^ Z.max e 0 < 2 ^ 64 * 2 ^ Z.max (- e) 0)%Z.
(* v is a value of the type. Excluded: not-a-number and numbers that cannot be hashed (C36_float_refuted), bitsets with unused bits set
   (C36_bitset_refuted) *)
Inductive has_ty : val -> ty -> Prop :=
  | HInt s w z : (0 < w <= 8) -> int_range s w z -> has_ty (VInt s w z) (TInt s w)
  | HNum n m e : num_range n m e -> has_ty (VNum n m e) TNum
  | HPtr a : (a < 2 ^ 64)%N -> has_ty (VPtr a) TPtr
  | HStr s : has_ty (VStr s) TStr
  | HSeq l t : all_ty l t -> has_ty (VSeq l) (TSeq t)
  | HStruct l ts : each_ty l ts -> has_ty (VStruct l) (TStruct ts)
  | HPair a b ta tb : has_ty a ta -> has_ty b tb -> has_ty (VPair a b) (TPair ta tb)
  | HTuple l ts : each_ty l ts -> has_ty (VTuple l) (TTuple ts)
  | HVar std i v ts t : nth_error ts i = Some t -> has_ty v t -> has_ty (VVar std i v) (TVar std ts)
  | HStrong v t : has_ty v t -> has_ty (VStrong v) (TStrong t)
  | HOptN std t : has_ty (VOpt std None) (TOpt std t)
  | HOptS std v t : has_ty v t -> has_ty (VOpt std (Some v)) (TOpt std t)
  | HBits n bl : length bl = (n + 63) / 64 -> sane n bl = bl -> has_ty (VBits n bl) (TBits n)
with all_ty : list val -> ty -> Prop := ANil t : all_ty [] t | ACons v l t : has_ty v t -> all_ty l t -> all_ty (v :: l) t
with each_ty : list val -> list ty -> Prop := ENil : each_ty [] [] | ECons v t l ts : has_ty v t -> each_ty l ts -> each_ty (v :: l) (t :: ts).

(* The meaning of a value, independent of its representation. *)
Inductive abs := AInt (z : Z) | ANum (m e : Z) | AStr (s : list N) | AList (l : list abs) | AAlt (i : nat) (a : abs) | ANone.
(* m * 2^e in lowest terms *)
Fixpoint odd_part (p : positive) : positive * Z := match p with xO p => let (q, k) := odd_part p in (q, k + 1)%Z | _ => (p, 0%Z) end.
Definition num (neg : bool) (m : N) (e : Z) : abs :=
  match m with
  | N0 => ANum 0 0
  | Npos p => let (q, k) := odd_part p in ANum (if neg then Zneg q else Zpos q) (e + k)
  end.
Fixpoint den (v : val) : abs :=
  match v with
  | VInt _ _ z => AInt z
  | VNum n m e => num n m e
  | VNan => ANone
  | VPtr a => AInt (Z.of_N a)
  | VStr s => AStr s
  | VArr bs | VCstr bs => match upto_nul bs with Some s => AStr s | None => ANone end
  | VSeq l | VStruct l | VTuple l => AList (map den l)
  | VPair a b => AList [den a; den b]
  | VVar _ i v => AAlt i (den v)
  | VStrong v => den v
  | VOpt _ None => ANone
  | VOpt _ (Some v) => AAlt 0 (den v)
  | VBits _ bl => AList (map (fun b => AInt (Z.of_N b)) bl)
  end.
(* what the C++ standard requires of std::hash *)
Definition std_hash_ok (std_hash : val -> N) : Prop :=
  forall t a b, has_ty a t -> has_ty b t -> den a = den b -> std_hash a = std_hash b.
(* what can be passed to find in a map with keys of type t, and is found: a key; for strings also a char pointer to a terminated string,
   and a char array that is terminated at its end and nowhere else; for integers also another width of the same signedness *)
Inductive looks : val -> ty -> Prop :=
  | LSame v t : has_ty v t -> looks v t
  | LCstr bs : In 0%N bs -> looks (VCstr bs) TStr
  | LArr s : ~ In 0%N s -> looks (VArr (s ++ [0%N])) TStr
  | LInt s w w' z : (0 < w <= 8) -> (0 < w' <= 8) -> int_range s w' z -> looks (VInt s w' z) (TInt s w).
(* the hash of a key as a number (hashing always returns one: C36_equal_keys_hash_equally) *)
Definition hash_of (std_hash : val -> N) (v : val) : N := match hashv std_hash v FnvModel.BASE_HASH with Ok h => h | _ => 0%N end.
(* the keys of type t *)
Definition key (t : ty) : Type := {v : val | has_ty v t}.
