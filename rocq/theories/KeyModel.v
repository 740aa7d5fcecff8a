(* Model of hashing.h and equal_to.h: the default hash and equality of hash_map and hash_set, and the operator== that they
   use for members. Configuration: the default hash (FNV-1a). *)
From Coq Require Import ZArith.
From Verif Require Import Base FnvModel.

(* Values of key types. An integer (also bool, char, enum) with signedness, width in bytes and value; a finite floating point number
   (-1)^neg * m * 2^e; not-a-number; a pointer by its address; a string of known length in any representation; a char array and a
   char pointer with the bytes behind it; an iterable container; a struct with reflection; cista::pair; std::tuple or std::pair; a variant (std or cista) with
   its index; strong; std::optional (with std::hash or not, depending on its element type); bitset *)
Inductive val :=
  | VInt (s : bool) (w : nat) (z : Z) | VNum (neg : bool) (m : N) (e : Z) | VNan | VPtr (a : N)
  | VStr (s : list N) | VArr (bs : list N) | VCstr (bs : list N)
  | VSeq (l : list val) | VStruct (l : list val) | VPair (a b : val) | VTuple (l : list val)
  | VVar (std : bool) (i : nat) (v : val) | VStrong (v : val) | VOpt (std : bool) (o : option val) | VBits (n : nat) (bl : list N).

Section Key.
Variable std_hash : val -> N.        (* std::hash *)

(* static_cast<hash_t> of a floating point number: towards zero; UB if that is not representable *)
Definition trunc (m : N) (e : Z) : N := if (0 <=? e)%Z then (m * 2 ^ Z.to_N e)%N else (m / 2 ^ Z.to_N (- e))%N.
Definition cast (neg : bool) (m : N) (e : Z) : res N :=
  let t := trunc m e in if (t =? 0)%N then Ok 0%N else if neg then UB else if (t <? 18446744073709551616)%N then Ok t else UB.
(* std::string_view{char const pointer} *)
Fixpoint upto_nul (bs : list N) : option (list N) :=
  match bs with [] => None | b :: bs => if (b =? 0)%N then Some [] else option_map (cons b) (upto_nul bs) end.
Definition u64 (z : Z) : N := Z.to_N (z mod 2 ^ 64).

(* hashing.h 94-137 and 140-216 *)
Fixpoint hashv (v : val) (seed : N) : res N :=
  match v with
  | VInt _ _ z => Ok (hash_combine seed (u64 z))                                       (* 109 *)
  | VNum neg m e => let* t := cast neg m e in Ok (hash_combine seed t)                 (* 109 *)
  | VNan => UB
  | VPtr a => Ok (hash_combine seed a)                                                 (* 99-100 *)
  | VArr bs => Ok (hash (firstn (length bs - 1) bs) seed)                              (* 101-102 *)
  | VStr s => Ok (match s with [] => seed | _ => hash s seed end)                      (* 103-108 *)
  | VCstr bs => match upto_nul bs with Some s => Ok (hash s seed) | None => UB end     (* 203-208 *)
  | VSeq l | VStruct l | VTuple l =>                                                   (* 113-118, 119-124, 176-188 *)
      (fix go (l : list val) (h : N) : res N := match l with [] => Ok h | v :: l => let* h := hashv v h in go l h end) l seed
  | VPair a b => let* h := hashv a seed in hashv b h                                   (* 165-174 *)
  | VVar true i v => hashv v (hash_combine seed (N.of_nat i))                          (* 190-201 *)
  | VVar false i v =>                                                                  (* 97-98, variant.h 347-354 *)
      let* h := hashv v (hash_combine BASE_HASH (N.of_nat i)) in Ok (hash_combine h seed)
  | VStrong v => Ok (hash_combine (std_hash v) seed)                                   (* 111-112, strong.h 188-193 *)
  | VOpt true o => Ok (hash_combine (std_hash (VOpt true o)) seed)                     (* 111-112 *)
  | VOpt false None => Ok seed                                                         (* 127-129 *)
  | VOpt false (Some v) => hashv v seed
  | VBits _ bl => Ok (fold_left hash_combine bl seed)                                  (* 119-124: the member blocks_ *)
  end.

(* a == b on integers: both are converted to the common type *)
Definition common (s1 : bool) (w1 : nat) (s2 : bool) (w2 : nat) : bool * nat :=
  let (s1, w1) := if w1 <? 4 then (true, 4) else (s1, w1) in
  let (s2, w2) := if w2 <? 4 then (true, 4) else (s2, w2) in
  let w := Nat.max w1 w2 in
  (if w1 =? w2 then s1 && s2 else if w2 <? w1 then s1 else s2, w).
Definition to_int (t : bool * nat) (z : Z) : Z :=
  let W := (2 ^ (8 * Z.of_nat (snd t)))%Z in
  let r := (z mod W)%Z in if fst t && (W / 2 <=? r)%Z then (r - W)%Z else r.
Definition eq_int (s1 : bool) (w1 : nat) (z1 : Z) (s2 : bool) (w2 : nat) (z2 : Z) : bool :=
  let t := common s1 w1 s2 w2 in (to_int t z1 =? to_int t z2)%Z.
(* a == b on finite floating point numbers *)
Definition eq_num (n1 : bool) (m1 : N) (e1 : Z) (n2 : bool) (m2 : N) (e2 : Z) : bool :=
  let e := Z.min e1 e2 in
  let v (n : bool) m f := ((if n then -1 else 1) * Z.of_N m * 2 ^ (f - e))%Z in (v n1 m1 e1 =? v n2 m2 e2)%Z.
Definition eq_bytes (a b : list N) : bool := if list_eq_dec N.eq_dec a b then true else false.
(* bitset.h 124-131: the unused bits of the last block do not count *)
Definition sane (n : nat) (bl : list N) : list N :=
  match n mod 64 with 0 => bl | k => removelast bl ++ [N.land (last bl 0%N) (N.ones (N.of_nat k))] end.

(* operator==; false for types that cannot be compared. Structs: operator== given by CISTA_COMPARABLE (comparable.h) *)
Fixpoint eqop (a b : val) : bool :=
  match a, b with
  | VInt s1 w1 z1, VInt s2 w2 z2 => eq_int s1 w1 z1 s2 w2 z2
  | VNum n1 m1 e1, VNum n2 m2 e2 => eq_num n1 m1 e1 n2 m2 e2
  | VPtr a, VPtr b => (a =? b)%N
  | VStr s, VStr t => eq_bytes s t                                                      (* string.h 195-198, 225-258 *)
  | VStr s, VArr bs | VStr s, VCstr bs => match upto_nul bs with Some t => eq_bytes s t | None => false end   (* string.h 285-287 *)
  | VSeq l, VSeq k | VStruct l, VStruct k | VTuple l, VTuple k =>
      (fix go (l k : list val) := match l, k with [], [] => true | x :: l, y :: k => eqop x y && go l k | _, _ => false end) l k
  | VPair a b, VPair c d => eqop a c && eqop b d
  | VVar s i v, VVar s' j w => Bool.eqb s s' && (i =? j) && eqop v w
  | VStrong v, VStrong w => eqop v w                                                    (* strong.h 119 *)
  | VOpt s None, VOpt s' None => Bool.eqb s s'
  | VOpt s (Some v), VOpt s' (Some w) => Bool.eqb s s' && eqop v w
  | VBits n bl, VBits n' bl' => (n =? n') && eq_bytes (sane n bl) (sane n bl')
  | _, _ => false
  end.
(* equal_to.h 47-71: iterable, reflection, operator==; 73-79 cista::pair *)
Fixpoint eqt (a b : val) : bool :=
  match a, b with
  | VSeq l, VSeq k | VStruct l, VStruct k =>
      (fix go (l k : list val) := match l, k with [], [] => true | x :: l, y :: k => eqt x y && go l k | _, _ => false end) l k
  | VBits n bl, VBits n' bl' => (n =? n') && eq_bytes bl bl'       (* the member blocks_, element by element *)
  | _, _ => eqop a b
  end.
End Key.
