(* Overflow-checked arithmetic, bit counting, next_power_of_two.
   Models include/cista/serialization.h:535-564, include/cista/bit_counting.h,
   include/cista/next_power_of_2.h. *)
From Verif Require Import Base.

(* An integral type, by its numeric limits. *)
Record ity := { it_signed : bool; it_bits : N }.
(* std::numeric_limits<Type>::min()/max() *)
Definition it_min (t : ity) : Z :=
  if it_signed t then (- 2 ^ (Z.of_N (it_bits t) - 1))%Z else 0%Z.
Definition it_max (t : ity) : Z :=
  if it_signed t then (2 ^ (Z.of_N (it_bits t) - 1) - 1)%Z
  else (2 ^ Z.of_N (it_bits t) - 1)%Z.
Definition in_ity (t : ity) (z : Z) : Prop := (it_min t <= z <= it_max t)%Z.

Definition ty_i64 : ity := {| it_signed := true; it_bits := 64 |}.
Definition ty_u64 : ity := {| it_signed := false; it_bits := 64 |}.
Definition ty_u32 : ity := {| it_signed := false; it_bits := 32 |}.

(* serialization.h:539-549, the lambda add_if_ok applied to one operand.
   The operand has already been converted to Arg. *)
Definition add_if_ok (t : ity) (a1 x : Z) : res Z :=
  if (x =? 0)%Z then Ok a1
  else if (((x <? 0) && (a1 <? it_min t - x)) || ((x >? 0) && (a1 >? it_max t - x)))%Z
  then Throw
  else Ok (a1 + x)%Z.

(* serialization.h:535-551 checked_addition: fold over the operand pack *)
Fixpoint checked_addition (t : ity) (a1 : Z) (aN : list Z) : res Z :=
  match aN with
  | [] => Ok a1
  | x :: r => let* a := add_if_ok t a1 x in checked_addition t a r
  end.

(* serialization.h:556-561, the lambda multiply_if_ok.  C++ integer division truncates
   (Z.quot).  The product is formed in the type: if it does not fit the C++ result
   wraps (unsigned) or is undefined (signed). *)
Definition multiply_if_ok (t : ity) (a1 x : Z) : res Z :=
  if (negb (a1 =? 0) && (Z.quot (it_max t) a1 <? x))%Z then Throw
  else
    let p := (a1 * x)%Z in
    if ((it_min t <=? p) && (p <=? it_max t))%Z then Ok p
    else if it_signed t then UB else Ok (p mod (it_max t + 1))%Z.

(* serialization.h:553-564 checked_multiplication *)
Fixpoint checked_multiplication (t : ity) (a1 : Z) (aN : list Z) : res Z :=
  match aN with
  | [] => Ok a1
  | x :: r => let* a := multiply_if_ok t a1 x in checked_multiplication t a r
  end.

(* bit_counting.h:19-29 constexpr_trailing_zeros: scan bits 0 .. w-1, 0 if none is set *)
Fixpoint ctz_scan (t : N) (i : N) (left : nat) : N :=
  match left with
  | O => 0%N
  | S k => if N.eqb (N.land (N.shiftr t i) 1) 1 then i else ctz_scan t (i + 1) k
  end.
Definition constexpr_trailing_zeros (w : nat) (t : N) : N := ctz_scan t 0 w.

(* __builtin_ctz/__builtin_ctzll for t <> 0 *)
Fixpoint ctz_pos (p : positive) : N :=
  match p with xO q => (1 + ctz_pos q)%N | _ => 0%N end.
(* __builtin_popcountll *)
Fixpoint popcount_pos (p : positive) : N :=
  match p with
  | xH => 1%N
  | xO q => popcount_pos q
  | xI q => (1 + popcount_pos q)%N
  end.

(* bit_counting.h:31-64 trailing_zeros, w = 32 or 64 *)
Definition trailing_zeros (w : N) (t : N) : N :=
  match t with N0 => w | Npos p => ctz_pos p end.
(* bit_counting.h:66-104 leading_zeros: __builtin_clz(t) = w - 1 - floor(log2 t) *)
Definition leading_zeros (w : N) (t : N) : N :=
  match t with N0 => w | Npos p => (w - 1 - N.log2 t)%N end.
(* bit_counting.h:106-118 popcount *)
Definition popcount (t : N) : N :=
  match t with N0 => 0%N | Npos p => popcount_pos p end.

(* next_power_of_2.h:5-22, w = 8*sizeof(TemplateSizeType) *)
Definition npo2_smear (n s : N) : N := N.lor n (N.shiftr n s).
Definition next_power_of_two (w : N) (n : N) : N :=
  let m := (2 ^ w)%N in
  let n := ((n + (m - 1)) mod m)%N in
  let n := npo2_smear n 1 in
  let n := npo2_smear n 2 in
  let n := npo2_smear n 4 in
  let n := if (8 <? w)%N then npo2_smear n 8 else n in
  let n := if (16 <? w)%N then npo2_smear n 16 else n in
  let n := if (32 <? w)%N then npo2_smear n 32 else n in
  ((n + 1) mod m)%N.
