(* C35 overflow-checked arithmetic, C33 bit counting and next power of two *)
From Verif Require Import Base ArithModel ArithSpec ArithProofs.

(* C35: checked_addition returns the exact sum iff every left-to-right partial sum is
   representable, and throws otherwise: it never wraps. *)
Theorem C35_checked_addition_exact : forall (t : ity) (a : Z) (aN : list Z),
  in_ity t a -> Forall (in_ity t) aN ->
  checked_addition t a aN =
    (if forallb (fun s => ((it_min t <=? s) && (s <=? it_max t))%Z) (partials Z.add a aN)
     then Ok (fold_left Z.add aN a) else Throw).
Proof. intros t a aN. exact (checked_addition_spec t aN a). Qed.
Print Assumptions C35_checked_addition_exact.

(* C35: for unsigned operands only the total matters: throw iff it is not representable. *)
Theorem C35_checked_addition_unsigned : forall (t : ity) (a : Z) (aN : list Z),
  it_signed t = false -> (1 <= it_bits t)%N -> in_ity t a -> Forall (in_ity t) aN ->
  checked_addition t a aN =
    (if (fold_left Z.add aN a <=? it_max t)%Z then Ok (fold_left Z.add aN a) else Throw).
Proof. intros t a aN. exact (checked_addition_unsigned t aN a). Qed.
Print Assumptions C35_checked_addition_unsigned.

(* C35: checked_multiplication on unsigned operands (its only use). *)
Theorem C35_checked_multiplication_exact : forall (t : ity) (a : Z) (aN : list Z),
  it_signed t = false -> (1 <= it_bits t)%N -> in_ity t a -> Forall (in_ity t) aN ->
  checked_multiplication t a aN =
    (if forallb (fun s => ((it_min t <=? s) && (s <=? it_max t))%Z) (partials Z.mul a aN)
     then Ok (fold_left Z.mul aN a) else Throw).
Proof. intros t a aN Hs Hok. exact (checked_multiplication_spec t aN Hs Hok a). Qed.
Print Assumptions C35_checked_multiplication_exact.

(* Finding: on signed operands the multiplication guard misses overflow (5 * INT64_MIN). *)
Theorem C35_signed_multiplication_refuted : exists a x,
  in_ity ty_i64 a /\ in_ity ty_i64 x /\ checked_multiplication ty_i64 a [x] = UB.
Proof.
  exists 5%Z, (-9223372036854775808)%Z. unfold in_ity. vm_compute.
  repeat split; discriminate.
Qed.
Print Assumptions C35_signed_multiplication_refuted.

Example C35_example_ok :
  checked_addition ty_i64 9223372036854775800 [7; -9223372036854775807; -10]%Z = Ok (-10)%Z /\
  checked_addition ty_i64 9223372036854775800 [8]%Z = Throw /\
  checked_addition ty_u64 18446744073709551600 [7; 8]%Z = Ok 18446744073709551615%Z /\
  checked_multiplication ty_u64 4294967296 [4294967295]%Z = Ok 18446744069414584320%Z /\
  checked_multiplication ty_u64 4294967296 [4294967296]%Z = Throw.
Proof. vm_compute. repeat split. Qed.

(* C33 *)
Theorem C33_trailing_zeros : forall w t, (t < 2 ^ w)%N -> lowest_set w t (trailing_zeros w t).
Proof. exact trailing_zeros_spec. Qed.
Print Assumptions C33_trailing_zeros.

Theorem C33_leading_zeros : forall w t, (t < 2 ^ w)%N -> leading_zero_count w t (leading_zeros w t).
Proof. exact leading_zeros_spec. Qed.
Print Assumptions C33_leading_zeros.

Theorem C33_constexpr_trailing_zeros : forall (w : nat) t, (t < 2 ^ N.of_nat w)%N ->
  constexpr_trailing_zeros w t = if (t =? 0)%N then 0%N else trailing_zeros (N.of_nat w) t.
Proof. exact constexpr_trailing_zeros_spec. Qed.
Print Assumptions C33_constexpr_trailing_zeros.

Theorem C33_popcount : forall t (w : nat), (t < 2 ^ N.of_nat w)%N -> popcount t = bits_set t w.
Proof. exact popcount_spec. Qed.
Print Assumptions C33_popcount.

Theorem C33_next_power_of_two : forall w n,
  (w = 8 \/ w = 16 \/ w = 32 \/ w = 64)%N ->
  (1 <= n <= 2 ^ (w - 1))%N -> least_pow2_ge n (next_power_of_two w n).
Proof. exact next_power_of_two_spec. Qed.
Print Assumptions C33_next_power_of_two.

(* ... and outside that range (no representable power of two, or n = 0) the result is 0. *)
Theorem C33_next_power_of_two_wraps : forall w n,
  (w = 8 \/ w = 16 \/ w = 32 \/ w = 64)%N ->
  (2 ^ (w - 1) < n < 2 ^ w \/ n = 0)%N -> next_power_of_two w n = 0%N.
Proof. exact next_power_of_two_wraps. Qed.
Print Assumptions C33_next_power_of_two_wraps.

Example C33_examples :
  trailing_zeros 64 96 = 5%N /\ trailing_zeros 32 0 = 32%N /\ leading_zeros 64 96 = 57%N /\
  popcount 18446744073709551615 = 64%N /\ constexpr_trailing_zeros 64 96 = 5%N /\
  next_power_of_two 32 1000 = 1024%N /\ next_power_of_two 32 2147483649 = 0%N /\
  next_power_of_two 64 4294967297 = 8589934592%N.
Proof. vm_compute. repeat split. Qed.
