(* C46: strong index types compute and compare like their integers *)
From Verif Require Import Base ArithModel StrongModel StrongSpec StrongProofs.
Local Open Scope Z_scope.

(* C46: with an unsigned underlying type at least as wide as int, every expression built from
   + - * += -= ++ -- has a defined result: the integer it denotes, modulo 2^width. *)
Theorem C46_unsigned_wraps : forall t e, it_signed t = false -> (32 <= it_bits t)%N -> constants_fit t e ->
  eval t e = Ok (meaning e mod 2 ^ width t).
Proof. exact eval_ring. Qed.
Print Assumptions C46_unsigned_wraps.

(* C46: with an underlying type of at most 16 bits the same holds (the result being the value of the
   type congruent to the integer), except for products of 16-bit unsigned values. *)
Theorem C46_narrow_wraps_partial : forall t e, (1 <= it_bits t)%N -> (it_bits t <= 16)%N -> constants_fit t e ->
  no_product e \/ it_signed t = true \/ (it_bits t < 16)%N ->
  exists r, eval t e = Ok r /\ wraps_to t (meaning e) r.
Proof. intros t e A B. exact (eval_narrow t e (conj A B)). Qed.
Print Assumptions C46_narrow_wraps_partial.

(* Finding: strong<uint16_t> computes products in int. 65535 * 65535 overflows it: undefined, where
   the unsigned type promises 1. *)
Theorem C46_uint16_product_refuted : exists e, let t := {| it_signed := false; it_bits := 16 |} in
  constants_fit t e /\ eval t e = UB /\ wraps_to t (meaning e) 1.
Proof.
  exists (EMul (EVal 65535) (EVal 65535)). cbn zeta. unfold constants_fit, wraps_to, in_ity.
  cbn [every meaning].
  change (it_min {| it_signed := false; it_bits := 16 |}) with 0.
  change (it_max {| it_signed := false; it_bits := 16 |}) with 65535.
  change (2 ^ width {| it_signed := false; it_bits := 16 |}) with 65536.
  split; [lia|]. split; [vm_compute; reflexivity|]. split; [lia|]. exists (-65534). lia.
Qed.
Print Assumptions C46_uint16_product_refuted.

(* C46: with a signed underlying type at least as wide as int the result is exact if every
   intermediate result is representable, and undefined otherwise. *)
Theorem C46_signed_exact_or_undefined : forall t e, it_signed t = true -> (32 <= it_bits t)%N -> constants_fit t e ->
  (all_fit t e -> eval t e = Ok (meaning e)) /\ (~ all_fit t e -> eval t e = UB).
Proof. intros t e S W H. destruct (eval_signed t e S W H) as [(A & B)|(A & B)]; tauto. Qed.
Print Assumptions C46_signed_exact_or_undefined.

(* C46: counting: invalid() is above every other index, ++ goes from each index below it to the next
   larger one, and from invalid() to 0; the postfix form returns the old index. *)
Theorem C46_invalid_is_last : forall t a, it_signed t = false ->
  (32 <= it_bits t)%N \/ (1 <= it_bits t)%N /\ (it_bits t <= 16)%N -> in_ity t a ->
  (eq a (invalid t) = false -> lt a (invalid t) = true /\ pre_inc t a = Ok (a + 1)) /\
  pre_inc t (invalid t) = Ok 0 /\
  (forall n, pre_inc t a = Ok n -> post_inc t a = Ok (a, n)) /\
  (forall n, pre_inc t a = Ok n -> pre_dec t n = Ok a).
Proof.
  intros t a S H Ha. assert (B : (1 <= it_bits t)%N) by lia.
  pose proof (next_index t a S B H Ha) as N.
  assert (Hi : in_ity t (invalid t)).
  { rewrite (unsigned_lim t S) in *. cbn beta in Ha |- *. unfold invalid. lia. }
  pose proof (next_index t (invalid t) S B H Hi) as NI. rewrite Z.eqb_refl in NI.
  rewrite (unsigned_lim t S) in Ha. cbn beta in Ha. unfold eq, lt. unfold invalid in *.
  split; [intros E; rewrite E in N; split; [lia|auto]|]. split; [auto|].
  split; [intros n E; unfold post_inc, pre_inc in *; rewrite E; reflexivity|].
  intros n E. rewrite N in E. injection E as <-.
  destruct (lim t B) as (P & HP & E1 & E2 & Em & EM). rewrite S in EM.
  assert (HC : wraps_to t ((if a =? it_max t then 0 else a + 1) - 1) a).
  { split. { rewrite (unsigned_lim t S). lia. } rewrite E2, EM in *.
    destruct (a =? 2 * P - 1) eqn:Q; [exists 1|exists 0]; lia. }
  unfold pre_dec, sub. destruct H as [W|W].
  - rewrite (prom_wide t W), (arith_unsigned t _ S B). cbn [bind]. f_equal.
    apply (wraps_unique t ((if a =? it_max t then 0 else a + 1) - 1)); auto.
    rewrite <- (cast_mod t _ S). eapply wraps_trans; [apply cast_wraps; auto|].
    apply (cast_wraps t _ B).
  - rewrite (prom_narrow t W), arith_int; cbn [bind].
    + f_equal. eapply (wraps_unique t _ _ _ B); [apply cast_wraps; auto|exact HC].
    + assert (HB : in_ity t a) by (rewrite (unsigned_lim t S); lia).
      pose proof (narrow_lim t a W HB). rewrite S in *. destruct (a =? it_max t); lia.
Qed.
Print Assumptions C46_invalid_is_last.

(* C46: division and shifts of unsigned indices; dividing by zero and shifting by the width or more
   are undefined. *)
Theorem C46_divide_and_shift : forall t a b, it_signed t = false -> (32 <= it_bits t)%N -> in_ity t a -> in_ity t b ->
  div t a b = (if b =? 0 then UB else Ok (a / b)) /\
  shl t a b = (if width t <=? b then UB else Ok ((a * 2 ^ b) mod 2 ^ width t)) /\
  shr t a b = (if width t <=? b then UB else Ok (a / 2 ^ b)).
Proof.
  intros t a b S W Ha Hb. pose proof Hb as Hb'. rewrite (unsigned_lim t S) in Hb'. cbn beta in Hb'.
  split; [apply div_unsigned; auto; lia|]. split; [apply shl_unsigned; auto; lia|apply shr_unsigned; auto; lia].
Qed.
Print Assumptions C46_divide_and_shift.

(* C46: |= and &= are union and intersection of bits *)
Theorem C46_bitwise : forall t a b i, it_signed t = false -> (1 <= it_bits t)%N -> in_ity t a -> in_ity t b ->
  Z.testbit (or_assign t a b) i = Z.testbit a i || Z.testbit b i /\
  Z.testbit (and_assign t a b) i = Z.testbit a i && Z.testbit b i.
Proof. exact or_and_bits. Qed.
Print Assumptions C46_bitwise.

(* C46: the six comparisons are those of one total order *)
Theorem C46_total_order : forall a b c,
  (eq a b = true <-> a = b) /\ lt a a = false /\ (lt a b = true -> lt b c = true -> lt a c = true) /\
  (lt a b = true \/ eq a b = true \/ lt b a = true) /\
  ne a b = negb (eq a b) /\ gt a b = lt b a /\ le a b = lt a b || eq a b /\ ge a b = lt b a || eq a b.
Proof. intros. unfold eq, lt, ne, gt, le, ge. lia. Qed.
Print Assumptions C46_total_order.

(* C46: the constructor keeps a value the type can hold *)
Theorem C46_constructor_partial : forall t x, (1 <= it_bits t)%N -> in_ity t x -> mk t x = x.
Proof. intros t x H. apply cast_id; auto. Qed.
Print Assumptions C46_constructor_partial.

(* Finding: it takes any integer type and drops the high bits without a warning: the index 2^32
   becomes index 0 of a 32-bit type. *)
Theorem C46_constructor_refuted : exists x y, in_ity ty_u64 x /\ in_ity ty_u64 y /\ x <> y /\
  eq (mk ty_u32 x) (mk ty_u32 y) = true.
Proof.
  exists 4294967296, 0. unfold in_ity. change (it_min ty_u64) with 0. change (it_max ty_u64) with 18446744073709551615.
  split; [lia|]. split; [lia|]. split; [lia|]. vm_compute. reflexivity.
Qed.
Print Assumptions C46_constructor_refuted.

Example C46_example :
  eval ty_u32 (ESub (EAdd (EVal 4294967295) (EInc (EVal 4294967295))) (EMul (EVal 65536) (EVal 65537))) = Ok 4294901759 /\
  constants_fit ty_u32 (ESub (EAdd (EVal 4294967295) (EInc (EVal 4294967295))) (EMul (EVal 65536) (EVal 65537))) /\
  eval {| it_signed := true; it_bits := 8 |} (EInc (EVal 127)) = Ok (-128) /\
  eval ty_int (EInc (EVal 2147483647)) = UB /\
  div ty_u32 7 2 = Ok 3 /\ shl ty_u32 4294967295 4 = Ok 4294967280 /\ shl ty_u32 1 32 = UB /\
  post_dec ty_u32 0 = Ok (0, 4294967295).
Proof.
  split; [vm_compute; reflexivity|]. split.
  - unfold constants_fit, in_ity. cbn [every]. change (it_min ty_u32) with 0. change (it_max ty_u32) with 4294967295. lia.
  - vm_compute. auto 10.
Qed.
