From Verif Require Import Base ArithModel StrongModel StrongSpec.
Local Open Scope Z_scope.

Lemma lim : forall t, (1 <= it_bits t)%N ->
  exists P, 0 < P /\ 2 ^ (width t - 1) = P /\ 2 ^ width t = 2 * P /\
  it_min t = (if it_signed t then - P else 0) /\ it_max t = (if it_signed t then P - 1 else 2 * P - 1).
Proof.
  intros t H. exists (2 ^ (width t - 1)). unfold it_min, it_max, width.
  assert (E : 2 ^ Z.of_N (it_bits t) = 2 * 2 ^ (Z.of_N (it_bits t) - 1)).
  { replace (Z.of_N (it_bits t)) with (Z.succ (Z.of_N (it_bits t) - 1)) at 1 by lia. apply Z.pow_succ_r; lia. }
  split. { apply Z.pow_pos_nonneg; lia. }
  rewrite E. destruct (it_signed t); auto.
Qed.

Lemma cast_wraps : forall t z, (1 <= it_bits t)%N -> wraps_to t z (cast t z).
Proof.
  intros t z H. destruct (lim t H) as (P & HP & E1 & E2 & Em & EM).
  unfold wraps_to, in_ity, cast. rewrite Em, EM, E1, E2.
  pose proof (Z.div_mod z (2 * P) ltac:(lia)). pose proof (Z.mod_pos_bound z (2 * P) ltac:(lia)).
  set (q := z / (2 * P)) in *. set (r := z mod (2 * P)) in *.
  destruct (it_signed t); cbn [andb].
  - destruct (P <=? r) eqn:E; (split; [lia|]); [exists (- q - 1)|exists (- q)]; lia.
  - split; [lia|]. exists (- q). lia.
Qed.

Lemma wraps_unique : forall t z r r', (1 <= it_bits t)%N -> wraps_to t z r -> wraps_to t z r' -> r = r'.
Proof.
  intros t z r r' H (A & k & K) (B & l & L). destruct (lim t H) as (P & HP & E1 & E2 & Em & EM).
  unfold in_ity in *. rewrite Em, EM in *. rewrite E2 in *.
  assert (D : r - r' = (k - l) * (2 * P)) by lia.
  assert (k - l = 0); [|nia].
  destruct (Z.eq_dec (k - l) 0); auto. exfalso.
  assert (- (2 * P) < r - r' < 2 * P) by (destruct (it_signed t); lia). nia.
Qed.

Lemma wraps_trans : forall t z y r, wraps_to t y r -> (exists k, y = z + k * 2 ^ width t) -> wraps_to t z r.
Proof. intros t z y r (A & k & K) (l & L). split; auto. exists (k + l). lia. Qed.

Lemma cast_id : forall t z, (1 <= it_bits t)%N -> in_ity t z -> cast t z = z.
Proof.
  intros t z H Hz. apply (wraps_unique t z); auto. { apply cast_wraps; auto. }
  split; auto. exists 0. lia.
Qed.

Lemma cast_mod : forall t z, it_signed t = false -> cast t z = z mod 2 ^ width t.
Proof. intros t z H. unfold cast. rewrite H. reflexivity. Qed.

Lemma fits_iff : forall t z, fits t z = true <-> in_ity t z.
Proof. intros. unfold fits, in_ity. lia. Qed.

Definition wide (t : ity) := (32 <= it_bits t)%N.

Lemma prom_wide : forall t, wide t -> prom t = t.
Proof. unfold wide, prom. intros. destruct (it_bits t <? 32)%N eqn:E; auto. lia. Qed.

Lemma arith_unsigned : forall t z, it_signed t = false -> (1 <= it_bits t)%N -> arith t z = Ok (z mod 2 ^ width t).
Proof.
  intros t z S H. unfold arith. destruct (fits t z) eqn:F.
  - apply fits_iff in F. f_equal. symmetry. apply Z.mod_small. destruct (lim t H) as (P & HP & E1 & E2 & Em & EM).
    unfold in_ity in F. rewrite Em, EM, S in F. lia.
  - rewrite S. reflexivity.
Qed.

(* unsigned, at least as wide as int *)
Lemma eval_ring : forall t e, it_signed t = false -> wide t -> constants_fit t e ->
  eval t e = Ok (meaning e mod 2 ^ width t).
Proof.
  intros t e S W. assert (B : (1 <= it_bits t)%N) by (unfold wide in W; lia).
  assert (HP : 2 ^ width t <> 0) by (destruct (lim t B) as (P & ? & ? & E & _); lia).
  assert (A : forall z, (let* z := arith (prom t) z in Ok (cast t z)) = Ok (z mod 2 ^ width t)).
  { intros z. rewrite (prom_wide t W), (arith_unsigned t z S B). cbn [bind]. rewrite (cast_mod t _ S), Z.mod_mod; auto. }
  induction e; unfold constants_fit; cbn [every eval meaning]; intros H;
    repeat match goal with
    | IH : _ -> eval t ?e = _ |- context [eval t ?e] => rewrite IH by (unfold constants_fit; tauto); clear IH; cbn [bind]
    end;
    unfold add_assign, sub_assign, pre_inc, pre_dec, add, sub, mul; rewrite ?A.
  - f_equal. symmetry. apply Z.mod_small. destruct (lim t B) as (P & ? & E1 & E2 & Em & EM).
    unfold in_ity in H. rewrite Em, EM, S in H. lia.
  - f_equal. symmetry. apply Z.add_mod; auto.
  - f_equal. symmetry. apply Zminus_mod; auto.
  - f_equal. symmetry. apply Z.mul_mod; auto.
  - f_equal. symmetry. apply Z.add_mod; auto.
  - f_equal. symmetry. apply Zminus_mod; auto.
  - f_equal. rewrite Z.add_mod_idemp_l; auto.
  - f_equal. rewrite Zminus_mod_idemp_l; auto.
Qed.

(* narrower than int *)
Definition narrow (t : ity) := (1 <= it_bits t)%N /\ (it_bits t <= 16)%N.

Lemma narrow_lim : forall t z, narrow t -> in_ity t z -> - 32768 <= z <= (if it_signed t then 32767 else 65535).
Proof.
  intros t z (A & B) H. unfold in_ity, it_min, it_max in H.
  assert (2 ^ Z.of_N (it_bits t) <= 2 ^ 16) by (apply Z.pow_le_mono_r; lia).
  assert (2 ^ (Z.of_N (it_bits t) - 1) <= 2 ^ 15) by (apply Z.pow_le_mono_r; lia).
  change (2 ^ 16) with 65536 in *. change (2 ^ 15) with 32768 in *. destruct (it_signed t); lia.
Qed.

Lemma arith_int : forall z, -2147483648 <= z <= 2147483647 -> arith ty_int z = Ok z.
Proof.
  intros z H. unfold arith. assert (F : fits ty_int z = true); [|rewrite F; reflexivity].
  apply fits_iff. unfold in_ity, it_min, it_max, ty_int. cbn [it_signed it_bits].
  change (2 ^ (Z.of_N 32 - 1)) with 2147483648. lia.
Qed.

Lemma prom_narrow : forall t, narrow t -> prom t = ty_int.
Proof. intros t (A & B). unfold prom. destruct (it_bits t <? 32)%N eqn:E; auto. lia. Qed.

Lemma eval_narrow : forall t e, narrow t -> constants_fit t e ->
  no_product e \/ it_signed t = true \/ (it_bits t < 16)%N ->
  exists r, eval t e = Ok r /\ wraps_to t (meaning e) r.
Proof.
  intros t e N. pose proof N as (B & _).
  assert (A : forall z y, -2147483648 <= z <= 2147483647 -> (exists k, z = y + k * 2 ^ width t) ->
     exists r, (let* z := arith (prom t) z in Ok (cast t z)) = Ok r /\ wraps_to t y r).
  { intros z y Hz K. exists (cast t z). rewrite (prom_narrow t N), (arith_int z Hz). split; auto.
    apply (wraps_trans t y z); auto. apply cast_wraps; auto. }
  assert (M : forall a b, in_ity t a -> in_ity t b -> it_signed t = true \/ (it_bits t < 16)%N ->
     -2147483648 <= a * b <= 2147483647).
  { intros a b Ha Hb [S|S].
    - apply (narrow_lim t a N) in Ha. apply (narrow_lim t b N) in Hb. rewrite S in *. nia.
    - assert (L : forall z, in_ity t z -> -16384 <= z <= 32767).
      { intros z H. unfold in_ity, it_min, it_max in H.
        assert (2 ^ Z.of_N (it_bits t) <= 2 ^ 15) by (apply Z.pow_le_mono_r; lia).
        assert (2 ^ (Z.of_N (it_bits t) - 1) <= 2 ^ 14) by (apply Z.pow_le_mono_r; lia).
        change (2 ^ 15) with 32768 in *. change (2 ^ 14) with 16384 in *. destruct (it_signed t); lia. }
      apply L in Ha. apply L in Hb. nia. }
  unfold constants_fit, no_product.
  induction e; cbn [every eval meaning]; intros H HN;
    repeat match goal with
    | IH : _ -> _ -> exists r, eval t ?e = Ok r /\ _ |- context [eval t ?e] =>
        destruct IH as (? & -> & (? & ? & ->)); [tauto|tauto|]; cbn [bind]
    end;
    unfold add_assign, sub_assign, pre_inc, pre_dec, add, sub, mul;
    repeat match goal with H : in_ity t ?z |- _ =>
      match goal with K : - 32768 <= z <= _ |- _ => fail 1 | _ => pose proof (narrow_lim t z N H) end end.
  - exists z. split; auto. split; [tauto|]. exists 0. lia.
  - apply A; [destruct (it_signed t); lia|]. eexists (_ + _). rewrite Z.mul_add_distr_r.
    match goal with |- ?a + ?x * ?p + (?b + ?y * ?p) = _ =>
      instantiate (2 := x); instantiate (1 := y) end. lia.
  - apply A; [destruct (it_signed t); lia|]. eexists (_ - _). rewrite Z.mul_sub_distr_r.
    match goal with |- ?a + ?x * ?p - (?b + ?y * ?p) = _ =>
      instantiate (2 := x); instantiate (1 := y) end. lia.
  - apply A; [apply M; auto; tauto|].
    match goal with |- exists k, (?a + ?x * ?p) * (?b + ?y * ?p) = _ => exists (a * y + x * b + x * y * p) end. ring.
  - apply A; [destruct (it_signed t); lia|]. eexists (_ + _). rewrite Z.mul_add_distr_r.
    match goal with |- ?a + ?x * ?p + (?b + ?y * ?p) = _ =>
      instantiate (2 := x); instantiate (1 := y) end. lia.
  - apply A; [destruct (it_signed t); lia|]. eexists (_ - _). rewrite Z.mul_sub_distr_r.
    match goal with |- ?a + ?x * ?p - (?b + ?y * ?p) = _ =>
      instantiate (2 := x); instantiate (1 := y) end. lia.
  - apply A; [destruct (it_signed t); lia|]. eexists. rewrite <- Z.add_assoc, (Z.add_comm _ 1), Z.add_assoc. reflexivity.
  - apply A; [destruct (it_signed t); lia|]. eexists. rewrite Z.add_sub_swap. reflexivity.
Qed.

(* signed, at least as wide as int *)
Lemma arith_signed : forall t z, it_signed t = true -> arith t z = if fits t z then Ok z else UB.
Proof. intros. unfold arith. rewrite H. reflexivity. Qed.

Lemma step_signed : forall t z, it_signed t = true -> wide t ->
  (let* z := arith (prom t) z in Ok (cast t z)) = if fits t z then Ok z else UB.
Proof.
  intros t z S W. rewrite (prom_wide t W), (arith_signed t z S). destruct (fits t z) eqn:F; auto. cbn [bind].
  rewrite cast_id; auto; [unfold wide in W; lia|apply fits_iff; auto].
Qed.

Lemma every_self : forall P e, every P e -> P e.
Proof. destruct e; cbn; tauto. Qed.

Lemma eval_signed : forall t e, it_signed t = true -> wide t -> constants_fit t e ->
  (all_fit t e /\ eval t e = Ok (meaning e)) \/ (~ all_fit t e /\ eval t e = UB).
Proof.
  intros t e S W. unfold constants_fit, all_fit.
  induction e; cbn [every eval meaning]; intros H;
    unfold add_assign, sub_assign, pre_inc, pre_dec, add, sub, mul;
    repeat match goal with
    | IH : _ -> _ \/ _ |- context [eval t ?e] =>
        destruct IH as [(? & ->)|(? & ->)]; [tauto| |]; cbn [bind]
    end; rewrite ?(step_signed t _ S W); try (right; split; [tauto|reflexivity]);
    try (match goal with |- context [fits t ?z] => destruct (fits t z) eqn:F end;
         [left; split; [|reflexivity]; apply fits_iff in F; tauto
         |right; split; [|reflexivity]; intros (X & _); apply fits_iff in X; congruence]).
  left. tauto.
Qed.

Lemma unsigned_lim : forall t, it_signed t = false -> in_ity t = fun z => 0 <= z <= it_max t.
Proof. intros t S. unfold in_ity, it_min. rewrite S. reflexivity. Qed.

Lemma next_index : forall t a, it_signed t = false -> (1 <= it_bits t)%N -> wide t \/ narrow t -> in_ity t a ->
  pre_inc t a = Ok (if a =? invalid t then 0 else a + 1).
Proof.
  intros t a S B WN Ha. destruct (lim t B) as (P & HP & E1 & E2 & Em & EM). rewrite S in *.
  unfold pre_inc, add, invalid.
  assert (C : (let* z := arith (prom t) (a + 1) in Ok (cast t z)) = Ok ((a + 1) mod 2 ^ width t)).
  { destruct WN as [W|N].
    - rewrite (prom_wide t W), (arith_unsigned t _ S B). cbn [bind]. rewrite (cast_mod t _ S), Z.mod_mod; auto. lia.
    - rewrite (prom_narrow t N), arith_int. { cbn [bind]. rewrite (cast_mod t _ S). reflexivity. }
      pose proof (narrow_lim t a N Ha). rewrite S in *. lia. }
  rewrite C. f_equal. unfold in_ity in Ha. rewrite Em, EM in *. rewrite E2. destruct (a =? 2 * P - 1) eqn:E.
  - replace (a + 1) with (2 * P) by lia. apply Z.mod_same. lia.
  - apply Z.mod_small. lia.
Qed.

Lemma div_unsigned : forall t a b, it_signed t = false -> (1 <= it_bits t)%N -> wide t \/ narrow t ->
  in_ity t a -> in_ity t b -> div t a b = if b =? 0 then UB else Ok (a / b).
Proof.
  intros t a b S B WN Ha Hb. unfold div. destruct (b =? 0) eqn:E0; auto.
  pose proof Ha as Ha'. pose proof Hb as Hb'. rewrite (unsigned_lim t S) in Ha', Hb'. cbn beta in Ha', Hb'.
  rewrite Z.quot_div_nonneg by lia.
  assert (Hq : 0 <= a / b <= a). { split; [apply Z.div_pos; lia|apply Z.div_le_upper_bound; nia]. }
  assert (Q : in_ity t (a / b)) by (rewrite (unsigned_lim t S); lia).
  destruct WN as [W|N].
  - rewrite (prom_wide t W), (arith_unsigned t _ S B). cbn [bind]. rewrite <- (cast_mod t _ S), !(cast_id t _ B Q). reflexivity.
  - rewrite (prom_narrow t N), arith_int. { cbn [bind]. rewrite cast_id; auto. }
    pose proof (narrow_lim t _ N Q). rewrite S in *. lia.
Qed.

Lemma shl_unsigned : forall t a i, it_signed t = false -> wide t -> in_ity t a -> 0 <= i ->
  shl t a i = if width t <=? i then UB else Ok ((a * 2 ^ i) mod 2 ^ width t).
Proof.
  intros t a i S W Ha Hi. assert (B : (1 <= it_bits t)%N) by (unfold wide in W; lia).
  unfold shl. rewrite (prom_wide t W), S. replace (i <? 0) with false by lia. cbn [orb andb].
  destruct (width t <=? i); auto. rewrite !(cast_mod t _ S), Z.mod_mod, Z.shiftl_mul_pow2; auto.
  destruct (lim t B) as (P & HP & E1 & E2 & _). lia.
Qed.

Lemma shr_unsigned : forall t a i, it_signed t = false -> wide t -> in_ity t a -> 0 <= i ->
  shr t a i = if width t <=? i then UB else Ok (a / 2 ^ i).
Proof.
  intros t a i S W Ha Hi. assert (B : (1 <= it_bits t)%N) by (unfold wide in W; lia).
  unfold shr. rewrite (prom_wide t W). replace (i <? 0) with false by lia. cbn [orb].
  destruct (width t <=? i); auto. rewrite Z.shiftr_div_pow2 by auto. f_equal. apply cast_id; auto.
  rewrite (unsigned_lim t S) in *. cbn beta in Ha |- *. assert (0 < 2 ^ i) by (apply Z.pow_pos_nonneg; lia).
  split; [apply Z.div_pos; lia|]. apply Z.le_trans with a; [apply Z.div_le_upper_bound; nia|lia].
Qed.

Lemma lnot_bits : forall t z, it_signed t = false -> in_ity t z -> 0 <= z < 2 ^ width t.
Proof. intros t z S H. unfold in_ity, it_min, it_max in H. rewrite S in H. unfold width. lia. Qed.

Lemma bits_bound : forall w z, 0 <= w -> 0 <= z -> (forall i, w <= i -> Z.testbit z i = false) -> z < 2 ^ w.
Proof.
  intros w z Hw Hz H. destruct (Z.eq_dec z 0) as [->|]. { apply Z.pow_pos_nonneg; lia. }
  apply Z.log2_lt_pow2; [lia|]. destruct (Z.lt_ge_cases (Z.log2 z) w); auto. exfalso.
  specialize (H (Z.log2 z) H0). rewrite Z.bit_log2 in H by lia. discriminate.
Qed.

Lemma high_bits : forall w z i, 0 <= w -> 0 <= z < 2 ^ w -> w <= i -> Z.testbit z i = false.
Proof.
  intros w z i Hw Hz Hi. destruct (Z.eq_dec z 0) as [->|]; [apply Z.bits_0|].
  apply Z.bits_above_log2; [lia|]. apply Z.lt_le_trans with w; auto. apply Z.log2_lt_pow2; lia.
Qed.

Lemma or_and_bits : forall t a b i, it_signed t = false -> (1 <= it_bits t)%N -> in_ity t a -> in_ity t b ->
  Z.testbit (or_assign t a b) i = Z.testbit a i || Z.testbit b i /\
  Z.testbit (and_assign t a b) i = Z.testbit a i && Z.testbit b i.
Proof.
  intros t a b i S B Ha Hb. apply (lnot_bits t a S) in Ha. apply (lnot_bits t b S) in Hb.
  assert (Hw : 0 <= width t) by (unfold width; lia).
  unfold or_assign, and_assign. rewrite !(cast_mod t _ S), !Z.mod_small, Z.lor_spec, Z.land_spec; auto.
  - split; [apply Z.land_nonneg; lia|]. apply bits_bound; auto. { apply Z.land_nonneg; lia. }
    intros j Hj. rewrite Z.land_spec, (high_bits (width t) a j); auto.
  - split; [apply Z.lor_nonneg; lia|]. apply bits_bound; auto. { apply Z.lor_nonneg; lia. }
    intros j Hj. rewrite Z.lor_spec, (high_bits (width t) a j), (high_bits (width t) b j); auto.
Qed.
