From Verif Require Import Base ArithModel ArithSpec.
Local Open Scope Z_scope.

Definition ity_ok (t : ity) : Prop := (1 <= it_bits t)%N.

Lemma it_bounds t : ity_ok t -> it_min t <= 0 <= it_max t.
Proof.
  unfold ity_ok, it_min, it_max. intros H.
  assert (0 < 2 ^ (Z.of_N (it_bits t) - 1)) by (apply Z.pow_pos_nonneg; lia).
  assert (0 < 2 ^ (Z.of_N (it_bits t))) by (apply Z.pow_pos_nonneg; lia).
  destruct (it_signed t); lia.
Qed.

Lemma add_if_ok_spec t a x :
  in_ity t a -> in_ity t x ->
  add_if_ok t a x = Ok (a + x) /\ in_ity t (a + x) \/
  add_if_ok t a x = Throw /\ ~ in_ity t (a + x).
Proof.
  unfold in_ity, add_if_ok. intros Ha Hx.
  destruct (Z.eqb_spec x 0) as [->|Hn].
  { left. split; [f_equal; lia|lia]. }
  destruct ((x <? 0) && (a <? it_min t - x) || (x >? 0) && (a >? it_max t - x)) eqn:E.
  - right. split; [reflexivity|]. lia.
  - left. split; [reflexivity|]. lia.
Qed.

Lemma checked_addition_spec t aN : forall a,
  in_ity t a -> Forall (in_ity t) aN ->
  checked_addition t a aN =
    (if forallb (fun s => (it_min t <=? s) && (s <=? it_max t)) (partials Z.add a aN)
     then Ok (fold_left Z.add aN a) else Throw).
Proof.
  induction aN as [|x r IH]; intros a Ha HF; cbn [checked_addition partials forallb fold_left].
  - reflexivity.
  - inversion HF as [|? ? Hx Hr]; subst.
    destruct (add_if_ok_spec t a x Ha Hx) as [[-> Hi]|[-> Hi]]; cbn [bind].
    + rewrite IH by assumption.
      replace ((it_min t <=? a + x) && (a + x <=? it_max t)) with true
        by (unfold in_ity in Hi; lia).
      reflexivity.
    + replace ((it_min t <=? a + x) && (a + x <=? it_max t)) with false
        by (unfold in_ity in Hi; lia).
      reflexivity.
Qed.

Lemma multiply_if_ok_spec t a x :
  it_signed t = false -> ity_ok t -> in_ity t a -> in_ity t x ->
  multiply_if_ok t a x = Ok (a * x) /\ in_ity t (a * x) \/
  multiply_if_ok t a x = Throw /\ ~ in_ity t (a * x).
Proof.
  unfold in_ity, multiply_if_ok. intros Hs Hok Ha Hx.
  pose proof (it_bounds t Hok) as Hb.
  assert (Hmin : it_min t = 0) by (unfold it_min; now rewrite Hs).
  destruct (Z.eqb_spec a 0) as [->|Hn]; cbn [negb andb].
  - left. replace (0 * x) with 0 by lia.
    replace ((it_min t <=? 0) && (0 <=? it_max t)) with true by lia. split; [reflexivity|lia].
  - rewrite Z.quot_div_nonneg by lia.
    pose proof (Z.mul_div_le (it_max t) a ltac:(lia)).
    pose proof (Z.mul_succ_div_gt (it_max t) a ltac:(lia)).
    destruct (Z.ltb_spec (it_max t / a) x) as [Hlt|Hge].
    + right. split; [reflexivity|]. nia.
    + left. assert (0 <= a * x <= it_max t) by nia.
      replace ((it_min t <=? a * x) && (a * x <=? it_max t)) with true by lia.
      split; [reflexivity|lia].
Qed.

Lemma checked_multiplication_spec t aN : it_signed t = false -> ity_ok t -> forall a,
  in_ity t a -> Forall (in_ity t) aN ->
  checked_multiplication t a aN =
    (if forallb (fun s => (it_min t <=? s) && (s <=? it_max t)) (partials Z.mul a aN)
     then Ok (fold_left Z.mul aN a) else Throw).
Proof.
  intros Hs Hok. induction aN as [|x r IH]; intros a Ha HF;
    cbn [checked_multiplication partials forallb fold_left].
  - reflexivity.
  - inversion HF as [|? ? Hx Hr]; subst.
    destruct (multiply_if_ok_spec t a x Hs Hok Ha Hx) as [[-> Hi]|[-> Hi]]; cbn [bind].
    + rewrite IH by assumption.
      replace ((it_min t <=? a * x) && (a * x <=? it_max t)) with true
        by (unfold in_ity in Hi; lia).
      reflexivity.
    + replace ((it_min t <=? a * x) && (a * x <=? it_max t)) with false
        by (unfold in_ity in Hi; lia).
      reflexivity.
Qed.

(* For unsigned operands the partial sums grow, so only the total matters. *)
Lemma partials_add_mono aN : Forall (fun x => 0 <= x) aN -> forall a s,
  In s (partials Z.add a aN) -> a <= s <= fold_left Z.add aN a.
Proof.
  induction 1 as [|x r Hx Hr IH]; cbn [partials fold_left In]; intros a s [].
  - subst s. split; [lia|]. clear IH. revert a. induction Hr as [|y r' Hy Hr' IH']; intros a; cbn [fold_left]; [lia|].
    specialize (IH' (a + y)). replace (a + y + x) with (a + x + y) in IH' by lia. lia.
  - apply IH in H. lia.
Qed.

Lemma checked_addition_unsigned t aN a :
  it_signed t = false -> ity_ok t -> in_ity t a -> Forall (in_ity t) aN ->
  checked_addition t a aN =
    (if fold_left Z.add aN a <=? it_max t then Ok (fold_left Z.add aN a) else Throw).
Proof.
  intros Hs Hok Ha HF. rewrite checked_addition_spec by assumption.
  assert (Hmin : it_min t = 0) by (unfold it_min; now rewrite Hs).
  assert (HF0 : Forall (fun x => 0 <= x) aN).
  { eapply Forall_impl; [|exact HF]. unfold in_ity. lia. }
  destruct (forallb _ _) eqn:E.
  - destruct aN as [|x r] using rev_ind.
    + cbn. unfold in_ity in Ha. destruct (Z.leb_spec a (it_max t)); [reflexivity|lia].
    + clear IHr. rewrite forallb_forall in E.
      assert (Hin : In (fold_left Z.add (r ++ [x]) a) (partials Z.add a (r ++ [x]))).
      { clear. revert a. induction r as [|y r IH]; intros a; cbn; [auto|]. right. apply IH. }
      specialize (E _ Hin). cbn beta in E.
      destruct (Z.leb_spec (fold_left Z.add (r ++ [x]) a) (it_max t)); [reflexivity|lia].
  - destruct (Z.leb_spec (fold_left Z.add aN a) (it_max t)) as [Hle|]; [|reflexivity].
    exfalso. rewrite <- not_true_iff_false in E. apply E. apply forallb_forall.
    intros s Hin. apply partials_add_mono in Hin; [|assumption]. unfold in_ity in Ha. lia.
Qed.

(* ---- bit counting ---- *)
Local Open Scope N_scope.

Lemma ctz_pos_spec p :
  (forall i, i < ctz_pos p -> N.testbit (Npos p) i = false) /\
  N.testbit (Npos p) (ctz_pos p) = true.
Proof.
  induction p as [p IH|p IH|]; cbn [ctz_pos].
  - split; [lia|reflexivity].
  - destruct IH as [H1 H2]. change (N.pos p~0) with (2 * N.pos p).
    split.
    + intros i Hi. destruct (N.eq_dec i 0) as [->|Hn]; [apply N.testbit_even_0|].
      replace i with (N.succ (N.pred i)) by lia.
      rewrite N.testbit_even_succ by lia. apply H1. lia.
    + replace (1 + ctz_pos p) with (N.succ (ctz_pos p)) by lia.
      rewrite N.testbit_even_succ by lia. exact H2.
  - split; [lia|reflexivity].
Qed.

Lemma testbit_high t w i : t < 2 ^ w -> w <= i -> N.testbit t i = false.
Proof.
  intros Ht Hi. destruct (N.eq_dec t 0) as [->|Hn]; [apply N.bits_0|].
  apply N.bits_above_log2. apply N.log2_lt_pow2 in Ht; [lia|]. lia.
Qed.

Lemma trailing_zeros_spec w t : t < 2 ^ w -> lowest_set w t (trailing_zeros w t).
Proof.
  intros Ht. destruct t as [|p]; cbn [trailing_zeros].
  - split; [lia|]. split; [intros; apply N.bits_0|lia].
  - destruct (ctz_pos_spec p) as [H1 H2]. split; [|split; [exact H1|intros _; exact H2]].
    destruct (N.le_gt_cases (ctz_pos p) w); [assumption|].
    rewrite (testbit_high _ w) in H2; [discriminate|assumption|lia].
Qed.

Lemma leading_zeros_spec w t : t < 2 ^ w -> leading_zero_count w t (leading_zeros w t).
Proof.
  intros Ht. destruct t as [|p]; unfold leading_zeros.
  - split; [lia|]. split; [intros; apply N.bits_0|lia].
  - assert (N.log2 (N.pos p) < w) by (apply N.log2_lt_pow2; [lia|assumption]).
    split; [lia|]. split.
    + intros i Hi. apply N.bits_above_log2. lia.
    + intros _. replace (w - (w - 1 - N.log2 (N.pos p)) - 1) with (N.log2 (N.pos p)) by lia.
      apply N.bit_log2. discriminate.
Qed.

Lemma ctz_scan_spec t : forall left i,
  (exists j, i <= j < i + N.of_nat left /\ ctz_scan t i left = j /\ N.testbit t j = true /\
             forall k, i <= k < j -> N.testbit t k = false) \/
  (ctz_scan t i left = 0 /\ forall k, i <= k < i + N.of_nat left -> N.testbit t k = false).
Proof.
  induction left as [|l IH]; intros i; cbn [ctz_scan].
  - right. split; [reflexivity|lia].
  - assert (Hb : N.land (N.shiftr t i) 1 = N.b2n (N.testbit t i)).
    { change 1 with (N.ones 1). rewrite N.land_ones. change (2 ^ 1) with 2.
      rewrite <- N.bit0_mod, N.shiftr_spec by lia. do 2 f_equal. }
    rewrite Hb. destruct (N.testbit t i) eqn:E; cbn.
    + left. exists i. repeat split; try lia; auto.
    + destruct (IH (i + 1)) as [(j & H1 & H2 & H3 & H4)|(H1 & H2)].
      * left. exists j. repeat split; try lia; auto. intros k Hk.
        destruct (N.eq_dec k i) as [->|]; [assumption|apply H4; lia].
      * right. split; [assumption|]. intros k Hk.
        destruct (N.eq_dec k i) as [->|]; [assumption|apply H2; lia].
Qed.

Lemma constexpr_trailing_zeros_spec (w : nat) t : t < 2 ^ N.of_nat w ->
  constexpr_trailing_zeros w t = if t =? 0 then 0 else trailing_zeros (N.of_nat w) t.
Proof.
  intros Ht. unfold constexpr_trailing_zeros.
  destruct (ctz_scan_spec t w 0) as [(j & H1 & H2 & H3 & H4)|(H1 & H2)].
  - rewrite H2. destruct (N.eqb_spec t 0) as [->|Hn].
    { rewrite N.bits_0 in H3. discriminate. }
    destruct (trailing_zeros_spec (N.of_nat w) t Ht) as (T1 & T2 & T3).
    destruct (N.lt_trichotomy j (trailing_zeros (N.of_nat w) t)) as [L|[E|G]]; [|exact E|].
    + rewrite T2 in H3 by assumption. discriminate.
    + rewrite H4 in T3 by lia. lia.
  - rewrite H1. destruct (N.eqb_spec t 0) as [->|Hn]; [reflexivity|].
    exfalso. pose proof (N.bit_log2 t Hn) as Hb.
    rewrite H2 in Hb; [discriminate|]. apply N.log2_lt_pow2 in Ht; lia.
Qed.

Lemma bits_set_0 w : bits_set 0 w = 0.
Proof. induction w; cbn [bits_set]; [reflexivity|]. rewrite N.bits_0, IHw. reflexivity. Qed.

Lemma bits_set_double t : forall w (b : bool),
  bits_set (2 * t + N.b2n b) (S w) = N.b2n b + bits_set t w.
Proof.
  induction w as [|w IH]; intros b.
  - cbn [bits_set]. change (N.of_nat 0) with 0. rewrite (N.add_comm (2 * t)).
    rewrite N.add_b2n_double_bit0. destruct b; reflexivity.
  - change (bits_set (2 * t + N.b2n b) (S (S w))) with
      ((if N.testbit (2 * t + N.b2n b) (N.of_nat (S w)) then 1 else 0) + bits_set (2 * t + N.b2n b) (S w)).
    rewrite IH. cbn [bits_set].
    rewrite Nat2N.inj_succ.
    replace (N.testbit (2 * t + N.b2n b) (N.succ (N.of_nat w))) with (N.testbit t (N.of_nat w)).
    2:{ destruct b; cbn [N.b2n]; [rewrite N.testbit_odd_succ by lia|rewrite N.add_0_r, N.testbit_even_succ by lia]; reflexivity. }
    lia.
Qed.

Lemma popcount_pos_spec p : forall w, N.pos p < 2 ^ N.of_nat w -> popcount_pos p = bits_set (N.pos p) w.
Proof.
  induction p as [p IH|p IH|]; intros w Hw; cbn [popcount_pos].
  - destruct w as [|w]; [cbn in Hw; lia|].
    replace (N.pos p~1) with (2 * N.pos p + N.b2n true) by (cbn [N.b2n]; lia).
    rewrite bits_set_double. cbn [N.b2n]. rewrite (IH w); [lia|].
    rewrite Nat2N.inj_succ, N.pow_succ_r' in Hw. lia.
  - destruct w as [|w]; [cbn in Hw; lia|].
    replace (N.pos p~0) with (2 * N.pos p + N.b2n false) by (cbn [N.b2n]; lia).
    rewrite bits_set_double. cbn [N.b2n]. rewrite (IH w); [lia|].
    rewrite Nat2N.inj_succ, N.pow_succ_r' in Hw. lia.
  - destruct w as [|w]; [cbn in Hw; lia|].
    change 1 with (2 * 0 + N.b2n true). rewrite bits_set_double, bits_set_0. reflexivity.
Qed.

Lemma popcount_spec t w : t < 2 ^ N.of_nat w -> popcount t = bits_set t w.
Proof.
  destruct t as [|p]; intros H; cbn [popcount].
  - symmetry. apply bits_set_0.
  - apply popcount_pos_spec. exact H.
Qed.

(* ---- next_power_of_two ---- *)
Definition smeared (n m d : N) : Prop :=
  forall i, N.testbit m i = true <-> exists k, k < d /\ N.testbit n (i + k) = true.

Lemma smeared_init n : smeared n n 1.
Proof.
  intros i. split.
  - intros H. exists 0. rewrite N.add_0_r. split; [lia|assumption].
  - intros (k & Hk & H). replace k with 0 in H by lia. now rewrite N.add_0_r in H.
Qed.

Lemma smeared_step n m d : smeared n m d -> smeared n (npo2_smear m d) (2 * d).
Proof.
  intros H i. unfold npo2_smear. rewrite N.lor_spec, N.shiftr_spec by lia.
  rewrite orb_true_iff, (H i), (H (i + d)). split.
  - intros [(k & Hk & Hb)|(k & Hk & Hb)].
    + exists k. split; [lia|assumption].
    + exists (d + k). split; [lia|]. now rewrite N.add_assoc.
  - intros (k & Hk & Hb). destruct (N.lt_ge_cases k d) as [L|G].
    + left. eauto.
    + right. exists (k - d). split; [lia|].
      replace (i + d + (k - d)) with (i + k) by lia. assumption.
Qed.

Lemma smeared_full n m d : n <> 0 -> N.log2 n < d -> smeared n m d -> m = 2 ^ (N.log2 n + 1) - 1.
Proof.
  intros Hn Hd H. replace (2 ^ (N.log2 n + 1) - 1) with (N.ones (N.log2 n + 1)).
  2:{ rewrite N.ones_equiv. lia. }
  apply N.bits_inj. intros i. destruct (N.lt_ge_cases i (N.log2 n + 1)) as [L|G].
  - rewrite N.ones_spec_low by assumption. apply H. exists (N.log2 n - i). split; [lia|].
    replace (i + (N.log2 n - i)) with (N.log2 n) by lia. now apply N.bit_log2.
  - rewrite N.ones_spec_high by assumption.
    destruct (N.testbit m i) eqn:E; [|reflexivity]. apply H in E. destruct E as (k & Hk & Hb).
    rewrite N.bits_above_log2 in Hb by lia. discriminate.
Qed.

Definition npo2_width (w : N) : Prop := w = 8 \/ w = 16 \/ w = 32 \/ w = 64.

(* all bits of the decremented argument are smeared over the full width *)
Lemma npo2_smears w n : npo2_width w ->
  exists m, smeared ((n + (2 ^ w - 1)) mod 2 ^ w) m w /\ next_power_of_two w n = (m + 1) mod 2 ^ w.
Proof.
  intros Hw. unfold next_power_of_two. cbv zeta.
  remember ((n + (2 ^ w - 1)) mod 2 ^ w) as a eqn:Ea. clear Ea.
  assert (H1 := smeared_step _ _ _ (smeared_init a)).
  assert (H2 := smeared_step _ _ _ H1). assert (H3 := smeared_step _ _ _ H2).
  assert (H4 := smeared_step _ _ _ H3). assert (H5 := smeared_step _ _ _ H4).
  assert (H6 := smeared_step _ _ _ H5).
  change (2 * (2 * (2 * (2 * (2 * (2 * 1)))))) with 64 in H6.
  change (2 * (2 * (2 * (2 * (2 * 1))))) with 32 in H5, H6.
  change (2 * (2 * (2 * (2 * 1)))) with 16 in H4, H5, H6.
  change (2 * (2 * (2 * 1))) with 8 in H3, H4, H5, H6.
  change (2 * (2 * 1)) with 4 in H2, H3, H4, H5, H6.
  change (2 * 1) with 2 in H1, H2, H3, H4, H5, H6.
  destruct Hw as [->|[->|[->| ->]]];
    match goal with |- context [if ?b then _ else _] => idtac end;
    [ change (8 <? 8) with false; change (16 <? 8) with false; change (32 <? 8) with false
    | change (8 <? 16) with true; change (16 <? 16) with false; change (32 <? 16) with false
    | change (8 <? 32) with true; change (16 <? 32) with true; change (32 <? 32) with false
    | change (8 <? 64) with true; change (16 <? 64) with true; change (32 <? 64) with true ];
    cbv iota; eexists; (split; [|reflexivity]); assumption.
Qed.

Lemma is_pow2_least n : 1 < n -> least_pow2_ge n (2 ^ (N.log2 (n - 1) + 1)).
Proof.
  intros Hn. pose proof (N.log2_spec (n - 1) ltac:(lia)) as [L1 L2].
  rewrite <- N.add_1_r in L2.
  split; [eexists; reflexivity|]. split; [lia|].
  intros q [k ->] Hq. apply N.pow_le_mono_r; [lia|].
  assert (2 ^ N.log2 (n - 1) < 2 ^ k) by lia.
  apply N.pow_lt_mono_r_iff in H; lia.
Qed.

Lemma next_power_of_two_spec w n : npo2_width w ->
  1 <= n <= 2 ^ (w - 1) -> least_pow2_ge n (next_power_of_two w n).
Proof.
  intros Hw Hn. destruct (npo2_smears w n Hw) as (m & Hs & ->).
  assert (Hw1 : 8 <= w) by (destruct Hw as [->|[->|[->| ->]]]; lia).
  assert (Hpw : 2 ^ w = 2 * 2 ^ (w - 1)) by (rewrite <- N.pow_succ_r'; f_equal; lia).
  assert (Hpos : 0 < 2 ^ (w - 1)) by (apply N.neq_0_lt_0, N.pow_nonzero; lia).
  assert (Hone : 1 < 2 ^ (w - 1)).
  { change 1 with (2 ^ 0). apply N.pow_lt_mono_r; lia. }
  replace (n + (2 ^ w - 1)) with ((n - 1) + 1 * 2 ^ w) in Hs by lia.
  rewrite N.mod_add, N.mod_small in Hs by lia.
  destruct (N.eq_dec n 1) as [->|Hn1].
  - change (1 - 1) with 0 in Hs. assert (m = 0) as ->.
    { apply N.bits_inj_0. intros i. destruct (N.testbit m i) eqn:E; [|reflexivity].
      apply Hs in E. destruct E as (k & _ & Hb). rewrite N.bits_0 in Hb. discriminate. }
    rewrite N.mod_small by lia.
    split; [exists 0; reflexivity|]. split; [lia|]. intros q _ Hq. exact Hq.
  - apply smeared_full in Hs; [|lia|].
    2:{ apply N.log2_lt_pow2; lia. }
    assert (N.log2 (n - 1) + 1 <= w - 1).
    { assert (N.log2 (n - 1) < w - 1) by (apply N.log2_lt_pow2; lia). lia. }
    assert (2 ^ (N.log2 (n - 1) + 1) <= 2 ^ (w - 1)) by (apply N.pow_le_mono_r; lia).
    assert (0 < 2 ^ (N.log2 (n - 1) + 1)) by (apply N.neq_0_lt_0, N.pow_nonzero; lia).
    rewrite Hs, N.mod_small by lia.
    replace (2 ^ (N.log2 (n - 1) + 1) - 1 + 1) with (2 ^ (N.log2 (n - 1) + 1)) by lia.
    apply is_pow2_least. lia.
Qed.

Lemma next_power_of_two_wraps w n : npo2_width w ->
  (2 ^ (w - 1) < n < 2 ^ w \/ n = 0) -> next_power_of_two w n = 0.
Proof.
  intros Hw Hn. destruct (npo2_smears w n Hw) as (m & Hs & ->).
  assert (Hw1 : 8 <= w) by (destruct Hw as [->|[->|[->| ->]]]; lia).
  assert (Hpw : 2 ^ w = 2 * 2 ^ (w - 1)) by (rewrite <- N.pow_succ_r'; f_equal; lia).
  assert (Hpos : 0 < 2 ^ (w - 1)) by (apply N.neq_0_lt_0, N.pow_nonzero; lia).
  assert (exists a, (n + (2 ^ w - 1)) mod 2 ^ w = a /\ 2 ^ (w - 1) <= a < 2 ^ w) as (a & Ea & Ha).
  { destruct Hn as [Hn| ->].
    - exists (n - 1). split; [|lia].
      replace (n + (2 ^ w - 1)) with ((n - 1) + 1 * 2 ^ w) by lia.
      rewrite N.mod_add, N.mod_small by lia. reflexivity.
    - exists (2 ^ w - 1). split; [|lia]. rewrite N.mod_small by lia. lia. }
  rewrite Ea in Hs.
  assert (N.log2 a = w - 1) as Hl.
  { apply N.log2_unique; [lia|]. rewrite N.pow_succ_r'. lia. }
  apply smeared_full in Hs; [|lia|lia].
  rewrite Hs, Hl. replace (w - 1 + 1) with w by lia.
  replace (2 ^ w - 1 + 1) with (2 ^ w) by lia. apply N.mod_same. lia.
Qed.

(* used by other components *)
Lemma next_power_of_two_ge w n : npo2_width w ->
  1 <= n <= 2 ^ (w - 1) -> n <= next_power_of_two w n <= 2 ^ (w - 1).
Proof.
  intros Hw Hn. destruct (next_power_of_two_spec w n Hw Hn) as (Hp & H1 & H2).
  split; [assumption|]. apply H2; [eexists; reflexivity|lia].
Qed.

Lemma next_power_of_two_pow2 w n : npo2_width w ->
  1 <= n <= 2 ^ (w - 1) -> exists k, next_power_of_two w n = 2 ^ k.
Proof. intros Hw Hn. destruct (next_power_of_two_spec w n Hw Hn) as (Hp & _). exact Hp. Qed.
