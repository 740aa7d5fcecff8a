(* Probing: masks of the form 2^k - 1, control byte windows, triangular numbers. *)
From Verif Require Import Base Bytes ArithModel FnvProofs HashModel HashBits.

Definition pow2cap (cap : nat) : Prop := exists k, k <= 60 /\ cap + 1 = 2 ^ k.

Lemma of_nat_pow2 k : N.of_nat (2 ^ k) = (2 ^ N.of_nat k)%N.
Proof. induction k; [reflexivity|]. rewrite Nat.pow_succ_r', Nat2N.inj_succ, N.pow_succ_r'. lia. Qed.

Lemma land_cap a cap : pow2cap cap -> N.land a (N.of_nat cap) = (a mod N.of_nat (cap + 1))%N.
Proof.
  intros (k & _ & E). replace (N.of_nat cap) with (N.ones (N.of_nat k)).
  - rewrite N.land_ones, E, of_nat_pow2. reflexivity.
  - rewrite N.ones_equiv. rewrite <- of_nat_pow2, <- E. lia.
Qed.

Lemma landn_mod a cap : pow2cap cap -> landn a cap = a mod (cap + 1).
Proof.
  intros H. unfold landn. rewrite land_cap by assumption.
  rewrite <- Nat2N.inj_mod. apply Nat2N.id.
Qed.

Lemma before_mod i cap : pow2cap cap -> i < 2 ^ 60 ->
  before i cap = (i + 8 * (cap + 1) - 8) mod (cap + 1).
Proof.
  intros H Hi. unfold before. rewrite land_cap by assumption.
  assert (HI : (N.of_nat i < 2 ^ 60)%N).
  { change 60%N with (N.of_nat 60). rewrite <- of_nat_pow2. lia. }
  clear Hi.
  destruct H as (k & Hk & E).
  set (M := N.of_nat (cap + 1)).
  assert (HM : M = (2 ^ N.of_nat k)%N) by (unfold M; rewrite E; apply of_nat_pow2).
  assert (M0 : M <> 0%N) by (unfold M; lia).
  assert (D : W64 = (2 ^ (64 - N.of_nat k) * M)%N).
  { rewrite HM, <- N.pow_add_r. change W64 with (2 ^ 64)%N. f_equal. lia. }
  assert (Q : (sub64 (N.of_nat i) 8 mod M = (N.of_nat i + 8 * M - 8) mod M)%N).
  { unfold sub64, wrap64. change (8 mod W64)%N with 8%N.
    change (2 ^ 60)%N with 1152921504606846976%N in HI.
    destruct (N.ltb_spec (N.of_nat i) 8) as [L|L].
    - rewrite (N.mod_small _ W64) by (unfold W64; lia).
      assert (P : exists q, W64 = ((q + 8) * M)%N).
      { exists (2 ^ (64 - N.of_nat k) - 8)%N. rewrite D at 1. f_equal.
        assert (2 ^ 4 <= 2 ^ (64 - N.of_nat k))%N by (apply N.pow_le_mono_r; lia).
        change (2 ^ 4)%N with 16%N in *. lia. }
      destruct P as (q & P). rewrite P.
      replace (N.of_nat i + ((q + 8) * M - 8))%N with (N.of_nat i + 8 * M - 8 + q * M)%N by lia.
      now rewrite N.mod_add by assumption.
    - replace (N.of_nat i + (W64 - 8))%N with (N.of_nat i - 8 + 1 * W64)%N by (unfold W64; lia).
      rewrite N.mod_add by discriminate. rewrite (N.mod_small _ W64) by (unfold W64; lia).
      replace (N.of_nat i + 8 * M - 8)%N with (N.of_nat i - 8 + 8 * M)%N by lia.
      now rewrite N.mod_add by assumption. }
  rewrite Q. unfold M.
  replace (N.of_nat i + 8 * N.of_nat (cap + 1) - 8)%N with (N.of_nat (i + 8 * (cap + 1) - 8)) by lia.
  rewrite <- Nat2N.inj_mod. apply Nat2N.id.
Qed.

Lemma h2_lt h : (h2 h < 128)%N.
Proof. unfold h2. change 127%N with (N.ones 7). rewrite N.land_ones. apply N.mod_lt. discriminate. Qed.

Lemma probe_start_lt h cap : pow2cap cap -> probe_start h cap < cap + 1.
Proof.
  intros H. unfold probe_start. rewrite land_cap by assumption.
  assert (h1 h mod N.of_nat (cap + 1) < N.of_nat (cap + 1))%N by (apply N.mod_lt; lia). lia.
Qed.

(* ---- probe sequence ---- *)
Fixpoint tri (p : nat) : nat := match p with O => 0 | S q => tri q + S q end.
Definition off (cap o0 p : nat) : nat := (o0 + 8 * tri p) mod (cap + 1).
Definition seq_at (cap o0 p : nat) : nat * nat := (off cap o0 p, 8 * p).

Lemma off_lt cap o0 p : off cap o0 p < cap + 1.
Proof. apply Nat.mod_upper_bound. lia. Qed.
Lemma off_le cap o0 p : off cap o0 p <= cap.
Proof. pose proof (off_lt cap o0 p). lia. Qed.

Lemma seq_at_0 cap o0 : o0 < cap + 1 -> seq_at cap o0 0 = (o0, 0).
Proof. intros H. unfold seq_at, off. cbn [tri]. rewrite Nat.mul_0_r, Nat.add_0_r, Nat.mod_small by assumption. reflexivity. Qed.

Lemma seq_at_next cap o0 p : pow2cap cap -> probe_next cap (seq_at cap o0 p) = seq_at cap o0 (S p).
Proof.
  intros H. unfold probe_next, seq_at. cbn [fst snd]. rewrite landn_mod by assumption.
  unfold WIDTH, off. f_equal; [|lia].
  rewrite Nat.add_mod_idemp_l by lia. f_equal. cbn [tri]. lia.
Qed.

(* ---- triangular numbers modulo a power of two ---- *)
Lemma tri_double p : 2 * tri p = p * (p + 1).
Proof. induction p; cbn [tri]; nia. Qed.

Lemma odd_divide n : forall a b c, a * b = 2 ^ n * c -> Nat.odd a = true -> exists d, b = 2 ^ n * d.
Proof.
  induction n as [|n IH]; intros a b c E Ho.
  - exists b. cbn. lia.
  - rewrite Nat.pow_succ_r' in *.
    assert (Hb : Nat.even b = true).
    { assert (Nat.even (a * b) = true) by (rewrite E, <- Nat.mul_assoc, Nat.even_mul; reflexivity).
      rewrite Nat.even_mul in H. rewrite <- Nat.negb_odd, Ho in H. exact H. }
    apply Nat.even_spec in Hb as (b' & ->).
    destruct (IH a b' c) as (d & ->); [nia|assumption|]. exists d. lia.
Qed.

Lemma tri_inj m i j : i < j -> j < 2 ^ m -> tri i mod 2 ^ m <> tri j mod 2 ^ m.
Proof.
  intros Hij Hj E.
  assert (P : 2 ^ m <> 0) by (apply Nat.pow_nonzero; lia).
  assert (HT : tri i <= tri j).
  { clear -Hij. induction Hij; cbn [tri]; lia. }
  assert (Q : exists c, tri j - tri i = 2 ^ m * c).
  { exists (tri j / 2 ^ m - tri i / 2 ^ m).
    pose proof (Nat.div_mod (tri i) _ P). pose proof (Nat.div_mod (tri j) _ P).
    rewrite Nat.mul_sub_distr_l. lia. }
  destruct Q as (c & Q).
  assert (F : (j - i) * (i + j + 1) = 2 ^ S m * c).
  { rewrite Nat.pow_succ_r'. pose proof (tri_double i). pose proof (tri_double j).
    replace (2 * 2 ^ m * c) with (2 * (tri j - tri i)) by (rewrite Q; lia).
    replace j with (i + (j - i)) in * by lia. set (d := j - i) in *.
    replace (i + d - i) with d by lia. nia. }
  destruct (Nat.odd (j - i)) eqn:O.
  - destruct (odd_divide _ _ _ _ F O) as (d & D). rewrite Nat.pow_succ_r' in D.
    destruct d; [lia|]. nia.
  - assert (O2 : Nat.odd (i + j + 1) = true).
    { replace (i + j + 1) with (1 + 2 * i + (j - i)) by lia.
      rewrite Nat.odd_add, O. replace (1 + 2 * i) with (S (2 * i)) by lia.
      rewrite Nat.odd_succ, Nat.even_mul. reflexivity. }
    rewrite Nat.mul_comm in F. destruct (odd_divide _ _ _ _ F O2) as (d & D).
    rewrite Nat.pow_succ_r' in D. destruct d; [lia|]. nia.
Qed.

Lemma tri_surj m a : a < 2 ^ m -> exists p, p < 2 ^ m /\ tri p mod 2 ^ m = a.
Proof.
  intros Ha. assert (P : 2 ^ m <> 0) by (apply Nat.pow_nonzero; lia).
  set (f := fun p => tri p mod 2 ^ m).
  assert (ND : NoDup (map f (seq 0 (2 ^ m)))).
  { assert (G : forall n s, s + n <= 2 ^ m -> NoDup (map f (seq s n))).
    { induction n as [|n IH]; intros s Hs; cbn [seq map]; constructor.
      - intros HI. apply in_map_iff in HI as (x & E & HI). apply in_seq in HI.
        revert E. unfold f. apply not_eq_sym. apply tri_inj; lia.
      - apply IH. lia. }
    apply G. lia. }
  assert (IN : incl (seq 0 (2 ^ m)) (map f (seq 0 (2 ^ m)))).
  { apply NoDup_length_incl; auto.
    - now rewrite map_length.
    - intros x Hx. apply in_map_iff in Hx as (y & <- & _). apply in_seq. split; [lia|].
      cbn. unfold f. now apply Nat.mod_upper_bound. }
  assert (HA : In a (seq 0 (2 ^ m))) by (apply in_seq; lia).
  apply IN in HA. apply in_map_iff in HA as (p & E & Hp). apply in_seq in Hp.
  exists p. split; [lia|exact E].
Qed.

(* the windows of the first (cap+1)/8 probes cover every position *)
Lemma coverage cap o0 s : pow2cap cap -> 7 <= cap -> s < cap + 1 ->
  exists p j, p < (cap + 1) / 8 /\ j < 8 /\ (off cap o0 p + j) mod (cap + 1) = s.
Proof.
  intros (k & _ & E) H7 Hs.
  assert (Hk : 3 <= k).
  { destruct k as [|[|[|k]]]; cbn in E; lia. }
  set (m := k - 3). assert (EM : cap + 1 = 8 * 2 ^ m).
  { rewrite E. replace k with (3 + m) by lia. rewrite Nat.pow_add_r. reflexivity. }
  assert (P : 2 ^ m <> 0) by (apply Nat.pow_nonzero; lia).
  set (M := cap + 1) in *.
  set (d := (s + M - o0 mod M) mod M).
  assert (HO : o0 mod M < M) by (apply Nat.mod_upper_bound; lia).
  assert (Hd : d < M) by (apply Nat.mod_upper_bound; lia).
  assert (Hds : (o0 + d) mod M = s).
  { unfold d. rewrite Nat.add_mod_idemp_r by lia.
    rewrite <- Nat.add_mod_idemp_l by lia.
    replace (o0 mod M + (s + M - o0 mod M)) with (s + 1 * M) by lia.
    rewrite Nat.mod_add by lia. now apply Nat.mod_small. }
  destruct (tri_surj m (d / 8)) as (p & Hp & Ep).
  { apply Nat.div_lt_upper_bound; lia. }
  exists p, (d mod 8). split; [|split].
  - rewrite EM, Nat.mul_comm, Nat.div_mul by lia. exact Hp.
  - apply Nat.mod_upper_bound. lia.
  - unfold off. fold M. rewrite Nat.add_mod_idemp_l by lia.
    pose proof (Nat.div_mod (tri p) _ P) as DM. rewrite Ep in DM.
    pose proof (Nat.div_mod d 8 ltac:(lia)) as DD.
    replace (o0 + 8 * tri p + d mod 8) with (o0 + d + (tri p / 2 ^ m) * M).
    2:{ rewrite EM. clearbody d. clear -DM DD. revert DM DD.
        generalize (tri p / 2 ^ m). generalize (2 ^ m). generalize (tri p). generalize (d / 8) (d mod 8).
        intros b c t n a -> ->. ring. }
    rewrite Nat.mod_add by lia. exact Hds.
Qed.
