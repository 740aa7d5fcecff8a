From Verif Require Import Base ArithModel ArithSpec ArithProofs AlignModel AlignSpec.
Local Open Scope N_scope.

Lemma next_multiple : forall w n m, 0 < m -> n + m <= 2 ^ w ->
  exists r, to_next_multiple w n m = Ok r /\ least_multiple_ge m n r /\ r < n + m.
Proof.
  intros w n m Hm Hw. unfold to_next_multiple. destruct (m =? 0) eqn:E0; [lia|].
  eexists. split; [reflexivity|].
  pose proof (N.div_mod n m ltac:(lia)) as D. pose proof (N.mod_upper_bound n m ltac:(lia)) as B.
  destruct (n mod m =? 0) eqn:E.
  - split; [|lia]. split; [lia|]. split; [lia|]. auto.
  - assert (X : (n + m - n mod m) mod 2 ^ w = n + m - n mod m) by (apply N.mod_small; lia). rewrite X.
    assert (Y : n + m - n mod m = (n / m + 1) * m) by nia.
    split; [|lia]. split; [rewrite Y; apply N.mod_mul; lia|]. split; [lia|].
    intros x Hx Hn. pose proof (N.div_mod x m ltac:(lia)) as D'. rewrite Hx in D'.
    assert (n / m < x / m).
    { destruct (N.lt_ge_cases (n / m) (x / m)); auto. exfalso. assert (m * (x / m) <= m * (n / m)) by (apply N.mul_le_mono_l; auto). lia. }
    assert (m * (n / m + 1) <= m * (x / m)) by (apply N.mul_le_mono_l; lia). lia.
Qed.

Lemma pow_least : forall al, 1 <= al <= 2 ^ 63 ->
  exists k, next_power_of_two 64 al = 2 ^ k /\ al <= 2 ^ k < 2 * al.
Proof.
  intros al H. destruct (next_power_of_two_spec 64 al) as ((k & E) & G & L). { unfold npo2_width; auto. } { exact H. }
  exists k. split; auto. rewrite E in *. split; auto.
  destruct (N.eq_dec k 0) as [->|K]. { change (2 ^ 0) with 1. lia. }
  destruct (N.lt_ge_cases (2 ^ k) (2 * al)); auto. exfalso.
  assert (P : 2 ^ k = 2 * 2 ^ (k - 1)). { replace k with (N.succ (k - 1)) at 1 by lia. apply N.pow_succ_r'. }
  assert (2 ^ k <= 2 ^ (k - 1)). { apply L; [exists (k - 1); auto|lia]. }
  assert (0 < 2 ^ (k - 1)) by (apply N.neq_0_lt_0, N.pow_nonzero; lia). lia.
Qed.

Lemma alloc_ok : forall sys al size, 1 <= al <= 2 ^ 63 -> size + 2 * al <= 2 ^ 64 ->
  exists k s, next_power_of_two 64 al = 2 ^ k /\ al <= 2 ^ k < 2 * al /\ least_multiple_ge (2 ^ k) size s /\
  aligned_alloc sys al size = Ok (match sys (2 ^ k) s with Some p => Some (Block p s (2 ^ k)) | None => None end).
Proof.
  intros sys al size Ha Hs. destruct (pow_least al Ha) as (k & E & L). exists k.
  destruct (next_multiple 64 size (2 ^ k)) as (s & Es & Ls & _); [lia|lia|].
  exists s. unfold aligned_alloc. rewrite E, Es. auto.
Qed.

Lemma pow2_mod : forall a b x, a <= b -> x mod 2 ^ b = 0 -> x mod 2 ^ a = 0.
Proof.
  intros a b x H E. assert (2 ^ a <> 0) by (apply N.pow_nonzero; lia). assert (2 ^ b <> 0) by (apply N.pow_nonzero; lia).
  apply N.mod_divide in E; auto. apply N.mod_divide; auto. apply N.divide_trans with (2 ^ b); auto.
  exists (2 ^ (b - a)). rewrite <- N.pow_add_r. f_equal. lia.
Qed.

Lemma alloc_block : forall sys al size b, sys_ok sys -> 1 <= al <= 2 ^ 63 -> size + 2 * al <= 2 ^ 64 ->
  aligned_alloc sys al size = Ok (Some b) ->
  size <= b_size b /\ b_addr b + b_size b <= 2 ^ 64 /\
  forall j, 2 ^ j <= al -> b_addr b mod 2 ^ j = 0.
Proof.
  intros sys al size b S Ha Hs E. destruct (alloc_ok sys al size Ha Hs) as (k & s & _ & L & (M1 & M2 & _) & E').
  rewrite E' in E. destruct (sys (2 ^ k) s) as [p|] eqn:Es; [|discriminate]. injection E as <-. cbn.
  destruct (S k s p M1 Es) as (A & B). split; auto. split; auto. intros j Hj. apply (pow2_mod j k); auto.
  apply (N.pow_le_mono_r_iff 2); lia.
Qed.

Lemma allocate_ok : forall sys al sz n, 1 <= al <= 2 ^ 63 -> n * sz + 2 * al <= 2 ^ 64 ->
  (exists b, allocate sys al sz n = Ok b /\ aligned_alloc sys al (n * sz) = Ok (Some b)) \/
  (allocate sys al sz n = Throw /\ exists a s, sys a s = None).
Proof.
  intros sys al sz n Ha Hs. unfold allocate, wrap64. rewrite N.mod_small. 2: { change W64 with (2 ^ 64). lia. }
  destruct (alloc_ok sys al (n * sz) Ha Hs) as (k & s & _ & _ & _ & E). rewrite E. cbn [bind].
  destruct (sys (2 ^ k) s) eqn:F; [left; eauto|right]. split; auto. exists (2 ^ k), s. auto.
Qed.

Lemma elem_aligned : forall a i sz j, a mod 2 ^ j = 0 -> sz mod 2 ^ j = 0 -> (a + i * sz) mod 2 ^ j = 0.
Proof.
  intros a i sz j A B. assert (H : 2 ^ j <> 0) by (apply N.pow_nonzero; lia).
  apply N.mod_divide; auto. apply N.divide_add_r; [apply N.mod_divide; auto|].
  apply N.divide_mul_r. apply N.mod_divide; auto.
Qed.
