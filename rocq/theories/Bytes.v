(* Byte strings: little-endian encoding, reading and overwriting ranges.
   Shared by the models of targets, headers and serialization. *)
From Verif Require Import Base.

(* n bytes, least significant first *)
Fixpoint le_enc (n : nat) (x : N) : list N :=
  match n with
  | O => []
  | S k => (x mod 256)%N :: le_enc k (x / 256)%N
  end.
Fixpoint le_dec (l : list N) : N :=
  match l with
  | [] => 0%N
  | b :: r => (b + 256 * le_dec r)%N
  end.

(* 64-bit two's complement *)
Definition Z64 : Z := 18446744073709551616%Z.
Definition u_of_z (z : Z) : N := Z.to_N (z mod Z64).
Definition z_of_u (x : N) : Z :=
  if (x <? 9223372036854775808)%N then Z.of_N x else (Z.of_N x - Z64)%Z.

(* n bytes starting at i; None if the range leaves the buffer *)
Definition get (i n : nat) (b : list N) : option (list N) :=
  if Nat.leb (i + n) (length b) then Some (slice i n b) else None.
(* memcpy(&b[i], d, |d|), range inside the buffer *)
Definition put (i : nat) (d : list N) (b : list N) : list N :=
  firstn i b ++ d ++ skipn (i + length d) b.

Definition zeros (n : nat) : list N := repeat 0%N n.

Lemma le_enc_length n x : length (le_enc n x) = n.
Proof. revert x; induction n; intros; cbn; auto. Qed.

Lemma le_enc_ok n x : bytes_ok (le_enc n x).
Proof.
  revert x; induction n; intros; cbn; constructor.
  - unfold byte_ok. apply N.mod_lt. lia.
  - apply IHn.
Qed.

Lemma le_dec_enc n x : le_dec (le_enc n x) = (x mod 256 ^ N.of_nat n)%N.
Proof.
  revert x; induction n as [|n IH]; intros x.
  - cbn. now rewrite N.mod_1_r.
  - cbn [le_enc le_dec]. rewrite IH, Nat2N.inj_succ, N.pow_succ_r'.
    rewrite N.mod_mul_r; [reflexivity|lia|apply N.pow_nonzero; lia].
Qed.

Lemma le_dec_enc_small n x : (x < 256 ^ N.of_nat n)%N -> le_dec (le_enc n x) = x.
Proof. intros H. rewrite le_dec_enc. now apply N.mod_small. Qed.

Lemma le_dec_bound l : bytes_ok l -> (le_dec l < 256 ^ N.of_nat (length l))%N.
Proof.
  induction 1 as [|b r Hb Hr IH]; cbn [le_dec length]; [cbn; lia|].
  unfold byte_ok in Hb. rewrite Nat2N.inj_succ, N.pow_succ_r'. lia.
Qed.

Lemma le_enc_dec l : bytes_ok l -> le_enc (length l) (le_dec l) = l.
Proof.
  induction 1 as [|b r Hb Hr IH]; cbn [le_dec length le_enc]; [reflexivity|].
  unfold byte_ok in Hb. f_equal.
  - rewrite (N.mul_comm 256), N.mod_add by lia. now apply N.mod_small.
  - replace ((b + 256 * le_dec r) / 256)%N with (le_dec r); [assumption|].
    rewrite (N.mul_comm 256), N.div_add by lia.
    rewrite (N.div_small b) by assumption. lia.
Qed.

Lemma le_dec_inj l1 l2 : bytes_ok l1 -> bytes_ok l2 -> length l1 = length l2 ->
  le_dec l1 = le_dec l2 -> l1 = l2.
Proof.
  intros H1 H2 HL HE. rewrite <- (le_enc_dec l1), <- (le_enc_dec l2) by assumption.
  now rewrite HL, HE.
Qed.

Lemma u_of_z_bound z : (u_of_z z < W64)%N.
Proof.
  unfold u_of_z, W64. pose proof (Z.mod_pos_bound z Z64 ltac:(reflexivity)).
  unfold Z64 in *. lia.
Qed.

Lemma z_of_u_of_z z : (-9223372036854775808 <= z < 9223372036854775808)%Z ->
  z_of_u (u_of_z z) = z.
Proof.
  intros H. unfold z_of_u, u_of_z.
  destruct (Z.ltb_spec z 0) as [Hn|Hn].
  - assert (E : (z mod Z64 = z + Z64)%Z).
    { symmetry. apply Z.mod_unique with (q := (-1)%Z); unfold Z64; lia. }
    rewrite E. unfold Z64.
    destruct (N.ltb_spec (Z.to_N (z + 18446744073709551616)) 9223372036854775808%N); lia.
  - rewrite Z.mod_small by (unfold Z64; lia).
    destruct (N.ltb_spec (Z.to_N z) 9223372036854775808%N); lia.
Qed.

Lemma u_of_z_of_u x : (x < W64)%N -> u_of_z (z_of_u x) = x.
Proof.
  unfold W64. intros H. unfold z_of_u, u_of_z.
  destruct (N.ltb_spec x 9223372036854775808%N).
  - rewrite Z.mod_small by (unfold Z64; lia). lia.
  - assert (E : ((Z.of_N x - Z64) mod Z64 = Z.of_N x)%Z).
    { symmetry. apply Z.mod_unique with (q := (-1)%Z); unfold Z64; lia. }
    rewrite E. lia.
Qed.

Lemma z_of_u_range x : (x < W64)%N ->
  (-9223372036854775808 <= z_of_u x < 9223372036854775808)%Z.
Proof.
  unfold W64, z_of_u, Z64. intros H. destruct (N.ltb_spec x 9223372036854775808%N); lia.
Qed.

(* ---- ranges ---- *)
Lemma slice_length {A} i n (b : list A) : length (slice i n b) = min n (length b - i).
Proof. unfold slice. rewrite firstn_length, skipn_length. reflexivity. Qed.

Lemma nth_error_slice {A} i n (b : list A) k :
  nth_error (slice i n b) k = if Nat.ltb k n then nth_error b (i + k) else None.
Proof.
  unfold slice. destruct (Nat.ltb_spec k n) as [H|H].
  - rewrite <- (firstn_skipn i b) at 2.
    destruct (Nat.le_gt_cases (length b) i) as [L|G].
    + rewrite (skipn_all2 b) by lia. rewrite firstn_nil.
      rewrite app_nil_r. rewrite firstn_all2 by lia.
      transitivity (@None A); [destruct k; reflexivity|symmetry; apply nth_error_None; lia].
    + rewrite nth_error_app2 by (rewrite firstn_length; lia).
      rewrite firstn_length. replace (i + k - min i (length b)) with k by lia.
      revert k H. generalize (skipn i b) as l. clear. induction n; intros l k H; [lia|].
      destruct l, k; cbn; auto. apply IHn. lia.
  - apply nth_error_None. rewrite firstn_length. lia.
Qed.

Lemma get_some i n b : i + n <= length b -> get i n b = Some (slice i n b).
Proof. intros H. unfold get. apply Nat.leb_le in H. now rewrite H. Qed.

Lemma get_inv i n b l : get i n b = Some l -> i + n <= length b /\ l = slice i n b.
Proof. unfold get. destruct (Nat.leb_spec (i + n) (length b)); intros H'; inversion H'; auto. Qed.

Lemma get_length i n b l : get i n b = Some l -> length l = n.
Proof. intros H. apply get_inv in H as [H ->]. rewrite slice_length. lia. Qed.

Lemma put_length i d b : i + length d <= length b -> length (put i d b) = length b.
Proof.
  intros H. unfold put. rewrite !app_length, firstn_length, skipn_length. lia.
Qed.

Lemma nth_error_put i d b k : i + length d <= length b ->
  nth_error (put i d b) k =
  if (Nat.leb i k && Nat.ltb k (i + length d))%bool then nth_error d (k - i) else nth_error b k.
Proof.
  intros H. unfold put.
  assert (F : length (firstn i b) = i) by (rewrite firstn_length; lia).
  destruct (Nat.leb_spec i k) as [L|G]; cbn [andb].
  - rewrite nth_error_app2 by lia. rewrite F.
    destruct (Nat.ltb_spec k (i + length d)) as [L2|G2].
    + now rewrite nth_error_app1 by lia.
    + rewrite nth_error_app2 by lia.
      rewrite <- (firstn_skipn (i + length d) b) at 2.
      rewrite nth_error_app2 by (rewrite firstn_length; lia).
      rewrite firstn_length. f_equal. lia.
  - rewrite nth_error_app1 by lia.
    rewrite <- (firstn_skipn i b) at 2.
    now rewrite nth_error_app1 by lia.
Qed.

Lemma get_ext i n b b' :
  length b <= length b' \/ i + n <= length b' ->
  (forall k, i <= k < i + n -> nth_error b k = nth_error b' k) ->
  i + n <= length b -> get i n b' = get i n b.
Proof.
  intros HL H Hb. rewrite (get_some i n b) by assumption. rewrite get_some by lia.
  f_equal. apply list_ext. intros k. rewrite !nth_error_slice.
  destruct (Nat.ltb_spec k n); [|reflexivity]. symmetry. apply H. lia.
Qed.

Lemma get_put_same i d b : i + length d <= length b -> get i (length d) (put i d b) = Some d.
Proof.
  intros H. rewrite get_some by (rewrite put_length; lia). f_equal.
  apply list_ext. intros k. rewrite nth_error_slice.
  destruct (Nat.ltb_spec k (length d)) as [L|G].
  - rewrite nth_error_put by lia.
    replace (Nat.leb i (i + k)) with true by (symmetry; apply Nat.leb_le; lia).
    replace (Nat.ltb (i + k) (i + length d)) with true by (symmetry; apply Nat.ltb_lt; lia).
    cbn [andb]. f_equal. lia.
  - symmetry. apply nth_error_None. lia.
Qed.

Lemma get_put_other i n j d b : j + length d <= length b ->
  i + n <= j \/ j + length d <= i -> get i n (put j d b) = get i n b.
Proof.
  intros H HD. destruct (Nat.le_gt_cases (i + n) (length b)) as [L|G].
  - apply get_ext; [rewrite put_length; lia| |assumption].
    intros k Hk. rewrite nth_error_put by assumption.
    destruct (Nat.leb_spec j k); cbn [andb]; [|reflexivity].
    destruct (Nat.ltb_spec k (j + length d)); [lia|reflexivity].
  - unfold get. rewrite put_length by assumption.
    destruct (Nat.leb_spec (i + n) (length b)); [lia|reflexivity].
Qed.

Lemma get_app1 i n b c : i + n <= length b -> get i n (b ++ c) = get i n b.
Proof.
  intros H. apply get_ext; [rewrite app_length; lia| |assumption].
  intros k Hk. symmetry. apply nth_error_app1. lia.
Qed.

Lemma get_app2 b c n : n = length c -> get (length b) n (b ++ c) = Some c.
Proof.
  intros ->. rewrite get_some by (rewrite app_length; lia). f_equal.
  unfold slice. rewrite skipn_app, skipn_all, Nat.sub_diag. cbn [skipn app].
  apply firstn_all.
Qed.

Lemma put_ok i d b : bytes_ok b -> bytes_ok d -> bytes_ok (put i d b).
Proof.
  intros Hb Hd. unfold put, bytes_ok in *. rewrite !Forall_app.
  rewrite <- (firstn_skipn i b), Forall_app in Hb. destruct Hb as [H1 H2].
  repeat split; auto.
  rewrite <- (firstn_skipn i b). rewrite skipn_app. apply Forall_app. split.
  - rewrite skipn_all2; [constructor|]. rewrite firstn_length. lia.
  - rewrite <- (firstn_skipn (i + length d - length (firstn i b)) (skipn i b)), Forall_app in H2. apply H2.
Qed.

Lemma slice_ok i n b : bytes_ok b -> bytes_ok (slice i n b).
Proof.
  unfold bytes_ok, slice. intros H.
  rewrite <- (firstn_skipn i b), Forall_app in H. destruct H as [_ H].
  rewrite <- (firstn_skipn n (skipn i b)), Forall_app in H. tauto.
Qed.

Lemma zeros_length n : length (zeros n) = n.
Proof. apply repeat_length. Qed.

Lemma zeros_ok n : bytes_ok (zeros n).
Proof. unfold bytes_ok, zeros. apply Forall_forall. intros x H. apply repeat_spec in H. subst. reflexivity. Qed.
