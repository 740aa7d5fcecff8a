From Verif Require Import Base Bytes FnvModel.
Local Open Scope N_scope.

Definition fnv_inv : N := 14886173955864302971.
Lemma fnv_inv_ok : (fnv_prime * fnv_inv) mod W64 = 1.
Proof. vm_compute. reflexivity. Qed.

Lemma mul64_prime_inj x y : x < W64 -> y < W64 -> mul64 x fnv_prime = mul64 y fnv_prime -> x = y.
Proof.
  unfold mul64, wrap64. intros Hx Hy H.
  assert (E : forall z, z < W64 -> (((z * fnv_prime) mod W64) * fnv_inv) mod W64 = z).
  { intros z Hz. rewrite N.mul_mod_idemp_l by discriminate.
    rewrite <- N.mul_assoc. rewrite <- N.mul_mod_idemp_r by discriminate.
    rewrite fnv_inv_ok, N.mul_1_r. now apply N.mod_small. }
  rewrite <- (E x Hx), <- (E y Hy). now rewrite H.
Qed.

Lemma lxor_bound64 x y : x < W64 -> y < W64 -> N.lxor x y < W64.
Proof.
  intros Hx Hy. change W64 with (2 ^ 64) in *.
  destruct (N.eq_dec (N.lxor x y) 0) as [->|Hz]; [reflexivity|].
  apply N.log2_lt_pow2; [lia|].
  eapply N.le_lt_trans; [apply N.log2_lxor|].
  apply N.max_lub_lt.
  - destruct (N.eq_dec x 0) as [->|]; [reflexivity|]. apply N.log2_lt_pow2; lia.
  - destruct (N.eq_dec y 0) as [->|]; [reflexivity|]. apply N.log2_lt_pow2; lia.
Qed.

Lemma wrap64_bound x : wrap64 x < W64.
Proof. apply N.mod_lt. discriminate. Qed.

Lemma hash_combine_bound h a : hash_combine h a < W64.
Proof. apply wrap64_bound. Qed.

Lemma hash_combine_inj h h' a a' : h < W64 -> h' < W64 ->
  hash_combine h a = hash_combine h' a' -> N.lxor h (wrap64 a) = N.lxor h' (wrap64 a').
Proof.
  intros Hh Hh' H. apply mul64_prime_inj in H; auto using lxor_bound64, wrap64_bound.
Qed.

Lemma lxor_cancel_r x y z : N.lxor x z = N.lxor y z -> x = y.
Proof.
  intros H. assert (E : forall u, N.lxor (N.lxor u z) z = u).
  { intros u. rewrite N.lxor_assoc, N.lxor_nilpotent, N.lxor_0_r. reflexivity. }
  rewrite <- (E x), <- (E y). now rewrite H.
Qed.
Lemma lxor_cancel_l x y z : N.lxor z x = N.lxor z y -> x = y.
Proof. rewrite !(N.lxor_comm z). apply lxor_cancel_r. Qed.

Lemma hash_combine_inj_h h h' a : h < W64 -> h' < W64 ->
  hash_combine h a = hash_combine h' a -> h = h'.
Proof. intros H1 H2 H. apply hash_combine_inj in H; auto. now apply lxor_cancel_r in H. Qed.

Lemma hash_combine_inj_b h a a' : h < W64 -> a < W64 -> a' < W64 ->
  hash_combine h a = hash_combine h a' -> a = a'.
Proof.
  intros H1 H2 H3 H. apply hash_combine_inj in H; auto. apply lxor_cancel_l in H.
  unfold wrap64 in H. now rewrite !N.mod_small in H by assumption.
Qed.

Lemma hash_bound s h : h < W64 -> hash s h < W64.
Proof.
  unfold hash. revert h. induction s as [|b s IH]; intros h H; cbn [fold_left]; auto.
  apply IH, hash_combine_bound.
Qed.

Lemma hash_inj_seed s : forall h h', h < W64 -> h' < W64 -> hash s h = hash s h' -> h = h'.
Proof.
  unfold hash. induction s as [|b s IH]; intros h h' H H' E; cbn [fold_left] in E; auto.
  apply IH in E; auto using hash_combine_bound. now apply hash_combine_inj_h in E.
Qed.

Lemma hash_app s t h : hash (s ++ t) h = hash t (hash s h).
Proof. apply fold_left_app. Qed.

Lemma byte_lt_W64 b : byte_ok b -> b < W64.
Proof. unfold byte_ok, W64. lia. Qed.

(* changing one byte changes the hash *)
Lemma hash_one_byte pre post b b' h : h < W64 -> byte_ok b -> byte_ok b' ->
  hash (pre ++ b :: post) h = hash (pre ++ b' :: post) h -> b = b'.
Proof.
  intros Hh Hb Hb' E. rewrite !hash_app in E. unfold hash in E at 1 3. cbn [fold_left] in E.
  fold (hash post (hash_combine (hash pre h) b)) in E.
  fold (hash post (hash_combine (hash pre h) b')) in E.
  apply hash_inj_seed in E; auto using hash_combine_bound.
  apply hash_combine_inj_b in E; auto using byte_lt_W64, hash_bound.
Qed.

(* ---- byte order ---- *)
Lemma rev_ok l : bytes_ok l -> bytes_ok (rev l).
Proof. apply Forall_rev. Qed.

Lemma swap_bytes w x : le_enc w (endian_swap w x) = rev (le_enc w x).
Proof.
  unfold endian_swap.
  rewrite <- (le_enc_length w x) at 1. rewrite <- (rev_length (le_enc w x)).
  apply le_enc_dec. apply rev_ok, le_enc_ok.
Qed.

Lemma swap_bound w x : endian_swap w x < 256 ^ N.of_nat w.
Proof.
  unfold endian_swap. pose proof (le_dec_bound (rev (le_enc w x))) as H.
  rewrite rev_length, le_enc_length in H. apply H, rev_ok, le_enc_ok.
Qed.

Lemma swap_involutive w x : x < 256 ^ N.of_nat w -> endian_swap w (endian_swap w x) = x.
Proof.
  intros H. unfold endian_swap at 1. rewrite swap_bytes, rev_involutive.
  now apply le_dec_enc_small.
Qed.

Lemma convert_involutive big hb w x : x < 256 ^ N.of_nat w ->
  convert_endian big hb w (convert_endian big hb w x) = x.
Proof.
  intros H. unfold convert_endian. destruct (endian_conversion_necessary big hb); auto.
  now apply swap_involutive.
Qed.

Lemma convert_bound big hb w x : x < 256 ^ N.of_nat w ->
  convert_endian big hb w x < 256 ^ N.of_nat w.
Proof.
  intros H. unfold convert_endian. destruct (endian_conversion_necessary big hb); auto.
  apply swap_bound.
Qed.

(* the bytes put into the buffer do not depend on the host *)
Lemma written_bytes big hb w x :
  host_bytes hb w (convert_endian big hb w x) = if big then rev (le_enc w x) else le_enc w x.
Proof.
  unfold convert_endian, host_bytes, endian_conversion_necessary.
  destruct big, hb; rewrite ?swap_bytes, ?rev_involutive; reflexivity.
Qed.

Lemma read_value big hb w l : bytes_ok l -> length l = w ->
  convert_endian big hb w (host_value hb l) = if big then le_dec (rev l) else le_dec l.
Proof.
  intros Hl HL. unfold convert_endian, host_value, endian_conversion_necessary, endian_swap.
  destruct big, hb; auto; subst w.
  - now rewrite le_enc_dec.
  - rewrite <- (rev_length l), le_enc_dec, rev_involutive; auto. now apply rev_ok.
Qed.

Lemma host_bytes_length hb w x : length (host_bytes hb w x) = w.
Proof. unfold host_bytes. destruct hb; rewrite ?rev_length, le_enc_length; auto. Qed.
Lemma host_bytes_ok hb w x : bytes_ok (host_bytes hb w x).
Proof. unfold host_bytes. destruct hb; [apply rev_ok|]; apply le_enc_ok. Qed.
