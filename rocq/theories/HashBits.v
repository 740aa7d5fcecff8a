(* Bit-level facts about the 8-byte control groups of HashModel. *)
From Verif Require Import Base Bytes ArithModel FnvProofs HashModel.

Lemma testbit_add_256 b x n : (b < 256)%N ->
  N.testbit (b + 256 * x) n = if (n <? 8)%N then N.testbit b n else N.testbit x (n - 8).
Proof.
  intros Hb. replace (b + 256 * x)%N with (N.lor b (N.shiftl x 8)).
  - rewrite N.lor_spec. destruct (N.ltb_spec n 8) as [L|L].
    + rewrite N.shiftl_spec_low by assumption. apply orb_false_r.
    + rewrite N.shiftl_spec_high' by assumption.
      destruct (N.eq_dec b 0) as [->|Hz]; [now rewrite N.bits_0|].
      rewrite (N.bits_above_log2 b n); auto.
      eapply N.lt_le_trans; [|exact L]. apply N.log2_lt_pow2; [lia|exact Hb].
  - rewrite <- N.lxor_lor.
    + rewrite <- N.add_nocarry_lxor, N.shiftl_mul_pow2; [change (2 ^ 8)%N with 256%N; lia|].
      apply N.bits_inj_0. intros k. rewrite N.land_spec.
      destruct (N.ltb_spec k 8).
      * rewrite N.shiftl_spec_low by assumption. apply andb_false_r.
      * destruct (N.eq_dec b 0) as [->|Hz]; [now rewrite N.bits_0|].
        rewrite (N.bits_above_log2 b k); auto.
        eapply N.lt_le_trans; [|eassumption]. apply N.log2_lt_pow2; [lia|exact Hb].
    + apply N.bits_inj_0. intros k. rewrite N.land_spec.
      destruct (N.ltb_spec k 8).
      * rewrite N.shiftl_spec_low by assumption. apply andb_false_r.
      * destruct (N.eq_dec b 0) as [->|Hz]; [now rewrite N.bits_0|].
        rewrite (N.bits_above_log2 b k); auto.
        eapply N.lt_le_trans; [|eassumption]. apply N.log2_lt_pow2; [lia|exact Hb].
Qed.

Lemma testbit_le_dec l : bytes_ok l -> forall n,
  N.testbit (le_dec l) n = N.testbit (nth (N.to_nat (n / 8)) l 0%N) (n mod 8).
Proof.
  induction 1 as [|b l Hb Hl IH]; intros n; cbn [le_dec].
  - rewrite N.bits_0. destruct (N.to_nat (n / 8)); cbn [nth]; now rewrite N.bits_0.
  - rewrite testbit_add_256 by exact Hb. destruct (N.ltb_spec n 8) as [L|L].
    + rewrite N.div_small, N.mod_small by assumption. reflexivity.
    + rewrite IH.
      replace (n / 8)%N with (N.succ ((n - 8) / 8))%N.
      * rewrite N2Nat.inj_succ. cbn [nth]. f_equal.
        replace n with (n - 8 + 1 * 8)%N at 2 by lia. now rewrite N.mod_add by lia.
      * replace n with (n - 8 + 1 * 8)%N at 2 by lia. rewrite N.div_add by lia. lia.
Qed.

Lemma byte_high b n : (b < 256)%N -> (8 <= n)%N -> N.testbit b n = false.
Proof.
  intros Hb L. destruct (N.eq_dec b 0) as [->|Hz]; [now rewrite N.bits_0|].
  apply N.bits_above_log2. eapply N.lt_le_trans; [|exact L]. apply N.log2_lt_pow2; [lia|exact Hb].
Qed.

Lemma testbit_wrap64 x n : N.testbit (wrap64 x) n = ((n <? 64)%N && N.testbit x n)%bool.
Proof.
  unfold wrap64. change W64 with (2 ^ 64)%N. destruct (N.ltb_spec n 64).
  - now rewrite N.mod_pow2_bits_low.
  - now rewrite N.mod_pow2_bits_high.
Qed.

Lemma testbit_u64_max n : N.testbit u64_max n = (n <? 64)%N.
Proof.
  change u64_max with (N.ones 64). destruct (N.ltb_spec n 64).
  - now apply N.ones_spec_low.
  - now apply N.ones_spec_high.
Qed.

Lemma testbit_not64 x n : (n < 64)%N -> N.testbit (not64 x) n = negb (N.testbit x n).
Proof.
  intros H. unfold not64. rewrite N.lxor_spec, testbit_u64_max.
  apply N.ltb_lt in H. rewrite H. apply xorb_true_r.
Qed.

Lemma testbit_shl64 x s n : N.testbit (shl64 x s) n = ((n <? 64) && (s <=? n) && N.testbit x (n - s))%N%bool.
Proof.
  unfold shl64. rewrite testbit_wrap64. destruct (N.ltb_spec n 64); cbn [andb]; auto.
  destruct (N.leb_spec s n); cbn [andb].
  - now rewrite N.shiftl_spec_high'.
  - now apply N.shiftl_spec_low.
Qed.

Definition flag (b : bool) : N := if b then 128%N else 0%N.
Lemma flag_ok b : byte_ok (flag b).
Proof. destruct b; reflexivity. Qed.
Lemma flags_ok l : bytes_ok (map flag l).
Proof. apply Forall_forall. intros x H. apply in_map_iff in H as (b & <- & _). apply flag_ok. Qed.

Lemma MSBS_bytes : MSBS = le_dec (repeat 128%N 8).
Proof. reflexivity. Qed.
Lemma repeat_ok b n : byte_ok b -> bytes_ok (repeat b n).
Proof. intros H. apply Forall_forall. intros x Hx. apply repeat_spec in Hx. now subst. Qed.

Lemma testbit_MSBS n : N.testbit MSBS n = ((n <? 64) && (n mod 8 =? 7))%N%bool.
Proof.
  rewrite MSBS_bytes, testbit_le_dec by (apply repeat_ok; reflexivity).
  assert (D := N.div_mod n 8 ltac:(lia)). assert (M := N.mod_lt n 8 ltac:(lia)).
  destruct (N.ltb_spec n 64) as [L|L]; cbn [andb].
  - rewrite (nth_indep _ 0%N 128%N) by (rewrite repeat_length; lia). rewrite nth_repeat.
    change 128%N with (2 ^ 7)%N. rewrite N.pow2_bits_eqb. rewrite N.eqb_sym. reflexivity.
  - rewrite nth_overflow by (rewrite repeat_length; lia). apply N.bits_0.
Qed.

Lemma testbit_flags bs n : N.testbit (le_dec (map flag bs)) n =
  (nth (N.to_nat (n / 8)) bs false && (n mod 8 =? 7)%N)%bool.
Proof.
  rewrite testbit_le_dec by apply flags_ok.
  change 0%N with (flag false). rewrite map_nth. destruct (nth _ bs false); cbn [flag andb].
  - change 128%N with (2 ^ 7)%N. rewrite N.pow2_bits_eqb. now rewrite N.eqb_sym.
  - apply N.bits_0.
Qed.

(* A word masked by MSBS is determined by bit 7 of its bytes. *)
Lemma msbs_flags w bs : length bs = 8 ->
  (forall i, i < 8 -> N.testbit w (8 * N.of_nat i + 7) = nth i bs false) ->
  N.land w MSBS = le_dec (map flag bs).
Proof.
  intros HL H. apply N.bits_inj. intros n. rewrite N.land_spec, testbit_MSBS, testbit_flags.
  assert (D := N.div_mod n 8 ltac:(lia)). assert (M := N.mod_lt n 8 ltac:(lia)).
  destruct (N.ltb_spec n 64) as [L|L]; cbn [andb].
  - destruct (N.eqb_spec (n mod 8) 7) as [E|E]; [|now rewrite !andb_false_r].
    rewrite !andb_true_r. rewrite <- H by lia. f_equal. lia.
  - rewrite andb_false_r. rewrite nth_overflow; [reflexivity|lia].
Qed.

Section Group.
Variable l : list N.
Hypothesis Hl : bytes_ok l.
Hypothesis HL : length l = 8.
Let g := le_dec l.

Lemma g_bit i r : i < 8 -> (r < 8)%N ->
  N.testbit g (8 * N.of_nat i + r) = N.testbit (nth i l 0%N) r.
Proof.
  intros Hi Hr. unfold g. rewrite testbit_le_dec by exact Hl.
  rewrite (N.mul_comm 8), N.div_add_l by lia. rewrite (N.div_small r) by assumption.
  rewrite N.add_0_r, Nat2N.id. f_equal. rewrite N.add_comm, N.mod_add by lia. now apply N.mod_small.
Qed.

Definition empty_flag (b : N) : bool := (N.testbit b 7 && negb (N.testbit b 1))%bool.
Definition eod_flag (b : N) : bool := (N.testbit b 7 && negb (N.testbit b 0))%bool.

Lemma match_empty_flags : match_empty g = le_dec (map flag (map empty_flag l)).
Proof.
  unfold match_empty. apply msbs_flags; [now rewrite map_length|]. intros i Hi.
  rewrite N.land_spec, testbit_shl64.
  replace (8 * N.of_nat i + 7 <? 64)%N with true by lia.
  replace (6 <=? 8 * N.of_nat i + 7)%N with true by lia. cbn [andb].
  replace (8 * N.of_nat i + 7 - 6)%N with (8 * N.of_nat i + 1)%N by lia.
  rewrite testbit_not64 by lia. rewrite !g_bit by lia.
  change false with (empty_flag 0). rewrite map_nth. reflexivity.
Qed.

Lemma match_eod_flags : match_empty_or_deleted g = le_dec (map flag (map eod_flag l)).
Proof.
  unfold match_empty_or_deleted. apply msbs_flags; [now rewrite map_length|]. intros i Hi.
  rewrite N.land_spec, testbit_shl64.
  replace (8 * N.of_nat i + 7 <? 64)%N with true by lia.
  replace (7 <=? 8 * N.of_nat i + 7)%N with true by lia. cbn [andb].
  replace (8 * N.of_nat i + 7 - 7)%N with (8 * N.of_nat i + 0)%N by lia.
  rewrite testbit_not64 by lia. rewrite !g_bit by lia.
  change false with (eod_flag 0). rewrite map_nth. reflexivity.
Qed.

(* ---- match: subtraction with borrow ---- *)
Fixpoint subf (bw : N) (xs : list N) : list N :=
  match xs with
  | [] => []
  | x :: r => ((x + 256 - (1 + bw)) mod 256)%N :: subf (if (x <? 1 + bw)%N then 1 else 0)%N r
  end.
Lemma subf_length xs : forall bw, length (subf bw xs) = length xs.
Proof. induction xs; intros; cbn; auto. Qed.
Lemma subf_ok xs : forall bw, bytes_ok (subf bw xs).
Proof.
  induction xs; intros; cbn; constructor; [|apply IHxs].
  apply N.mod_lt. lia.
Qed.
Lemma subf_val xs : bytes_ok xs -> forall bw, (bw <= 1)%N ->
  exists c, (c <= 1)%N /\
  (le_dec (subf bw xs) + le_dec (repeat 1%N (length xs)) + bw =
   le_dec xs + c * 256 ^ N.of_nat (length xs))%N.
Proof.
  induction 1 as [|x xs Hx Hxs IH]; intros bw Hbw.
  - exists bw. cbn. lia.
  - cbn [subf length repeat le_dec].
    destruct (IH (if (x <? 1 + bw)%N then 1 else 0)%N) as (c & Hc & E).
    { destruct (_ <? _)%N; lia. }
    exists c. split; auto. rewrite Nat2N.inj_succ, N.pow_succ_r'.
    unfold byte_ok in Hx. destruct (N.ltb_spec x (1 + bw)) as [L|L].
    + rewrite (N.mod_small (x + 256 - (1 + bw)) 256) by lia. nia.
    + replace (x + 256 - (1 + bw))%N with (x - (1 + bw) + 1 * 256)%N by lia.
      rewrite N.mod_add by lia. rewrite N.mod_small by lia. nia.
Qed.

Lemma LSBS_bytes : LSBS = le_dec (repeat 1%N 8).
Proof. reflexivity. Qed.

Lemma sub64_LSBS xs : bytes_ok xs -> length xs = 8 ->
  sub64 (le_dec xs) LSBS = le_dec (subf 0 xs).
Proof.
  intros Hx HX. destruct (subf_val xs Hx 0%N ltac:(lia)) as (c & Hc & E).
  rewrite HX in E. rewrite <- LSBS_bytes in E.
  assert (B : (le_dec (subf 0 xs) < W64)%N).
  { pose proof (le_dec_bound _ (subf_ok xs 0%N)) as B. rewrite subf_length, HX in B. exact B. }
  assert (B2 : (le_dec xs < W64)%N).
  { pose proof (le_dec_bound _ Hx) as B2. rewrite HX in B2. exact B2. }
  unfold sub64, wrap64. change (LSBS mod W64)%N with LSBS.
  change (256 ^ N.of_nat 8)%N with W64 in E.
  symmetry. unfold W64, LSBS in *.
  assert (C : c = 0%N \/ c = 1%N) by lia. destruct C as [-> | ->].
  - replace (le_dec xs + (18446744073709551616 - 72340172838076673))%N
      with (le_dec (subf 0 xs) + 1 * 18446744073709551616)%N by lia.
    rewrite N.mod_add by lia. symmetry. apply N.mod_small. lia.
  - rewrite N.mod_small by lia. lia.
Qed.

Lemma le_dec_lxor xs : forall ys, length xs = length ys -> bytes_ok xs -> bytes_ok ys ->
  N.lxor (le_dec xs) (le_dec ys) = le_dec (map (fun p => N.lxor (fst p) (snd p)) (combine xs ys)).
Proof.
  induction xs as [|x xs IH]; intros [|y ys] E Hx Hy; cbn in E; try discriminate; [reflexivity|].
  inversion Hx as [|? ? Hx1 Hx2]; inversion Hy as [|? ? Hy1 Hy2]; subst.
  assert (B : (N.lxor x y < 256)%N).
  { unfold byte_ok in *. destruct (N.eq_dec (N.lxor x y) 0) as [->|Hz]; [lia|].
    change 256%N with (2 ^ 8)%N. apply N.log2_lt_pow2; [lia|].
    eapply N.le_lt_trans; [apply N.log2_lxor|]. apply N.max_lub_lt.
    - destruct (N.eq_dec x 0) as [->|]; [reflexivity|]. apply N.log2_lt_pow2; [lia|exact Hx1].
    - destruct (N.eq_dec y 0) as [->|]; [reflexivity|]. apply N.log2_lt_pow2; [lia|exact Hy1]. }
  cbn [combine map le_dec fst snd]. rewrite <- IH by (auto; lia).
  apply N.bits_inj. intros n. rewrite N.lxor_spec, !testbit_add_256 by assumption.
  destruct (n <? 8)%N; now rewrite N.lxor_spec.
Qed.

Definition xbytes (h : N) : list N := map (fun b => N.lxor b h) l.
Lemma xbytes_val h : (h < 128)%N -> N.lxor g (mul64 LSBS h) = le_dec (xbytes h).
Proof.
  intros Hh. assert (E : mul64 LSBS h = le_dec (repeat h 8)).
  { unfold mul64, wrap64. cbn [repeat le_dec]. unfold LSBS, W64. rewrite N.mod_small; lia. }
  rewrite E. unfold g. rewrite le_dec_lxor.
  - f_equal. unfold xbytes. clear Hl g E. revert HL. generalize 8. generalize l as l'.
    induction l' as [|b l' IH]; intros n Hn; cbn in Hn; subst; cbn; [reflexivity|].
    f_equal. now apply IH.
  - now rewrite repeat_length.
  - exact Hl.
  - apply repeat_ok. unfold byte_ok. lia.
Qed.
Lemma lxor_byte b h : byte_ok b -> (h < 128)%N -> byte_ok (N.lxor b h).
Proof.
  unfold byte_ok. intros Hb Hh. destruct (N.eq_dec (N.lxor b h) 0) as [->|Hz]; [lia|].
  change 256%N with (2 ^ 8)%N. apply N.log2_lt_pow2; [lia|].
  eapply N.le_lt_trans; [apply N.log2_lxor|]. apply N.max_lub_lt.
  - destruct (N.eq_dec b 0) as [->|]; [reflexivity|]. apply N.log2_lt_pow2; [lia|exact Hb].
  - destruct (N.eq_dec h 0) as [->|]; [reflexivity|]. apply N.log2_lt_pow2; lia.
Qed.
Lemma xbytes_ok h : (h < 128)%N -> bytes_ok (xbytes h).
Proof.
  intros Hh. unfold xbytes, bytes_ok. rewrite Forall_map.
  eapply Forall_impl; [|exact Hl]. intros b Hb. now apply lxor_byte.
Qed.

Definition match_flags (h : N) : list bool :=
  map (fun p => (N.testbit (fst p) 7 && negb (N.testbit (snd p) 7))%bool)
      (combine (subf 0 (xbytes h)) (xbytes h)).

Lemma xbytes_length h : length (xbytes h) = 8.
Proof. unfold xbytes. now rewrite map_length. Qed.
Lemma match_flags_length h : length (match_flags h) = 8.
Proof. unfold match_flags. rewrite map_length, combine_length, subf_length, xbytes_length. reflexivity. Qed.

Lemma match_flags_val h : (h < 128)%N -> match_ g h = le_dec (map flag (match_flags h)).
Proof.
  intros Hh. unfold match_. rewrite xbytes_val by assumption.
  apply msbs_flags; [apply match_flags_length|]. intros i Hi.
  rewrite N.land_spec, testbit_not64 by lia.
  rewrite sub64_LSBS by (auto using xbytes_ok, xbytes_length).
  rewrite !testbit_le_dec by (auto using xbytes_ok, subf_ok).
  rewrite (N.mul_comm 8), N.div_add_l, N.div_small, N.add_0_r, Nat2N.id by lia.
  replace ((N.of_nat i * 8 + 7) mod 8)%N with 7%N.
  2:{ rewrite N.add_comm, N.mod_add by lia. reflexivity. }
  unfold match_flags.
  change false with ((fun p => (N.testbit (fst p) 7 && negb (N.testbit (snd p) 7))%bool) (0%N, 0%N)).
  rewrite map_nth, combine_nth by (now rewrite subf_length). reflexivity.
Qed.

(* a true match is always flagged, a flagged byte is always full *)
Lemma subf_zero xs : forall bw i, (bw <= 1)%N -> i < length xs -> nth i xs 0%N = 0%N ->
  N.testbit (nth i (subf bw xs) 0%N) 7 = true.
Proof.
  induction xs as [|x xs IH]; intros bw i Hb Hi E; cbn in Hi; [lia|].
  destruct i as [|i]; cbn [subf nth] in *.
  - subst x. assert (C : bw = 0%N \/ bw = 1%N) by lia. destruct C as [-> | ->]; reflexivity.
  - apply IH; auto; [destruct (_ <? _)%N; lia|lia].
Qed.

Lemma match_true h i : (h < 128)%N -> i < 8 -> nth i l 0%N = h -> nth i (match_flags h) false = true.
Proof.
  intros Hh Hi E. unfold match_flags.
  change false with ((fun p => (N.testbit (fst p) 7 && negb (N.testbit (snd p) 7))%bool) (0%N, 0%N)).
  rewrite map_nth, combine_nth by (now rewrite subf_length). cbn [fst snd].
  assert (Z : nth i (xbytes h) 0%N = 0%N).
  { unfold xbytes. rewrite (nth_indep _ 0%N (N.lxor 0 h)) by (rewrite map_length; lia).
    rewrite (map_nth (fun b => N.lxor b h)), E. apply N.lxor_nilpotent. }
  rewrite subf_zero; [|lia|rewrite xbytes_length; lia|exact Z]. rewrite Z. reflexivity.
Qed.

Lemma match_only_full h i : (h < 128)%N -> i < 8 -> nth i (match_flags h) false = true ->
  is_full (nth i l 0%N) = true.
Proof.
  intros Hh Hi. unfold match_flags.
  change false with ((fun p => (N.testbit (fst p) 7 && negb (N.testbit (snd p) 7))%bool) (0%N, 0%N)) at 1.
  rewrite map_nth, combine_nth by (now rewrite subf_length). cbn [fst snd].
  rewrite andb_true_iff, negb_true_iff. intros [_ H].
  unfold xbytes in H. rewrite (nth_indep _ 0%N (N.lxor 0 h)) in H by (rewrite map_length; lia).
  rewrite (map_nth (fun b => N.lxor b h)), N.lxor_spec in H.
  assert (H7 : N.testbit h 7 = false).
  { destruct (N.eq_dec h 0) as [->|Hz]; [apply N.bits_0|].
    apply N.bits_above_log2. apply N.log2_lt_pow2; lia. }
  rewrite H7, xorb_false_r in H. unfold is_full. apply N.ltb_lt.
  assert (Hb : byte_ok (nth i l 0%N)).
  { unfold bytes_ok in Hl. rewrite Forall_forall in Hl. apply Hl, nth_In. lia. }
  unfold byte_ok in Hb. set (b := nth i l 0%N) in *.
  destruct (N.ltb_spec b 128); auto. exfalso.
  assert (N.log2 b = 7%N).
  { apply N.log2_unique; [lia|]. change (2 ^ 7)%N with 128%N. change (2 ^ N.succ 7)%N with 256%N. lia. }
  assert (T : N.testbit b (N.log2 b) = true) by (apply N.bit_log2; lia).
  congruence.
Qed.
End Group.

(* control bytes and the flags *)
Definition ctrl_ok (b : N) : Prop := (b < 128)%N \/ b = EMPTY \/ b = DELETED \/ b = END.

Lemma full_bit7 b : (b < 128)%N -> N.testbit b 7 = false.
Proof.
  intros H. destruct (N.eq_dec b 0) as [->|Hz]; [apply N.bits_0|].
  apply N.bits_above_log2. apply N.log2_lt_pow2; lia.
Qed.

Lemma empty_flag_spec b : ctrl_ok b -> empty_flag b = is_empty b.
Proof.
  intros [H|[ -> |[ -> | -> ]]]; try reflexivity. unfold empty_flag. rewrite full_bit7 by assumption.
  unfold is_empty. symmetry. apply N.eqb_neq. unfold EMPTY. lia.
Qed.
Lemma eod_flag_spec b : ctrl_ok b -> eod_flag b = is_empty_or_deleted b.
Proof.
  intros [H|[ -> |[ -> | -> ]]]; try reflexivity. unfold eod_flag. rewrite full_bit7 by assumption.
  unfold is_empty_or_deleted. destruct (N.leb_spec 128 b); [lia|reflexivity].
Qed.
Lemma eod_cases b : ctrl_ok b -> is_empty_or_deleted b = (is_empty b || is_deleted b)%bool.
Proof.
  intros [H|[ -> |[ -> | -> ]]]; try reflexivity.
  unfold is_empty_or_deleted, is_empty, is_deleted, EMPTY, DELETED, END. lia.
Qed.
Lemma ctrl_ok_byte b : ctrl_ok b -> byte_ok b.
Proof. unfold ctrl_ok, byte_ok, EMPTY, DELETED, END. lia. Qed.

(* ---- enumeration of the 256 masks ---- *)
Fixpoint bools (n : nat) : list (list bool) :=
  match n with O => [[]] | S k => map (cons true) (bools k) ++ map (cons false) (bools k) end.
Lemma bools_complete n : forall bs, length bs = n -> In bs (bools n).
Proof.
  induction n; intros [|b bs] H; cbn in *; try discriminate; [auto|].
  apply in_or_app. destruct b; [left|right]; apply in_map; apply IHn; lia.
Qed.
Lemma all_bools (f : list bool -> bool) : forallb f (bools 8) = true ->
  forall bs, length bs = 8 -> f bs = true.
Proof.
  intros A bs H. rewrite forallb_forall in A. apply A. now apply bools_complete.
Qed.
Definition positions (bs : list bool) : list nat := filter (fun i => nth i bs false) (seq 0 8).
Fixpoint first_true (bs : list bool) : nat :=
  match bs with [] => 0 | b :: r => if b then 0 else S (first_true r) end.

Definition listnat_eqb (a b : list nat) : bool := if list_eq_dec Nat.eq_dec a b then true else false.
Definition mask_facts_m (m : N) (bs : list bool) : bool :=
  (listnat_eqb (bm_positions m) (positions bs) &&
   (bm_trailing m =? first_true bs) && (bm_leading m =? first_true (rev bs)) &&
   Bool.eqb (m =? 0)%N (forallb negb bs))%bool.
Lemma mask_facts_m_spec m bs : mask_facts_m m bs = true ->
  bm_positions m = positions bs /\ bm_trailing m = first_true bs /\ bm_leading m = first_true (rev bs) /\ (m =? 0)%N = forallb negb bs.
Proof.
  unfold mask_facts_m. generalize (bm_positions m) (bm_trailing m) (bm_leading m). intros p t l.
  rewrite !andb_true_iff. intros [[[A1 A2] A3] A4]. repeat split.
  - unfold listnat_eqb in A1. destruct (list_eq_dec Nat.eq_dec _ _); congruence.
  - now apply Nat.eqb_eq.
  - now apply Nat.eqb_eq.
  - now apply eqb_prop.
Qed.
Notation mask_facts := (fun (bs : list bool) => mask_facts_m (le_dec (map flag bs)) bs).
Lemma mask_facts_all : forallb mask_facts (bools 8) = true.
Proof. vm_compute. reflexivity. Qed.

Lemma mask_facts_of bs : length bs = 8 ->
  bm_positions (le_dec (map flag bs)) = positions bs /\
  bm_trailing (le_dec (map flag bs)) = first_true bs /\
  bm_leading (le_dec (map flag bs)) = first_true (rev bs) /\
  (le_dec (map flag bs) =? 0)%N = forallb negb bs.
Proof.
  intros H. apply mask_facts_m_spec. apply (all_bools mask_facts mask_facts_all bs H).
Qed.

(* ---- count_leading_empty_or_deleted ---- *)
Definition cl_byte (i : nat) (b : bool) : N := ((if b then 1 else 0) + (if Nat.eqb i 7 then 0 else 254))%N.
Definition cl_bytes (bs : list bool) : list N := map (fun p => cl_byte (fst p) (snd p)) (combine (seq 0 8) bs).
Notation cl_fact := (fun (bs : list bool) =>
  N.to_nat (N.shiftr (trailing_zeros 64 (add64 (le_dec (cl_bytes bs)) 1) + 7) 3)
   =? first_true (map negb bs)).
Lemma cl_fact_all : forallb cl_fact (bools 8) = true.
Proof. vm_compute. reflexivity. Qed.

Lemma cl_fact_spec bs : length bs = 8 ->
  N.to_nat (N.shiftr (trailing_zeros 64 (add64 (le_dec (cl_bytes bs)) 1) + 7) 3)
   = first_true (map negb bs).
Proof.
  intros H. apply Nat.eqb_eq. apply (all_bools cl_fact cl_fact_all bs H).
Qed.

Lemma cl_byte_bits i b r : (r < 8)%N ->
  N.testbit (cl_byte i b) r = if (r =? 0)%N then b else negb (i =? 7).
Proof.
  intros H. unfold cl_byte.
  assert (C : (r = 0 \/ r = 1 \/ r = 2 \/ r = 3 \/ r = 4 \/ r = 5 \/ r = 6 \/ r = 7)%N) by lia.
  destruct b, (i =? 7); repeat destruct C as [->|C]; try subst r; reflexivity.
Qed.
Lemma cl_byte_ok i b : byte_ok (cl_byte i b).
Proof. unfold cl_byte, byte_ok. destruct b, (i =? 7); reflexivity. Qed.
Lemma cl_bytes_ok bs : bytes_ok (cl_bytes bs).
Proof.
  apply Forall_forall. intros x H. unfold cl_bytes in H. apply in_map_iff in H as (p & <- & _).
  apply cl_byte_ok.
Qed.
Lemma nth_cl bs i : length bs = 8 -> i < 8 -> nth i (cl_bytes bs) 0%N = cl_byte i (nth i bs false).
Proof.
  intros HB Hi. unfold cl_bytes.
  rewrite (nth_indep _ 0%N ((fun p => cl_byte (fst p) (snd p)) (0, false)))
    by (rewrite map_length, combine_length, HB; cbn; lia).
  rewrite (map_nth (fun p => cl_byte (fst p) (snd p))), combine_nth by now rewrite HB. cbn [fst snd].
  now rewrite seq_nth by assumption.
Qed.
Lemma GAPS_bytes : GAPS = le_dec [254; 254; 254; 254; 254; 254; 254; 0]%N.
Proof. reflexivity. Qed.

Lemma count_leading_spec l : bytes_ok l -> length l = 8 ->
  count_leading_empty_or_deleted (le_dec l) = first_true (map negb (map eod_flag l)).
Proof.
  intros Hl HL. unfold count_leading_empty_or_deleted.
  assert (E : N.lor (N.land (not64 (le_dec l)) (shr64 (le_dec l) 7)) GAPS = le_dec (cl_bytes (map eod_flag l))).
  { assert (B : (le_dec l < 2 ^ 64)%N).
    { pose proof (le_dec_bound l Hl) as B. rewrite HL in B. exact B. }
    apply N.bits_inj. intros n. rewrite N.lor_spec, N.land_spec. unfold shr64. rewrite N.shiftr_spec'.
    rewrite GAPS_bytes. rewrite !(testbit_le_dec [_;_;_;_;_;_;_;_]) by (repeat constructor).
    rewrite (testbit_le_dec (cl_bytes _)) by apply cl_bytes_ok.
    assert (D := N.div_mod n 8 ltac:(lia)). assert (M := N.mod_lt n 8 ltac:(lia)).
    destruct (N.ltb_spec n 64) as [L|L].
    - rewrite testbit_not64 by assumption.
      assert (Hi : N.to_nat (n / 8) < 8) by lia.
      set (i := N.to_nat (n / 8)) in *. set (r := (n mod 8)%N) in *.
      assert (EN : n = (8 * N.of_nat i + r)%N) by lia.
      rewrite EN. rewrite (g_bit l Hl) by lia.
      rewrite nth_cl by (rewrite ?map_length; lia).
      rewrite (nth_indep (map eod_flag l) false (eod_flag 0)) by (rewrite map_length; lia).
      rewrite map_nth, cl_byte_bits by assumption.
      destruct (N.eqb_spec r 0) as [R|R].
      + rewrite R. replace (8 * N.of_nat i + 0 + 7)%N with (8 * N.of_nat i + 7)%N by lia.
        rewrite (g_bit l Hl) by lia. unfold eod_flag.
        replace (N.testbit (nth i [254; 254; 254; 254; 254; 254; 254; 0]%N 0%N) 0) with false.
        * rewrite orb_false_r. apply andb_comm.
        * do 8 (destruct i as [|i]; [reflexivity|]). lia.
      + destruct (Nat.eqb_spec i 7) as [I|I]; cbn [negb].
        * rewrite I. cbn [nth]. rewrite N.bits_0, orb_false_r.
          replace (N.testbit (le_dec l) (8 * N.of_nat 7 + r + 7)) with false; [apply andb_false_r|].
          symmetry. destruct (N.eq_dec (le_dec l) 0) as [->|Hz]; [apply N.bits_0|].
          apply N.bits_above_log2. apply (N.lt_le_trans _ 64); [apply N.log2_lt_pow2; [apply N.neq_0_lt_0; exact Hz|exact B]|].
          clear - R. change (N.of_nat 7) with 7%N. lia.
        * assert (C : (r = 1 \/ r = 2 \/ r = 3 \/ r = 4 \/ r = 5 \/ r = 6 \/ r = 7)%N) by lia.
          replace (N.testbit (nth i [254; 254; 254; 254; 254; 254; 254; 0]%N 0%N) r) with true; [apply orb_true_r|].
          do 7 (destruct i as [|i]; [cbn [nth]; clear -C; repeat destruct C as [->|C]; try subst; try rewrite C; reflexivity|]).
          lia.
    - assert (Z : N.testbit (le_dec l) (n + 7) = false).
      { destruct (N.eq_dec (le_dec l) 0) as [->|Hz]; [apply N.bits_0|].
        apply N.bits_above_log2. apply (N.lt_le_trans _ 64); [apply N.log2_lt_pow2; [apply N.neq_0_lt_0; exact Hz|exact B]|]. lia. }
      rewrite Z, andb_false_r. cbn [orb].
      rewrite !nth_overflow; [reflexivity| |cbn; lia].
      unfold cl_bytes. rewrite map_length, combine_length, map_length, HL. cbn. lia. }
  rewrite E. apply cl_fact_spec. now rewrite map_length.
Qed.

(* ---- summary for a group of valid control bytes ---- *)
Lemma map_flags_eq (f f' : N -> bool) l : (forall b, ctrl_ok b -> f b = f' b) -> Forall ctrl_ok l ->
  map f l = map f' l.
Proof. intros H Hl. apply map_ext_in. intros b Hb. apply H. rewrite Forall_forall in Hl. auto. Qed.

Lemma first_true_spec bs : first_true bs < length bs -> nth (first_true bs) bs false = true /\
  forall i, i < first_true bs -> nth i bs false = false.
Proof.
  induction bs as [|b bs IH]; cbn [first_true length]; [lia|]. destruct b.
  - intros _. split; [reflexivity|]. intros i Hi. lia.
  - intros H. destruct IH as [A B]; [lia|]. split; [exact A|].
    intros [|i] Hi; [reflexivity|]. apply B. lia.
Qed.
Lemma first_true_le bs : first_true bs <= length bs.
Proof. induction bs as [|b bs IH]; [cbn; lia|]. destruct b; cbn; lia. Qed.
Lemma first_true_lt bs : existsb (fun b => b) bs = true -> first_true bs < length bs.
Proof.
  induction bs as [|b bs IH]; cbn; intros H; [discriminate|]. destruct b; cbn in *; [lia|].
  apply IH in H. lia.
Qed.
Lemma first_true_min bs i : nth i bs false = true -> first_true bs <= i.
Proof.
  revert i; induction bs as [|b bs IH]; intros [|i] H; cbn in *; try discriminate; destruct b; try discriminate; try lia.
  apply IH in H. lia.
Qed.
Lemma first_true_none bs : first_true bs = length bs -> forall i, nth i bs false = false.
Proof.
  induction bs as [|b bs IH]; intros H [|i]; cbn in *; auto; destruct b; auto; try lia.
Qed.
