(* Blocks of words against bit sequences. *)
From Verif Require Import Base ArithModel ArithSpec ArithProofs BitModel BitSpec.
Ltac Zify.zify_post_hook ::= Z.to_euclidean_division_equations.

Definition word (x : N) : Prop := (x < 2 ^ 64)%N.
Definition tb (x : N) (j : nat) : bool := N.testbit x (N.of_nat j).
Definition bit (b : list N) (i : nat) : bool := tb (nth (i / 64) b 0%N) (i mod 64).
Definition abs (size : nat) (b : list N) : list bool := map (bit b) (seq 0 size).
Definition wf (size : nat) (b : list N) : Prop := length b = num_blocks size /\ Forall word b.

(* ---------- words ---------- *)
Lemma tb_high x j : word x -> 64 <= j -> tb x j = false.
Proof. intros H Hj. unfold tb. apply (testbit_high x 64); auto. lia. Qed.
Lemma word_ext x y : word x -> word y -> (forall j, j < 64 -> tb x j = tb y j) -> x = y.
Proof.
  intros Hx Hy H. apply N.bits_inj. intros i.
  destruct (N.lt_ge_cases i 64).
  - specialize (H (N.to_nat i)). unfold tb in H. rewrite N2Nat.id in H. apply H. lia.
  - rewrite (testbit_high x 64), (testbit_high y 64); auto.
Qed.
Lemma tb_word x : (forall j, 64 <= j -> tb x j = false) -> word x.
Proof.
  intros H. unfold word. destruct (N.lt_ge_cases x (2 ^ 64)) as [|C]; auto. exfalso.
  assert (Hx : x <> 0%N) by (intros ->; vm_compute in C; congruence).
  assert (L : (64 <= N.log2 x)%N) by (apply N.log2_le_pow2; auto; lia).
  specialize (H (N.to_nat (N.log2 x))). unfold tb in H. rewrite N2Nat.id, N.bit_log2 in H by auto.
  discriminate H. lia.
Qed.
Lemma tb_max j : tb u64_max j = (j <? 64).
Proof.
  unfold tb. change u64_max with (N.ones 64).
  destruct (Nat.ltb_spec j 64).
  - apply N.ones_spec_low. lia.
  - apply N.ones_spec_high. lia.
Qed.
Lemma tb_0 j : tb 0 j = false.
Proof. apply N.bits_0. Qed.
Lemma tb_not x j : j < 64 -> tb (not64 x) j = negb (tb x j).
Proof.
  intros H. unfold not64. unfold tb at 1. rewrite N.lxor_spec. fold (tb x j) (tb u64_max j).
  rewrite tb_max. destruct (Nat.ltb_spec j 64); [|lia]. destruct (tb x j); reflexivity.
Qed.
Lemma tb_shl x s j : tb (shl64 x (N.of_nat s)) j = (j <? 64) && (s <=? j) && tb x (j - s).
Proof.
  unfold shl64, wrap64, tb. change W64 with (2 ^ 64)%N.
  destruct (Nat.ltb_spec j 64).
  - rewrite N.mod_pow2_bits_low by lia.
    destruct (Nat.leb_spec s j).
    + rewrite N.shiftl_spec_high' by lia. cbn [andb]. f_equal. lia.
    + rewrite N.shiftl_spec_low by lia. reflexivity.
  - rewrite N.mod_pow2_bits_high by lia. reflexivity.
Qed.
Lemma tb_shr x s j : tb (shr64 x (N.of_nat s)) j = tb x (j + s).
Proof. unfold shr64, tb. rewrite N.shiftr_spec by lia. f_equal. lia. Qed.
Lemma tb_mask k j : k < 64 -> tb (bit_mask k) j = (j =? k).
Proof.
  intros H. unfold bit_mask. rewrite tb_shl.
  destruct (Nat.eqb_spec j k) as [->|D].
  - rewrite Nat.sub_diag. destruct (Nat.ltb_spec k 64); [|lia].
    destruct (Nat.leb_spec k k); [|lia]. reflexivity.
  - destruct (Nat.leb_spec k j); [|rewrite andb_false_r; reflexivity].
    unfold tb. rewrite (testbit_high 1 1); [rewrite andb_false_r; reflexivity| |]; lia.
Qed.
Lemma land_mask x k : k < 64 -> negb (N.land x (bit_mask k) =? 0)%N = tb x k.
Proof.
  intros H.
  assert (E : N.land x (bit_mask k) = if tb x k then bit_mask k else 0%N).
  { apply N.bits_inj. intros i. rewrite N.land_spec.
    rewrite <- (N2Nat.id i). fold (tb x (N.to_nat i)) (tb (bit_mask k) (N.to_nat i)).
    fold (tb (if tb x k then bit_mask k else 0%N) (N.to_nat i)).
    rewrite tb_mask by auto. destruct (Nat.eqb_spec (N.to_nat i) k) as [->|D].
    - destruct (tb x k); [rewrite tb_mask, Nat.eqb_refl by auto; reflexivity|].
      rewrite tb_0. reflexivity.
    - rewrite andb_false_r. destruct (tb x k); [|rewrite tb_0; reflexivity].
      rewrite tb_mask by auto. destruct (Nat.eqb_spec (N.to_nat i) k); [contradiction|reflexivity]. }
  rewrite E. destruct (tb x k) eqn:T; [|reflexivity].
  destruct (N.eqb_spec (bit_mask k) 0) as [Z|]; [|reflexivity].
  pose proof (tb_mask k k H) as M. rewrite Z, tb_0, Nat.eqb_refl in M. discriminate.
Qed.
Lemma tb_lor x y j : tb (N.lor x y) j = tb x j || tb y j.
Proof. apply N.lor_spec. Qed.
Lemma tb_land x y j : tb (N.land x y) j = tb x j && tb y j.
Proof. apply N.land_spec. Qed.
Lemma tb_lxor x y j : tb (N.lxor x y) j = xorb (tb x j) (tb y j).
Proof. apply N.lxor_spec. Qed.
Lemma word_not x : word x -> word (not64 x).
Proof.
  intros H. apply tb_word. intros j Hj. unfold not64. rewrite tb_lxor, tb_max, tb_high by auto.
  destruct (Nat.ltb_spec j 64); [lia|reflexivity].
Qed.
Lemma word_shl x s : word (shl64 x s).
Proof. unfold word, shl64, wrap64. change (2 ^ 64)%N with W64. apply N.mod_lt. discriminate. Qed.
Lemma word_shr x s : word x -> word (shr64 x s).
Proof.
  intros H. apply tb_word. intros j Hj. rewrite <- (N2Nat.id s), tb_shr. apply tb_high; auto. lia.
Qed.
Lemma word_lor x y : word x -> word y -> word (N.lor x y).
Proof. intros. apply tb_word. intros. rewrite tb_lor, !tb_high; auto. Qed.
Lemma word_land x y : word x -> word (N.land x y).
Proof. intros. apply tb_word. intros. rewrite tb_land, tb_high; auto. Qed.
Lemma word_lxor x y : word x -> word y -> word (N.lxor x y).
Proof. intros. apply tb_word. intros. rewrite tb_lxor, !tb_high; auto. Qed.
Lemma word_0 : word 0. Proof. reflexivity. Qed.
Lemma word_max : word u64_max. Proof. reflexivity. Qed.
Lemma sanitize_tb size x j : j < 64 ->
  tb (sanitize size x) j = tb x j && ((size mod 64 =? 0) || (j <? size mod 64)).
Proof.
  intros H. unfold sanitize. change BPB with 64. destruct (Nat.eqb_spec (size mod 64) 0).
  - rewrite andb_true_r. reflexivity.
  - rewrite tb_land, tb_not, tb_shl, tb_max by auto. cbn [orb].
    destruct (Nat.ltb_spec j 64); [|lia]. cbn [andb].
    destruct (Nat.leb_spec (size mod 64) j), (Nat.ltb_spec j (size mod 64)); try lia; cbn [andb negb];
      reflexivity.
Qed.
Lemma sanitize_word size x : word x -> word (sanitize size x).
Proof. intros. unfold sanitize. destruct (_ =? 0); auto using word_land. Qed.

(* ---------- blocks ---------- *)
Lemma num_blocks_pos n : 0 < n -> 0 < num_blocks n.
Proof. unfold num_blocks. change BPB with 64. intros. destruct (Nat.eqb_spec (n mod 64) 0); lia. Qed.
Lemma num_blocks_0 n : num_blocks n = 0 -> n = 0.
Proof. destruct n; auto. intros. pose proof (num_blocks_pos (S n)). lia. Qed.
Lemma num_blocks_bound n : n <= 64 * num_blocks n < n + 64.
Proof. unfold num_blocks. change BPB with 64. destruct (Nat.eqb_spec (n mod 64) 0); lia. Qed.
Lemma idx_lt n i : i < n -> i / 64 < num_blocks n.
Proof. intros. pose proof (num_blocks_bound n). lia. Qed.
Lemma rdb_ok b i : i < length b -> rdb b i = Ok (nth i b 0%N).
Proof. intros H. unfold rdb. rewrite (nth_error_nth' b 0%N H). reflexivity. Qed.
Lemma wrb_ok b i x : i < length b -> wrb b i x = Ok (upd i x b).
Proof. intros H. unfold wrb. destruct (Nat.ltb_spec i (length b)); [reflexivity|lia]. Qed.
Lemma nth_word b i : Forall word b -> word (nth i b 0%N).
Proof.
  intros H. destruct (Nat.lt_ge_cases i (length b)).
  - rewrite Forall_forall in H. apply H, nth_In. auto.
  - rewrite nth_overflow by auto. reflexivity.
Qed.
Lemma bit_at b k r : r < 64 -> bit b (64 * k + r) = tb (nth k b 0%N) r.
Proof.
  intros H. unfold bit. replace ((64 * k + r) / 64) with k by lia.
  replace ((64 * k + r) mod 64) with r by lia. reflexivity.
Qed.
Lemma bit_split i : i = 64 * (i / 64) + i mod 64 /\ i mod 64 < 64.
Proof. lia. Qed.
Lemma abs_length n b : length (abs n b) = n.
Proof. unfold abs. rewrite map_length, seq_length. reflexivity. Qed.
Lemma nth_map_seq (f : nat -> bool) n i : nth i (map f (seq 0 n)) false = (i <? n) && f i.
Proof.
  destruct (Nat.ltb_spec i n).
  - rewrite (nth_indep _ _ (f 0)) by (rewrite map_length, seq_length; lia).
    rewrite map_nth, seq_nth by lia. reflexivity.
  - apply nth_overflow. rewrite map_length, seq_length. lia.
Qed.
Lemma abs_nth n b i : nth i (abs n b) false = (i <? n) && bit b i.
Proof. apply nth_map_seq. Qed.
Lemma bits_ext (l1 l2 : list bool) : length l1 = length l2 ->
  (forall i, i < length l1 -> nth i l1 false = nth i l2 false) -> l1 = l2.
Proof. intros. apply (nth_ext _ _ false false); auto. Qed.
Lemma abs_ext n b l : length l = n -> (forall i, i < n -> bit b i = nth i l false) -> abs n b = l.
Proof.
  intros Hl H. apply bits_ext; [rewrite abs_length; auto|].
  rewrite abs_length. intros i Hi. rewrite abs_nth.
  destruct (Nat.ltb_spec i n); [|lia]. apply H; auto.
Qed.
Lemma blocks_ext a b : length a = length b -> Forall word a -> Forall word b ->
  (forall i, i < 64 * length a -> bit a i = bit b i) -> a = b.
Proof.
  intros L Ha Hb H. apply (nth_ext _ _ 0%N 0%N); auto. intros k Hk.
  apply word_ext; auto using nth_word. intros j Hj.
  rewrite <- !bit_at by auto. apply H. lia.
Qed.

(* set, test *)
Lemma set_bit_ok b i v : i / 64 < length b -> Forall word b ->
  exists b', set_bit b i v = Ok b' /\ length b' = length b /\ Forall word b' /\
    forall j, bit b' j = if j =? i then v else bit b j.
Proof.
  intros H W. unfold set_bit. change BPB with 64. rewrite rdb_ok by auto. cbn [bind].
  rewrite wrb_ok by auto. eexists. split; [reflexivity|].
  rewrite upd_length. split; [reflexivity|]. split.
  { apply upd_Forall; auto. pose proof (nth_word b (i / 64) W). destruct v; [|apply word_land; auto].
    apply word_lor; auto. apply word_shl. }
  intros j. unfold bit. destruct (Nat.eqb_spec (j / 64) (i / 64)) as [E|D].
  - rewrite E, nth_upd_eq by auto. destruct (bit_split j), (bit_split i).
    destruct v.
    + rewrite tb_lor, tb_mask by auto.
      destruct (Nat.eqb_spec (j mod 64) (i mod 64)), (Nat.eqb_spec j i); try lia;
        rewrite ?orb_true_r, ?orb_false_r; reflexivity.
    + rewrite tb_land, tb_lxor, tb_max, tb_mask by auto.
      destruct (Nat.ltb_spec (j mod 64) 64); [|lia].
      destruct (Nat.eqb_spec (j mod 64) (i mod 64)), (Nat.eqb_spec j i); try lia;
        cbn [xorb]; rewrite ?andb_true_r, ?andb_false_r; reflexivity.
  - rewrite nth_upd_neq by auto. destruct (Nat.eqb_spec j i); [subst; contradiction|reflexivity].
Qed.
Lemma test_ok size b i : wf size b -> test size b i = Ok (nth i (abs size b) false).
Proof.
  intros [L W]. unfold test. change BPB with 64. rewrite abs_nth.
  destruct (Nat.leb_spec size i), (Nat.ltb_spec i size); try lia; [reflexivity|].
  rewrite rdb_ok by (rewrite L; apply idx_lt; auto). cbn [bind].
  rewrite land_mask by lia. reflexivity.
Qed.
Lemma set_all_ok l : forall b i, Forall word b -> i + length l <= 64 * length b ->
  exists b', set_all b i l = Ok b' /\ length b' = length b /\ Forall word b' /\
    forall j, bit b' j = if (i <=? j) && (j <? i + length l) then nth (j - i) l false else bit b j.
Proof.
  induction l as [|v l IH]; intros b i W L; cbn [set_all length] in *.
  - exists b. repeat split; auto. intros j.
    destruct (Nat.leb_spec i j), (Nat.ltb_spec j (i + 0)); try lia; reflexivity.
  - destruct (set_bit_ok b i v) as (b1 & E & L1 & W1 & B1); auto; [lia|].
    rewrite E. cbn [bind]. destruct (IH b1 (S i)) as (b2 & E2 & L2 & W2 & B2); auto; [lia|].
    exists b2. repeat split; auto; [congruence|]. intros j. rewrite B2, B1.
    destruct (Nat.leb_spec (S i) j), (Nat.leb_spec i j), (Nat.eqb_spec j i),
      (Nat.ltb_spec j (S i + length l)), (Nat.ltb_spec j (i + S (length l))); try lia; cbn [andb]; auto.
    + replace (j - i) with (S (j - S i)) by lia. reflexivity.
    + subst. rewrite Nat.sub_diag. reflexivity.
Qed.

(* ---------- the cleaned blocks ---------- *)
Definition clean (size : nat) (b : list N) : list N :=
  firstn (length b - 1) b ++ [sanitize size (nth (length b - 1) b 0%N)].
Lemma clean_upd size b : 0 < length b ->
  clean size b = upd (length b - 1) (sanitize size (nth (length b - 1) b 0%N)) b.
Proof.
  intros H. unfold clean. rewrite upd_firstn_skipn by lia.
  rewrite (skipn_all2 (n := S (length b - 1))) by lia. reflexivity.
Qed.
Lemma clean_length size b : 0 < length b -> length (clean size b) = length b.
Proof. intros. rewrite clean_upd, upd_length by auto. reflexivity. Qed.
Lemma clean_word size b : Forall word b -> Forall word (clean size b).
Proof.
  intros H. unfold clean. apply Forall_app. split.
  - apply Forall_forall. intros x Hx. rewrite Forall_forall in H. apply H.
    rewrite <- (firstn_skipn (length b - 1) b). apply in_or_app. auto.
  - constructor; auto. apply sanitize_word, nth_word; auto.
Qed.
Lemma clean_bit size b i : wf size b -> 0 < size -> bit (clean size b) i = (i <? size) && bit b i.
Proof.
  intros [L W] P. pose proof (num_blocks_pos size P). pose proof (num_blocks_bound size).
  assert (HM : size mod 64 = 0 -> size = 64 * num_blocks size).
  { intros. unfold num_blocks. change BPB with 64. destruct (Nat.eqb_spec (size mod 64) 0); lia. }
  assert (HN : size mod 64 <> 0 -> size = 64 * (num_blocks size - 1) + size mod 64).
  { intros. unfold num_blocks. change BPB with 64. destruct (Nat.eqb_spec (size mod 64) 0); lia. }
  destruct (bit_split i) as [S R].
  rewrite clean_upd by lia. unfold bit. destruct (Nat.eqb_spec (i / 64) (length b - 1)) as [E|D].
  - rewrite E, nth_upd_eq by lia. rewrite sanitize_tb by auto. rewrite andb_comm. f_equal.
    destruct (Nat.eqb_spec (size mod 64) 0), (Nat.ltb_spec (i mod 64) (size mod 64)), (Nat.ltb_spec i size);
      try reflexivity; exfalso.
    all: try (specialize (HM ltac:(assumption))); try (specialize (HN ltac:(assumption))); lia.
  - rewrite nth_upd_neq by auto. destruct (Nat.lt_ge_cases (i / 64) (length b)).
    + destruct (Nat.ltb_spec i size); [reflexivity|]. exfalso. lia.
    + rewrite nth_overflow, tb_0, andb_false_r by auto. reflexivity.
Qed.
Lemma sanitized_ok size b : 0 < length b ->
  sanitized_last_block size b = Ok (sanitize size (nth (length b - 1) b 0%N)).
Proof.
  intros. unfold sanitized_last_block, last_idx. destruct (Nat.eqb_spec (length b) 0); [lia|].
  cbn [bind]. rewrite rdb_ok by lia. reflexivity.
Qed.
Lemma last_ok (b : list N) : 0 < length b -> last_idx b = Ok (length b - 1).
Proof. intros. unfold last_idx. destruct (Nat.eqb_spec (length b) 0); [lia|reflexivity]. Qed.

(* all bits of a list of words *)
Definition wbits (x : N) : list bool := map (tb x) (seq 0 64).
Definition flat (c : list N) : list bool := flat_map wbits c.
Lemma wbits_length x : length (wbits x) = 64.
Proof. unfold wbits. rewrite map_length. apply seq_length. Qed.
Lemma flat_length c : length (flat c) = 64 * length c.
Proof.
  induction c; [reflexivity|]. unfold flat in *. cbn [flat_map length].
  rewrite app_length, wbits_length, IHc. lia.
Qed.
Lemma flat_nth c : forall i, nth i (flat c) false = bit c i.
Proof.
  induction c as [|x c IH]; intros i.
  - unfold bit. rewrite (nth_overflow []) by (cbn; lia). rewrite tb_0. destruct i; reflexivity.
  - unfold flat in *. cbn [flat_map]. destruct (Nat.lt_ge_cases i 64).
    + rewrite app_nth1 by (rewrite wbits_length; auto). unfold wbits. rewrite nth_map_seq.
      destruct (Nat.ltb_spec i 64); [|lia]. unfold bit.
      rewrite (Nat.div_small i 64), (Nat.mod_small i 64) by auto. reflexivity.
    + rewrite app_nth2, wbits_length, IH by (rewrite wbits_length; auto). unfold bit.
      replace (i / 64) with (S ((i - 64) / 64)) by lia. cbn [nth].
      replace ((i - 64) mod 64) with (i mod 64) by lia. reflexivity.
Qed.
Lemma flat_clean size b : wf size b -> 0 < size ->
  flat (clean size b) = abs size b ++ falses (64 * length b - size).
Proof.
  intros H P. pose proof (num_blocks_bound size). destruct H as [L W].
  pose proof (num_blocks_pos size P).
  apply bits_ext.
  - rewrite flat_length, clean_length, app_length, abs_length by lia. unfold falses. rewrite repeat_length. lia.
  - intros i Hi. rewrite flat_nth, clean_bit by (auto; split; auto).
    destruct (Nat.ltb_spec i size).
    + rewrite app_nth1 by (rewrite abs_length; auto). rewrite abs_nth.
      destruct (Nat.ltb_spec i size); [reflexivity|lia].
    + rewrite app_nth2 by (rewrite abs_length; auto). unfold falses.
      cbn [andb]. symmetry. apply nth_repeat.
Qed.

(* count *)
Lemma ones_app a b : ones (a ++ b) = (ones a + ones b)%N.
Proof. unfold ones. rewrite filter_app, app_length. lia. Qed.
Lemma ones_falses n : ones (falses n) = 0%N.
Proof. induction n; [reflexivity|]. exact IHn. Qed.

Lemma bits_set_ones x : forall w, bits_set x w = ones (map (tb x) (seq 0 w)).
Proof.
  induction w; [reflexivity|]. rewrite seq_S, map_app, ones_app, <- IHw. cbn [bits_set].
  rewrite N.add_comm. f_equal. unfold ones. cbn [map filter Nat.add].
  unfold tb. destruct (N.testbit x (N.of_nat w)); reflexivity.
Qed.
Lemma popcount_ones x : word x -> popcount x = ones (wbits x).
Proof. intros H. rewrite (popcount_spec x 64) by exact H. apply bits_set_ones. Qed.
Lemma sum_pop_ones c : Forall word c -> sum_pop c = ones (flat c).
Proof.
  induction 1; [reflexivity|]. unfold flat in *. cbn [sum_pop flat_map].
  rewrite ones_app, IHForall, popcount_ones by auto. reflexivity.
Qed.
Lemma sum_pop_app a b : sum_pop (a ++ b) = (sum_pop a + sum_pop b)%N.
Proof. induction a; cbn [app sum_pop]; [reflexivity|]. rewrite IHa. lia. Qed.
Lemma count_ok size b : wf size b -> 0 < size -> count size b = Ok (ones (abs size b)).
Proof.
  intros H P. pose proof (num_blocks_pos size P). pose proof H as [L W].
  unfold count. rewrite last_ok, sanitized_ok by lia. cbn [bind]. f_equal.
  transitivity (sum_pop (clean size b)).
  { unfold clean. rewrite sum_pop_app. cbn [sum_pop]. lia. }
  rewrite sum_pop_ones by (apply clean_word; auto).
  rewrite flat_clean, ones_app, ones_falses by auto. lia.
Qed.

(* any *)
Lemma existsb_falses n : existsb (fun b : bool => b) (falses n) = false.
Proof. induction n; auto. Qed.
Lemma wbits_any x : word x -> existsb (fun b : bool => b) (wbits x) = negb (x =? 0)%N.
Proof.
  intros H. destruct (N.eqb_spec x 0) as [->|D].
  - reflexivity.
  - cbn [negb]. apply existsb_exists. exists true. split; auto.
    unfold wbits. apply in_map_iff.
    exists (N.to_nat (N.log2 x)). unfold tb. rewrite N2Nat.id, N.bit_log2 by auto. split; auto.
    apply in_seq. assert (N.log2 x < 64)%N by (apply N.log2_lt_pow2; [lia|exact H]). lia.
Qed.
Lemma existsb_flat c : Forall word c ->
  existsb (fun b : bool => b) (flat c) = existsb (fun x => negb (x =? 0)%N) c.
Proof.
  induction 1; [reflexivity|]. unfold flat in *. cbn [flat_map existsb].
  rewrite existsb_app, IHForall, wbits_any by auto. reflexivity.
Qed.
Lemma any_ok size b : wf size b -> 0 < size -> any size b = Ok (existsb (fun b => b) (abs size b)).
Proof.
  intros H P. pose proof (num_blocks_pos size P). pose proof H as [L W].
  unfold any. rewrite last_ok, sanitized_ok by lia. cbn [bind].
  pose proof (existsb_flat (clean size b) (clean_word size b W)) as E.
  rewrite flat_clean, existsb_app, existsb_falses, orb_false_r in E by auto. rewrite E.
  unfold clean. rewrite existsb_app. cbn [existsb]. rewrite orb_false_r.
  destruct (existsb _ (firstn _ b)); reflexivity.
Qed.

(* for_each_set_bit *)
Definition idx_from (k : nat) (l : list bool) : list nat :=
  map (fun i => k + i) (filter (fun i => nth i l false) (seq 0 (length l))).
Lemma filter_ext_in' {A} (f g : A -> bool) l : (forall x, In x l -> f x = g x) -> filter f l = filter g l.
Proof.
  induction l; intros H; [reflexivity|]. cbn [filter]. rewrite (H a) by (left; auto).
  rewrite IHl by (intros; apply H; right; auto). reflexivity.
Qed.
Lemma filter_map_comm {A B} (p : B -> bool) (f : A -> B) l :
  filter p (map f l) = map f (filter (fun x => p (f x)) l).
Proof. induction l; [reflexivity|]. cbn [map filter]. destruct (p (f a)); cbn [map]; rewrite IHl; reflexivity. Qed.
Lemma seq_app_map n m : seq 0 (n + m) = seq 0 n ++ map (fun i => n + i) (seq 0 m).
Proof.
  rewrite seq_app. f_equal. cbn [Nat.add]. clear. revert n. induction m; intros n; [reflexivity|].
  cbn [seq map]. f_equal; [lia|]. rewrite IHm. rewrite <- seq_shift, map_map. 
  apply map_ext. intros. lia.
Qed.
Lemma idx_from_app k a b : idx_from k (a ++ b) = idx_from k a ++ idx_from (k + length a) b.
Proof.
  unfold idx_from. rewrite app_length, seq_app_map, filter_app, map_app. f_equal.
  - f_equal. apply filter_ext_in'. intros i Hi. apply in_seq in Hi. apply app_nth1. lia.
  - rewrite filter_map_comm, map_map.
    rewrite (filter_ext_in' _ (fun i => nth i b false)).
    + apply map_ext. intros. lia.
    + intros i Hi. rewrite app_nth2 by lia. f_equal. lia.
Qed.
Lemma idx_from_falses k n : idx_from k (falses n) = [].
Proof.
  unfold idx_from. rewrite (filter_ext_in' _ (fun _ => false)).
  - generalize (seq 0 (length (falses n))) as l. induction l; auto.
  - intros. unfold falses. apply nth_repeat.
Qed.
Lemma idx_from_0 l : idx_from 0 l = set_indices l.
Proof.
  unfold idx_from, set_indices. rewrite (map_ext _ (fun i => i)) by reflexivity. apply map_id.
Qed.
Lemma check_block_idx i x : word x -> check_block i x = idx_from (64 * i) (wbits x).
Proof.
  intros H. unfold check_block, idx_from. rewrite wbits_length.
  assert (E : filter (fun i0 => nth i0 (wbits x) false) (seq 0 64)
              = filter (fun j => negb (N.land x (bit_mask j) =? 0)%N) (seq 0 64)).
  { apply filter_ext_in'. intros j Hj. apply in_seq in Hj. unfold wbits.
    rewrite nth_map_seq, land_mask by lia. destruct (Nat.ltb_spec j 64); [reflexivity|lia]. }
  rewrite E. destruct (N.eqb_spec x 0) as [->|D].
  - rewrite (filter_ext_in' _ (fun _ => false)); [|reflexivity].
    symmetry. change (map (fun i0 => 64 * i + i0) (filter (fun _ => false) (seq 0 64)) = []).
    generalize (seq 0 64). induction l; auto.
  - apply map_ext. intros. change BPB with 64. lia.
Qed.
Lemma check_blocks_idx c : Forall word c -> forall i, check_blocks i c = idx_from (64 * i) (flat c).
Proof.
  induction 1; intros i; [reflexivity|]. unfold flat in *. cbn [check_blocks flat_map].
  rewrite idx_from_app, wbits_length, IHForall, check_block_idx by auto.
  do 2 f_equal. lia.
Qed.
Lemma check_blocks_app a : forall b i, check_blocks i (a ++ b) = check_blocks i a ++ check_blocks (i + length a) b.
Proof.
  induction a; intros b i; cbn [app check_blocks length].
  - rewrite Nat.add_0_r. reflexivity.
  - rewrite IHa, app_assoc. do 2 f_equal. lia.
Qed.
Lemma for_each_ok size b : wf size b -> 0 < size ->
  for_each_set_bit size b = Ok (set_indices (abs size b)).
Proof.
  intros H P. pose proof (num_blocks_pos size P). pose proof H as [L W].
  unfold for_each_set_bit. rewrite last_ok, sanitized_ok by lia. cbn [bind]. f_equal.
  transitivity (check_blocks 0 (clean size b)).
  { unfold clean. rewrite check_blocks_app, firstn_length. cbn [check_blocks].
    rewrite app_nil_r. f_equal. f_equal. lia. }
  rewrite check_blocks_idx by (apply clean_word; auto).
  rewrite flat_clean, idx_from_app, idx_from_falses, app_nil_r by auto. apply idx_from_0.
Qed.

(* to_string *)
Lemma mapR_ok {A B} (g : A -> res B) (h : A -> B) l :
  (forall a, In a l -> g a = Ok (h a)) -> mapR g l = Ok (map h l).
Proof.
  induction l; intros H; [reflexivity|]. cbn [mapR map].
  rewrite (H a) by (left; auto). cbn [bind]. rewrite IHl by (intros; apply H; right; auto). reflexivity.
Qed.
Lemma to_string_ok size b : wf size b -> to_string size b = Ok (rev (abs size b)).
Proof.
  intros H. unfold to_string.
  rewrite (mapR_ok _ (fun i => nth (size - i - 1) (abs size b) false)) by (intros; apply test_ok; auto).
  f_equal. apply bits_ext.
  - rewrite map_length, seq_length, rev_length, abs_length. reflexivity.
  - rewrite map_length, seq_length. intros i Hi. rewrite nth_map_seq.
    rewrite rev_nth by (rewrite abs_length; auto). rewrite abs_length.
    destruct (Nat.ltb_spec i size); [|lia]. cbn [andb]. f_equal. lia.
Qed.

(* == *)
Lemma eq_blocks_ok a b : length a = length b -> forall k n, k + n <= length a ->
  exists r, eq_blocks a b (seq k n) = Ok r /\
    (r = true <-> forall j, k <= j < k + n -> nth j a 0%N = nth j b 0%N).
Proof.
  intros L k n. revert k. induction n as [|n IH]; intros k H; cbn [seq eq_blocks].
  - exists true. split; auto. split; auto. intros. lia.
  - rewrite !rdb_ok by lia. cbn [bind]. destruct (N.eqb_spec (nth k a 0%N) (nth k b 0%N)) as [E|D].
    + destruct (IH (S k)) as (r & R & Q); [lia|]. exists r. split; auto. rewrite Q. split; intros F j Hj.
      * destruct (Nat.eq_dec j k); [subst; auto|]. apply F. lia.
      * apply F. lia.
    + exists false. split; auto. split; [discriminate|]. intros F. exfalso. apply D, F. lia.
Qed.
Lemma clean_eq size a b : wf size a -> wf size b -> 0 < size ->
  (clean size a = clean size b <-> abs size a = abs size b).
Proof.
  intros Ha Hb P. pose proof Ha as [La Wa]. pose proof Hb as [Lb Wb].
  pose proof (num_blocks_pos size P). split; intros E.
  - apply bits_ext; [rewrite !abs_length; auto|]. rewrite abs_length. intros i Hi.
    rewrite !abs_nth. rewrite <- !clean_bit by auto. rewrite E. reflexivity.
  - apply blocks_ext; try (apply clean_word; auto); [rewrite !clean_length by lia; congruence|].
    intros i _. rewrite !clean_bit by auto. rewrite <- !abs_nth, E. reflexivity.
Qed.
Lemma equal_ok size a b : wf size a -> wf size b -> 0 < size ->
  equal_ size a b = Ok (beqb (abs size a) (abs size b)).
Proof.
  intros Ha Hb P. pose proof Ha as [La Wa]. pose proof Hb as [Lb Wb].
  pose proof (num_blocks_pos size P). unfold equal_. rewrite last_ok by lia. cbn [bind].
  destruct (eq_blocks_ok a b) with (k := 0) (n := length a - 1) as (r & R & Q); [congruence|lia|].
  rewrite R. cbn [bind].
  assert (F : clean size a = clean size b <->
     (r = true /\ sanitize size (nth (length a - 1) a 0%N) = sanitize size (nth (length b - 1) b 0%N))).
  { rewrite Q. unfold clean. split.
    - intros E. apply app_inj_tail in E. destruct E as [E1 E2]. split; auto. intros j Hj.
      assert (G : forall l k, k < length l - 1 -> nth k l 0%N = nth k (firstn (length l - 1) l) 0%N).
      { intros l k Hk. rewrite <- (firstn_skipn (length l - 1) l) at 1. apply app_nth1.
        rewrite firstn_length. lia. }
      rewrite (G a), (G b), E1 by lia. reflexivity.
    - intros [E1 E2]. rewrite E2. f_equal. apply (nth_ext _ _ 0%N 0%N).
      + rewrite !firstn_length. lia.
      + intros j Hj. rewrite firstn_length in Hj.
        assert (G : forall l k, k < length l - 1 -> nth k l 0%N = nth k (firstn (length l - 1) l) 0%N).
        { intros l k Hk. rewrite <- (firstn_skipn (length l - 1) l) at 1. apply app_nth1.
          rewrite firstn_length. lia. }
        rewrite <- (G a), <- (G b) by lia. apply E1. lia. }
  rewrite clean_eq in F by auto.
  unfold beqb. destruct (list_eq_dec bool_dec (abs size a) (abs size b)) as [E|D].
  - destruct F as [F _]. destruct (F E) as [-> S]. rewrite !sanitized_ok by lia. cbn [bind].
    rewrite S, N.eqb_refl. reflexivity.
  - destruct r; [|reflexivity]. rewrite !sanitized_ok by lia. cbn [bind]. f_equal.
    apply N.eqb_neq. intros S. apply D, F. auto.
Qed.

(* < *)
Lemma value_app a b : value (a ++ b) = (value a + 2 ^ N.of_nat (length a) * value b)%N.
Proof.
  induction a; cbn [app value length]; [rewrite N.mul_1_l; reflexivity|].
  rewrite IHa, Nat2N.inj_succ, N.pow_succ_r'. lia.
Qed.
Lemma value_falses n : value (falses n) = 0%N.
Proof. induction n; [reflexivity|]. unfold falses in *. cbn [repeat value]. rewrite IHn. reflexivity. Qed.
Lemma value_bits x : forall n, (x < 2 ^ N.of_nat n)%N -> value (map (tb x) (seq 0 n)) = x.
Proof.
  intros n. revert x. induction n; intros x H.
  - cbn in *. lia.
  - cbn [seq map value]. rewrite <- seq_shift, map_map.
    rewrite (map_ext _ (tb (N.div2 x))).
    + rewrite IHn.
      * unfold tb. change (N.of_nat 0) with 0%N. rewrite N.bit0_odd.
        pose proof (N.div2_odd x). lia.
      * rewrite Nat2N.inj_succ, N.pow_succ_r' in H. rewrite N.div2_div.
        apply N.div_lt_upper_bound; lia.
    + intros j. unfold tb. rewrite N.div2_spec, N.shiftr_spec by lia. f_equal. lia.
Qed.
Lemma value_wbits x : word x -> value (wbits x) = x.
Proof. intros. apply value_bits. exact H. Qed.
Fixpoint wvalue (c : list N) : N := match c with [] => 0%N | x :: c => (x + 2 ^ 64 * wvalue c)%N end.
Lemma value_flat c : Forall word c -> value (flat c) = wvalue c.
Proof.
  induction 1; [reflexivity|]. unfold flat in *. cbn [flat_map wvalue].
  rewrite value_app, value_wbits, wbits_length, IHForall by auto. reflexivity.
Qed.
Lemma wvalue_app a b : wvalue (a ++ b) = (wvalue a + 2 ^ (64 * N.of_nat (length a)) * wvalue b)%N.
Proof.
  induction a as [|x a IHa]; cbn [app wvalue length].
  - change (64 * N.of_nat 0)%N with 0%N. rewrite N.pow_0_r. lia.
  - rewrite IHa. replace (64 * N.of_nat (S (length a)))%N with (64 + 64 * N.of_nat (length a))%N by lia.
    rewrite N.pow_add_r. lia.
Qed.
Lemma wvalue_bound c : Forall word c -> (wvalue c < 2 ^ (64 * N.of_nat (length c)))%N.
Proof.
  induction 1; cbn [wvalue length]; [reflexivity|].
  replace (64 * N.of_nat (S (length l)))%N with (64 + 64 * N.of_nat (length l))%N by lia.
  rewrite N.pow_add_r. unfold word in H. nia.
Qed.
Lemma firstn_S_nth (l : list N) : forall n, n < length l -> firstn (S n) l = firstn n l ++ [nth n l 0%N].
Proof.
  induction l; intros n Hn; cbn [length] in *; [lia|].
  destruct n; [reflexivity|]. cbn [firstn nth app]. f_equal. apply IHl. lia.
Qed.
Lemma lt_blocks_ok a b : length a = length b -> Forall word a -> Forall word b ->
  forall n, n <= length a ->
  lt_blocks a b (rev (seq 0 n)) = Ok (wvalue (firstn n a) <? wvalue (firstn n b))%N.
Proof.
  intros L Wa Wb. induction n as [|n IH]; intros H; [reflexivity|].
  rewrite seq_S, rev_app_distr. cbn [rev app lt_blocks Nat.add].
  rewrite !rdb_ok by lia. cbn [bind].
  rewrite !firstn_S_nth by lia. rewrite !wvalue_app. cbn [wvalue].
  rewrite !firstn_length, !Nat.min_l by lia. rewrite N.mul_0_r, !N.add_0_r.
  assert (Ba : (wvalue (firstn n a) < 2 ^ (64 * N.of_nat n))%N).
  { pose proof (wvalue_bound (firstn n a)) as Q. rewrite firstn_length, Nat.min_l in Q by lia. apply Q.
    apply Forall_forall. intros x Hx. rewrite Forall_forall in Wa. apply Wa.
    rewrite <- (firstn_skipn n a). apply in_or_app; auto. }
  assert (Bb : (wvalue (firstn n b) < 2 ^ (64 * N.of_nat n))%N).
  { pose proof (wvalue_bound (firstn n b)) as Q. rewrite firstn_length, Nat.min_l in Q by lia. apply Q.
    apply Forall_forall. intros x Hx. rewrite Forall_forall in Wb. apply Wb.
    rewrite <- (firstn_skipn n b). apply in_or_app; auto. }
  revert Ba Bb. generalize (2 ^ (64 * N.of_nat n))%N as M. intros M Ba Bb.
  destruct (N.ltb_spec (nth n a 0%N) (nth n b 0%N)).
  - f_equal. symmetry. apply N.ltb_lt. nia.
  - destruct (N.ltb_spec (nth n b 0%N) (nth n a 0%N)).
    + f_equal. symmetry. apply N.ltb_ge. nia.
    + rewrite IH by lia. f_equal. replace (nth n b 0%N) with (nth n a 0%N) by lia.
      destruct (N.ltb_spec (wvalue (firstn n a)) (wvalue (firstn n b))); symmetry;
        [apply N.ltb_lt|apply N.ltb_ge]; lia.
Qed.

Lemma less_ok size a b : wf size a -> wf size b -> 0 < size ->
  less size a b = Ok (value (abs size a) <? value (abs size b))%N.
Proof.
  intros Ha Hb P. pose proof Ha as [La Wa]. pose proof Hb as [Lb Wb].
  pose proof (num_blocks_pos size P). unfold less. rewrite !sanitized_ok by lia. cbn [bind].
  assert (V : forall c, wf size c -> value (abs size c) = wvalue (clean size c)).
  { intros c Hc. rewrite <- value_flat by (apply clean_word, Hc).
    rewrite flat_clean, value_app, value_falses by auto. lia. }
  rewrite (V a), (V b) by auto.
  rewrite (lt_blocks_ok a b) by (auto; lia). unfold clean. rewrite !wvalue_app. cbn [wvalue].
  rewrite N.mul_0_r, !N.add_0_r, !firstn_length.
  replace (min (length a - 1) (length a)) with (length a - 1) by lia.
  replace (min (length b - 1) (length b)) with (length a - 1) by lia.
  replace (length b - 1) with (length a - 1) by lia.
  assert (F : forall c, length c = length a -> Forall word c ->
    (wvalue (firstn (length a - 1) c) < 2 ^ (64 * N.of_nat (length a - 1)))%N).
  { intros c Lc Wc. pose proof (wvalue_bound (firstn (length a - 1) c)) as Q.
    rewrite firstn_length, Nat.min_l in Q by lia. apply Q.
    apply Forall_forall. intros x Hx. rewrite Forall_forall in Wc. apply Wc.
    rewrite <- (firstn_skipn (length a - 1) c). apply in_or_app; auto. }
  pose proof (F a eq_refl Wa) as Fa. pose proof (F b ltac:(lia) Wb) as Fb. revert Fa Fb.
  generalize (2 ^ (64 * N.of_nat (length a - 1)))%N as M.
  generalize (wvalue (firstn (length a - 1) a)) as va, (wvalue (firstn (length a - 1) b)) as vb.
  generalize (sanitize size (nth (length a - 1) a 0%N)) as x, (sanitize size (nth (length a - 1) b 0%N)) as y.
  intros x y va vb M Fa Fb.
  destruct (N.ltb_spec x y).
  - f_equal. symmetry. apply N.ltb_lt. nia.
  - destruct (N.ltb_spec y x).
    + f_equal. symmetry. apply N.ltb_ge. nia.
    + f_equal. replace y with x by lia. destruct (N.ltb_spec va vb); symmetry;
        [apply N.ltb_lt|apply N.ltb_ge]; lia.
Qed.

(* ---------- loops that assign in place ---------- *)
Lemma assign_loop_ok (f : list N -> nat -> res N) (g : nat -> N) (R : nat -> nat -> Prop) :
  forall idxs b, NoDup idxs -> Forall (fun i => i < length b) idxs ->
  ForallOrdPairs (fun p i => ~ R i p) idxs ->
  (forall i cur, In i idxs -> length cur = length b ->
     (forall k, R i k -> nth k cur 0%N = nth k b 0%N) -> f cur i = Ok (g i)) ->
  exists b', assign_loop f idxs b = Ok b' /\ length b' = length b /\
    forall k, nth k b' 0%N = if in_dec Nat.eq_dec k idxs then g k else nth k b 0%N.
Proof.
  induction idxs as [|i idxs IH]; intros b ND FA OP H; cbn [assign_loop].
  - exists b. repeat split; auto.
  - inversion ND as [|? ? Hn ND']; subst. inversion FA as [|? ? Hl FA']; subst.
    inversion OP as [|? ? Ho OP']; subst.
    rewrite (H i b) by (auto; left; auto). cbn [bind]. rewrite wrb_ok by auto. cbn [bind].
    destruct (IH (upd i (g i) b)) as (b' & E & L & B); auto.
    + rewrite upd_length. auto.
    + intros i' cur Hi Lc A. apply H; [right; auto|rewrite upd_length in Lc; auto|].
      intros k Rk. rewrite A by auto. apply nth_upd_neq. intros ->.
      rewrite Forall_forall in Ho. exact (Ho i' Hi Rk).
    + exists b'. split; auto. split; [rewrite L, upd_length; auto|]. intros k. rewrite B.
      destruct (in_dec Nat.eq_dec k idxs) as [I|I], (in_dec Nat.eq_dec k (i :: idxs)) as [I'|I'];
        auto; cbn [In] in I'.
      * tauto.
      * destruct I' as [<-|]; [|tauto]. apply nth_upd_eq; auto.
      * apply nth_upd_neq. tauto.
Qed.
Lemma FOP_seq (P : nat -> nat -> Prop) : forall n a, (forall p i, p < i -> P p i) -> ForallOrdPairs P (seq a n).
Proof.
  induction n; intros a H; cbn [seq]; constructor; auto.
  apply Forall_forall. intros i Hi. apply in_seq in Hi. apply H. lia.
Qed.
Lemma FOP_snoc {A} (P : A -> A -> Prop) l x : ForallOrdPairs P l -> (forall y, In y l -> P y x) ->
  ForallOrdPairs P (l ++ [x]).
Proof.
  induction 1; intros Q; cbn [app].
  - constructor; constructor.
  - constructor.
    + apply Forall_app. split; auto. constructor; auto. apply Q. left; auto.
    + apply IHForallOrdPairs. intros. apply Q. right; auto.
Qed.
Lemma FOP_rev_seq (P : nat -> nat -> Prop) : forall n a, (forall p i, i < p -> P p i) -> ForallOrdPairs P (rev (seq a n)).
Proof.
  induction n; intros a H; cbn [seq rev]; [constructor|].
  apply FOP_snoc; auto. intros y Hy. apply in_rev, in_seq in Hy. apply H. lia.
Qed.
Lemma seq_all_lt k n m : k + n <= m -> Forall (fun i => i < m) (seq k n).
Proof. intros. apply Forall_forall. intros i Hi. apply in_seq in Hi. lia. Qed.

Lemma zip_ok op bop a o size : wf size a -> wf size o ->
  (forall x y, word x -> word y -> word (op x y)) ->
  (forall x y j, tb (op x y) j = bop (tb x j) (tb y j)) -> 
  exists b, zip_op op a o = Ok b /\ wf size b /\ abs size b = zipb bop (abs size a) (abs size o).
Proof.
  intros [La Wa] [Lo Wo] Hw Ht. unfold zip_op.
  destruct (assign_loop_ok (fun a i => let* x := rdb a i in let* y := rdb o i in Ok (op x y))
    (fun i => op (nth i a 0%N) (nth i o 0%N)) eq (seq 0 (length a)) a) as (b & E & L & B).
  - apply seq_NoDup.
  - apply seq_all_lt. lia.
  - apply FOP_seq. intros. lia.
  - intros i cur Hi Lc Hc. apply in_seq in Hi. rewrite !rdb_ok by lia. cbn [bind].
    rewrite (Hc i eq_refl). reflexivity.
  - exists b. split; auto. split.
    + split; [congruence|]. apply Forall_forall. intros x Hx. apply (In_nth _ _ 0%N) in Hx.
      destruct Hx as (k & Hk & <-). rewrite B. destruct (in_dec _ _ _); auto using nth_word.
    + apply abs_ext.
      * unfold zipb. rewrite map_length, combine_length, !abs_length. lia.
      * intros i Hi. unfold zipb.
        rewrite (nth_indep _ false (bop false false))
          by (rewrite map_length, combine_length, !abs_length; lia).
        rewrite (map_nth (fun p => bop (fst p) (snd p)) _ (false, false)).
        rewrite combine_nth by (rewrite !abs_length; auto). cbn [fst snd].
        rewrite !abs_nth. destruct (Nat.ltb_spec i size); [|lia]. cbn [andb].
        unfold bit. rewrite B. destruct (in_dec _ _ _) as [|I]; [apply Ht|].
        exfalso. apply I, in_seq. pose proof (idx_lt size i Hi). lia.
Qed.
Lemma flip_ok size o : wf size o -> wf size (flip o) /\ abs size (flip o) = map negb (abs size o).
Proof.
  intros [L W]. unfold flip. split.
  - split; [rewrite map_length; auto|]. apply Forall_map. eapply Forall_impl; [|exact W].
    apply word_not.
  - apply abs_ext; [rewrite map_length, abs_length; auto|]. intros i Hi.
    rewrite (nth_indep _ false (negb false)) by (rewrite map_length, abs_length; auto).
    rewrite map_nth, abs_nth. destruct (Nat.ltb_spec i size); [|lia]. cbn [andb].
    unfold bit. pose proof (idx_lt size i Hi).
    rewrite (nth_indep _ 0%N (not64 0)) by (rewrite map_length; lia).
    rewrite map_nth. apply tb_not. lia.
Qed.
Lemma const_ok size b x v : wf size b -> word x -> (forall j, j < 64 -> tb x j = v) ->
  wf size (map (fun _ => x) b) /\ abs size (map (fun _ => x) b) = repeat v size.
Proof.
  intros [L W] Wx T. split.
  - split; [rewrite map_length; auto|]. apply Forall_map, Forall_forall. auto.
  - apply abs_ext; [apply repeat_length|]. intros i Hi. pose proof (idx_lt size i Hi).
    transitivity v.
    + unfold bit. rewrite (nth_indep _ 0%N x) by (rewrite map_length; lia).
      rewrite (map_nth (fun _ => x) b x). apply T. lia.
    + symmetry. rewrite (nth_indep _ false v) by (rewrite repeat_length; auto). apply nth_repeat.
Qed.
Lemma map_const {A B} (x : B) (l : list A) : map (fun _ => x) l = repeat x (length l).
Proof. induction l; cbn; congruence. Qed.
Lemma wf_repeat size x : word x -> wf size (repeat x (num_blocks size)).
Proof.
  intros. split; [apply repeat_length|]. apply Forall_forall. intros y Hy.
  apply repeat_spec in Hy. subst; auto.
Qed.
Lemma repeat_ok size x v : word x -> (forall j, j < 64 -> tb x j = v) ->
  wf size (repeat x (num_blocks size)) /\ abs size (repeat x (num_blocks size)) = repeat v size.
Proof.
  intros Wx T. pose proof (const_ok size (repeat 0%N (num_blocks size)) x v) as C.
  rewrite map_const, repeat_length in C. apply C; auto. apply wf_repeat. apply word_0.
Qed.
