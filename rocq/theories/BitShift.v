(* Shifts, resize and next_set_bit of block sequences. *)
From Verif Require Import Base ArithModel ArithProofs BitModel BitSpec BitProofs.
Ltac Zify.zify_post_hook ::= Z.to_euclidean_division_equations.

Lemma Forall_nth_word b : (forall k, k < length b -> word (nth k b 0%N)) -> Forall word b.
Proof.
  intros H. apply Forall_forall. intros x Hx. apply (In_nth _ _ 0%N) in Hx.
  destruct Hx as (k & Hk & <-). auto.
Qed.
Lemma zero_loop b k n : k + n <= length b ->
  exists b', assign_loop (fun _ _ => Ok 0%N) (seq k n) b = Ok b' /\ length b' = length b /\
    forall j, nth j b' 0%N = if (k <=? j) && (j <? k + n) then 0%N else nth j b 0%N.
Proof.
  intros H. destruct (assign_loop_ok (fun _ _ => Ok 0%N) (fun _ => 0%N) (fun _ _ => False) (seq k n) b)
    as (b' & E & L & B).
  - apply seq_NoDup.
  - apply seq_all_lt. auto.
  - apply FOP_seq. auto.
  - auto.
  - exists b'. repeat split; auto. intros j. rewrite B. destruct (in_dec _ _ _) as [I|I];
      rewrite in_seq in I; destruct (Nat.leb_spec k j), (Nat.ltb_spec j (k + n)); try lia; reflexivity.
Qed.

Lemma nth_overflow0 (b : list N) k : length b <= k -> nth k b 0%N = 0%N.
Proof. apply nth_overflow. Qed.

Lemma bit_first b j : j < 64 -> bit b j = tb (nth 0 b 0%N) j.
Proof. intros H. rewrite <- (bit_at b 0 j H). reflexivity. Qed.

(* >>= on the blocks: bit j becomes bit j + shift *)
Lemma shr_blocks_ok b shift : Forall word b -> shift < 64 * length b ->
  exists b', shr_blocks b shift = Ok b' /\ length b' = length b /\ Forall word b' /\
    forall j, bit b' j = bit b (j + shift).
Proof.
  intros W H. unfold shr_blocks. change BPB with 64.
  destruct (Nat.eqb_spec shift 0) as [->|Hs].
  { exists b. repeat split; auto. }
  set (sb := shift / 64). set (border := length b - sb - 1).
  assert (Hsb : sb < length b) by (unfold sb; lia).
  (* after the first part: block k <= border is final *)
  assert (P1 : exists b1,
    (if shift mod 64 =? 0
     then assign_loop (fun b i => rdb b (i + sb)) (seq 0 (border + 1)) b
     else let* b := assign_loop (fun b i =>
                     let* x := rdb b (i + sb) in
                     let* y := rdb b (i + sb + 1) in
                     Ok (N.lor (shr64 x (N.of_nat (shift mod 64))) (shl64 y (64 - N.of_nat (shift mod 64)))))
                     (seq 0 border) b in
         let* x := rdb b (length b - 1) in
         wrb b border (shr64 x (N.of_nat (shift mod 64)))) = Ok b1 /\
    length b1 = length b /\ Forall word b1 /\
    forall k r, k <= border -> r < 64 -> tb (nth k b1 0%N) r = bit b (64 * k + r + shift)).
  { destruct (Nat.eqb_spec (shift mod 64) 0) as [M|M].
    - destruct (assign_loop_ok (fun b i => rdb b (i + sb)) (fun i => nth (i + sb) b 0%N)
        (fun i k => k = i + sb) (seq 0 (border + 1)) b) as (b1 & E & L & B).
      + apply seq_NoDup.
      + apply seq_all_lt. lia.
      + apply FOP_seq. intros. unfold sb in *. lia.
      + intros i cur Hi Lc Hc. apply in_seq in Hi. rewrite rdb_ok by lia. rewrite Hc; auto.
      + exists b1. repeat split; auto.
        * apply Forall_nth_word. intros k Hk. rewrite B. destruct (in_dec _ _ _); auto using nth_word.
        * intros k r Hk Hr. rewrite B. destruct (in_dec _ _ _) as [|I]; [|rewrite in_seq in I; lia].
          replace (64 * k + r + shift) with (64 * (k + sb) + r) by (unfold sb; lia).
          rewrite bit_at by auto. reflexivity.
    - set (bits := shift mod 64) in *.
      destruct (assign_loop_ok (fun b i => let* x := rdb b (i + sb) in
                     let* y := rdb b (i + sb + 1) in
                     Ok (N.lor (shr64 x (N.of_nat bits)) (shl64 y (64 - N.of_nat bits))))
        (fun i => N.lor (shr64 (nth (i + sb) b 0%N) (N.of_nat bits))
                        (shl64 (nth (i + sb + 1) b 0%N) (64 - N.of_nat bits)))
        (fun i k => k = i + sb \/ k = i + sb + 1) (seq 0 border) b) as (b1 & E & L & B).
      + apply seq_NoDup.
      + apply seq_all_lt. lia.
      + apply FOP_seq. intros. lia.
      + intros i cur Hi Lc Hc. apply in_seq in Hi. rewrite !rdb_ok by lia. cbn [bind].
        rewrite !Hc by auto. reflexivity.
      + rewrite E. cbn [bind]. rewrite rdb_ok by lia. cbn [bind].
        rewrite wrb_ok by lia. eexists. split; [reflexivity|]. rewrite upd_length. split; auto.
        assert (W1 : Forall word b1).
        { apply Forall_nth_word. intros k Hk. rewrite B. destruct (in_dec _ _ _); auto using nth_word.
          apply word_lor; [apply word_shr, nth_word; auto|apply word_shl]. }
        split.
        * apply upd_Forall; auto. apply word_shr, nth_word; auto.
        * intros k r Hk Hr. assert (Hb : 0 < bits < 64) by (unfold bits in *; lia).
          assert (S : shift = 64 * sb + bits) by (unfold sb, bits; lia).
          destruct (Nat.eq_dec k border) as [->|D].
          -- rewrite nth_upd_eq by lia. rewrite tb_shr, B.
             replace (nth (length b1 - 1) b 0%N) with (nth (border + sb) b 0%N)
               by (f_equal; unfold border; lia).
             assert (EN : (if in_dec Nat.eq_dec (length b1 - 1) (seq 0 border)
                     then N.lor (shr64 (nth (length b1 - 1 + sb) b 0%N) (N.of_nat bits))
                                (shl64 (nth (length b1 - 1 + sb + 1) b 0%N) (64 - N.of_nat bits))
                     else nth (border + sb) b 0%N) = nth (border + sb) b 0%N).
             { destruct (in_dec _ _ _) as [I|]; auto. apply in_seq in I. lia. }
             rewrite EN. destruct (Nat.lt_ge_cases (r + bits) 64).
             ++ rewrite <- bit_at by auto. f_equal. lia.
             ++ rewrite tb_high by (auto using nth_word).
                unfold bit. rewrite nth_overflow0; [symmetry; apply tb_0|].
                unfold border. lia.
          -- rewrite nth_upd_neq by auto. rewrite B.
             destruct (in_dec _ _ _) as [|I]; [|rewrite in_seq in I; lia].
             rewrite tb_lor, tb_shr.
             replace (64 - N.of_nat bits)%N with (N.of_nat (64 - bits)) by lia.
             rewrite tb_shl. destruct (Nat.lt_ge_cases (r + bits) 64).
             ++ destruct (Nat.leb_spec (64 - bits) r); [lia|].
                rewrite andb_false_r, orb_false_r. rewrite <- bit_at by auto. f_equal. lia.
             ++ rewrite (tb_high (nth (k + sb) b 0%N)) by (auto using nth_word). cbn [orb].
                destruct (Nat.ltb_spec r 64), (Nat.leb_spec (64 - bits) r); try lia. cbn [andb].
                rewrite <- bit_at by lia. f_equal. lia. }
  destruct P1 as (b1 & E1 & L1 & W1 & B1). rewrite E1. cbn [bind].
  destruct (zero_loop b1 (border + 1) (length b1 - (border + 1))) as (b2 & E2 & L2 & B2);
    [unfold border in *; lia|].
  exists b2. rewrite E2. split; auto. split; [congruence|]. split.
  - apply Forall_nth_word. intros k Hk. rewrite B2. destruct (_ && _); auto using nth_word, word_0.
  - intros j. destruct (bit_split j) as [S R].
    unfold bit at 1. rewrite B2.
    destruct (Nat.leb_spec (border + 1) (j / 64)).
    + assert (Z : bit b (j + shift) = false).
      { unfold bit. rewrite nth_overflow0; [apply tb_0|]. unfold border, sb in *. lia. }
      rewrite Z. destruct (Nat.ltb_spec (j / 64) (border + 1 + (length b1 - (border + 1)))); cbn [andb].
      * apply tb_0.
      * rewrite nth_overflow0; [apply tb_0|]. lia.
    + cbn [andb]. rewrite B1 by lia. f_equal. lia.
Qed.

Lemma shr_ok_bits size b shift : wf size b -> shift < size ->
  exists b', shr size b shift = Ok b' /\ wf size b' /\ abs size b' = shift_down (abs size b) shift /\
    forall j, bit b' j = bit (clean size b) (j + shift).
Proof.
  intros H P. assert (P0 : 0 < size) by lia. pose proof H as [L W].
  pose proof (num_blocks_pos size P0). pose proof (num_blocks_bound size).
  assert (C : (if size mod BPB =? 0 then Ok b
            else let* x := sanitized_last_block size b in
                 let* l := last_idx b in wrb b l x) = Ok (clean size b)).
  { change BPB with 64. rewrite clean_upd by lia. destruct (Nat.eqb_spec (size mod 64) 0).
    - f_equal. unfold sanitize. change BPB with 64. destruct (Nat.eqb_spec (size mod 64) 0); [|lia].
      symmetry. apply list_ext. intros i. rewrite nth_error_upd.
      destruct (Nat.eqb_spec (length b - 1) i) as [<-|]; cbn [andb]; auto.
      destruct (Nat.ltb_spec (length b - 1) (length b)); [|lia].
      symmetry. apply nth_error_nth'. lia.
    - rewrite sanitized_ok by lia. cbn [bind]. rewrite last_ok by lia. cbn [bind]. apply wrb_ok. lia. }
  unfold shr. rewrite C. cbn [bind].
  assert (F : exists b', (if length (clean size b) =? 1
     then let* x := rdb (clean size b) 0 in wrb (clean size b) 0 (shr64 x (N.of_nat shift))
     else shr_blocks (clean size b) shift) = Ok b' /\ length b' = length b /\ Forall word b' /\
     forall j, bit b' j = bit (clean size b) (j + shift)).
  { rewrite clean_length by lia. destruct (Nat.eqb_spec (length b) 1) as [E|E].
    - rewrite rdb_ok by (rewrite clean_length; lia). cbn [bind].
      rewrite wrb_ok by (rewrite clean_length; lia). eexists. split; [reflexivity|].
      rewrite upd_length, clean_length by lia. split; auto. split.
      + apply upd_Forall; [apply clean_word; auto|]. apply word_shr, nth_word, clean_word; auto.
      + intros j. destruct (Nat.lt_ge_cases j 64).
        2:{ unfold bit. rewrite !nth_overflow0, !tb_0; auto.
            all: rewrite ?upd_length, clean_length by lia; lia. }
        rewrite bit_first by auto.
        rewrite nth_upd_eq by (rewrite clean_length; lia). rewrite tb_shr.
        destruct (Nat.lt_ge_cases (j + shift) 64).
        * rewrite <- bit_first by auto. reflexivity.
        * rewrite tb_high by (auto; apply nth_word, clean_word; auto).
          unfold bit. rewrite nth_overflow0; [symmetry; apply tb_0|]. rewrite clean_length by lia. lia.
    - destruct (shr_blocks_ok (clean size b) shift) as (b' & E' & L' & W' & B').
      + apply clean_word; auto.
      + rewrite clean_length by lia. lia.
      + exists b'. rewrite clean_length in L' by lia. repeat split; auto. }
  destruct F as (b' & E & L' & W' & B). exists b'. split; auto. split; [split; auto; congruence|].
  split; auto. apply abs_ext.
  - unfold shift_down. rewrite app_length, skipn_length, abs_length. unfold falses. rewrite repeat_length. lia.
  - intros i Hi. rewrite B, clean_bit by auto. unfold shift_down.
    rewrite abs_length, (Nat.min_l shift size) by lia.
    destruct (Nat.ltb_spec (i + shift) size).
    + rewrite app_nth1 by (rewrite skipn_length, abs_length; lia).
      transitivity (nth (i + shift) (abs size b) false).
      * rewrite abs_nth. destruct (Nat.ltb_spec (i + shift) size); [reflexivity|lia].
      * rewrite <- (firstn_skipn shift (abs size b)) at 1.
        rewrite app_nth2; rewrite firstn_length, abs_length; [|lia]. f_equal. lia.
    + rewrite app_nth2 by (rewrite skipn_length, abs_length; lia).
      unfold falses. symmetry. apply nth_repeat.
Qed.

Lemma shr_ok size b shift : wf size b -> shift < size ->
  exists b', shr size b shift = Ok b' /\ wf size b' /\ abs size b' = shift_down (abs size b) shift.
Proof. intros H P. destruct (shr_ok_bits size b shift H P) as (b' & E & W & A & _). eauto. Qed.

(* <<= *)
Lemma shl_blocks_ok b shift : Forall word b -> shift < 64 * length b -> 
  exists b', shl b shift = Ok b' /\ length b' = length b /\ Forall word b' /\
    forall j, j < 64 * length b -> bit b' j = (shift <=? j) && bit b (j - shift).
Proof.
  intros W H. unfold shl. change BPB with 64.
  destruct (Nat.eqb_spec (length b) 1) as [E|E].
  { rewrite rdb_ok by lia. cbn [bind]. rewrite wrb_ok by lia. eexists. split; [reflexivity|].
    rewrite upd_length. split; auto. split.
    - apply upd_Forall; auto. apply word_shl.
    - intros j Hj. assert (j < 64) by lia.
      rewrite bit_first by auto.
      rewrite nth_upd_eq by lia. rewrite tb_shl. destruct (Nat.ltb_spec j 64); [|lia]. cbn [andb].
      f_equal. rewrite <- bit_first by lia. reflexivity. }
  destruct (Nat.eqb_spec shift 0) as [->|Hs].
  { exists b. repeat split; auto. intros j _. rewrite Nat.sub_0_r. reflexivity. }
  set (sb := shift / 64). assert (Hsb : sb < length b) by (unfold sb; lia).
  assert (P1 : exists b1,
    (if shift mod 64 =? 0
    then assign_loop (fun b i => rdb b (i - sb)) (rev (seq sb (length b - sb))) b
    else let* b := assign_loop (fun b i =>
                     let* x := rdb b (i - sb) in
                     let* y := rdb b (i - sb - 1) in
                     Ok (N.lor (shl64 x (N.of_nat (shift mod 64))) (shr64 y (64 - N.of_nat (shift mod 64)))))
                   (rev (seq (sb + 1) (length b - 1 - sb))) b in
         let* x := rdb b 0 in
         wrb b sb (shl64 x (N.of_nat (shift mod 64)))) = Ok b1 /\
    length b1 = length b /\ Forall word b1 /\
    forall k r, sb <= k < length b -> r < 64 ->
      tb (nth k b1 0%N) r = (shift <=? 64 * k + r) && bit b (64 * k + r - shift)).
  { destruct (Nat.eqb_spec (shift mod 64) 0) as [M|M].
    - destruct (assign_loop_ok (fun b i => rdb b (i - sb)) (fun i => nth (i - sb) b 0%N)
        (fun i k => k = i - sb) (rev (seq sb (length b - sb))) b) as (b1 & E1 & L & B).
      + apply NoDup_rev, seq_NoDup.
      + apply Forall_rev, seq_all_lt. lia.
      + apply FOP_rev_seq. intros. unfold sb in *. lia.
      + intros i cur Hi Lc Hc. apply in_rev, in_seq in Hi. rewrite rdb_ok by lia. rewrite Hc; auto.
      + exists b1. repeat split; auto.
        * apply Forall_nth_word. intros k Hk. rewrite B. destruct (in_dec _ _ _); auto using nth_word.
        * intros k r Hk Hr. rewrite B. destruct (in_dec _ _ _) as [|I];
            [|rewrite <- in_rev, in_seq in I; lia].
          destruct (Nat.leb_spec shift (64 * k + r)); [|unfold sb in *; lia]. cbn [andb].
          replace (64 * k + r - shift) with (64 * (k - sb) + r) by (unfold sb in *; lia).
          rewrite bit_at by auto. reflexivity.
    - set (bits := shift mod 64) in *.
      destruct (assign_loop_ok (fun b i => let* x := rdb b (i - sb) in
                     let* y := rdb b (i - sb - 1) in
                     Ok (N.lor (shl64 x (N.of_nat bits)) (shr64 y (64 - N.of_nat bits))))
        (fun i => N.lor (shl64 (nth (i - sb) b 0%N) (N.of_nat bits))
                        (shr64 (nth (i - sb - 1) b 0%N) (64 - N.of_nat bits)))
        (fun i k => (k = i - sb \/ k = i - sb - 1)) (rev (seq (sb + 1) (length b - 1 - sb))) b)
        as (b1 & E1 & L & B).
      + apply NoDup_rev, seq_NoDup.
      + apply Forall_rev, seq_all_lt. lia.
      + apply FOP_rev_seq. intros. lia.
      + intros i cur Hi Lc Hc. apply in_rev, in_seq in Hi. rewrite !rdb_ok by lia. cbn [bind].
        rewrite !Hc by auto. reflexivity.
      + rewrite E1. cbn [bind]. rewrite rdb_ok by lia. cbn [bind].
        rewrite wrb_ok by lia. eexists. split; [reflexivity|]. rewrite upd_length. split; auto.
        assert (W1 : Forall word b1).
        { apply Forall_nth_word. intros k Hk. rewrite B. destruct (in_dec _ _ _); auto using nth_word.
          apply word_lor; [apply word_shl|]. replace (64 - N.of_nat bits)%N with (N.of_nat (64 - bits)) by lia.
          apply word_shr, nth_word; auto. }
        split.
        * apply upd_Forall; auto. apply word_shl.
        * intros k r Hk Hr. assert (Hb : 0 < bits < 64) by (unfold bits in *; lia).
          assert (S : shift = 64 * sb + bits) by (unfold sb, bits; lia).
          destruct (Nat.eq_dec k sb) as [->|D].
          -- rewrite nth_upd_eq by lia. rewrite tb_shl, B.
             destruct (in_dec _ _ _) as [I|_]; [rewrite <- in_rev, in_seq in I; lia|].
             destruct (Nat.ltb_spec r 64); [|lia]. cbn [andb].
             destruct (Nat.leb_spec bits r), (Nat.leb_spec shift (64 * sb + r)); try lia; cbn [andb]; auto.
             replace (64 * sb + r - shift) with (64 * 0 + (r - bits)) by lia.
             rewrite bit_at by lia. reflexivity.
          -- rewrite nth_upd_neq by auto. rewrite B.
             destruct (in_dec _ _ _) as [|I]; [|rewrite <- in_rev, in_seq in I; lia].
             replace (64 - N.of_nat bits)%N with (N.of_nat (64 - bits)) by lia.
             rewrite tb_lor, tb_shl, tb_shr.
             destruct (Nat.leb_spec shift (64 * k + r)); [|lia].
             destruct (Nat.ltb_spec r 64); [|lia]. cbn [andb].
             destruct (Nat.leb_spec bits r); cbn [andb].
             ++ rewrite (tb_high (nth (k - sb - 1) b 0%N)) by (auto using nth_word; lia).
                rewrite orb_false_r, <- bit_at by lia. f_equal. lia.
             ++ cbn [orb]. rewrite <- bit_at by lia. f_equal. lia. }
  destruct P1 as (b1 & E1 & L1 & W1 & B1). rewrite E1. cbn [bind].
  destruct (zero_loop b1 0 sb) as (b2 & E2 & L2 & B2); [lia|].
  exists b2. rewrite E2. split; auto. split; [congruence|]. split.
  - apply Forall_nth_word. intros k Hk. rewrite B2. destruct (_ && _); auto using nth_word, word_0.
  - intros j Hj. destruct (bit_split j) as [S R]. unfold bit at 1. rewrite B2.
    destruct (Nat.ltb_spec (j / 64) (0 + sb)); cbn [andb Nat.leb].
    + rewrite tb_0. destruct (Nat.leb_spec shift j); [unfold sb in *; lia|reflexivity].
    + rewrite B1 by lia. rewrite <- S. reflexivity.
Qed.
Lemma shl_ok size b shift : wf size b -> shift < size ->
  exists b', shl b shift = Ok b' /\ wf size b' /\ abs size b' = shift_up (abs size b) shift.
Proof.
  intros [L W] P. pose proof (num_blocks_bound size).
  destruct (shl_blocks_ok b shift) as (b' & E & L' & W' & B); auto; [lia|].
  exists b'. split; auto. split; [split; auto; congruence|].
  assert (SL : length (shift_up (abs size b) shift) = size).
  { unfold shift_up. rewrite firstn_length, app_length, abs_length. unfold falses. rewrite repeat_length. lia. }
  apply abs_ext; auto.
  intros i Hi. rewrite B by lia.
  transitivity (nth i (falses shift ++ abs size b) false).
  2:{ unfold shift_up. rewrite abs_length.
      rewrite <- (firstn_skipn size (falses shift ++ abs size b)) at 1. apply app_nth1.
      rewrite firstn_length, app_length, abs_length. lia. }
  unfold falses. destruct (Nat.leb_spec shift i).
  - rewrite app_nth2; rewrite repeat_length; auto. rewrite abs_nth.
    destruct (Nat.ltb_spec (i - shift) size); [reflexivity|lia].
  - rewrite app_nth1 by (rewrite repeat_length; auto). symmetry. apply nth_repeat.
Qed.

Lemma shift_up_all l s : length l <= s -> shift_up l s = falses (length l).
Proof.
  intros H. unfold shift_up, falses. rewrite firstn_app, repeat_length.
  replace (length l - s) with 0 by lia. rewrite app_nil_r.
  replace s with (length l + (s - length l)) by lia. rewrite repeat_app, firstn_app, repeat_length.
  rewrite Nat.sub_diag, app_nil_r. apply firstn_all2. rewrite repeat_length. lia.
Qed.
Lemma shift_down_all l s : length l <= s -> shift_down l s = falses (length l).
Proof. intros H. unfold shift_down. rewrite skipn_all2, Nat.min_r by auto. reflexivity. Qed.

(* ---------- resize ---------- *)
Definition wfv (v : bitvec) : Prop := wf (v_size v) (v_blocks v).
Definition absv (v : bitvec) : list bool := abs (v_size v) (v_blocks v).

Lemma nth_vec_resize b n k : nth k (vec_resize b n) 0%N = if k <? n then nth k b 0%N else 0%N.
Proof.
  unfold vec_resize. destruct (Nat.ltb_spec k n).
  - destruct (Nat.lt_ge_cases k (length b)).
    + rewrite app_nth1 by (rewrite firstn_length; lia).
      rewrite <- (firstn_skipn n b) at 2. rewrite app_nth1 by (rewrite firstn_length; lia). reflexivity.
    + rewrite app_nth2 by (rewrite firstn_length; lia). rewrite nth_repeat, nth_overflow0; auto.
  - apply nth_overflow0. rewrite app_length, firstn_length, repeat_length. lia.
Qed.
Lemma resize_ok v n : wfv v -> exists v', bv_resize v n = Ok v' /\ wfv v' /\ absv v' = resized (absv v) n.
Proof.
  destruct v as [size b]. unfold wfv, absv, bv_resize. cbn [v_size v_blocks]. intros H.
  destruct (Nat.eqb_spec n size) as [->|D].
  { exists (BV size b). cbn [v_size v_blocks]. repeat split; try apply H.
    unfold resized. rewrite abs_length, Nat.sub_diag, app_nil_r, firstn_all2; auto. rewrite abs_length. auto. }
  pose proof H as [L W].
  assert (C : exists c, (if negb (size =? 0) && negb (size mod BPB =? 0)
      then let* x := sanitized_last_block size b in let* l := last_idx b in wrb b l x
      else Ok b) = Ok c /\ length c = length b /\ Forall word c /\
      forall i, bit c i = (i <? size) && bit b i).
  { change BPB with 64. destruct (Nat.eqb_spec size 0) as [->|D0]; cbn [negb andb].
    - exists b. repeat split; auto. intros i. unfold bit. rewrite nth_overflow0, tb_0; auto.
      rewrite L. cbn. lia.
    - pose proof (num_blocks_pos size ltac:(lia)).
      exists (clean size b). rewrite clean_length by lia. split; [|repeat split; auto using clean_word].
      + rewrite clean_upd by lia. destruct (Nat.eqb_spec (size mod 64) 0) as [M|M]; cbn [negb].
        * f_equal. unfold sanitize. change BPB with 64. destruct (Nat.eqb_spec (size mod 64) 0); [|lia].
          symmetry. apply list_ext. intros i. rewrite nth_error_upd.
          destruct (Nat.eqb_spec (length b - 1) i) as [<-|]; cbn [andb]; auto.
          destruct (Nat.ltb_spec (length b - 1) (length b)); [|lia].
          symmetry. apply nth_error_nth'. lia.
        * rewrite sanitized_ok by lia. cbn [bind]. rewrite last_ok by lia. cbn [bind]. apply wrb_ok. lia.
      + intros i. apply clean_bit; auto. lia. }
  destruct C as (c & E & Lc & Wc & Bc). rewrite E. cbn [bind]. eexists. split; [reflexivity|].
  cbn [v_size v_blocks]. split.
  - split.
    + unfold vec_resize. rewrite app_length, firstn_length, repeat_length. lia.
    + apply Forall_nth_word. intros k Hk. rewrite nth_vec_resize. destruct (_ <? _); auto using nth_word, word_0.
  - apply abs_ext.
    + unfold resized. rewrite app_length, firstn_length, abs_length. unfold falses. rewrite repeat_length. lia.
    + intros i Hi. unfold bit. rewrite nth_vec_resize.
      destruct (Nat.ltb_spec (i / 64) (num_blocks n)) as [_|X]; [|pose proof (idx_lt n i Hi); lia].
      fold (bit c i). rewrite Bc. unfold resized. rewrite abs_length.
      destruct (Nat.lt_ge_cases i size).
      * rewrite app_nth1 by (rewrite firstn_length, abs_length; lia).
        transitivity (nth i (abs size b) false).
        -- rewrite abs_nth. reflexivity.
        -- rewrite <- (firstn_skipn n (abs size b)) at 1. apply app_nth1.
           rewrite firstn_length, abs_length. lia.
      * rewrite app_nth2 by (rewrite firstn_length, abs_length; lia).
        destruct (Nat.ltb_spec i size); [lia|]. cbn [andb]. symmetry. apply nth_repeat.
Qed.
Lemma resize_size v n v' : bv_resize v n = Ok v' -> v_size v' = n.
Proof.
  unfold bv_resize. destruct (Nat.eqb_spec n (v_size v)) as [->|].
  - intros E. injection E as <-. reflexivity.
  - intros E. apply bind_ok in E. destruct E as (b & _ & E). injection E as <-. reflexivity.
Qed.
Lemma set_str_ok v s : wfv v -> exists v', bv_set_str v s = Ok v' /\ wfv v' /\ absv v' = rev s.
Proof.
  intros H. unfold bv_set_str. destruct (resize_ok v (length s) H) as (v1 & E & W1 & _).
  pose proof (resize_size _ _ _ E) as S1. rewrite E. cbn [bind].
  unfold wfv in W1. rewrite S1 in *. pose proof (num_blocks_bound (length s)). destruct W1 as [L1 W1].
  rewrite firstn_all2 by (rewrite rev_length; auto).
  destruct (set_all_ok (rev s) (v_blocks v1) 0) as (b & E2 & L2 & W2 & B2); auto.
  { rewrite rev_length. lia. }
  unfold on_blocks. rewrite E2. cbn [bind]. eexists. split; [reflexivity|].
  unfold wfv, absv. cbn [v_size v_blocks]. rewrite S1. split; [split; auto; congruence|].
  apply abs_ext; [apply rev_length|]. intros i Hi. rewrite B2, rev_length, Nat.sub_0_r. cbn [Nat.leb andb].
  destruct (Nat.ltb_spec i (0 + length s)); [reflexivity|lia].
Qed.

(* ---------- next_set_bit ---------- *)
Lemma first_bit_spec x n : n <= 64 -> forall left bt, n - bt <= left -> bt <= n ->
  match first_bit x bt n left with
  | Some k => bt <= k < n /\ tb x k = true /\ forall j, bt <= j < k -> tb x j = false
  | None => forall j, bt <= j < n -> tb x j = false
  end.
Proof.
  intros Hn. induction left as [|left IH]; intros bt Hl Hb; cbn [first_bit].
  - intros. lia.
  - destruct (Nat.eqb_spec bt n); [intros; lia|]. rewrite land_mask by lia.
    destruct (tb x bt) eqn:T.
    + repeat split; auto; try lia; intros; lia.
    + specialize (IH (S bt)). destruct (first_bit x (S bt) n left) as [k|].
      * destruct IH as (A & B & C); [lia|lia|]. repeat split; auto; try lia.
        intros j Hj. destruct (Nat.eq_dec j bt); [subst; auto|]. apply C. lia.
      * intros j Hj. destruct (Nat.eq_dec j bt); [subst; auto|]. apply IH; lia.
Qed.
(* search result against a bit predicate p, on the interval from .. to *)
Definition found (p : nat -> bool) (from to : nat) (o : option nat) : Prop :=
  match o with
  | Some k => from <= k < to /\ p k = true /\ forall j, from <= j < k -> p j = false
  | None => forall j, from <= j < to -> p j = false
  end.
Lemma found_weak p f t t' k : found p f t (Some k) -> t <= t' -> found p f t' (Some k).
Proof. intros (A & B & C) H. repeat split; auto; lia. Qed.
Lemma found_seq p f m t o : found p f m None -> found p m t o -> f <= m -> m <= t -> found p f t o.
Proof.
  intros A B H1 H2. destruct o as [k|]; cbn [found] in *.
  - destruct B as (B1 & B2 & B3). repeat split; auto; try lia.
    intros j Hj. destruct (Nat.lt_ge_cases j m); [apply A|apply B3]; lia.
  - intros j Hj. destruct (Nat.lt_ge_cases j m); [apply A|apply B]; lia.
Qed.
Lemma block_found x i bt n : bt <= n -> n <= 64 ->
  found (fun j => tb x (j - 64 * i)) (64 * i + bt) (64 * i + n)
    (match (if (x =? 0)%N then None else first_bit x bt n 64) with
     | Some k => Some (i * 64 + k) | None => None end).
Proof.
  intros Hb Hn. destruct (N.eqb_spec x 0) as [->|D].
  - cbn [found]. intros. apply tb_0.
  - pose proof (first_bit_spec x n Hn 64 bt ltac:(lia) Hb) as F.
    destruct (first_bit x bt n 64) as [k|]; cbn [found].
    + destruct F as (A & B & C). split; [lia|]. split.
      * rewrite <- B. f_equal. lia.
      * intros j Hj. apply C. lia.
    + intros j Hj. apply F. lia.
Qed.
Lemma found_ext p q f t o : (forall j, f <= j < t -> p j = q j) -> found p f t o -> found q f t o.
Proof.
  intros E. destruct o as [k|]; cbn [found].
  - intros (A & B & C). split; auto. split; [rewrite <- E; auto|]. intros j Hj. rewrite <- E by lia. apply C. auto.
  - intros H j Hj. rewrite <- E by auto. auto.
Qed.
Lemma next_in_block_found b i : found (bit b) (64 * i) (64 * i + 64) (next_in_block i (nth i b 0%N)).
Proof.
  pose proof (block_found (nth i b 0%N) i 0 64 ltac:(lia) ltac:(lia)) as F.
  rewrite Nat.add_0_r in F. eapply found_ext; [|].
  2:{ unfold next_in_block. change BPB with 64. destruct (_ =? _)%N; exact F. }
  intros j Hj. cbn beta. replace j with (64 * i + (j - 64 * i)) at 2 by lia. rewrite bit_at by lia. reflexivity.
Qed.
Lemma next_in_blocks_found b : forall n k, k + n <= length b ->
  exists r, next_in_blocks b (seq k n) = Ok r /\ found (bit b) (64 * k) (64 * (k + n)) r.
Proof.
  induction n as [|n IH]; intros k H; cbn [seq next_in_blocks].
  - exists None. split; auto. cbn [found]. intros. lia.
  - rewrite rdb_ok by lia. cbn [bind]. pose proof (next_in_block_found b k) as F.
    destruct (next_in_block k (nth k b 0%N)) as [j|].
    + exists (Some j). split; auto. eapply found_weak; [exact F|lia].
    + destruct (IH (S k)) as (r & E & R); [lia|]. exists r. split; auto.
      eapply found_seq; [exact F| |lia|lia].
      replace (64 * k + 64) with (64 * S k) by lia.
      replace (64 * (k + S n)) with (64 * (S k + n)) by lia. exact R.
Qed.

Definition last_clean (size : nat) (b : list N) : Prop := forall i, size <= i -> bit b i = false.

Lemma found_next l i : found (fun j => nth j l false) i (length l) (next_index l i) .
Proof.
  unfold next_index. remember (length l - i) as n eqn:En. revert i En.
  induction n as [|n IH]; intros i En; cbn [seq find].
  - cbn [found]. intros. lia.
  - destruct (nth i l false) eqn:T.
    + cbn [found]. repeat split; auto; try lia; intros; lia.
    + specialize (IH (S i) ltac:(lia)).
      destruct (find _ (seq (S i) n)) as [k|]; cbn [found] in *.
      * destruct IH as (A & B & C). repeat split; auto; try lia.
        intros j Hj. destruct (Nat.eq_dec j i); [subst; auto|]. apply C. lia.
      * intros j Hj. destruct (Nat.eq_dec j i); [subst; auto|]. apply IH. lia.
Qed.
Lemma found_unique p f t o1 o2 : found p f t o1 -> found p f t o2 -> o1 = o2.
Proof.
  destruct o1 as [a|], o2 as [b|]; cbn [found]; intros H1 H2; auto.
  - destruct H1 as (A & B & C), H2 as (A' & B' & C').
    destruct (Nat.lt_trichotomy a b) as [H|[H|H]].
    + rewrite C' in B by lia. discriminate.
    + congruence.
    + rewrite C in B' by lia. discriminate.
  - destruct H1 as (A & B & C). rewrite H2 in B by lia. discriminate.
  - destruct H2 as (A & B & C). rewrite H1 in B by lia. discriminate.
Qed.
Lemma next_set_bit_found v i : wfv v ->
  exists o, next_set_bit v i = Ok o /\
   ((dirty_search (v_size v) i = false \/ last_clean (v_size v) (v_blocks v)) -> o = next_index (absv v) i) /\
   (o <> next_index (absv v) i -> next_index (absv v) i = None /\ exists k, o = Some k /\ v_size v <= k).
Proof.
  destruct v as [size b]. unfold wfv, absv, next_set_bit. cbn [v_size v_blocks]. intros H.
  pose proof (found_next (abs size b) i) as N. rewrite abs_length in N.
  destruct (Nat.leb_spec size i) as [G|G].
  { exists None. split; auto. assert (E : None = next_index (abs size b) i).
    { eapply found_unique; [|exact N]. cbn [found]. intros. lia. }
    split; auto. intros C. contradiction. }
  pose proof H as [L W]. assert (P : 0 < size) by lia. pose proof (num_blocks_pos size P).
  pose proof (num_blocks_bound size) as NB. pose proof (idx_lt size i G) as Hi. change BPB with 64.
  rewrite rdb_ok by lia. cbn [bind].
  pose proof (block_found (nth (i / 64) b 0%N) (i / 64) (i mod 64) (min size 64) ltac:(lia) ltac:(lia)) as F1.
  assert (Q : forall j, 64 * (i / 64) <= j < 64 * (i / 64) + 64 -> tb (nth (i / 64) b 0%N) (j - 64 * (i / 64)) = bit b j).
  { intros j Hj. replace j with (64 * (i / 64) + (j - 64 * (i / 64))) at 2 by lia. rewrite bit_at by lia. reflexivity. }
  eapply (found_ext _ (bit b)) in F1; [|intros; apply Q; lia].
  replace (64 * (i / 64) + i mod 64) with i in F1 by lia.
  (* the answer when it is below size *)
  assert (K : forall o, found (bit b) i size o -> o = next_index (abs size b) i).
  { intros o Fo. eapply found_unique; [|exact N]. eapply found_ext; [|exact Fo].
    intros j Hj. rewrite abs_nth. destruct (Nat.ltb_spec j size); [reflexivity|lia]. }
  destruct (if (nth (i / 64) b 0%N =? 0)%N then None else first_bit (nth (i / 64) b 0%N) (i mod 64) (Nat.min size 64) 64)
    as [k|] eqn:EF.
  - exists (Some (i / 64 * 64 + k)). split; auto.
    destruct F1 as (A & B & C). destruct (Nat.lt_ge_cases (i / 64 * 64 + k) size) as [Y|Y].
    + assert (E : Some (i / 64 * 64 + k) = next_index (abs size b) i).
      { apply K. cbn [found]. repeat split; auto; lia. }
      split; auto. intros; contradiction.
    + split.
      * intros [D|D]; exfalso.
        -- unfold dirty_search in D.
           destruct (Nat.ltb_spec 64 size), (Nat.eqb_spec (size mod 64) 0),
             (Nat.eqb_spec (size / 64) (i / 64)), (Nat.ltb_spec i size); cbn in D; try discriminate D; lia.
        -- rewrite D in B by lia. discriminate.
      * intros _. split; [|eauto]. symmetry. apply K. cbn [found]. intros j Hj. apply C. lia.
  - destruct (Nat.eqb_spec (i / 64 + 1) (length b)) as [LB|LB].
    + exists None. split; auto. assert (E : None = next_index (abs size b) i).
      { apply K. cbn [found] in *. intros j Hj. apply F1. lia. }
      split; auto. intros; contradiction.
    + destruct (next_in_blocks_found b (length b - 1 - (i / 64 + 1)) (i / 64 + 1)) as (r & E & R); [lia|].
      rewrite E. cbn [bind].
      assert (S1 : found (bit b) i (64 * (i / 64 + 1)) None).
      { cbn [found] in *. intros j Hj. apply F1. lia. }
      eapply found_seq in R; [|exact S1|lia|lia].
      replace (64 * (i / 64 + 1 + (length b - 1 - (i / 64 + 1)))) with (64 * (length b - 1)) in R by lia.
      destruct r as [k|].
      * exists (Some k). split; auto. assert (E2 : Some k = next_index (abs size b) i).
        { apply K. eapply found_weak; [exact R|]. lia. }
        split; auto. intros; contradiction.
      * rewrite sanitized_ok by lia. cbn [bind]. eexists. split; [reflexivity|].
        assert (E2 : next_in_block (length b - 1) (sanitize size (nth (length b - 1) b 0%N)) = next_index (abs size b) i).
        { pose proof (next_in_block_found (clean size b) (length b - 1)) as F2.
          replace (nth (length b - 1) (clean size b) 0%N) with (sanitize size (nth (length b - 1) b 0%N)) in F2
            by (rewrite clean_upd, nth_upd_eq by lia; reflexivity).
          apply (found_ext _ (fun j => (j <? size) && bit b j)) in F2; [|intros; apply clean_bit; auto].
          apply (found_ext _ (fun j => (j <? size) && bit b j)) in R.
          2:{ intros j Hj. destruct (Nat.ltb_spec j size); [reflexivity|]. lia. }
          eapply found_seq in F2; [|exact R|lia|lia].
          eapply found_unique; [|exact N].
          apply (found_ext _ (fun j => nth j (abs size b) false)) in F2; [|intros; symmetry; apply abs_nth].
          destruct (next_in_block _ _) as [k|]; cbn [found] in *.
          - destruct F2 as (A & B & C). repeat split; auto; try lia.
            destruct (Nat.lt_ge_cases k size); auto. rewrite nth_overflow in B by (rewrite abs_length; auto). discriminate.
          - intros j Hj. apply F2. lia. }
        split; auto. intros; contradiction.
Qed.
