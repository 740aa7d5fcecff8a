(* C16 bitset, C17 bitvec. *)
From Verif Require Import Base ArithModel BitModel BitSpec BitProofs BitShift BitRefine AtomicSpec AtomicProofs.

(* C16. Every history of operations on any number of bitset<n> objects returns what the same history
   on n-bit sequences returns; it never runs into undefined behaviour. *)
Theorem C16_bitset : forall n k ops sp outs, 0 < n ->
  sspec_run n (repeat (falses n) k) ops = Some (sp, outs) ->
  exists st, srun n (repeat (zero_blocks n) k) ops = Ok (st, outs).
Proof. exact bitset_refines. Qed.
Print Assumptions C16_bitset.

Example C16_example : exists sp outs,
  sspec_run 70 (repeat (falses 70) 2)
    [SMax 0; SShl 0 3; SCount 0; SSet 0 69 false; SAny 0; SNot 1 0; SEach 1; SShr 0 64; SStr 0; SLt 1 0;
     SSet 0 100 true; SCount 0; SEq 0 0; SXor 0 1; STest 0 69] = Some (sp, outs) /\
  outs = [BNone; BNone; BNum 67; BNone; BBool true; BNone; BIdx [0; 1; 2; 69]; BNone;
          BBits (falses 65 ++ repeat true 5); BBool false; BNone; BNum 5; BBool true; BNone; BBool true].
Proof. do 2 eexists. split; vm_compute; reflexivity. Qed.

(* C17. The same for bitvec, whose size changes with resize and set(string). Left out are shifts by at
   least the size, reset(), and next_set_bit from a position in a partly used last block (not the
   first): for these the statement is false, as shown below. *)
Theorem C17_bitvec_partial : forall k ops sp outs,
  vspec_run (repeat [] k) ops = Some (sp, outs) ->
  exists st, vrun (repeat (BV 0 []) k) ops = Ok (st, outs).
Proof. exact bitvec_refines. Qed.
Print Assumptions C17_bitvec_partial.

(* next_set_bit from any position: right, or an index behind the end where there is no set bit *)
Theorem C17_next_set_bit_partial : forall k ops sp outs st r v i,
  vspec_run (repeat [] k) ops = Some (sp, outs) ->
  vrun (repeat (BV 0 []) k) ops = Ok (st, outs) ->
  nth_error st r = Some v ->
  exists l o, nth_error sp r = Some l /\ next_set_bit v i = Ok o /\
    (o = next_index l i \/ (next_index l i = None /\ exists j, o = Some j /\ length l <= j)).
Proof. exact bitvec_next. Qed.
Print Assumptions C17_next_set_bit_partial.

(* exact from every position if the unused bits are 0, which all operations but one_out, max, ~, <<
   and shrinking maintain *)
Theorem C17_next_set_bit_exact : forall k ops sp outs st r v l e,
  vspec_run (repeat [] k) ops = Some (sp, outs) -> vrun (repeat (BV 0 []) k) ops = Ok (st, outs) ->
  nth_error st r = Some v -> nth_error sp r = Some l ->
  (length l <= 64 \/ length l mod 64 = 0 \/ unused_bits_zero v) ->
  next_set_bit v e = Ok (next_index l e).
Proof. exact history_next. Qed.
Print Assumptions C17_next_set_bit_exact.
Theorem C17_unused_bits_zero : forall k ops sp outs st r v,
  vspec_run (repeat [] k) ops = Some (sp, outs) -> vrun (repeat (BV 0 []) k) ops = Ok (st, outs) ->
  all_keep (repeat [] k) ops = true -> nth_error st r = Some v -> unused_bits_zero v.
Proof. exact history_unused_zero. Qed.
Print Assumptions C17_unused_bits_zero.

Example C17_example : exists sp outs,
  vspec_run (repeat [] 2)
    [VResize 0 70; VSet 0 69 true; VSet 0 3 true; VNext 0 4; VShr 0 66; VStr 0; VResize 0 200; VOneOut 0;
     VResize 0 130; VCount 0; VShl 0 129; VEach 0; VResize 0 140; VCount 0; VCopy 1 0; VNot 1 1; VLt 0 1;
     VEq 0 1; VSetStr 1 [true; false]; VNext 1 0] = Some (sp, outs) /\
  outs = [BNone; BNone; BNone; BOpt (Some 69); BNone; BBits (falses 66 ++ [true; false; false; false]);
          BNone; BNone; BNone; BNum 130; BNone; BIdx [129]; BNone; BNum 1; BNone; BNone; BBool true;
          BBool false; BNone; BOpt (Some 1)].
Proof. do 2 eexists. split; vm_compute; reflexivity. Qed.
Example C17_keep_example :
  all_keep (repeat [] 1) [VResize 0 70; VSet 0 69 true; VResize 0 100; VShr 0 5; VSet 0 2 true] = true.
Proof. vm_compute. reflexivity. Qed.

(* Finding: shifting a bitvec by its size or more empties the block vector but keeps the size, so the
   next test() or count() reads a block that does not exist. *)
Theorem C17_full_shift_refuted : exists ops i,
  vrun [BV 0 []] (ops ++ [VTest 0 i]) = UB /\
  exists st outs v, vrun [BV 0 []] ops = Ok (st, outs) /\ nth_error st 0 = Some v /\ i < v_size v.
Proof.
  exists [VResize 0 8; VSet 0 3 true; VShr 0 8], 0. split; [vm_compute; reflexivity|].
  do 3 eexists. split; [vm_compute; reflexivity|]. split; [vm_compute; reflexivity|].
  apply Nat.ltb_lt. vm_compute. reflexivity.
Qed.
Print Assumptions C17_full_shift_refuted.
(* the same after reset() *)
Theorem C17_reset_refuted : exists v, 0 < v_size v /\ wfv v /\
  count (v_size (bv_reset v)) (v_blocks (bv_reset v)) = UB /\
  test (v_size (bv_reset v)) (v_blocks (bv_reset v)) 0 = UB.
Proof.
  exists (BV 8 [5%N]). split; [apply Nat.ltb_lt; reflexivity|].
  split; [split; [reflexivity|constructor; [reflexivity|constructor]]|].
  split; vm_compute; reflexivity.
Qed.
Print Assumptions C17_reset_refuted.
(* Finding: next_set_bit returns an index at or behind the size after shrinking (or ~, <<, one_out). *)
Theorem C17_next_set_bit_refuted : exists ops st outs v i j,
  vrun [BV 0 []] ops = Ok (st, outs) /\ nth_error st 0 = Some v /\
  next_set_bit v i = Ok (Some j) /\ v_size v <= j.
Proof.
  exists [VResize 0 128; VSet 0 100 true; VResize 0 70]. do 3 eexists. exists 65. eexists.
  split; [vm_compute; reflexivity|]. split; [vm_compute; reflexivity|].
  split; [vm_compute; reflexivity|]. apply Nat.leb_le. vm_compute. reflexivity.
Qed.
Print Assumptions C17_next_set_bit_refuted.
(* Finding: a bitvec made of more blocks than its size needs counts bits behind its end. *)
Theorem C17_adopt_refuted : exists st,
  vrun [BV 0 []] [VAdopt 0 [1%N; 1%N] 3; VSize 0; VTest 0 0; VTest 0 1; VTest 0 2; VCount 0] =
    Ok (st, [BNone; BNum 3; BBool true; BBool false; BBool false; BNum 2]).
Proof. eexists. vm_compute. reflexivity. Qed.
Print Assumptions C17_adopt_refuted.
Example C17_adopt_example : exists sp,
  vspec_run [[]] [VAdopt 0 [5%N; 6%N] 67; VEach 0; VResize 0 65; VCount 0; VAdopt 0 [7%N] 64; VCount 0] =
    Some (sp, [BNone; BIdx [0; 2; 65; 66]; BNone; BNum 2; BNone; BNum 3]).
Proof. eexists. vm_compute. reflexivity. Qed.
