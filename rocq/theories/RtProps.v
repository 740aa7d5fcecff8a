(* C29: searching an rtree reports exactly the stored entries that overlap the query. *)
From Coq Require Import Permutation.
From Verif Require Import Base RtModel RtSpec RtProofs RtTree.

(* Every history of inserts, deletes, searches: the outcomes are those of a plain collection of entries. The fixed path_hint_ array bounds the
   height of the tree, and so the number of inserts: fewer than m + m^2 + ... + m^(Hints + 1), where m is the least filling of a split node. *)
Theorem C29_rtree_exact :
  forall (C : Type) (lt : C -> C -> bool) (c0 : C) (D : Type) (diff : C -> C -> D) (mulD subD : D -> D -> D) (oneD infD : D) (ltD : D -> D -> bool)
    (V : Type) (Dims MaxItems Hints : nat) (veq : V -> V -> bool) (ops : list (op C V)),
  order_ok lt -> 0 < Dims -> 3 <= MaxItems -> Forall (op_ok C V Dims) ops -> inserts C V ops < gsum (min_items MaxItems) (S Hints) ->
  exists t s outs, run C lt c0 D diff mulD subD oneD infD ltD V Dims MaxItems Hints veq (empty C c0 V Dims Hints) ops = Ok (t, outs) /\ sruns C lt V veq [] ops s outs.
Proof.
  intros C lt c0 D diff mulD subD oneD infD ltD V Dims MaxItems Hints veq ops O HD HM Ho HI.
  destruct (run_ok C lt c0 D diff mulD subD oneD infD ltD V Dims MaxItems Hints O HD HM veq ops 0 _ [] (inv_empty C lt c0 V Dims MaxItems Hints) Ho HI) as (t & s & xs & E & _ & Sp). eauto.
Qed.
Print Assumptions C29_rtree_exact.

Lemma gsum_default : 2 ^ 34 <= gsum (min_items 64) (S 16).
Proof.
  change (min_items 64) with 7. cbn [gsum]. replace 34 with (2 * 17) by reflexivity. rewrite Nat.pow_mul_r. change (2 ^ 2) with 4. etransitivity; [apply (Nat.pow_le_mono_l 4 7 17); apply Nat.leb_le; reflexivity|]. apply Nat.le_add_l.
Qed.
(* the default parameters: nodes of 64 entries, path_hint_ of 16 *)
Theorem C29_rtree_exact_default :
  forall (C : Type) (lt : C -> C -> bool) (c0 : C) (D : Type) (diff : C -> C -> D) (mulD subD : D -> D -> D) (oneD infD : D) (ltD : D -> D -> bool)
    (V : Type) (veq : V -> V -> bool) (ops : list (op C V)),
  order_ok lt -> Forall (op_ok C V 2) ops -> inserts C V ops < 2 ^ 34 ->
  exists t s outs, run C lt c0 D diff mulD subD oneD infD ltD V 2 64 16 veq (empty C c0 V 2 16) ops = Ok (t, outs) /\ sruns C lt V veq [] ops s outs.
Proof.
  intros C lt c0 D diff mulD subD oneD infD ltD V veq ops O Ho HI. assert (X : inserts C V ops < gsum (min_items 64) (S 16)) by (eapply Nat.lt_le_trans; [exact HI|apply gsum_default]). clear HI.
  apply C29_rtree_exact; [exact O|apply Nat.lt_0_succ|apply Nat.leb_le; reflexivity|exact Ho|exact X].
Qed.
Print Assumptions C29_rtree_exact_default.

(* an instance: integer coordinates *)
Definition zrun (M : nat) := run Z Z.ltb 0%Z Z Z.sub Z.mul Z.sub 1%Z (2 ^ 200)%Z Z.ltb nat 2 M 16 Nat.eqb (empty Z 0%Z nat 2 16).
Definition R (a b c d : Z) : rect Z := [(a, c); (b, d)].
Lemma zlt_ok : order_ok Z.ltb.
Proof. split; intros; lia. Qed.
Definition ops1 : list (op Z nat) :=
  map (fun i => let z := Z.of_nat i in Insert Z nat (R (z * 7 mod 11) (z * 5 mod 13) (z * 7 mod 11 + 1) (z * 5 mod 13 + z mod 3)) i) (seq 0 12)
  ++ [Search Z nat (R 0 0 3 3) (fun _ => true); Delete Z nat (R 7 5 8 6) 1; DeleteIf Z nat (R 3 10 3 10) (fun e => Nat.even (snd e)); Size Z nat; Search Z nat (R 0 0 20 20) (fun e => negb (snd e =? 7))].
Example C29_example : inserts Z nat ops1 < gsum (min_items 3) 17 /\ Forall (op_ok Z nat 2) ops1 /\
  match zrun 3 ops1 with
  | Ok (t, outs) => height _ _ t = 3 /\ skipn 12 outs = [OCalls _ _ [(R 0 0 1 0, 0); (R 1 1 2 3, 8); (R 0 3 1 5, 11)]; OUnit _ _; OUnit _ _; OSize _ _ 10;
      OCalls _ _ [(R 8 6 9 6, 9); (R 0 0 1 0, 0); (R 1 1 2 3, 8); (R 0 3 1 5, 11); (R 10 2 11 2, 3); (R 9 4 10 4, 6); (R 6 7 7 8, 4); (R 5 9 6 10, 7)]]
  | _ => False
  end.
Proof. split; [vm_compute; lia|]. split; [repeat constructor|]. vm_compute. auto. Qed.

(* With nodes of 3 entries, 40 inserts are enough to write past the end of path_hint_. *)
Definition shrinking (n : nat) : list (op Z nat) := map (fun i => let x := (2 ^ (60 - Z.of_nat i))%Z in Insert Z nat (R x 0 x 1) i) (seq 0 n).
Theorem C29_path_hint_overflow_refuted : Forall (op_ok Z nat 2) (shrinking 40) /\ zrun 3 (shrinking 40) = UB.
Proof. split; [repeat constructor|vm_compute; reflexivity]. Qed.
Print Assumptions C29_path_hint_overflow_refuted.

(* delete_element_with_function does not honour its rectangle: it deletes an entry far away from it, *)
Theorem C29_delete_with_function_elsewhere_refuted :
  match zrun 64 [Insert Z nat (R 0 0 1 1) 5; DeleteIf Z nat (R 100 100 101 101) (fun _ => true); Size Z nat] with Ok (_, outs) => outs = [OUnit _ _; OUnit _ _; OSize _ _ 0] | _ => False end.
Proof. vm_compute. reflexivity. Qed.
Print Assumptions C29_delete_with_function_elsewhere_refuted.
(* and leaves an entry that overlaps it. *)
Theorem C29_delete_with_function_misses_overlapping_refuted :
  match zrun 3 [Insert Z nat (R 0 0 1 1) 1; Insert Z nat (R 2 0 3 1) 2; Insert Z nat (R 20 0 21 1) 3; Insert Z nat (R 22 0 23 1) 4; DeleteIf Z nat (R 1 0 20 1) (fun _ => true); Size Z nat] with
  | Ok (_, outs) => nth_error outs 5 = Some (OSize _ _ 4) | _ => False end.
Proof. vm_compute. reflexivity. Qed.
Print Assumptions C29_delete_with_function_misses_overlapping_refuted.
