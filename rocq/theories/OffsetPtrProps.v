(* C10 offset_ptr behaves like a raw pointer; C03 relocation law for one pointer *)
From Verif Require Import Base OffsetPtrModel OffsetPtrSpec OffsetPtrProofs.
Local Open Scope Z_scope.

(* C10: any history of assignments, copies, moves, increments and observations on n offset_ptr
   objects, wherever they live, produces the outputs of the same history on n raw pointers. *)
Theorem C10_offset_ptr_like_raw : forall sz at_ n ops raw' xs,
  (forall i, user_address (at_ i)) ->
  raw_run sz (repeat 0 n) ops = Ok (raw', xs) ->
  exists st', run sz at_ (repeat NULLPTR_OFFSET n) ops = Ok (st', xs) /\ length st' = length raw' /\
    forall i p, nth_error raw' i = Some p -> get_cell at_ st' i = Ok p.
Proof. exact like_raw_pointers. Qed.
Print Assumptions C10_offset_ptr_like_raw.

(* Finding: post-increment does not advance the pointer and returns the advanced one;
   for a raw pointer it is the other way round. *)
Theorem C10_post_increment_refuted : exists sz at_ st i tmp st' r,
  user_address (at_ i) /\ user_address tmp /\
  get_cell at_ st i = Ok 1000 /\ post_inc sz at_ st i tmp = Ok (st', r) /\
  r = 1000 + sz /\ get_cell at_ st' i = Ok 1000.
Proof.
  exists 8, (fun _ => 64), [936], 0%nat, 72, [936], 1008. unfold user_address.
  repeat split; vm_compute; congruence.
Qed.
Print Assumptions C10_post_increment_refuted.

(* C03 (one pointer): moving an offset_ptr and its target by the same distance keeps the bytes
   and the pointer still leads to the (moved) target. *)
Theorem C03_offset_ptr_relocation : forall this off d p,
  get this off = Ok p -> p <> 0 \/ off = NULLPTR_OFFSET -> in_i64 (p + d) = true ->
  get (this + d) off = Ok (if off =? NULLPTR_OFFSET then 0 else p + d).
Proof. exact relocate. Qed.
Print Assumptions C03_offset_ptr_relocation.

Example C10_example :
  let ops := [SetPtr 0 4096; Copy 1 0; PreInc 1; Get 1; Less 0 1; Move 2 1; SetNull 0; IsSet 0; Get 2; Plus 2 (-3)]%nat in
  exists raw, raw_run 8 (repeat 0 3) ops = Ok (raw,
    [Nothing; Nothing; Nothing; Ptr 4104; Flag true; Nothing; Nothing; Flag false; Ptr 4104; Ptr 4080]).
Proof. eexists. vm_compute. reflexivity. Qed.
Example C03_offset_ptr_relocation_example :
  get 4096 (-96) = Ok 4000 /\ get (4096 + 500) (-96) = Ok 4500.
Proof. split; reflexivity. Qed.
