(* C59: vectors own their memory; loaded buffers are left alone. *)
From Verif Require Import Base ArithModel ArithProofs VecModel VecSpec VecProofs VmemModel VmemSpec VmemProofs.

Notation size_width := npo2_width.   (* size types of 8, 16, 32 or 64 bits *)

(* Every history inside the preconditions, over any number of vectors, new and loaded from buffers, runs without undefined behaviour: no block is freed
   twice, no buffer is freed, no freed block is read or written. Each block in use then has exactly one vector as its owner, the vectors hold the sequences
   they should, and when the vectors are destroyed all blocks are freed. Missing for the full claim: elements of loaded vectors are not destroyed (below). *)
Theorem C59_memory_partial (A : Type) (w : N) (triv : bool) (dflt : A) (eqA ltA : A -> A -> bool) n ops st outs :
  size_width w ->
  history A (fits w) (fitsN w) dflt eqA ltA (repeat [] n) ops st outs ->
  exists m, mrun A w triv dflt eqA ltA (start A n) ops = Ok (m, outs) /\ owned A m /\
    (forall r ys, nth_error st r = Some ys -> mstep A w triv dflt eqA ltA m (All r) = Ok (m, OList ys)) /\
    exists m', mrun A w triv dflt eqA ltA (start A n) (ops ++ map New (seq 0 n)) = Ok (m', outs ++ repeat ONone n) /\ forall b, ~ in_use A m' b.
Proof. intros H. exact (memory_ok A w triv dflt eqA ltA H n ops st outs). Qed.
Print Assumptions C59_memory_partial.

(* A buffer changes only through the vector that was loaded from it. *)
Theorem C59_buffers (A : Type) (w : N) (triv : bool) (dflt : A) (eqA ltA : A -> A -> bool) m o m' x e l :
  mstep A w triv dflt eqA ltA m o = Ok (m', x) -> nth_error (bufs m) e = Some l ->
  (forall r, touches A o r -> ~ holds A m r (Buf e)) -> nth_error (bufs m') e = Some l.
Proof. exact (buffers_ok A w triv dflt eqA ltA m o m' x e l). Qed.
Print Assumptions C59_buffers.

Notation runM := (mrun nat 32 false 0 Nat.eqb Nat.ltb).
(* growth of a new and of a loaded vector, a move and a copy: the loaded vector has left its buffer, the block of the first vector has moved on *)
Definition demo : list (op nat) := [Push 0 5; Push 0 6; View 1 [1; 2]; Write 1 0 9; Move 2 0; Push 1 3; Copy 0 1; All 2].
Ltac use_on := eapply on_; [reflexivity|cbn; try exact I; try lia|unfold fits; apply N.leb_le; vm_compute; reflexivity].
Example C59_demo_history : history nat (fits 32) (fitsN 32) 0 Nat.eqb Nat.ltb (repeat [] 3) demo [[9; 2; 3]; [9; 2; 3]; [5; 6]]
  [ONone; ONone; ONone; ONone; ONone; ONone; ONone; OList [5; 6]].
Proof.
  eapply h_cons; [apply s_push; use_on|cbn]. eapply h_cons; [apply s_push; use_on|cbn]. eapply h_cons; [apply s_view with (ys := [1; 2]); use_on|cbn].
  eapply h_cons; [apply s_write; use_on|cbn]. eapply h_cons; [eapply s_move; reflexivity|cbn]. eapply h_cons; [apply s_push; use_on|cbn].
  eapply h_cons; [eapply s_copy with (ys := [9; 2; 3]); [reflexivity|use_on]|cbn]. eapply h_cons; [apply s_all; reflexivity|]. apply h_nil.
Qed.
Example C59_demo_memory : runM (start nat 3) demo = Ok (
  World [None; Some [Live 5; Live 6]; Some [Live 9; Live 2; Live 3; Raw]; Some [Live 9; Live 2; Live 3; Raw]] [[Raw; Raw]]
    [MV (Own 3) 3 4 true 0; MV (Own 2) 3 4 true 0; MV (Own 1) 2 2 true 0],
  [ONone; ONone; ONone; ONone; ONone; ONone; ONone; OList [5; 6]]).
Proof. vm_compute. reflexivity. Qed.
Example C59_demo_end : exists m, runM (start nat 3) (demo ++ map New (seq 0 3)) = Ok (m, [ONone; ONone; ONone; ONone; ONone; ONone; ONone; OList [5; 6]; ONone; ONone; ONone])
  /\ heap m = [None; None; None; None].
Proof. eexists. split; vm_compute; reflexivity. Qed.

(* Outside the claim. A vector loaded from a buffer does not destroy its elements: what was assigned to one of them (here 9, think of a string with a
   block of its own) is never destroyed, where a vector with its own block destroys it. *)
Theorem C59_loaded_elements_refuted :
  (exists m, runM (start nat 1) [View 0 [1; 2]; Write 0 0 9; New 0] = Ok (m, [ONone; ONone; ONone]) /\ bufs m = [[Live 9; Live 2]] /\ vecs m = [MV Nil 0 0 false 0]) /\
  (exists m, runM (start nat 1) [Set_ 0 [1; 2]; Write 0 0 9; New 0] = Ok (m, [ONone; ONone; ONone]) /\ heap m = [None] /\ vecs m = [MV Nil 0 0 false 0]).
Proof. split; eexists; (split; [vm_compute; reflexivity|split; reflexivity]). Qed.
Print Assumptions C59_loaded_elements_refuted.

(* reset() can be called from outside: the block stays in use without an owner *)
Theorem C59_reset_refuted :
  exists m m', runM (start nat 1) [Push 0 5] = Ok (m, [ONone]) /\ mreset nat m 0 = Ok m' /\ in_use nat m' 0 /\ ~ exists r, holds nat m' r (Own 0).
Proof.
  eexists. eexists. split; [vm_compute; reflexivity|]. split; [vm_compute; reflexivity|]. split; [eexists; reflexivity|].
  intros (r & v & N & E). destruct r as [|[|r]]; try discriminate. injection N as <-. discriminate.
Qed.
Print Assumptions C59_reset_refuted.
