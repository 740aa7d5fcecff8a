(* C18 get_next, C19 atomic set, C20 fetch_min / fetch_max: every schedule of every number of threads. *)
From Coq Require Import Permutation.
From Verif Require Import Base ArithModel BitModel BitSpec BitProofs BitShift BitRefine
  AtomicModel AtomicSpec AtomicProofs.

(* C18. For a bitvec built by any history that denotes the bit sequence l and whose unused bits cannot
   be seen (at most one block, whole blocks, or unused bits 0): under every schedule of n threads calling
   get_next with a shared counter that starts at start, the results in order of effect are the set bits
   from start on up to the counter, each once; a call that returned nothing implies that all of them have
   been handed out. No call runs into undefined behaviour. *)
Theorem C18_get_next : forall k ops sp outs st r v l start n sch,
  vspec_run (repeat [] k) ops = Some (sp, outs) -> vrun (repeat (BV 0 []) k) ops = Ok (st, outs) ->
  nth_error st r = Some v -> nth_error sp r = Some l ->
  (length l <= 64 \/ length l mod 64 = 0 \/ unused_bits_zero v) ->
  exists s, grun v (ginit start n) sch = Ok s /\
    handed_out s = filter (fun i => i <? g_next s) (bits_from l start) /\
    NoDup (handed_out s) /\
    (forall t, In (t, None) (g_log s) -> handed_out s = bits_from l start).
Proof.
  intros k ops sp outs st r v l start n sch H E N N' C.
  exact (get_next_correct v l start (fun e => history_next k ops sp outs st r v l e H E N N' C) n sch).
Qed.
Print Assumptions C18_get_next.

Example C18_example : exists sp outs st v s,
  let ops := [VResize 0 100; VSet 0 3 true; VSet 0 70 true; VSet 0 99 true] in
  vspec_run [[]] ops = Some (sp, outs) /\ vrun [BV 0 []] ops = Ok (st, outs) /\ nth_error st 0 = Some v /\
  all_keep [[]] ops = true /\
  grun v (ginit 0 2) [(0, false); (1, false); (1, false); (0, false); (0, true); (0, true); (0, false);
    (1, false); (0, false); (1, false); (1, false); (1, false); (0, false)] = Ok s /\
  g_log s = [(0, None); (1, Some 99); (0, Some 70); (1, Some 3)].
Proof.
  do 5 eexists. cbv zeta. split; [vm_compute; reflexivity|]. split; [vm_compute; reflexivity|].
  split; [vm_compute; reflexivity|]. split; [vm_compute; reflexivity|].
  split; [vm_compute; reflexivity|]. vm_compute. reflexivity.
Qed.
(* Finding: without the condition get_next hands out an index behind the end of the vector. *)
Theorem C18_garbage_refuted : exists ops st outs v s i,
  vrun [BV 0 []] ops = Ok (st, outs) /\ nth_error st 0 = Some v /\
  grun v (ginit 65 1) [(0, false); (0, false)] = Ok s /\ In (0, Some i) (g_log s) /\ v_size v <= i.
Proof.
  exists [VResize 0 128; VSet 0 100 true; VResize 0 70]. do 4 eexists. exists 100.
  split; [vm_compute; reflexivity|]. split; [vm_compute; reflexivity|].
  split; [vm_compute; reflexivity|]. split; [left; vm_compute; reflexivity|].
  apply Nat.leb_le. vm_compute. reflexivity.
Qed.
Print Assumptions C18_garbage_refuted.

(* C19. When all threads have made their calls of set<true>: a bit nobody wrote is unchanged, a bit on
   which all calls agree has their value. With only true written: exactly the bits set before or by some
   thread are set. *)
Theorem C19_atomic_set : forall v calls sch, wfv v ->
  (forall i x, In (i, x) (all_calls calls) -> i < v_size v) ->
  exists s, brun (BS (v_blocks v) calls) sch = Ok s /\
   (bdone s = true ->
     let v' := BV (v_size v) (b_blocks s) in
     wfv v' /\
     (forall j, (forall x, ~ In (j, x) (all_calls calls)) -> nth j (absv v') false = nth j (absv v) false) /\
     (forall j x, In (j, x) (all_calls calls) -> (forall x', In (j, x') (all_calls calls) -> x' = x) ->
        nth j (absv v') false = x)).
Proof. exact atomic_sets_correct. Qed.
Print Assumptions C19_atomic_set.
Theorem C19_no_lost_bit : forall v calls sch, wfv v ->
  (forall i x, In (i, x) (all_calls calls) -> i < v_size v /\ x = true) ->
  exists s, brun (BS (v_blocks v) calls) sch = Ok s /\
   (bdone s = true -> forall j, nth j (absv (BV (v_size v) (b_blocks s))) false = true <->
      nth j (absv v) false = true \/ In (j, true) (all_calls calls)).
Proof. exact atomic_sets_union. Qed.
Print Assumptions C19_no_lost_bit.
Example C19_example : exists s,
  brun (BS [1%N; 0%N] [[(3, true); (0, false)]; [(69, true)]]) [1; 0; 0] = Ok s /\
  bdone s = true /\ b_blocks s = [8%N; 32%N].
Proof. eexists. split; [vm_compute; reflexivity|]. split; vm_compute; reflexivity. Qed.
(* the plain set loses updates when used by two threads *)
Theorem C19_plain_set_refuted : exists calls sch s,
  nrun (NS [0%N] (map (NT None) calls)) sch = Ok s /\
  forallb (fun t => match n_todo t with [] => true | _ => false end) (n_threads s) = true /\
  In (0, true) (all_calls calls) /\ nth 0 (absv (BV 2 (n_blocks s))) false = false.
Proof.
  exists [[(0, true)]; [(1, true)]], [0; 1; 0; 1]. eexists. split; [vm_compute; reflexivity|].
  split; [vm_compute; reflexivity|]. split; [left; reflexivity|]. vm_compute. reflexivity.
Qed.
Print Assumptions C19_plain_set_refuted.

(* C20. fetch_min: at every moment of every schedule the calls that took effect, in order, are a
   sequential history (each returned the value it found); when all threads are done, every call took
   effect and the cell holds the minimum of the initial value and all arguments. *)
Theorem C20_fetch_min : forall x calls sch,
  let s := fetch_min_run (finit x calls) sch in
  sequential Z.min x (f_log s) (f_cell s) /\
  (fdone s = true -> Permutation (map fst (f_log s)) (all_calls calls) /\
                     f_cell s = fold_right Z.min x (all_calls calls)).
Proof. exact fetch_min_correct. Qed.
Print Assumptions C20_fetch_min.
Example C20_example :
  let s := fetch_min_run (finit 10 [[7]; [3; 12]; [5]]%Z)
    [(0, false); (1, false); (2, false); (1, true); (1, false); (0, false); (0, false); (2, false); (2, false);
     (1, false)] in
  fdone s = true /\ f_cell s = 3%Z.
Proof. split; vm_compute; reflexivity. Qed.

(* Finding: fetch_max tests old > val as fetch_min does, so no schedule of calls ever changes the cell. *)
Theorem C20_fetch_max_noop : forall x calls sch, f_cell (fetch_max_run (finit x calls) sch) = x.
Proof. exact fetch_max_noop. Qed.
Print Assumptions C20_fetch_max_noop.
Theorem C20_fetch_max_refuted : exists x calls sch,
  let s := fetch_max_run (finit x calls) sch in
  fdone s = true /\ f_cell s <> fold_right Z.max x (all_calls calls).
Proof. exists 3%Z, [[5%Z]], [(0, false)]. split; vm_compute; [reflexivity|discriminate]. Qed.
Print Assumptions C20_fetch_max_refuted.
