(* C61: nested vectors own their memory: copies are deep, every block belongs to one place, and all memory is freed exactly once. *)
From Verif Require Import Base ArithModel ArithProofs DmemModel DmemSpec DmemProofs DmemOps DmemPath DmemTop.

(* Programs with variables that are scalars, vectors, vectors of vectors and so on, which append, insert, copy, move, erase, resize and write at any
   depth. If the program does nothing that the specification leaves out, then it has the answers of the specification, where values are trees that
   are copied as a whole; each block in use belongs to exactly one place in one variable; and the destructors at the end free every block, none
   twice (freeing a block that is not in use is UB). Sources may lie in the same variable as the target, and a place
   may be assigned to itself. Missing: a source that lies in its target or the other way round, and copying over, or shrinking, vectors of vectors that have elements; for these see below. *)
Theorem C61_nested_partial : forall w vars os vs l,
  npo2_width w -> arun w vars (map zero vars) os = Some (vs, l) ->
  exists h, run w vars (start vars) os = Ok (h, l) /\ holds w vars h vs /\
    exists h', finish h 0 vars = Ok h' /\ forall b, in_use h' b <-> b = 0.
Proof.
  intros w vars os vs l Hw E. destruct (run_ok w Hw vars os _ _ _ _ _ (start_inv w vars) E) as (h & FF & R & I). exists h. split; [exact R|]. split; [exact (inv_holds w vars h vs FF I)|].
  exact (finish_inv w vars h vs FF I).
Qed.
Print Assumptions C61_nested_partial.

(* Copies are deep: after a copy, any program that changes only other places leaves the copy as it was, also if it changes the source. *)
Theorem C61_deep_copy_partial : forall w vars os vs l r s x vs1 os2 vs2 l2,
  npo2_width w -> arun w vars (map zero vars) os = Some (vs, l) ->
  aref vs s = Some x -> astep w vars vs (Copy r s) = Some (vs1, None_) ->
  arun w vars vs1 os2 = Some (vs2, l2) -> (forall o m, In o os2 -> In m (modified o) -> separate m r = true) ->
  exists h, run w vars (start vars) (os ++ Copy r s :: os2) = Ok (h, l ++ None_ :: l2) /\ aref vs2 r = Some x /\ holds w vars h vs2.
Proof.
  intros w vars os vs l r s x vs1 os2 vs2 l2 Hw E A C E2 K. destruct (run_ok w Hw vars os _ _ _ _ _ (start_inv w vars) E) as (h & FF & R & I).
  destruct (step_ok w Hw vars _ _ _ _ _ _ I C) as (h1 & FF1 & R1 & I1). destruct (run_ok w Hw vars os2 _ _ _ _ _ I1 E2) as (h2 & FF2 & R2 & I2). exists h2. split.
  - clear - R R1 R2. revert R. generalize (start vars). revert l. induction os as [|o os IH]; intros l h0 R; cbn [run app] in *.
    + injection R as -> <-. rewrite R1. cbn [bind]. rewrite R2. reflexivity.
    + destruct (step w vars h0 o) as [[h3 a]| | |]; try discriminate R. cbn [bind] in *. destruct (run w vars h3 os) as [[h4 l4]| | |] eqn:E4; try discriminate R. cbn [bind] in R. injection R as -> <-.
      rewrite (IH _ _ E4). reflexivity.
  - split; [|exact (inv_holds w vars _ _ _ I2)]. rewrite (run_keeps w vars os2 vs1 vs2 l2 r E2 K). exact (copy_reads w vars vs r s x vs1 A C).
Qed.
Print Assumptions C61_deep_copy_partial.

Definition vv : dty := DV (DV DS).
(* Copying over a vector of vectors that has elements: its elements are forgotten, their memory is never freed. *)
Theorem C61_copy_over_refuted :
  ~ (forall os h l, run 32 [vv; vv; DV DS] (start [vv; vv; DV DS]) os = Ok (h, l) -> exists h', finish h 0 [vv; vv; DV DS] = Ok h' /\ forall b, in_use h' b -> b = 0).
Proof.
  intros H. pose (os := [Resize (2, []) 1; Push (0, []) (2, []) false; Push (1, []) (2, []) false; Copy (0, []) (1, [])]).
  destruct (run 32 [vv; vv; DV DS] (start [vv; vv; DV DS]) os) as [[h l]| | |] eqn:E; [|vm_compute in E; discriminate..].
  destruct (H os h l E) as (h' & F & U). vm_compute in E. injection E as <- <-. vm_compute in F. injection F as <-. specialize (U 3). unfold in_use in U. cbn in U. discriminate U. discriminate.
Qed.
(* The same for making a vector of vectors shorter with resize. *)
Theorem C61_shrink_refuted :
  ~ (forall os h l, run 32 [vv; DV DS] (start [vv; DV DS]) os = Ok (h, l) -> exists h', finish h 0 [vv; DV DS] = Ok h' /\ forall b, in_use h' b -> b = 0).
Proof.
  intros H. pose (os := [Resize (1, []) 1; Push (0, []) (1, []) false; Resize (0, []) 0]).
  destruct (run 32 [vv; DV DS] (start [vv; DV DS]) os) as [[h l]| | |] eqn:E; [|vm_compute in E; discriminate..].
  destruct (H os h l E) as (h' & F & U). vm_compute in E. injection E as <- <-. vm_compute in F. injection F as <-. specialize (U 3). unfold in_use in U. cbn in U. discriminate U. discriminate.
Qed.
(* x.push_back(x[0]) reads freed memory when the vector has to grow; with free capacity it works. *)
Theorem C61_push_own_element_refuted :
  run 32 [DV DS] (start [DV DS]) [Resize (0, []) 1; Push (0, []) (0, [0]) false] = UB /\
  (exists h, run 32 [DV DS] (start [DV DS]) [Resize (0, []) 1; Reserve (0, []) 2; Push (0, []) (0, [0]) false] = Ok (h, [None_; None_; None_])).
Proof. split; [vm_compute; reflexivity|eexists; vm_compute; reflexivity]. Qed.

(* A program of three variables at work: nested elements are filled, copied, written, moved, inserted and erased. *)
Definition prog : list op :=
  [ Resize (2, []) 2; Write (2, [0]) 7; Push (0, []) (2, []) false; Write (2, [0]) 8; Push (0, []) (2, []) false; Copy (1, []) (0, []); Write (0, [1; 1]) 9;
    Read (0, [1; 1]); Read (1, [1; 1]); Move (1, [0]) (2, []); Read (1, [0; 0]); Size (2, []); Insert (0, []) 1 (1, [0]) true; Size (1, [0]); Read (0, [1; 0]); Erase (0, []) 0; Read (0, [1; 1]); Pop (1, []); Clear (0, []); Size (1, []) ].
Example C61_example : exists vs h, arun 32 [vv; vv; DV DS] (map zero [vv; vv; DV DS]) prog =
    Some (vs, [None_; None_; None_; None_; None_; None_; None_; Num 9; Num 0; None_; Num 8; Num 0; None_; Num 0; Num 8; None_; Num 9; None_; None_; Num 1])
  /\ run 32 [vv; vv; DV DS] (start [vv; vv; DV DS]) prog =
    Ok (h, [None_; None_; None_; None_; None_; None_; None_; Num 9; Num 0; None_; Num 8; Num 0; None_; Num 0; Num 8; None_; Num 9; None_; None_; Num 1])
  /\ vs = [VL []; VL [VL []]; VL []].
Proof. do 2 eexists. split; [vm_compute; reflexivity|]. split; [vm_compute; reflexivity|]. reflexivity. Qed.

(* Sources in the same variable: x[0] = x[1], x[1] = std::move(x[0]), x[0].push_back(x[1][1]), and assignments to itself, of which the move empties. *)
Definition prog2 : list op :=
  [ Resize (0, []) 3; Resize (0, [1]) 2; Write (0, [1; 1]) 5; Copy (0, [0]) (0, [1]); Write (0, [1; 0]) 6; Read (0, [0; 0]); Read (0, [0; 1]); Push (0, [0]) (0, [1; 0]) false; Read (0, [0; 2]);
    Move (0, [1]) (0, [0]); Size (0, [0]); Size (0, [1]); Insert (0, [2]) 0 (0, [1; 2]) true; Copy (0, [1]) (0, [1]); Size (0, [1]); Copy (0, []) (0, []); Read (0, [2; 0]); Move (0, [1]) (0, [1]); Size (0, [1]) ].
Example C61_same_variable_example : exists vs h l, arun 32 [vv] (map zero [vv]) prog2 = Some (vs, l) /\ run 32 [vv] (start [vv]) prog2 = Ok (h, l)
  /\ vs = [VL [VL []; VL []; VL [VS 6]]] /\ filter (fun a => match a with Num _ => true | None_ => false end) l = [Num 0; Num 5; Num 6; Num 0; Num 3; Num 3; Num 6; Num 0].
Proof. do 3 eexists. split; [vm_compute; reflexivity|]. split; [vm_compute; reflexivity|]. split; vm_compute; reflexivity. Qed.

(* The hypotheses of C61_deep_copy_partial: x[0] is copied to x[1], then x[0] is written, moved away and refilled. *)
Example C61_deep_copy_example : exists vs l vs1 vs2 l2, let os2 := [Write (0, [0; 1]) 7; Move (0, [2]) (0, [0]); Resize (0, [0]) 1] in
  arun 32 [vv] (map zero [vv]) [Resize (0, []) 3; Resize (0, [0]) 2; Write (0, [0; 1]) 5] = Some (vs, l) /\ aref vs (0, [0]) = Some (VL [VS 0; VS 5]) /\
  astep 32 [vv] vs (Copy (0, [1]) (0, [0])) = Some (vs1, None_) /\ arun 32 [vv] vs1 os2 = Some (vs2, l2) /\ vs2 = [VL [VL [VS 0]; VL [VS 0; VS 5]; VL [VS 0; VS 7]]] /\
  forallb (fun o => forallb (fun m => separate m (0, [1])) (modified o)) os2 = true.
Proof. do 5 eexists. split; [vm_compute; reflexivity|]. split; [vm_compute; reflexivity|]. split; [vm_compute; reflexivity|]. split; [vm_compute; reflexivity|]. split; vm_compute; reflexivity. Qed.
