(* C53: vectors and strings when memory runs out or copying an element throws. *)
From Verif Require Import Base ExcModel ExcSpec ExcProofs.

(* Every program that stays within the preconditions, whatever fails and however often exceptions are caught: no operation is undefined, the ones
   that return have their full effect, the ones that throw leave what [remains] lists. *)
Theorem C53_histories : forall (A : Type) (badalloc badcopy : nat -> bool) ops tk m,
  legal A badalloc badcopy ops (fresh tk m m) ->
  exists s hs, run A badalloc badcopy ops (fresh tk m m) = (s, hs)
  /\ ~ In Bad hs
  /\ follows A [] ops hs (contents A s).
Proof.
  intros A ba bc ops tk m L. destruct (run_ok A ba bc ops (fresh tk m m) [] (fresh_R A False tk m) L) as (s & hs & ys & E & F & <-).
  exists s, hs. split; [exact E|]. split; [|exact F]. clear - F. induction F; cbn; [tauto|]. intros [E|E]; [|tauto]. subst. inversion H.
Qed.
Print Assumptions C53_histories.

(* Push, resize, reserve and the insertion of one element either happen or change nothing. *)
Theorem C53_all_or_nothing : forall (A : Type) (badalloc badcopy : nat -> bool) ops tk m o s hs s',
  legal A badalloc badcopy (ops ++ [o]) (fresh tk m m) ->
  match o with Push _ | Resize _ _ | Reserve _ | Insert _ _ => True | _ => False end ->
  run A badalloc badcopy ops (fresh tk m m) = (s, hs) ->
  step A badalloc badcopy o s = (s', Threw) -> contents A s' = contents A s.
Proof.
  intros A ba bc ops tk m o s hs s' L K E S.
  destruct (legal_app A ba bc ops o (fresh tk m m) [] (fresh_R A False tk m) L s hs E) as (xs & HR & Al).
  destruct (step_ok A ba bc False o s xs HR Al) as (s1 & h & ys & E1 & O & _ & R1). rewrite E1 in S. injection S as -> ->.
  rewrite (R_contents _ _ _ _ R1), (R_contents _ _ _ _ HR). inversion O; subst. destruct o; cbn in *; try contradiction; assumption.
Qed.
Print Assumptions C53_all_or_nothing.

(* If only allocations can fail, every operation but the insertion of a one-pass range is all or nothing. *)
Theorem C53_out_of_memory : forall (A : Type) (badalloc badcopy : nat -> bool) ops tk m o s hs s',
  (forall t, badcopy t = false) ->
  legal A badalloc badcopy (ops ++ [o]) (fresh tk m m) ->
  (forall i vs, o <> InsertInput i vs) ->
  run A badalloc badcopy ops (fresh tk m m) = (s, hs) ->
  step A badalloc badcopy o s = (s', Threw) -> contents A s' = contents A s.
Proof.
  intros A ba bc ops tk m o s hs s' F L K E S.
  destruct (legal_app A ba bc ops o (fresh tk m m) [] (fresh_R A False tk m) L s hs E) as (xs & HR & Al).
  destruct (step_ok A ba bc False o s xs HR Al) as (s1 & h & ys & E1 & O & St & R1). rewrite E1 in S. injection S as -> ->.
  rewrite (R_contents _ _ _ _ R1), (R_contents _ _ _ _ HR). specialize (St eq_refl F). destruct o; try exact St. destruct (K _ _ eq_refl).
Qed.
Print Assumptions C53_out_of_memory.

(* Programs without resize, forward-range insertion and copy assignment lose no object, whatever fails: once the vector is destroyed, every object
   constructed has been destroyed. *)
Theorem C53_no_leak_partial : forall (A : Type) (badalloc badcopy : nat -> bool) ops tk m,
  legal A badalloc badcopy ops (fresh tk m m) -> Forall (careful A) ops ->
  exists s hs s', run A badalloc badcopy ops (fresh tk m m) = (s, hs) /\ destroy A s = (s', Done) /\ made s' = gone s'.
Proof.
  intros A ba bc ops tk m L C. destruct (run_keeps A ba bc ops (fresh tk m m) [] (fresh_R A True tk m) L C) as (s & hs & ys & E & HR).
  destruct (destroy_R A s ys HR) as (s' & D & M & _). exists s, hs, s'. auto.
Qed.
Print Assumptions C53_no_leak_partial.

(* If only allocations can fail, resizing to at least the present size and forward-range insertion lose no object either. *)
Theorem C53_no_leak_out_of_memory : forall (A : Type) (badalloc badcopy : nat -> bool) ops tk m,
  (forall t, badcopy t = false) ->
  legal A badalloc badcopy ops (fresh tk m m) -> thrifty A badalloc badcopy ops (fresh tk m m) ->
  exists s hs s', run A badalloc badcopy ops (fresh tk m m) = (s, hs) /\ destroy A s = (s', Done) /\ made s' = gone s'.
Proof.
  intros A ba bc ops tk m F L C. destruct (run_thrifty A ba bc F ops (fresh tk m m) [] (fresh_R A True tk m) L C) as (s & hs & ys & E & HR).
  destruct (destroy_R A s ys HR) as (s' & D & M & _). exists s, hs, s'. auto.
Qed.
Print Assumptions C53_no_leak_out_of_memory.

(* Strings: after any history of assignments of which some ran out of memory, the string has the value assigned last, or is empty if that assignment
   threw; exactly one block exists if the text is long, none otherwise. *)
Theorem C53_strings : forall (A : Type) (badalloc : nat -> bool) tk l,
  exists x hs, set_all A badalloc tk l (STR [] false 0) = (x, hs)
  /\ str_follows A [] l hs (text x)
  /\ blocks x = (if 15 <? length (text x) then 1 else 0)
  /\ blocks (str_reset A x) = 0.
Proof.
  intros A ba tk l. assert (I : str_inv A (STR [] false 0)) by (split; cbn; [reflexivity|split; [discriminate|lia]]).
  pose proof (set_all_ok A ba l tk _ I) as H. destruct (set_all A ba tk l (STR [] false 0)) as [x hs]. destruct H as [[B L] F].
  exists x, hs. split; [reflexivity|]. split; [exact F|]. split.
  - rewrite B. destruct (Nat.ltb_spec 15 (length (text x))) as [Q|Q]; destruct (block x); try reflexivity; [apply L in Q; discriminate|].
    destruct (proj1 L eq_refl); lia.
  - cbn. rewrite B. destruct (block x); reflexivity.
Qed.
Print Assumptions C53_strings.

(* ---------------- what is not guaranteed ---------------- *)
Definition never (_ : nat) : bool := false.

(* resize: when copying an element throws, the elements constructed before it are never destroyed *)
Theorem C53_resize_leak_refuted : exists (badcopy : nat -> bool) ops, legal nat never badcopy ops (fresh 0 0 0)
  /\ let '(s, hs) := run nat never badcopy ops (fresh 0 0 0) in hs = [Threw] /\ contents nat s = []
  /\ let '(s', h) := destroy nat s in h = Done /\ made s' = 2 /\ gone s' = 0.
Proof. exists (fun t => t =? 3), [Resize 4 7]. vm_compute. auto 10. Qed.
Print Assumptions C53_resize_leak_refuted.

(* also without any failure: shrinking by resize does not destroy the elements cut off *)
Theorem C53_shrink_leak_refuted : exists ops, legal nat never never ops (fresh 0 0 0)
  /\ let '(s, hs) := run nat never never ops (fresh 0 0 0) in hs = [Done; Done; Done]
  /\ let '(s', h) := destroy nat s in h = Done /\ gone s' < made s'.
Proof. exists [Push 1; Push 2; Resize 1 0]. vm_compute. split; [tauto|]. split; [reflexivity|]. split; [reflexivity|]. apply le_n. Qed.
Print Assumptions C53_shrink_leak_refuted.

(* inserting a forward range: when copying throws, old elements disappear, others are left without value, and objects are lost *)
Theorem C53_insert_range_refuted : exists (badcopy : nat -> bool) ops, legal nat never badcopy ops (fresh 0 0 0)
  /\ let '(s, hs) := run nat never badcopy ops (fresh 0 0 0) in hs = [Done; Done; Done; Threw]
  /\ contents nat s = [None; None; Some 1]
  /\ let '(s', h) := destroy nat s in h = Done /\ gone s' < made s'.
Proof.
  exists (fun t => t =? 7), [Push 1; Push 2; Push 3; InsertRange 0 [8; 9]]. vm_compute.
  split; [repeat (split; try lia; try discriminate)|]. split; [reflexivity|]. split; [reflexivity|]. split; [reflexivity|lia].
Qed.
Print Assumptions C53_insert_range_refuted.

(* inserting n copies: when copying throws, the copies made so far stay at the end, not at the position asked for *)
Theorem C53_insert_n_refuted : exists (badcopy : nat -> bool) ops, legal nat never badcopy ops (fresh 0 0 0)
  /\ let '(s, hs) := run nat never badcopy ops (fresh 0 0 0) in hs = [Done; Done; Threw] /\ contents nat s = [Some 1; Some 2; Some 5].
Proof.
  exists (fun t => t =? 6), [Push 1; Push 2; InsertN 0 3 5]. vm_compute.
  split; [repeat (split; try lia; try discriminate)|]. auto.
Qed.
Print Assumptions C53_insert_n_refuted.

(* inserting a one-pass range: the same even if only an allocation fails *)
Theorem C53_insert_input_refuted : exists (badalloc : nat -> bool) ops, legal nat badalloc never ops (fresh 0 0 0)
  /\ let '(s, hs) := run nat badalloc never ops (fresh 0 0 0) in hs = [Done; Threw] /\ contents nat s = [Some 1; Some 5].
Proof.
  exists (fun t => t =? 4), [Push 1; InsertInput 0 [5; 6]]. vm_compute.
  split; [repeat (split; try lia; try discriminate)|]. auto.
Qed.
Print Assumptions C53_insert_input_refuted.

(* copy assignment: when copying throws, the vector is a mixture of old and new *)
Theorem C53_assign_refuted : exists (badcopy : nat -> bool) ops, legal nat never badcopy ops (fresh 0 0 0)
  /\ let '(s, hs) := run nat never badcopy ops (fresh 0 0 0) in hs = [Done; Done; Threw] /\ contents nat s = [Some 8; Some 2].
Proof.
  exists (fun t => t =? 5), [Push 1; Push 2; Assign [8; 9]]. vm_compute.
  split; [repeat (split; try lia; try discriminate)|]. auto.
Qed.
Print Assumptions C53_assign_refuted.

(* constructing from a range (82-90, set on an empty vector): when copying throws, the constructor throws and no destructor will run, so the block
   and the elements constructed are lost *)
Theorem C53_constructor_refuted : exists (badcopy : nat -> bool) vs,
  let '(s, h) := set_range nat never badcopy vs (fresh 0 0 0) in h = Threw /\ cells s = [Live 8; Raw] /\ made s = 1 /\ gone s = 0.
Proof. exists (fun t => t =? 2), [8; 9]. vm_compute. auto. Qed.
Print Assumptions C53_constructor_refuted.

(* strings: an assignment that runs out of memory loses the old value *)
Theorem C53_string_refuted : exists (badalloc : nat -> bool) (a b : list nat),
  let '(x, hs) := set_all nat badalloc 0 [a; b] (STR [] false 0) in hs = [Done; Threw] /\ text x = [] /\ text x <> a.
Proof. exists (fun t => t =? 1), [1; 2], (repeat 7 16). vm_compute. split; [reflexivity|]. split; [reflexivity|discriminate]. Qed.
Print Assumptions C53_string_refuted.

(* ---------------- the hypotheses are met ---------------- *)
(* failures in between, and the program goes on *)
Definition demo_ops : list (op nat) := [Push 1; Push 2; Push 3; Insert 1 9; Push 4; InsertN 0 2 6; Erase 0; Pop; Reserve 20; InsertInput 1 [5; 6]; Clear; Push 7].
Definition demo_alloc (t : nat) : bool := t =? 4.
Definition demo_copy (t : nat) : bool := t =? 10.
Example demo_legal : legal nat demo_alloc demo_copy demo_ops (fresh 0 0 0) /\ Forall (careful nat) demo_ops
  /\ snd (run nat demo_alloc demo_copy demo_ops (fresh 0 0 0)) = [Done; Done; Threw; Done; Done; Threw; Done; Done; Done; Done; Done; Done].
Proof.
  split; [|split; [|vm_compute; reflexivity]].
  - vm_compute. repeat (split; try lia; try discriminate).
  - repeat constructor.
Qed.

Definition demo2 : list (op nat) := [Resize 2 5; InsertRange 1 [7; 8]; InsertRange 1 [7; 8]; Resize 3 1; Assign [4]].
Example demo2_legal : legal nat (fun t => t =? 3) never (firstn 3 demo2) (fresh 0 0 0) /\ thrifty nat (fun t => t =? 3) never (firstn 3 demo2) (fresh 0 0 0)
  /\ snd (run nat (fun t => t =? 3) never (firstn 3 demo2) (fresh 0 0 0)) = [Done; Threw; Done].
Proof.
  split; [|split; [|vm_compute; reflexivity]]; vm_compute; repeat (split; try lia; try discriminate).
Qed.
Example demo_str : snd (set_all nat (fun t => t =? 1) 0 [repeat 1 20; repeat 2 20; repeat 3 20; [4]] (STR [] false 0)) = [Done; Threw; Done; Done].
Proof. vm_compute. reflexivity. Qed.
