(* C30 and C31: variant, optional and unique_ptr. *)
From Verif Require Import Base FlatModel FlatSpec SumModel SumSpec SumProofs.

(* Any history of construction, assignment, copy, move, emplace, swap, destruction, index(), get and comparison gives
   the answers of variables that are empty or hold an alternative and its value, and never reads or destroys
   an object that is not alive or as another type (UB); when finally every variable is destroyed, as
   many objects have been destroyed as were made. tys are the types of the alternatives, pairwise distinct. Partial: the excluded
   calls are those of the refuted theorems below, and moving a variant onto itself. *)
Theorem C30_variant_partial : forall (V : Type) (moved : V -> V) (cmpv : cmp -> V -> V -> bool) (tys : list nat),
  NoDup tys -> length tys <= 15 ->
  forall ops t xs, sruns _ _ _ (var_spec V moved cmpv tys) [] ops = Some (t, xs) ->
  exists w, runs _ _ _ (var_step V moved cmpv tys) (VW [] 0 0) ops = Ok (w, xs) /\
    exists w' ys, runs _ _ _ (var_step V moved cmpv tys) (VW [] 0 0) (ops ++ map VDestroy (seq 0 (length t))) = Ok (w', ys) /\ vmade w' = vgone w'.
Proof. exact var_history. Qed.
Print Assumptions C30_variant_partial.

(* int-like values; a value moved from becomes 0 *)
Definition cmpz (c : cmp) (x y : nat) : bool := cmpn c x y.
Definition tys3 : list nat := [10; 20; 30].
Notation vrun := (runs _ _ _ (var_step nat (fun _ => 0) cmpz tys3) (VW [] 0 0)).
Notation vsrun := (sruns _ _ _ (var_spec nat (fun _ => 0) cmpz tys3) []).
Definition var_ops : list (vop nat) :=
  [VNew; VNewVal 20 5; VIndex 0; VGet 0; VAssign 0 30 7; VGet 0; VCmp Clt 1 0; VSwap 0 1; VGet 0; VGet 1; VNewCopy 0; VCmp Ceq 0 2;
   VAssign 0 20 9; VCmp Cgt 0 2; VCopy 1 0; VGet 1; VNewMove 1; VGet 3; VGet 1; VEmplace 2 0 4; VMove 0 2; VGet 0; VDestroy 1; VIndex 1; VCmp Cle 0 1; VNewCopy 1;
   VAssignL 1 10 3; VSwap 0 1; VGet 0; VCopy 0 0; VGet 0].
Example C30_variant_case : NoDup tys3 /\ length tys3 <= 15 /\ exists t,
  vsrun var_ops = Some (t,
    [VNone; VNone; VIdx None; VThrow; VNone; VVal 2 7; VBool true; VNone; VVal 1 5; VVal 2 7; VNone; VBool true;
     VNone; VBool true; VNone; VVal 1 9; VNone; VVal 1 9; VVal 1 0; VNone; VNone; VVal 0 4; VNone; VIdx None; VBool true; VThrow;
     VNone; VNone; VVal 0 3; VNone; VVal 0 3]) /\
  match vrun var_ops with Ok (w, _) => vmade w = 4 + vgone w /\ length (vvars w) = 4 | _ => False end.
Proof.
  split; [repeat constructor; cbn; intuition discriminate|]. split; [cbn; repeat constructor|].
  eexists. split; [vm_compute; reflexivity|]. vm_compute. auto.
Qed.

(* Assigning an lvalue of the alternative that is held, or a variant that holds the same alternative, changes nothing: the answers 9 are 5. *)
Theorem C30_same_alternative_refuted :
  match vrun [VNewVal 20 5; VAssignL 0 20 9; VGet 0] with Ok (_, xs) => xs = [VNone; VNone; VVal 1 5] | _ => False end /\
  match vrun [VNewVal 20 5; VNewVal 20 9; VCopy 0 1; VGet 0] with Ok (_, xs) => xs = [VNone; VNone; VNone; VVal 1 5] | _ => False end.
Proof. split; vm_compute; reflexivity. Qed.
Print Assumptions C30_same_alternative_refuted.
(* After a throwing constructor in emplace the variant claims to hold the alternative; destroying it destroys an object that never lived. *)
Theorem C30_throwing_constructor_refuted :
  match vrun [VNewVal 20 5; VEmplaceThrow 0 2; VIndex 0] with Ok (_, xs) => xs = [VNone; VThrow; VIdx (Some 2)] | _ => False end /\
  vrun [VNewVal 20 5; VEmplaceThrow 0 2; VDestroy 0] = UB.
Proof. split; vm_compute; reflexivity. Qed.
Print Assumptions C30_throwing_constructor_refuted.
(* Swapping with an empty variant throws; if the empty one is the object swap is called on the value of the other is lost. *)
Theorem C30_swap_empty_refuted :
  match vrun [VNewVal 20 5; VNew; VSwap 0 1; VGet 0] with Ok (_, xs) => xs = [VNone; VNone; VThrow; VVal 1 5] | _ => False end /\
  match vrun [VNew; VNewVal 20 5; VSwap 0 1; VIndex 0; VGet 1] with Ok (_, xs) => xs = [VNone; VNone; VThrow; VIdx None; VVal 1 0] | _ => False end.
Proof. split; vm_compute; reflexivity. Qed.
Print Assumptions C30_swap_empty_refuted.
(* Comparing two empty variants reads objects that do not exist. *)
Theorem C30_empty_equal_refuted : vrun [VNew; VNew; VCmp Ceq 0 1] = UB.
Proof. vm_compute; reflexivity. Qed.
Print Assumptions C30_empty_equal_refuted.
(* With the same type twice a copy assignment changes the alternative: 1 becomes 0. *)
Theorem C30_repeated_type_refuted :
  match runs _ _ _ (var_step nat (fun _ => 0) cmpz [10; 10]) (VW [] 0 0) [VNewVal 10 5; VEmplace 0 1 6; VIndex 0; VNew; VCopy 1 0; VIndex 1] with
  | Ok (_, xs) => xs = [VNone; VNone; VIdx (Some 1); VNone; VNone; VIdx (Some 0)] | _ => False end.
Proof. vm_compute; reflexivity. Qed.
Print Assumptions C30_repeated_type_refuted.

(* optional: any history gives the answers of values that are there or not. Partial: copying from an optional that is not const
   (C31_optional_copy_refuted), moving an optional onto itself; and the objects are never destroyed (C31_optional_leak_refuted). *)
Theorem C31_optional_partial : forall (V : Type) (moved : V -> V) (of_bool : bool -> V) ops t xs,
  sruns _ _ _ (opt_spec V moved) [] ops = Some (t, xs) ->
  exists w, runs _ _ _ (opt_step V moved of_bool) (OW [] 0 0) ops = Ok (w, xs).
Proof. exact opt_history. Qed.
Print Assumptions C31_optional_partial.

Notation orun := (runs _ _ _ (opt_step nat (fun _ => 0) (fun b : bool => if b then 1 else 0)) (OW [] 0 0)).
Notation osrun := (sruns _ _ _ (opt_spec nat (fun _ => 0)) []).
Example C31_optional_case : exists t,
  osrun [ONew; OHas 0; OValue 0; ONewVal 5; ONewCopy 1; OCopy 0 2; OValue 0; ONewMove 1; OValue 3; ODeref 1; ONew; OCopy 0 4; OHas 0; OMove 4 2; ODestroy 2; OValue 2; OHas 4] =
  Some (t, [ONone; OBool false; OThrow; ONone; ONone; ONone; OVal 5; ONone; OVal 5; OVal 0; ONone; ONone; OBool false; ONone; ONone; OThrow; OBool true]).
Proof. eexists. vm_compute. reflexivity. Qed.
(* Copying an optional<int> that is not const takes its truth value for the value: 7 becomes 1, and the copy of an empty one holds 0. *)
Theorem C31_optional_copy_refuted :
  match orun [ONewVal 7; ONewCopyL 0; OValue 1; ONew; ONewCopyL 2; OHas 3; OValue 3] with
  | Ok (_, xs) => xs = [ONone; ONone; OVal 1; ONone; ONone; OBool true; OVal 0] | _ => False end.
Proof. vm_compute; reflexivity. Qed.
Print Assumptions C31_optional_copy_refuted.
(* No history whatever destroys the object of an optional. *)
Theorem C31_optional_leak_refuted : forall (V : Type) (moved : V -> V) (of_bool : bool -> V) ops w xs,
  runs _ _ _ (opt_step V moved of_bool) (OW [] 0 0) ops = Ok (w, xs) -> ogone w = 0.
Proof. exact opt_leaks. Qed.
Print Assumptions C31_optional_leak_refuted.
Example C31_optional_leak_case : match orun [ONewVal 7; ODestroy 0] with Ok (w, _) => omade w = 1 /\ ogone w = 0 | _ => False end.
Proof. vm_compute; auto. Qed.

(* unique_ptr: any history gives the answers, and the heap, of pointers that are null, own an object or only point to it:
   an object is deleted exactly when its owner is destroyed, reset or overwritten, deleting twice and using a deleted object
   being UB. When finally every pointer is destroyed, the objects still alive are those that were created
   outside (URaw) and never given to an owner: everything from make_unique is gone.
   Partial: moving a pointer onto itself and resetting one that does not own are left out (refuted below). *)
Theorem C31_unique_ptr_partial : forall (V : Type) ops t xs,
  sruns _ _ _ (uptr_spec V) ([], []) ops = Some (t, xs) ->
  exists w, runs _ _ _ (uptr_step V) (UW [] []) ops = Ok (w, xs) /\ uheap w = fst t /\
    exists w' ys, runs _ _ _ (uptr_step V) (UW [] []) (ops ++ map UDestroy (seq 0 (length (snd t)))) = Ok (w', ys) /\
      nalive V (uheap w') + adopts V ops = raws V ops.
Proof. exact uptr_history. Qed.
Print Assumptions C31_unique_ptr_partial.
(* while an owner exists its object is alive and has no other owner *)
Theorem C31_owner_unique : forall (V : Type) ops h ps xs, sruns _ _ _ (uptr_spec V) ([], []) ops = Some ((h, ps), xs) ->
  forall i a, nth_error ps i = Some (Owns a) ->
  (exists v, nth_error h a = Some (Alive v)) /\ forall j, nth_error ps j = Some (Owns a) -> j = i.
Proof. exact owner_unique. Qed.
Print Assumptions C31_owner_unique.

Notation urun := (runs _ _ _ (uptr_step nat) (UW [] [])).
Notation usrun := (sruns _ _ _ (uptr_spec nat) ([], [])).
Definition u_ops : list (uop nat) :=
  [UMake 5; UNew; UMove 1 0; UIsNull 0; UDeref 1; URaw 8; UWrap 1 false; UDeref 2; USet 2 9; UWrap 1 true; UDeref 3; UMoveNew 3; UMove 1 4; UDeref 1; UReset 1; UIsNull 1; UMake 3; UDestroy 2; URaw 4].
Example C31_unique_ptr_case : exists t,
  usrun u_ops = Some (t, [UNone; UNone; UNone; UBool true; UVal 5; UNone; UNone; UVal 8; UNone; UNone; UVal 9; UNone; UNone; UVal 9; UNone; UBool true; UNone; UNone; UNone]) /\
  fst t = [Deleted; Deleted; Alive 3; Alive 4] /\ nth_error (snd t) 5 = Some (Owns 2).
Proof. eexists. split; [vm_compute; reflexivity|]. vm_compute. auto. Qed.
(* Moving a pointer onto itself deletes the object and leaves null. *)
Theorem C31_self_move_refuted :
  match urun [UMake 5; UMove 0 0; UIsNull 0] with Ok (w, xs) => xs = [UNone; UNone; UBool true] /\ uheap w = [Deleted] | _ => False end.
Proof. vm_compute; auto. Qed.
Print Assumptions C31_self_move_refuted.
(* reset and = nullptr leave a pointer that does not own its object as it was. *)
Theorem C31_reset_refuted :
  match urun [URaw 5; UWrap 0 false; UReset 0; UIsNull 0] with Ok (w, xs) => xs = [UNone; UNone; UNone; UBool false] | _ => False end.
Proof. vm_compute; auto. Qed.
Print Assumptions C31_reset_refuted.

(* The calls excluded above, in any history: var_actual, opt_actual and uptr_actual (SumSpec.v) give the same answers as the specification
   wherever it has one, and say what the other calls do: the program goes on, and nothing is destroyed twice or lost afterwards.
   Partial: what is still left out is in C30_undefined_refuted, and moving a variant or an optional onto itself. *)
Theorem C30_actual_partial : forall (V : Type) (moved : V -> V) (cmpv : cmp -> V -> V -> bool) (tys : list nat),
  NoDup tys -> length tys <= 15 ->
  forall ops t xs, sruns _ _ _ (var_actual V moved cmpv tys) [] ops = Some (t, xs) ->
  exists w, runs _ _ _ (var_step V moved cmpv tys) (VW [] 0 0) ops = Ok (w, xs) /\
    exists w' ys, runs _ _ _ (var_step V moved cmpv tys) (VW [] 0 0) (ops ++ map VDestroy (seq 0 (length t))) = Ok (w', ys) /\ vmade w' = vgone w'.
Proof. exact act_history. Qed.
Print Assumptions C30_actual_partial.
Notation vactual := (sruns _ _ _ (var_actual nat (fun _ => 0) cmpz tys3) []).
Definition act_ops : list (vop nat) :=
  [VNewVal 20 5; VAssignL 0 20 9; VGet 0; VNewVal 20 8; VCopy 0 1; VGet 0; VNew; VSwap 1 2; VGet 1; VSwap 2 1; VGet 1; VIndex 2; VAssignL 2 30 4; VSwap 2 0; VGet 0; VGet 2].
Example C30_actual_case : vsrun act_ops = None /\ exists t,
  vactual act_ops = Some (t, [VNone; VNone; VVal 1 5; VNone; VNone; VVal 1 5; VNone; VThrow; VVal 1 8; VThrow; VVal 1 0; VIdx None; VNone; VNone; VVal 2 4; VVal 1 5]).
Proof. split; [vm_compute; reflexivity|]. eexists. vm_compute. reflexivity. Qed.

(* After every history: comparing or swapping two empty variants (also one with itself) is undefined; and after a constructor that throws in emplace
   index() names the alternative, whatever the variant held before, but reading and even destroying the variant are undefined. *)
Theorem C30_undefined_refuted : forall (V : Type) (moved : V -> V) (cmpv : cmp -> V -> V -> bool) (tys : list nat),
  NoDup tys -> length tys <= 15 ->
  forall ops t xs, sruns _ _ _ (var_actual V moved cmpv tys) [] ops = Some (t, xs) ->
  let after l := runs _ _ _ (var_step V moved cmpv tys) (VW [] 0 0) (ops ++ l) in
  (forall i j, nth_error t i = Some None -> nth_error t j = Some None -> (forall c, after [VCmp c i j] = UB) /\ after [VSwap i j] = UB) /\
  (forall i k, i < length t -> k < length tys ->
     (exists w, after [VEmplaceThrow i k; VIndex i] = Ok (w, xs ++ [VThrow; VIdx (Some k)])) /\
     after [VEmplaceThrow i k; VGet i] = UB /\ after [VEmplaceThrow i k; VDestroy i] = UB).
Proof.
  intros V moved cmpv tys N L ops t xs E. split.
  - intros i j I J. exact (act_empty V moved cmpv tys N L ops t xs i j E I J).
  - intros i k I K. destruct (nth_error t i) as [x|] eqn:Q; [|apply nth_error_None in Q; lia].
    exact (act_throw V moved cmpv tys N L ops t xs i k x E Q K).
Qed.
Print Assumptions C30_undefined_refuted.
Example C30_undefined_case : exists t xs, vactual (act_ops ++ [VNew; VDestroy 1]) = Some (t, xs) /\
  nth_error t 1 = Some None /\ nth_error t 3 = Some None /\ nth_error t 0 = Some (Some (2, 4)).
Proof. eexists. eexists. split; [vm_compute; reflexivity|]. vm_compute. auto. Qed.

Theorem C31_optional_actual_partial : forall (V : Type) (moved : V -> V) (of_bool : bool -> V) ops t xs,
  sruns _ _ _ (opt_actual V moved of_bool) [] ops = Some (t, xs) ->
  exists w, runs _ _ _ (opt_step V moved of_bool) (OW [] 0 0) ops = Ok (w, xs).
Proof. exact oact_history. Qed.
Print Assumptions C31_optional_actual_partial.
Example C31_optional_actual_case : exists t,
  sruns _ _ _ (opt_actual nat (fun _ => 0) (fun b : bool => if b then 1 else 0)) [] [ONewVal 7; ONewCopyL 0; ONewCopyL 1; ONewCopy 0; OValue 2; OValue 3; ONew; ONewCopyL 4; OCopy 0 5; OValue 0] =
  Some (t, [ONone; ONone; ONone; ONone; OVal 1; OVal 7; ONone; ONone; ONone; OVal 0]).
Proof. eexists. vm_compute. reflexivity. Qed.

(* nothing is left out but what is undefined for every pointer: using a deleted object or null, and giving an object two owners *)
Theorem C31_unique_ptr_actual_partial : forall (V : Type) ops t xs,
  sruns _ _ _ (uptr_actual V) ([], []) ops = Some (t, xs) ->
  exists w, runs _ _ _ (uptr_step V) (UW [] []) ops = Ok (w, xs) /\ uheap w = fst t /\
    exists w' ys, runs _ _ _ (uptr_step V) (UW [] []) (ops ++ map UDestroy (seq 0 (length (snd t)))) = Ok (w', ys) /\
      nalive V (uheap w') + adopts V ops = raws V ops.
Proof. exact uact_history. Qed.
Print Assumptions C31_unique_ptr_actual_partial.
Example C31_unique_ptr_actual_case : exists t,
  sruns _ _ _ (uptr_actual nat) ([], []) [UMake 5; UMove 0 0; UIsNull 0; URaw 6; UWrap 1 false; UReset 1; UDeref 1; UMove 1 1; UIsNull 1; UMake 7; UMove 1 2; UDeref 1] =
  Some (t, [UNone; UNone; UBool true; UNone; UNone; UNone; UVal 6; UNone; UBool true; UNone; UNone; UVal 7]) /\ fst t = [Deleted; Alive 6; Alive 7].
Proof. eexists. split; [vm_compute; reflexivity|]. vm_compute. auto. Qed.
