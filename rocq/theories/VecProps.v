(* C14, C15: basic_vector is a sequence. *)
From Verif Require Import Base ArithModel ArithProofs VecModel VecSpec VecProofs.

Notation size_width := npo2_width.   (* size types of 8, 16, 32 or 64 bits *)

(* C14. Every history inside the preconditions of the operations, over any number of vectors, any
   element type and any size type, ends without UB and without exception, answers like the
   sequences, and leaves the vectors holding the sequences. *)
Theorem C14_vector (A : Type) (w : N) (triv : bool) (dflt : A) (eqA ltA : A -> A -> bool) n ops st' outs :
  size_width w ->
  history A (fits w) (fitsN w) dflt eqA ltA (repeat [] n) ops st' outs ->
  exists vs, run A w triv dflt eqA ltA (repeat vnew n) ops = Ok (vs, outs) /\
    map (contents A) vs = map Ok st'.
Proof. intros H. exact (run_history A w triv H dflt eqA ltA n ops st' outs). Qed.
Print Assumptions C14_vector.

(* object lifetimes: no object is lost by being overwritten or by freeing its storage, and no object
   remains outside the elements. Missing for the full claim: shrinking resize, set, and copy
   assignment onto a non-empty vector, which lose objects (below). *)
Theorem C14_lifetime_partial (A : Type) (w : N) (triv : bool) (dflt : A) (eqA ltA : A -> A -> bool) n ops :
  size_width w ->
  tidy A (fits w) (fitsN w) dflt eqA ltA (repeat [] n) ops ->
  exists vs outs, run A w triv dflt eqA ltA (repeat vnew n) ops = Ok (vs, outs) /\
    Forall (fun v => v_leak v = 0 /\
      forall i, v_used v <= i < length (v_slots v) -> nth_error (v_slots v) i = Some Raw) vs.
Proof.
  intros H. apply (run_tidy A w triv H dflt eqA ltA). apply Sim_init; assumption.
Qed.
Print Assumptions C14_lifetime_partial.

Notation runN := (run nat 32 false 0 Nat.eqb Nat.ltb).

(* the hypotheses are met: a history through growth, insertion, erasure, copy, move and comparison *)
Definition demo : list (op nat) :=
  [Push 0 5; Push 0 6; Push 0 7; Insert 0 1 9; InsertRange 0 2 [1;2;3;4]; Erase 0 0; EraseRange 0 1 3;
   Copy 1 0; Lt 0 1; Move 2 0; Write 2 0 8; InsertN 2 1 2 0; At 2 9; At 2 1; ResizeTo 1 2 0; Ge 2 1; Pop 1;
   View 0 [1;2]; InsertInput 0 1 [3]; Size 0; All 2].
Ltac use_on := eapply on_; [reflexivity|cbn; try exact I; try lia; try discriminate; try (split; [lia|discriminate])
                                       |unfold fits; apply N.leb_le; vm_compute; reflexivity].
Example C14_demo : exists st outs, history nat (fits 32) (fitsN 32) 0 Nat.eqb Nat.ltb (repeat [] 3) demo st outs /\
  nth_error outs 19 = Some (ONum 3).
Proof.
  eexists _, _. split.
  - unfold demo.
    eapply h_cons; [apply s_push; use_on|]. eapply h_cons; [apply s_push; use_on|].
    eapply h_cons; [apply s_push; use_on|]. eapply h_cons; [apply s_insert; use_on|].
    eapply h_cons; [apply s_insert_rg; use_on|]. eapply h_cons; [apply s_erase; use_on|].
    eapply h_cons; [eapply s_erase_rg; [use_on|reflexivity]|].
    eapply h_cons; [eapply s_copy; [reflexivity|use_on]|].
    eapply h_cons; [eapply s_lt; [reflexivity|reflexivity|apply (std_lex_spec nat Nat.ltb)]|].
    eapply h_cons; [eapply s_move; reflexivity|]. eapply h_cons; [apply s_write; use_on|].
    eapply h_cons; [apply s_insert_n; use_on|].
    eapply h_cons; [eapply s_at_throw; [reflexivity|cbn; lia]|].
    eapply h_cons; [eapply s_at; reflexivity|].
    eapply h_cons; [apply s_resize_to; use_on|].
    eapply h_cons; [eapply s_ge; [reflexivity|reflexivity|apply not_iff, (std_lex_spec nat Nat.ltb)]|].
    eapply h_cons; [apply s_pop; use_on|]. eapply h_cons; [apply s_view; use_on|].
    eapply h_cons; [apply s_insert_in; use_on|].
    eapply h_cons; [eapply s_size; reflexivity|]. eapply h_cons; [eapply s_all; reflexivity|].
    apply h_nil.
  - reflexivity.
Qed.
Example C14_demo_runs : exists vs, runN (repeat vnew 3) demo = Ok (vs,
  [ONone; ONone; ONone; ONum 2; ONum 2; ONum 0; ONum 5; ONone; OBool false; ONone; ONone; ONum 3; OThrow; OVal 0;
   ONone; OBool false; ONone; ONone; ONum 2; ONum 3; OList [8; 0; 0; 3; 4; 6; 7]]).
Proof. eexists. vm_compute. reflexivity. Qed.
Example C14_tidy_demo : tidy nat (fits 32) (fitsN 32) 0 Nat.eqb Nat.ltb (repeat [] 2)
  [Push 0 5; Push 0 6; Resize 0 5; Copy 1 0; InsertRange 1 1 [7;8]; Erase 1 0; Move 0 1; New 0].
Proof.
  eapply t_cons; [exact I|apply s_push; use_on|]. eapply t_cons; [exact I|apply s_push; use_on|].
  eapply t_cons; [cbn; intros xs [= <-]; cbn; lia|apply s_resize; use_on|].
  eapply t_cons; [right; reflexivity|eapply s_copy; [reflexivity|use_on]|].
  eapply t_cons; [exact I|apply s_insert_rg; use_on|]. eapply t_cons; [exact I|apply s_erase; use_on|].
  eapply t_cons; [exact I|eapply s_move; reflexivity|]. eapply t_cons; [exact I|apply s_new; use_on|].
  apply t_nil.
Qed.

(* The size limit is needed: reserve(2^31 + 1) asks for a power of two that wraps to 0 and moves the
   elements into an empty block. *)
Theorem C14_reserve_wraps_refuted :
  runN (repeat vnew 1) [Push 0 5; Reserve 0 2147483649] = UB.
Proof. vm_compute. reflexivity. Qed.

(* v.push_back(v[0]) reads the freed block when it reallocates. *)
Theorem C14_push_own_element_refuted :
  runN (repeat vnew 1) [Push 0 5; PushOwn 0 0] = UB.
Proof. vm_compute. reflexivity. Qed.

(* insert does not return the position of the inserted element, as std::vector does, but the one
   behind the inserted elements ... *)
Theorem C14_insert_result_refuted :
  exists v v' p, contents nat v = Ok [1; 2] /\ insert nat 32 false v 0 9 = Ok (v', p) /\
    contents nat v' = Ok [9; 1; 2] /\ at_ nat v' p <> Ok 9.
Proof.
  exists (V [Live 1; Live 2] 2 true 0). eexists _, _. split; [reflexivity|].
  split; [vm_compute; reflexivity|]. split; [reflexivity|]. vm_compute. discriminate.
Qed.
(* ... always: *)
Theorem C14_insert_result (A : Type) (w : N) (triv : bool) (v : vec A) i x xs :
  size_width w -> R A w False v xs -> i <= length xs -> fits w (length xs + 1) ->
  exists v', insert A w triv v i x = Ok (v', i + 1) /\ contents A v' = Ok (firstn i xs ++ [x] ++ skipn i xs).
Proof.
  intros Hw HR Hi Hf. edestruct insert_ok as (v' & E & H); try eassumption.
  exists v'. split; [exact E|eapply contents_R; exact H].
Qed.
(* erase(first, last) returns end(), not the position following the erased elements *)
(* Inserting an empty forward range in front of other elements moves each of them onto itself. Trivially copyable elements keep their
   values, others are left in a moved-from state: cista's own vector becomes empty when it is moved onto itself (C14_self_move). *)
Theorem C14_insert_empty_range (A : Type) (w : N) (v : vec A) i xs :
  size_width w -> R A w False v xs -> i <= length xs -> fits w (length xs) ->
  exists v', insert_range A w true v i [] = Ok (v', i) /\ contents A v' = Ok xs.
Proof.
  intros Hw HR Hi Hf. edestruct (insert_range_ok A w true) with (ys := @nil A) as (v' & E & H); try eassumption; auto.
  - cbn [length]. rewrite Nat.add_0_r. exact Hf.
  - exists v'. split; [exact E|]. erewrite contents_R by exact H. unfold insert_at. cbn [app]. rewrite firstn_skipn. reflexivity.
Qed.
Theorem C14_insert_empty_range_refuted :
  exists v v' p, contents nat v = Ok [1; 2; 3] /\ insert_range nat 32 false v 1 [] = Ok (v', p) /\
    contents nat v' <> Ok [1; 2; 3] /\ map (at_ nat v') [0; 1; 2] = [Ok 1; UB; UB].
Proof.
  exists (V [Live 1; Live 2; Live 3; Raw] 3 true 0). eexists _, _. split; [reflexivity|].
  split; [vm_compute; reflexivity|]. split; [discriminate|reflexivity].
Qed.
Theorem C14_self_move (A : Type) (w : N) (triv : bool) (dflt : A) (eqA ltA : A -> A -> bool) vs v r vs' o :
  nth_error vs r = Some v -> step A w triv dflt eqA ltA vs (Move r r) = Ok (vs', o) ->
  exists v', nth_error vs' r = Some v' /\ contents A v' = Ok [].
Proof. exact (self_move_empty A w triv dflt eqA ltA vs v r vs' o). Qed.

Theorem C14_erase_range_result_refuted :
  exists v v' p, contents nat v = Ok [1; 2; 3; 4] /\ erase_range nat v 0 1 = Ok (v', p) /\
    contents nat v' = Ok [2; 3; 4] /\ p = 3.
Proof.
  exists (V [Live 1; Live 2; Live 3; Live 4] 4 true 0). eexists _, _. split; [reflexivity|].
  split; [vm_compute; reflexivity|]. split; reflexivity.
Qed.

(* resize to fewer elements, set and copy assignment lose objects without destroying them *)
Definition leaks (r : res (list (vec nat) * list (out nat))) : option (list nat) :=
  match r with Ok (vs, _) => Some (map v_leak vs) | _ => None end.
Theorem C14_shrink_leaks_refuted :
  leaks (runN (repeat vnew 1) [Push 0 5; Push 0 6; Resize 0 1; New 0]) = Some [1].
Proof. vm_compute. reflexivity. Qed.
Theorem C14_set_leaks_refuted :
  leaks (runN (repeat vnew 1) [Set_ 0 [5; 6]; Set_ 0 [7; 8]; New 0]) = Some [2].
Proof. vm_compute. reflexivity. Qed.
Theorem C14_copy_assign_leaks_refuted :
  leaks (runN (repeat vnew 2) [Push 0 5; Push 1 6; Copy 0 1; New 0; New 1]) = Some [1; 0].
Proof. vm_compute. reflexivity. Qed.

(* C15. The comparison operators agree with comparison of the sequences. *)
Theorem C15_compare (A : Type) (eqA ltA : A -> A -> bool) (a b : vec A) xs ys :
  contents A a = Ok xs -> contents A b = Ok ys ->
  exists e l g le ge, veq A eqA a b = Ok e /\ vlt A ltA a b = Ok l /\ vgt A ltA a b = Ok g /\
    vle A ltA a b = Ok le /\ vge A ltA a b = Ok ge /\
    (e = true <-> Forall2 (fun x y => eqA x y = true) xs ys) /\
    (l = true <-> lex A (fun x y => ltA x y = true) xs ys) /\
    (g = true <-> lex A (fun x y => ltA x y = true) ys xs) /\
    (le = true <-> ~ lex A (fun x y => ltA x y = true) ys xs) /\
    (ge = true <-> ~ lex A (fun x y => ltA x y = true) xs ys).
Proof. exact (compare_ok A eqA ltA a b xs ys). Qed.
Print Assumptions C15_compare.

Theorem C15_strict_total_order (A : Type) (ltA : A -> A -> bool) :
  (forall x, ltA x x = false) ->
  (forall x y z, ltA x y = true -> ltA y z = true -> ltA x z = true) ->
  (forall x y, ltA x y = false -> ltA y x = false -> x = y) ->
  (forall (a : vec A) xs, contents A a = Ok xs -> vlt A ltA a a = Ok false) /\
  (forall (a b c : vec A) xs ys zs, contents A a = Ok xs -> contents A b = Ok ys -> contents A c = Ok zs ->
     vlt A ltA a b = Ok true -> vlt A ltA b c = Ok true -> vlt A ltA a c = Ok true) /\
  (forall (a b : vec A) xs ys, contents A a = Ok xs -> contents A b = Ok ys ->
     vlt A ltA a b = Ok false -> vlt A ltA b a = Ok false -> xs = ys).
Proof. exact (order_ok A ltA). Qed.
Print Assumptions C15_strict_total_order.
Example C15_ex : forall a b, contents nat a = Ok [1; 2] -> contents nat b = Ok [1; 3] ->
  vlt nat Nat.ltb a b = Ok true /\ vge nat Nat.ltb a b = Ok false.
Proof. intros a b Ha Hb. unfold vge, vlt. rewrite Ha, Hb. split; reflexivity. Qed.
Print Assumptions C14_reserve_wraps_refuted.
Print Assumptions C14_push_own_element_refuted.
Print Assumptions C14_insert_result_refuted.
Print Assumptions C14_insert_result.
Print Assumptions C14_erase_range_result_refuted.
Print Assumptions C14_shrink_leaks_refuted.
Print Assumptions C14_set_leaks_refuted.
Print Assumptions C14_copy_assign_leaks_refuted.
Print Assumptions C14_insert_empty_range.
Print Assumptions C14_insert_empty_range_refuted.
Print Assumptions C14_self_move.
