(* C70: values of a hash map as arguments of its own functions. *)
From Verif Require Import Base HashModel HashSpec HashProofs HashRefine HmemModel HiterSpec HmemProofs HiterProofs HownModel HownSpec HownProofs.

(* Programs that mix all functions of the map with emplace and erase of own values answer as the finite map with copies
   of the values. *)
Theorem C70_emplace_erase :
  forall (K V : Type) (hash : K -> N) (keq : K -> K -> bool) (dv : V) (max_cap : nat) (key_of : V -> K),
  key_laws K keq hash -> cap_bounded max_cap ->
  forall cs, 3 * list_sum (map (adding K V) cs) + 2 <= max_cap -> existsb (late K V) cs = false ->
  exists t xs, call_run K V hash keq dv max_cap key_of (empty_tbl K V) cs = Ok (t, xs) /\
    Forall2 (same_out K V) xs (snd (call_hist K V keq key_of dv [] cs)).
Proof.
  intros K V hash keq dv max_cap key_of L C cs B E.
  destruct (calls_ok K V hash keq dv max_cap key_of L C cs _ _ 0 (Inv_empty K V hash keq max_cap 0)) as [(_ & X)|[(X & _)|(t & xs & X & _ & Y)]]; [lia|congruence|eauto].
Qed.
Print Assumptions C70_emplace_erase.

(* A map can be inserted into itself, m.insert(m.begin(), m.end()), after any such program: the loop ends and the map is
   not changed, so no iterator is lost on the way. *)
Theorem C70_insert_self :
  forall (K V : Type) (hash : K -> N) (keq : K -> K -> bool) (dv : V) (max_cap : nat) (key_of : V -> K),
  key_laws K keq hash -> cap_bounded max_cap ->
  forall cs t xs, call_run K V hash keq dv max_cap key_of (empty_tbl K V) cs = Ok (t, xs) ->
  insert_self K V hash keq max_cap t = Ok t.
Proof.
  intros K V hash keq dv max_cap key_of L C cs t xs R.
  destruct (calls_ok K V hash keq dv max_cap key_of L C cs _ _ 0 (Inv_empty K V hash keq max_cap 0)) as [(X & _)|[(_ & X)|(t0 & xs0 & X & H & _)]]; try congruence.
  rewrite R in X. injection X as <- <-. eapply insert_self_ok; eauto.
Qed.
Print Assumptions C70_insert_self.

(* With m[m.at(k)] and m[k] = m.at(k') as well, a program answers like that too or uses a dangling reference: no other
   wrong result is possible. Partial: the property excludes the dangling reference (C70_nested_bracket_refuted,
   C70_assign_refuted). *)
Theorem C70_programs_partial :
  forall (K V : Type) (hash : K -> N) (keq : K -> K -> bool) (dv : V) (max_cap : nat) (key_of : V -> K),
  key_laws K keq hash -> cap_bounded max_cap ->
  forall cs, 3 * list_sum (map (adding K V) cs) + 2 <= max_cap ->
  call_run K V hash keq dv max_cap key_of (empty_tbl K V) cs = UB \/
  exists t xs, call_run K V hash keq dv max_cap key_of (empty_tbl K V) cs = Ok (t, xs) /\
    Forall2 (same_out K V) xs (snd (call_hist K V keq key_of dv [] cs)).
Proof.
  intros K V hash keq dv max_cap key_of L C cs B.
  destruct (calls_ok K V hash keq dv max_cap key_of L C cs _ _ 0 (Inv_empty K V hash keq max_cap 0)) as [(_ & X)|[(_ & X)|(t & xs & X & _ & Y)]]; [lia|auto|eauto].
Qed.
Print Assumptions C70_programs_partial.

(* When: after any such program, each call does exactly what it does with a copy of the value, unless that makes the map
   grow; m[m.at(k)] and m[k] = m.at(k') then always use a dangling reference. They are safe if the key is in the map
   already, and while the map has room. *)
Theorem C70_when_partial :
  forall (K V : Type) (hash : K -> N) (keq : K -> K -> bool) (dv : V) (max_cap : nat) (key_of : V -> K),
  key_laws K keq hash -> cap_bounded max_cap ->
  forall cs t xs o p,
  call_run K V hash keq dv max_cap key_of (empty_tbl K V) cs = Ok (t, xs) ->
  let m := fst (call_hist K V keq key_of dv [] cs) in
  with_copy K V keq key_of m o = Some p ->
  let own := own_step K V hash keq dv max_cap key_of t o in
  let copy := step K V hash keq dv max_cap t p in
  (reads_late K o = false -> own = copy) /\
  (reads_late K o = true -> forall u x, copy = Ok (u, x) ->
     (t_cap K V u = t_cap K V t -> own = copy) /\ (t_cap K V u <> t_cap K V t -> own = UB)) /\
  (~ adds K V keq p m -> own = copy) /\
  (t_growth K V t <> 0%N -> own = copy).
Proof.
  intros K V hash keq dv max_cap key_of L C cs t xs o p R m W own copy.
  destruct (calls_ok K V hash keq dv max_cap key_of L C cs _ _ 0 (Inv_empty K V hash keq max_cap 0)) as [(X & _)|[(_ & X)|(t0 & xs0 & X & H & _)]]; try congruence.
  rewrite R in X. injection X as <- <-. fold m in H.
  assert (Q : own = match copy with Ok (u, x) => if reads_late K o && negb (t_cap K V u =? t_cap K V t) then UB else Ok (u, x) | r => r end).
  { unfold own, copy. rewrite (own_eq K V hash keq dv max_cap key_of L C t m _ o p H W).
    destruct (step K V hash keq dv max_cap t p) as [[u x]| | |]; reflexivity. }
  assert (Same : (forall u x, copy = Ok (u, x) -> reads_late K o = true -> t_cap K V u = t_cap K V t) -> own = copy).
  { intros S. rewrite Q. destruct copy as [[u x]| | |]; auto. destruct (reads_late K o); auto. rewrite (S u x) by auto. rewrite Nat.eqb_refl. auto. }
  split; [|split; [|split]].
  - intros E. apply Same. congruence.
  - intros E u x Cp. rewrite Q, Cp, E. split; intros S.
    + rewrite S, Nat.eqb_refl. auto.
    + apply Nat.eqb_neq in S. rewrite S. auto.
  - intros A. apply Same. intros u x Cp E. destruct (Nat.eq_dec (t_cap K V u) (t_cap K V t)) as [|D]; auto. destruct A.
    eapply (grows_only K V hash keq dv max_cap L C t m _ p u x H Cp); auto.
    unfold with_copy in W. destruct (lookup K V keq m (source K o)); try discriminate. injection W as <-. destruct o; try discriminate; reflexivity.
  - intros G. apply Same. intros u x Cp E. eapply step_room; eauto.
Qed.
Print Assumptions C70_when_partial.

(* A map of numbers to numbers with the entry 0 -> 5: m[m.at(0)] has to add the key 5. The map grows, and the key is read
   from the old memory. *)
Definition own_case : list (call nat nat) := [Plain _ _ (Emplace _ _ 0 5)].
Definition own_run := call_run nat nat N.of_nat Nat.eqb 0 100 (fun v => v) (empty_tbl nat nat).
Theorem C70_nested_bracket_refuted :
  (exists t, own_run own_case = Ok (t, [OIns _ _ true 5])) /\
  own_run (own_case ++ [Own _ _ (NestOwn 0)]) = UB /\
  (exists t, own_run (own_case ++ [Plain _ _ (Bracket _ _ 5)]) = Ok (t, [OIns _ _ true 5; OVal _ _ 0])).
Proof. split; [eexists; vm_compute; reflexivity|]. split; [vm_compute; reflexivity|]. eexists. vm_compute. reflexivity. Qed.
Print Assumptions C70_nested_bracket_refuted.
(* m[1] = m.at(0), with values of class type *)
Theorem C70_assign_refuted :
  own_run (own_case ++ [Own _ _ (AssignOwn 1 0)]) = UB /\
  (exists t, own_run (own_case ++ [Plain _ _ (Assign _ _ 1 5)]) = Ok (t, [OIns _ _ true 5; ONone _ _])).
Proof. split; [vm_compute; reflexivity|]. eexists. vm_compute. reflexivity. Qed.
Print Assumptions C70_assign_refuted.

(* with room, or with emplace and erase, all is well *)
Definition own_more : list (call nat nat) :=
  [Plain _ _ (Emplace _ _ 0 5); Own _ _ (EmplaceOwn 1 0); Plain _ _ (Emplace _ _ 2 9);
   Own _ _ (EmplaceOwn 9 0); Own _ _ (NestOwn 0); Own _ _ (NestOwn 2); Own _ _ (AssignOwn 7 2); Own _ _ (EraseOwn 2);
   Own _ _ (NestOwn 77); Plain _ _ (Get _ _ 7); Plain _ _ (Size _ _)].
Example C70_case :
  list_sum (map (adding nat nat) own_more) = 8 /\
  snd (call_hist nat nat Nat.eqb (fun v => v) 0 [] own_more) =
    [OIns _ _ true 5; OIns _ _ true 5; OIns _ _ true 9; OIns _ _ true 5; OVal _ _ 0; OVal _ _ 5; ONone _ _; ONum _ _ 1%N;
     OOutOfRange _ _; OOpt _ _ (Some 9); ONum _ _ 5%N] /\
  exists t, own_run own_more = Ok (t, snd (call_hist nat nat Nat.eqb (fun v => v) 0 [] own_more)).
Proof. split; [vm_compute; reflexivity|]. split; [vm_compute; reflexivity|]. eexists. vm_compute. reflexivity. Qed.
Example C70_insert_self_case : match own_run own_more with
  | Ok (t, _) => t_size nat nat t = 5%N /\ insert_self nat nat N.of_nat Nat.eqb 100 t = Ok t | _ => False end.
Proof. vm_compute. auto. Qed.
