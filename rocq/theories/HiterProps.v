(* C51: iterators and references into a hash map. *)
From Verif Require Import Base HashModel HashSpec HashProofs HashRefine HiterModel HiterSpec HmemProofs HiterProofs.

(* Erasing the entries with some property while iterating over the map, in whatever state its history has
   left it, ends and leaves exactly the other entries: every later history answers as the filtered map. *)
Theorem C51_erase_while_iterating :
  forall (K V : Type) (hash : K -> N) (keq : K -> K -> bool) (dv : V) (max_cap : nat),
  key_laws K keq hash -> cap_bounded max_cap ->
  forall ops t xs (p : K * V -> bool),
  run K V hash keq dv max_cap (empty_tbl K V) ops = Ok (t, xs) ->
  exists t', erase_if K V p t = Ok t' /\
    forall ops2, 3 * (inserts K V ops + inserts K V ops2) + 2 <= max_cap ->
    exists t2 xs2, run K V hash keq dv max_cap t' ops2 = Ok (t2, xs2) /\
      Forall2 (same_out K V) xs2
        (snd (spec_run K V keq dv (filter (fun e => negb (p e)) (fst (spec_run K V keq dv [] ops))) ops2)).
Proof.
  intros K V hash keq dv max_cap L C ops t xs p R.
  destruct (run_spec K V hash keq dv max_cap L C ops _ _ 0 (Inv_empty K V hash keq max_cap 0)) as [(X & _)|(t0 & xs0 & X & H & _)]; [congruence|].
  rewrite R in X. injection X as <- <-.
  destruct (erase_if_ok K V hash keq max_cap L p t _ _ H) as (t' & -> & H' & _). exists t'. split; auto. intros ops2 B.
  destruct (run_spec K V hash keq dv max_cap L C ops2 _ _ _ H') as [(_ & X)|(t2 & xs2 & X & _ & S)]; [cbn in X; lia|]. eauto.
Qed.

(* An entry keeps its slot, key and value through every operation that does not remove or assign it, as
   long as the map does not grow: iterators and references to it stay valid. *)
Theorem C51_entries_stay :
  forall (K V : Type) (hash : K -> N) (keq : K -> K -> bool) (dv : V) (max_cap : nat),
  key_laws K keq hash -> cap_bounded max_cap ->
  forall ops t xs o t' x i e,
  run K V hash keq dv max_cap (empty_tbl K V) ops = Ok (t, xs) ->
  step K V hash keq dv max_cap t o = Ok (t', x) ->
  t_cap K V t' = t_cap K V t ->
  rd_ent K V t i = Ok e -> touches K V keq o (fst e) = false ->
  rd_ent K V t' i = Ok e.
Proof.
  intros K V hash keq dv max_cap L C ops t xs o t' x i e R S Cp Hi T.
  destruct (run_spec K V hash keq dv max_cap L C ops _ _ 0 (Inv_empty K V hash keq max_cap 0)) as [(X & _)|(t0 & xs0 & X & H & _)]; [congruence|].
  rewrite R in X. injection X as <- <-. apply rd_ent_ok. eapply (stays K V hash keq dv max_cap L C t _ _ o t' x H S Cp i e); auto.
  unfold rd_ent in Hi. destruct (nth_error (t_ent K V t) i) as [[e'|]|]; try discriminate. injection Hi as ->. reflexivity.
Qed.

(* A map only grows when an entry with a new key is added: lookups, assignments to existing keys and
   erasing never move anything. *)
Theorem C51_growth_only_for_new_keys :
  forall (K V : Type) (hash : K -> N) (keq : K -> K -> bool) (dv : V) (max_cap : nat),
  key_laws K keq hash -> cap_bounded max_cap ->
  forall ops t xs o t' x,
  run K V hash keq dv max_cap (empty_tbl K V) ops = Ok (t, xs) ->
  step K V hash keq dv max_cap t o = Ok (t', x) ->
  o <> Clear K V -> o <> Rehash K V -> o <> Copy K V ->
  t_cap K V t' <> t_cap K V t -> adds K V keq o (fst (spec_run K V keq dv [] ops)).
Proof.
  intros K V hash keq dv max_cap L C ops t xs o t' x R S N1 N2 N3 Cp.
  destruct (run_spec K V hash keq dv max_cap L C ops _ _ 0 (Inv_empty K V hash keq max_cap 0)) as [(X & _)|(t0 & xs0 & X & H & _)]; [congruence|].
  rewrite R in X. injection X as <- <-. eapply grows_only; eauto. destruct o; try reflexivity; congruence.
Qed.

Definition it_ops : list (op nat nat) :=
  map (fun k => Assign nat nat k (k * k)) (seq 0 20) ++ [Erase nat nat 3; Erase nat nat 4].
(* odd keys erased while iterating over colliding keys and tombstones *)
Example C51_example :
  match run nat nat (fun k => N.of_nat (k mod 3)) Nat.eqb 0 4000 (empty_tbl nat nat) it_ops with
  | Ok (t, _) =>
      match erase_if nat nat (fun e => Nat.odd (fst e)) t with
      | Ok t' => match iterate nat nat t' with
                 | Ok l => Permutation l (map (fun k => (2 * k, 4 * k * k)) [0; 1; 3; 4; 5; 6; 7; 8; 9])
                 | _ => False
                 end
      | _ => False
      end
  | _ => False
  end.
Proof.
  vm_compute.
  repeat match goal with
  | |- Permutation [] [] => constructor
  | |- Permutation (?x :: ?l) ?r =>
      let rec go pre r := match r with
        | x :: ?r' => apply (Permutation_cons_app pre r' x); cbn [app]
        | ?y :: ?r' => let pre' := eval cbn [app] in (pre ++ [y]) in go pre' r'
        end in go (@nil (nat * nat)) r
  end.
Qed.
(* growing does move entries: the slot of key 1 *)
Example C51_growth_moves :
  let st t k := find_ nat nat (fun k => N.of_nat (200 * k)) Nat.eqb t k in
  match run nat nat (fun k => N.of_nat (200 * k)) Nat.eqb 0 4000 (empty_tbl nat nat) [Assign nat nat 1 1] with
  | Ok (t, _) => match step nat nat (fun k => N.of_nat (200 * k)) Nat.eqb 0 4000 t (Assign nat nat 2 2) with
                 | Ok (t', _) => st t 1 = Ok (Some 0) /\ st t' 1 <> st t 1
                 | _ => False
                 end
  | _ => False
  end.
Proof. vm_compute. split; [reflexivity|discriminate]. Qed.

Print Assumptions C51_erase_while_iterating.
Print Assumptions C51_entries_stay.
Print Assumptions C51_growth_only_for_new_keys.
