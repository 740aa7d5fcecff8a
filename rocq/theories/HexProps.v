(* C58: exceptions thrown by keys and values in hash maps. *)
From Coq Require Import Permutation.
From Verif Require Import Base HashModel HashSpec HashProps HexModel HexSpec HexProofs.

(* C58. Entries that move and fill their slot without exceptions, and a hash function that throws for some keys only: whenever the
   construction of an entry, a comparison or a hash throws, the operation has no effect. All other operations of the history answer as if
   the operations that threw had not been there, and so do iteration and size() afterwards. *)
Theorem C58_histories_partial :
  forall (K V : Type) (hash : K -> N) (keq : K -> K -> bool) (dv : V) (max_cap : nat),
  key_laws K keq hash -> cap_bounded max_cap ->
  forall fault ops, harmless K fault -> 3 * inserts K V ops + 2 <= max_cap ->
  exists t xs l, run_x K V hash keq dv max_cap fault 0 (empty_tbl K V) ops = Some (t, xs) /\ length xs = length ops /\
    Forall2 (same_out K V) (answers K V xs) (snd (spec_run K V keq dv [] (executed K V ops xs))) /\
    iterate K V t = Ok l /\ Permutation l (fst (spec_run K V keq dv [] (executed K V ops xs))) /\ t_size K V t = N.of_nat (length l).
Proof. exact histories. Qed.

(* C58. Without exceptions of the user's code no operation throws, and the map is that of C11. *)
Theorem C58_without_exceptions :
  forall (K V : Type) (hash : K -> N) (keq : K -> K -> bool) (dv : V) (max_cap : nat),
  key_laws K keq hash -> cap_bounded max_cap ->
  forall ops, 3 * inserts K V ops + 2 <= max_cap ->
  exists t xs, run K V hash keq dv max_cap (empty_tbl K V) ops = Ok (t, xs) /\
    run_x K V hash keq dv max_cap (no_fault K) 0 (empty_tbl K V) ops = Some (t, map Some xs).
Proof. exact without_faults. Qed.

(* ---- the hypotheses are met: key 9 has no hash, and some comparisons and constructions throw ---- *)
Definition ex_fault (n : nat) (e : event nat) : bool :=
  match e with EHash k => k =? 9 | EEq => n =? 40 | EMake => n =? 0 | _ => false end.
Example C58_example_fault : harmless nat ex_fault.
Proof. repeat split. exists (fun k => k =? 9). reflexivity. Qed.
Definition ex_hops : list (op nat nat) :=
  Emplace _ _ 1 1 :: map (fun k => Assign nat nat k (k * k)) (seq 0 13) ++
  [Erase _ _ 9; Erase _ _ 3; Find _ _ 9; Copy _ _; Size _ _; At _ _ 8; At _ _ 3].
Example C58_example_bound : cap_bounded 200 /\ 3 * inserts nat nat ex_hops + 2 <= 200.
Proof. split; [reflexivity|]. apply Nat.leb_le. vm_compute. reflexivity. Qed.
Definition threw (xs : list (option (out nat nat))) : list bool := map (fun x => match x with None => true | _ => false end) xs.
Example C58_example :
  match run_x nat nat ex_hash Nat.eqb 0 200 ex_fault 0 (empty_tbl nat nat) ex_hops with
  | Some (t, xs) => threw xs = [true; false; false; false; false; false; false; true; false; false; true; false; false; false;
                                true; false; true; false; false; false; false] /\
                    skipn 18 xs = [Some (ONum nat nat 10%N); Some (OVal nat nat 64); Some (OOutOfRange nat nat)]
  | None => False
  end.
Proof. vm_compute. auto. Qed.

(* ---- the full property: any code of the user may throw, at any time ---- *)
Definition usable_after_exceptions : Prop :=
  forall fault ops, 3 * inserts nat nat ops + 2 <= 200 ->
  exists t xs l, run_x nat nat ex_hash Nat.eqb 0 200 fault 0 (empty_tbl nat nat) ops = Some (t, xs) /\
    iterate nat nat t = Ok l /\ t_size nat nat t = N.of_nat (length l).

(* m[7] = 1: the constructor of the entry throws in its slot, which is already marked as full; the next lookup compares a key that was
   never constructed. *)
Theorem C58_throwing_constructor_refuted :
  let fault n (e : event nat) := match e with EPlace => true | _ => false end in
  run_x nat nat ex_hash Nat.eqb 0 200 fault 0 (empty_tbl nat nat) [Assign _ _ 7 1] <> None /\
  run_x nat nat ex_hash Nat.eqb 0 200 fault 0 (empty_tbl nat nat) [Assign _ _ 7 1; Find _ _ 7] = None /\
  run_x nat nat ex_hash Nat.eqb 0 200 fault 0 (empty_tbl nat nat) [Assign _ _ 7 1; Clear _ _] = None.
Proof. vm_compute. repeat split; discriminate. Qed.

(* a throwing move constructor while the table grows has the same effect *)
Theorem C58_throwing_move_refuted :
  let fault n (e : event nat) := match e with EMove => true | _ => false end in
  run_x nat nat ex_hash Nat.eqb 0 200 fault 0 (empty_tbl nat nat) [Assign _ _ 7 1; Assign _ _ 8 1] <> None /\
  run_x nat nat ex_hash Nat.eqb 0 200 fault 0 (empty_tbl nat nat) [Assign _ _ 7 1; Assign _ _ 8 1; Clear _ _] = None.
Proof. vm_compute. repeat split; discriminate. Qed.

(* The hash function throws once, while the table grows (for lack of memory, say): the entries that were not moved yet are gone, but
   size() still counts them. *)
Theorem C58_throwing_hash_refuted :
  let fault n (e : event nat) := match e with EHash _ => n =? 3 | _ => false end in
  match run_x nat nat ex_hash Nat.eqb 0 200 fault 0 (empty_tbl nat nat) [Assign _ _ 17 1; Assign _ _ 18 1; Iterate _ _; Size _ _; Find _ _ 17] with
  | Some (t, xs) => skipn 1 xs = [None; Some (OList nat nat []); Some (ONum nat nat 1%N); Some (OEntry nat nat None)]
  | None => False
  end.
Proof. vm_compute. repeat split. Qed.

Theorem C58_usable_refuted : ~ usable_after_exceptions.
Proof.
  intros H. destruct (H (fun n e => match e with EPlace => true | _ => false end) [Assign _ _ 7 1; Find _ _ 7]) as (t & xs & l & E & _).
  - apply Nat.leb_le. vm_compute. reflexivity.
  - vm_compute in E. discriminate.
Qed.

Print Assumptions C58_histories_partial.
Print Assumptions C58_without_exceptions.
Print Assumptions C58_throwing_constructor_refuted.
Print Assumptions C58_throwing_move_refuted.
Print Assumptions C58_throwing_hash_refuted.
Print Assumptions C58_usable_refuted.
