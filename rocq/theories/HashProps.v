(* C11-C13: hash_map / hash_set. *)
From Coq Require Import Permutation.
From Verif Require Import Base HashModel HashSpec HashInv HashProofs HashRefine.

(* C11. For every history of operations on an initially empty map, every result equals that of a
   finite map (iteration order aside), whatever the hash function does to collisions; the only
   other outcome, bad_alloc, needs a table larger than the allocation limit allows. *)
Theorem C11_hash_map_refines_finite_map :
  forall (K V : Type) (hash : K -> N) (keq : K -> K -> bool) (dv : V) (max_cap : nat),
  key_laws K keq hash -> cap_bounded max_cap ->
  forall ops, 3 * inserts K V ops + 2 <= max_cap ->
  exists t xs, run K V hash keq dv max_cap (empty_tbl K V) ops = Ok (t, xs) /\
    Forall2 (same_out K V) xs (snd (spec_run K V keq dv [] ops)).
Proof. exact refines. Qed.
Print Assumptions C11_hash_map_refines_finite_map.

(* C11. operator== on two maps with arbitrary histories decides equality of the two finite maps. *)
Theorem C11_hash_map_equality :
  forall (K V : Type) (hash : K -> N) (keq : K -> K -> bool) (dv : V) (max_cap : nat),
  key_laws K keq hash -> cap_bounded max_cap ->
  forall ops1 t1 xs1 ops2 t2 xs2 veq,
  run K V hash keq dv max_cap (empty_tbl K V) ops1 = Ok (t1, xs1) ->
  run K V hash keq dv max_cap (empty_tbl K V) ops2 = Ok (t2, xs2) ->
  exists r, equal K V hash keq veq t1 t2 = Ok r /\
    (r = true <-> map_equal K V keq veq (fst (spec_run K V keq dv [] ops1)) (fst (spec_run K V keq dv [] ops2))).
Proof. exact equal_final. Qed.
Print Assumptions C11_hash_map_equality.

(* C12. No history runs into undefined behaviour or an endless probe loop: neither outcome is possible,
   with any allocation limit. *)
Theorem C12_no_ub_no_endless_probe :
  forall (K V : Type) (hash : K -> N) (keq : K -> K -> bool) (dv : V) (max_cap : nat),
  key_laws K keq hash -> cap_bounded max_cap ->
  forall ops, run K V hash keq dv max_cap (empty_tbl K V) ops <> UB /\
              run K V hash keq dv max_cap (empty_tbl K V) ops <> Fuel.
Proof. exact no_ub. Qed.
Print Assumptions C12_no_ub_no_endless_probe.

(* C12. Looking up any key, present or not, in any table reached by a history ends after at most
   capacity + 1 probes (the fuel of find_). *)
Theorem C12_find_terminates :
  forall (K V : Type) (hash : K -> N) (keq : K -> K -> bool) (dv : V) (max_cap : nat),
  key_laws K keq hash -> cap_bounded max_cap ->
  forall ops t xs k, run K V hash keq dv max_cap (empty_tbl K V) ops = Ok (t, xs) ->
  exists r, find_ K V hash keq t k = Ok r.
Proof. exact find_terminates. Qed.
Print Assumptions C12_find_terminates.

(* C12. Capacity is one less than a power of two, the load is at most 7/8 of capacity + 1, and every
   table with at least one group of slots has a never-used slot. *)
Theorem C12_capacity_and_load :
  forall (K V : Type) (hash : K -> N) (keq : K -> K -> bool) (dv : V) (max_cap : nat),
  key_laws K keq hash -> cap_bounded max_cap ->
  forall ops t xs, run K V hash keq dv max_cap (empty_tbl K V) ops = Ok (t, xs) ->
  (exists k, t_cap K V t + 1 = 2 ^ k) /\
  (8 * t_size K V t <= 7 * (N.of_nat (t_cap K V t) + 1))%N /\
  (7 <= t_cap K V t -> exists s, s < t_cap K V t /\ nth_error (t_ctrl K V t) s = Some EMPTY).
Proof. exact cap_load. Qed.
Print Assumptions C12_capacity_and_load.

(* C13. Iterating visits each entry of the finite map exactly once, and no two visited keys are equal. *)
Theorem C13_iteration_visits_each_once :
  forall (K V : Type) (hash : K -> N) (keq : K -> K -> bool) (dv : V) (max_cap : nat),
  key_laws K keq hash -> cap_bounded max_cap ->
  forall ops t xs, run K V hash keq dv max_cap (empty_tbl K V) ops = Ok (t, xs) ->
  exists l, iterate K V t = Ok l /\ Permutation l (fst (spec_run K V keq dv [] ops)) /\
    ForallOrdPairs (fun a b => keq (fst a) (fst b) = false) l /\ t_size K V t = N.of_nat (length l).
Proof. exact iterate_final. Qed.
Print Assumptions C13_iteration_visits_each_once.

(* ---- the hypotheses are met: colliding keys, growth, tombstones, copies ---- *)
Definition ex_hash (k : nat) : N := if k <? 12 then 5%N else N.of_nat k.
Definition ex_ops : list (op nat nat) :=
  map (fun k => Assign nat nat k (k * k)) (seq 0 20) ++
  map (Erase nat nat) [3; 4; 3; 25] ++
  [Rehash _ _; Copy _ _; Emplace _ _ 4 1; Emplace _ _ 5 1; Bracket _ _ 3; Get _ _ 19; At _ _ 77; Find _ _ 6; Size _ _; Iterate _ _].
Example ex_laws : key_laws nat Nat.eqb ex_hash.
Proof.
  unfold key_laws. repeat split.
  - apply Nat.eqb_refl.
  - intros a b H. apply Nat.eqb_eq in H as ->. apply Nat.eqb_refl.
  - intros a b c H1 H2. apply Nat.eqb_eq in H1 as ->. exact H2.
  - intros a b H. apply Nat.eqb_eq in H as ->. reflexivity.
Qed.
Example ex_bounded : cap_bounded 200 /\ 3 * inserts nat nat ex_ops + 2 <= 200.
Proof. split; [reflexivity|]. apply Nat.leb_le. vm_compute. reflexivity. Qed.
Example ex_run : exists t l, run nat nat ex_hash Nat.eqb 0 200 (empty_tbl nat nat) ex_ops =
  Ok (t, repeat (ONone nat nat) 20 ++ map (ONum nat nat) [1; 1; 0; 0]%N ++
    [ONone _ _; ONone _ _; OIns _ _ true 1; OIns _ _ false 25; OVal _ _ 0; OOpt _ _ (Some 361);
     OOutOfRange _ _; OEntry _ _ (Some (6, 36)); ONum _ _ 20%N; OList _ _ l]) /\ length l = 20.
Proof. do 2 eexists. split; vm_compute; reflexivity. Qed.
(* the limit is reached: bad_alloc instead of corruption *)
Example ex_limit : run nat nat ex_hash Nat.eqb 0 3 (empty_tbl nat nat) ex_ops = Throw.
Proof. vm_compute. reflexivity. Qed.
(* equality: same contents by different histories, and a different value *)
Example ex_equal : exists t1 x1 t2 x2 t3 x3,
  run nat nat ex_hash Nat.eqb 0 200 (empty_tbl nat nat) ex_ops = Ok (t1, x1) /\
  run nat nat ex_hash Nat.eqb 0 200 (empty_tbl nat nat) (ex_ops ++ [Erase _ _ 6; Emplace _ _ 6 36]) = Ok (t2, x2) /\
  run nat nat ex_hash Nat.eqb 0 200 (empty_tbl nat nat) (ex_ops ++ [Assign _ _ 6 35]) = Ok (t3, x3) /\
  equal nat nat ex_hash Nat.eqb Nat.eqb t1 t2 = Ok true /\ equal nat nat ex_hash Nat.eqb Nat.eqb t1 t3 = Ok false.
Proof.
  do 6 eexists. split; [vm_compute; reflexivity|]. split; [vm_compute; reflexivity|]. split; [vm_compute; reflexivity|].
  split; vm_compute; reflexivity.
Qed.
