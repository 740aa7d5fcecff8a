(* C50: several hash maps do not share anything and release their memory. *)
From Verif Require Import Base HashModel HashSpec HashRefine HashProofs HmemModel HmemSpec HmemProofs.

(* Any history over any number of maps - growing, copied, moved, destroyed, loaded from serialized
   data and then modified - is defined, answers as independent finite maps do, and frees each block at
   most once; there are at most as many blocks in use as maps that may hold memory: none once every map
   is cleared, destroyed or moved from. Missing:
   rehashing an empty map, moving into a map that may hold memory, failing allocations (see below). *)
Theorem C50_many_maps_partial :
  forall (K V : Type) (hash : K -> N) (keq : K -> K -> bool) (dv : V) (max_cap : nat),
  key_laws K keq hash -> cap_bounded max_cap ->
  forall ops ms xs,
  mspec_run K V keq dv [] ops = Some (ms, xs) ->
  3 * minserts K V ops + 2 <= max_cap ->
  exists w xs', mrun K V hash keq dv max_cap (World [] []) ops = Ok (w, xs') /\
    Forall2 (same_out K V) xs' xs /\
    length (tabs w) = length ms /\
    in_use (blocks w) <= holders ms.
Proof.
  intros K V hash keq dv max_cap L C ops ms xs E B.
  destruct (mrun_ok K V hash keq dv max_cap L C ops _ _ _ _ _ (start_MI K V hash keq max_cap) E) as [(_ & X)|(w & xs' & R & M & S)].
  { cbn in *. lia. }
  exists w, xs'. split; auto. split; auto. split.
  - eapply F2_length. apply M.
  - eapply all_released; eauto.
Qed.

(* With any allocation limit the outcome is either as above or bad_alloc, never undefined. *)
Theorem C50_no_undefined :
  forall (K V : Type) (hash : K -> N) (keq : K -> K -> bool) (dv : V) (max_cap : nat),
  key_laws K keq hash -> cap_bounded max_cap ->
  forall ops ms xs, mspec_run K V keq dv [] ops = Some (ms, xs) ->
  mrun K V hash keq dv max_cap (World [] []) ops <> UB /\ mrun K V hash keq dv max_cap (World [] []) ops <> Fuel.
Proof.
  intros K V hash keq dv max_cap L C ops ms xs E.
  destruct (mrun_ok K V hash keq dv max_cap L C ops _ _ _ _ _ (start_MI K V hash keq max_cap) E) as [(-> & _)|(w & xs' & -> & _)];
    split; discriminate.
Qed.

Definition ex_id (k : nat) : N := N.of_nat k.
Notation erun := (mrun nat nat ex_id Nat.eqb 0 4000 (World [] [])).
Definition A1 r k v : mop nat nat := On r (Assign nat nat k v).

(* copies are independent, a loaded map grows out of its buffer, everything is released *)
Example C50_example :
  let ops := [NewT; A1 0 1 10; A1 0 2 20; A1 0 3 30; CopyNew 0; On 1 (Erase nat nat 2); Load 0; A1 2 4 40; A1 2 5 50; A1 2 6 60;
              A1 2 7 70; A1 2 8 80; On 2 (Size _ _); On 0 (Size _ _); On 1 (Size _ _); MoveNew 2; On 2 (Size _ _); CopyTo 1 3;
              On 1 (Get nat nat 8); MoveTo 2 0; On 2 (Rehash _ _); On 2 (Get nat nat 2); DestroyT 1; DestroyT 2; DestroyT 3] in
  mspec_run nat nat Nat.eqb 0 [] ops = Some ([([], false); ([], false); ([], false); ([], false)],
    repeat (ONone _ _) 5 ++ [ONum _ _ 1%N] ++ repeat (ONone _ _) 6 ++ [ONum _ _ 8%N; ONum _ _ 3%N; ONum _ _ 2%N; ONone _ _; ONum _ _ 0%N; ONone _ _;
     OOpt _ _ (Some 80); ONone _ _; ONone _ _; OOpt _ _ (Some 20); ONone _ _; ONone _ _; ONone _ _]) /\
  3 * minserts nat nat ops + 2 <= 4000 /\
  match erun ops with Ok (w, _) => length (blocks w) = 11 /\ Forall (eq false) (blocks w) | _ => False end.
Proof. split; [vm_compute; reflexivity|]. split; [vm_compute; lia|]. vm_compute. split; [reflexivity|]. repeat constructor. Qed.

(* Move assignment does not release what the target holds: its block leaks, and its entries are not
   destroyed. *)
Theorem C50_move_assignment_refuted :
  let ops := [NewT; A1 0 1 10; NewT; MoveTo 0 1; DestroyT 0; DestroyT 1] in
  match erun ops with Ok (w, _) => blocks w = [true] | _ => False end.
Proof. vm_compute. reflexivity. Qed.

(* rehash() of an empty map allocates a block that is never freed. *)
Theorem C50_rehash_empty_refuted :
  let ops := [NewT; On 0 (Rehash _ _); DestroyT 0] in
  match erun ops with Ok (w, _) => blocks w = [true] | _ => False end.
Proof. vm_compute. reflexivity. Qed.

(* The loop of clear() and of the destructor, one control byte after the other: for every table with room for its control bytes it is what
   HashModel.clear does in one step. *)
Theorem C50_clear_loop :
  forall (K V : Type) (t : tbl K V), t_cap K V t <= length (t_ctrl K V t) -> length (t_ent K V t) = t_cap K V t ->
  clear_from K V t (t_cap K V t) 0 = destroy_all K V (combine (firstn (t_cap K V t) (t_ctrl K V t)) (t_ent K V t)).
Proof. exact clear_loop. Qed.
Example C50_clear_loop_example :
  clear_from nat nat (Tbl nat nat [Some (1, 2); None; Some (3, 4)] [5; 128; 7; 255]%N 2 3 0) 3 0 = Ok tt /\
  clear_from nat nat (Tbl nat nat [Some (1, 2); None; None] [5; 128; 7; 255]%N 2 3 0) 3 0 = UB.
Proof. vm_compute. auto. Qed.

(* If growing fails, the map is destroyed in effect: it has lost its entries (and leaks their block), and
   its destructor reads control bytes that do not exist. *)
Theorem C50_failed_growth_refuted :
  exists h, (match erun [NewT; A1 0 1 10] with Ok (w, _) => nth_error (tabs w) 0 = Some h | _ => False end) /\
    h_at h = Own 0 /\
    h_at (grow_fail nat nat h 3) = Nil /\
    clear_from nat nat (h_tbl (grow_fail nat nat h 3)) 3 0 = UB.
Proof.
  destruct (erun [NewT; A1 0 1 10]) as [[w xs]| | |] eqn:E; vm_compute in E; try discriminate. injection E as <- <-.
  eexists. split; [reflexivity|]. vm_compute. auto.
Qed.

Print Assumptions C50_many_maps_partial.
Print Assumptions C50_no_undefined.
Print Assumptions C50_move_assignment_refuted.
Print Assumptions C50_rehash_empty_refuted.
Print Assumptions C50_failed_growth_refuted.
Print Assumptions C50_clear_loop.
