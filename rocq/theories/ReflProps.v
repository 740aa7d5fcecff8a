(* C52: reflection lists all members of a struct. *)
From Coq Require Import String.
From Verif Require Import Base ReflModel ReflSpec ReflProofs.
Open Scope nat_scope.
Open Scope list_scope.

(* Finding the number of members ends for every struct. *)
Theorem C52_arity_ends : forall s, exists n, arity s = Ok n.
Proof. intros s. destruct (arity_spec s) as (a & E & _). exists a. exact E. Qed.
Print Assumptions C52_arity_ends.

(* Whatever compiles lists every member exactly once, in the order of declaration, or none at all. The latter happens only if
   the struct cannot be initialized from a single value. *)
Theorem C52_all_or_nothing_partial : forall s ms, to_tuple s = Tie ms ->
  (ms = all_members s /\ NoDup ms) \/ (ms = [] /\ compiles s 1 = false).
Proof.
  intros s ms E. destruct (to_tuple_cases s ms E) as [->|M]; [left|right; exact M].
  split; [reflexivity|apply all_members_NoDup].
Qed.
Print Assumptions C52_all_or_nothing_partial.

(* Structs without base classes, all of whose members take one value and can be left out: all members up to 64 of them; more do not compile. *)
Theorem C52_complete : forall s, plain s ->
  (List.length (s_fields s) <= 64 -> to_tuple s = Tie (all_members s))
  /\ (64 < List.length (s_fields s) -> to_tuple s = Ill).
Proof. intros s P. split; [apply plain_to_tuple|apply too_many]; exact P. Qed.
Print Assumptions C52_complete.

Example C52_complete_example :
  let s := {| s_bases := []; s_fields := [FVal true true; FVal true true; FVal true true] |} in
  plain s /\ to_tuple s = Tie [(0, 0); (0, 1); (0, 2)].
Proof. split; [split; [reflexivity|repeat constructor]|vm_compute; reflexivity]. Qed.

(* C arrays: the number of initializers is counted, so that only arrays of a single element compile. *)
Theorem C52_arrays : forall s, s_bases s = [] -> Forall arrays (s_fields s) -> List.length (s_fields s) <= 64 ->
  arity s = Ok (slots_all (s_fields s))
  /\ (Forall (fun t => slots t = 1) (s_fields s) -> to_tuple s = Tie (all_members s))
  /\ (~ Forall (fun t => slots t = 1) (s_fields s) -> to_tuple s = Ill).
Proof. intros s B A L. split; [apply arrays_arity; assumption|apply arrays_to_tuple; assumption]. Qed.
Print Assumptions C52_arrays.

Example C52_arrays_example :
  let s := {| s_bases := []; s_fields := [FVal true true; FArr 3 (FVal true true)] |} in
  arity s = Ok 4 /\ to_tuple s = Ill
  /\ to_tuple {| s_bases := []; s_fields := [FVal true true; FArr 1 (FVal true true)] |} = Tie [(0, 0); (0, 1)].
Proof. vm_compute. auto. Qed.

(* Base classes: a struct that only adds a base with one member works, one with more members does not compile. *)
Example C52_bases_example :
  to_tuple {| s_bases := [[FVal true true]]; s_fields := [] |} = Tie [(0, 0)]
  /\ to_tuple {| s_bases := [[FVal true true; FVal true true]]; s_fields := [] |} = Ill
  /\ to_tuple {| s_bases := [[]]; s_fields := [FVal true true] |} = Ill.
Proof. vm_compute. auto. Qed.

(* The property fails: a struct { int a; X b; } with X not default constructible compiles and has no members for the library. All its objects
   are equal and hash alike. *)
Theorem C52_missing_default_refuted :
  let s := {| s_bases := []; s_fields := [FVal true true; FVal true false] |} in
  List.length (all_members s) = 2 /\ to_tuple s = Tie []
  /\ (forall (V : Type) (eqv : V -> V -> bool) a b, struct_equal eqv s a b = Some true)
  /\ (forall (V H : Type) (f : H -> V -> H) seed a, struct_hash H f s seed a = Some seed).
Proof.
  split; [vm_compute; reflexivity|]. split; [vm_compute; reflexivity|]. split; intros; vm_compute; reflexivity.
Qed.
Print Assumptions C52_missing_default_refuted.

(* Exactly when a struct whose first member is not an array silently loses all its members: the first member does not take the probe,
   or another one cannot be left out. *)
Theorem C52_silent_iff : forall p d rest,
  to_tuple {| s_bases := []; s_fields := FVal p d :: rest |} = Tie []
  <-> p = false \/ exists t, In t rest /\ from_empty t = false.
Proof.
  intros p d rest. rewrite silent_values. split; intros [E|E]; auto; right.
  - induction rest as [|t rest IH]; [discriminate|]. cbn in E. destruct (from_empty t) eqn:T.
    + destruct (IH E) as (u & I & U). exists u. split; [right; exact I|exact U].
    + exists t. split; [left; reflexivity|exact T].
  - destruct E as (t & I & T). destruct (forallb from_empty rest) eqn:F; [|reflexivity].
    rewrite (proj1 (forallb_forall _ _) F t I) in T. discriminate.
Qed.
Print Assumptions C52_silent_iff.

(* for_each_field calls the function once for every member, in order, through any number of pointers; a null pointer calls nothing. *)
Theorem C52_visit : forall (V : Type) s (o : object V), plain s -> List.length (s_fields s) <= 64 ->
  for_each_field (TObj s o) = Some (map o (all_members s))
  /\ (forall t : target V, for_each_field (TPtr (Some t)) = for_each_field t)
  /\ for_each_field (TPtr (V := V) None) = Some [].
Proof.
  intros V s o P L. cbn [for_each_field]. rewrite (plain_to_tuple s P L). auto.
Qed.
Print Assumptions C52_visit.

(* Equality of structs is equality of all members. *)
Theorem C52_equal : forall (V : Type) (eqv : V -> V -> bool) s (a b : object V), plain s -> List.length (s_fields s) <= 64 ->
  exists r, struct_equal eqv s a b = Some r
  /\ (r = true <-> forall i, i < List.length (s_fields s) -> eqv (a (0, i)) (b (0, i)) = true).
Proof.
  intros V eqv s a b P L. unfold struct_equal. rewrite (plain_to_tuple s P L), all_equal_map. eexists. split; [reflexivity|].
  rewrite forallb_forall. destruct P as [B _]. split.
  - intros F i I. apply F. eapply nth_error_In. apply plain_member; assumption.
  - intros F m I. apply In_nth_error in I. destruct I as [i I].
    assert (i < List.length (s_fields s)) as Q.
    { rewrite <- all_members_length by exact B. apply nth_error_Some. congruence. }
    rewrite plain_member in I by assumption. injection I as <-. apply F. exact Q.
Qed.
Print Assumptions C52_equal.

(* member_index gives the position of a member, if no two members of the same type have the same address. *)
Theorem C52_member_index : forall s ty addr i, plain s -> List.length (s_fields s) <= 64 -> i < List.length (s_fields s) ->
  (forall x y, In x (all_members s) -> In y (all_members s) -> ty x = ty y -> addr x = addr y -> x = y) ->
  member_index s ty addr (0, i) = Some (N.of_nat i).
Proof.
  intros s ty addr i P L I D. unfold member_index. rewrite (plain_to_tuple s P L). f_equal. destruct P as [B _].
  rewrite (index_hit ty addr (0, i) _ i).
  - reflexivity.
  - apply plain_member; assumption.
  - apply all_members_NoDup.
  - intros x y X Y E. injection E as E1 E2. apply D; assumption.
  - rewrite all_members_length by exact B. lia.
Qed.
Print Assumptions C52_member_index.

(* A member that is not listed gets the index 2^32 - 1, which is not the largest std::size_t. *)
Theorem C52_member_index_missing : forall s ty addr m ms, to_tuple s = Tie ms ->
  (forall x, In x ms -> (ty x, addr x) <> (ty m, addr m)) -> member_index s ty addr m = Some 4294967295%N.
Proof. intros s ty addr m ms E D. unfold member_index. rewrite E. f_equal. apply index_miss. exact D. Qed.
Print Assumptions C52_member_index_missing.

Example C52_member_index_example :
  let s := {| s_bases := []; s_fields := [FVal true true; FVal true true; FVal true true] |} in
  let ty := fun m : member => if snd m =? 1 then 8%N else 4%N in
  let addr := fun m : member => N.of_nat (8 * snd m) in
  member_index s ty addr (0, 2) = Some 2%N /\ member_index s ty addr (1, 0) = Some 0%N /\ member_index s ty addr (0, 7) = Some 4294967295%N.
Proof. vm_compute. auto. Qed.

(* Printing: every member once, in order, with its name as far as names are given; vectors with one element per line. *)
Theorem C52_print : forall names vals,
  print_struct names vals = ("{" ++ join ", " (labelled names vals) ++ "}")%string
  /\ print_vector vals = ("[" ++ newline ++ "  " ++ join ("," ++ newline ++ "  ") vals ++ newline ++ "]")%string.
Proof. intros. split; [apply print_struct_spec|apply print_vector_spec]. Qed.
Print Assumptions C52_print.

Example C52_print_example :
  print_struct ["a"; "b"]%string ["1"; "2"; "3"]%string = "{a=1, b=2, 3}"%string.
Proof. vm_compute. reflexivity. Qed.
