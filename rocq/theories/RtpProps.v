(* C65: an rtree in files can be closed and opened again. *)
From Coq Require Import ZArith Permutation.
From Verif Require Import Base RtModel RtSpec RtProofs RtTree RtProps RtpModel RtpSpec RtpProofs.

(* Histories of inserts, deletes, searches, write_meta (also interrupted) and new processes, whatever unused nodes the
   file has at its end. If every process calls write_meta after its last change, all outcomes are those of a collection
   of entries, as if the tree had always been in memory. *)
Theorem C65_reopen_partial :
  forall (C : Type) (lt : C -> C -> bool) (c0 : C) (D : Type) (diff : C -> C -> D) (mulD subD : D -> D -> D) (oneD infD : D) (ltD : D -> D -> bool)
    (V : Type) (Dims MaxItems Hints : nat) (veq : V -> V -> bool) (ops : list (pop C V)),
  order_ok lt -> 0 < Dims -> 3 <= MaxItems -> careful C V false ops = true ->
  Forall (op_ok C V Dims) (tree_ops C V ops) -> inserts C V (tree_ops C V ops) < gsum (min_items MaxItems) (S Hints) ->
  exists st s outs, prun C lt c0 D diff mulD subD oneD infD ltD V Dims MaxItems Hints veq (empty C c0 V Dims Hints, MNone) ops = Ok (st, outs) /\ psruns C lt V veq [] ops s outs.
Proof.
  intros C lt c0 D diff mulD subD oneD infD ltD V Dims MaxItems Hints veq ops O HD HM Hc Ho HI.
  destruct (prun_ok C lt c0 D diff mulD subD oneD infD ltD V Dims MaxItems Hints veq O HD HM ops false 0 _ MNone [] (inv_empty C lt c0 V Dims MaxItems Hints) ltac:(intros Z; discriminate Z) Hc Ho HI) as (t & f & s & xs & E & _ & Sp).
  eauto.
Qed.
Print Assumptions C65_reopen_partial.

(* After changes without write_meta: as long as the root is the same node as then, searching the reopened tree still
   finds exactly the entries of the latest state. (For every n at least n0: the depth of the recursion.) *)
Theorem C65_stale_search_partial :
  forall (C : Type) (lt : C -> C -> bool) (c0 : C) (D : Type) (diff : C -> C -> D) (mulD subD : D -> D -> D) (oneD infD : D) (ltD : D -> D -> bool)
    (V : Type) (Dims MaxItems Hints : nat) (veq : V -> V -> bool) (ops0 : list (pop C V)) (ops1 : list (op C V)),
  order_ok lt -> 0 < Dims -> 3 <= MaxItems -> careful C V false ops0 = true ->
  Forall (op_ok C V Dims) (tree_ops C V ops0 ++ ops1) -> inserts C V (tree_ops C V ops0 ++ ops1) < gsum (min_items MaxItems) (S Hints) ->
  exists t1 f1 xs t2 f2 ys s,
    prun C lt c0 D diff mulD subD oneD infD ltD V Dims MaxItems Hints veq (empty C c0 V Dims Hints, MNone) (ops0 ++ [PSave]) = Ok ((t1, f1), xs) /\
    prun C lt c0 D diff mulD subD oneD infD ltD V Dims MaxItems Hints veq (t1, f1) (map POp ops1) = Ok ((t2, f2), ys) /\
    psruns C lt V veq [] ((ops0 ++ [PSave]) ++ map POp ops1) s (xs ++ ys) /\
    (root _ _ t2 = root _ _ t1 -> forall g, exists r, reopen C V (t2, f2) g = Ok (r, f2) /\
      forall q fn, length q = Dims -> exists l n0,
        (forall n, n0 <= n -> search_deep C lt V n r q fn = Ok (upto C V fn l)) /\ selects C V (fun e => overlap C lt (fst e) q) s l).
Proof.
  intros C lt c0 D diff mulD subD oneD infD ltD V Dims MaxItems Hints veq ops0 ops1 O HD HM.
  exact (stale_ok C lt c0 D diff mulD subD oneD infD ltD V Dims MaxItems Hints veq O HD HM ops0 ops1).
Qed.
Print Assumptions C65_stale_search_partial.

(* integer coordinates, nodes of 3 entries *)
Definition zprun_of (M : nat) := prun Z Z.ltb 0%Z Z Z.sub Z.mul Z.sub 1%Z (2 ^ 200)%Z Z.ltb nat 2 M 16 Nat.eqb.
Definition zprun := zprun_of 3.
Definition zp0 : pstate Z nat := (empty Z 0%Z nat 2 16, MNone).
Definition pins (i : nat) : pop Z nat := let z := Z.of_nat i in POp (Insert Z nat (R (z * 10) 0 (z * 10 + 1) 1) i).
Definition pdel (i : nat) : pop Z nat := let z := Z.of_nat i in POp (Delete Z nat (R (z * 10) 0 (z * 10 + 1) 1) i).
Definition pall : pop Z nat := POp (Search Z nat (R 0 0 1000 1) (fun _ => true)).
Definition junk : node Z nat := leaf Z nat [].
(* the values an answer reports, in this order *)
Definition vals (x : out Z nat) : list nat := match x with OCalls _ _ l => map snd l | OSize _ _ n => [n] | OUnit _ _ => [] end.
Definition pops1 : list (pop Z nat) :=
  map pins (seq 0 8) ++ [pdel 3; PSave; pall; PReopen [junk; junk]; pall; pins 9; PSaveKilled; PSave; PReopen []; pins 10; pall; POp (Size Z nat)].
Example C65_reopen_case : careful Z nat false pops1 = true /\ Forall (op_ok Z nat 2) (tree_ops Z nat pops1) /\ inserts Z nat (tree_ops Z nat pops1) < gsum (min_items 3) 17 /\
  match zprun zp0 pops1 with Ok (_, outs) => map vals (skipn 10 outs) = [[2; 0; 1; 4; 5; 6; 7]; []; [2; 0; 1; 4; 5; 6; 7]; []; []; []; []; []; [2; 0; 1; 4; 5; 6; 7; 9; 10]; [9]] | _ => False end.
Proof. split; [reflexivity|]. split; [repeat constructor|]. split; [vm_compute; lia|]. vm_compute. reflexivity. Qed.
(* deleted and inserted entries are seen although they were not saved: the root stays *)
Example C65_stale_case :
  match zprun zp0 (map pins (seq 0 6) ++ [PSave]) with
  | Ok ((t1, f1), _) => match zprun (t1, f1) [pins 6; pdel 2] with
      | Ok ((t2, f2), _) => root _ _ t2 = root _ _ t1 /\ nodes _ _ t2 <> nodes _ _ t1 /\
          match zprun (t2, f2) [PReopen []; pall] with Ok (_, outs) => map vals outs = [[]; [0; 1; 3; 4; 5; 6]] | _ => False end
      | _ => False end
  | _ => False end.
Proof. vm_compute. split; [reflexivity|]. split; [discriminate|reflexivity]. Qed.

(* A process that ends after a change without write_meta can lose entries that had been saved: the fourth insert splits the root. *)
Theorem C65_unsaved_insert_loses_saved_refuted :
  match zprun zp0 [pins 0; pins 1; pins 2; PSave; pall; pins 3; PReopen []; pall; POp (Size Z nat)] with
  | Ok (_, outs) => map vals (skipn 4 outs) = [[0; 1; 2]; []; []; [0; 1]; [3]] | _ => False end.
Proof. vm_compute. reflexivity. Qed.
Print Assumptions C65_unsaved_insert_loses_saved_refuted.
(* With an old list of free nodes, a later insert overwrites a node in use: saved entries (12, 13) are lost and others are found twice. *)
Theorem C65_unsaved_free_list_refuted :
  match zprun_of 4 zp0 (map pins [0; 1; 2; 10; 11; 12; 20; 21; 22] ++ [pdel 22; pdel 21; pdel 20; pins 13; PSave; pall; pins 14; PReopen []; pall; pins 3; pins 4; pall]) with
  | Ok (_, outs) => map vals (skipn 14 outs) = [[0; 1; 2; 10; 11; 12; 13]; []; []; [0; 1; 2; 10; 11; 12; 13; 14]; []; []; [0; 1; 10; 11; 2; 3; 4; 2; 3; 4]] | _ => False end.
Proof. vm_compute. reflexivity. Qed.
Print Assumptions C65_unsaved_free_list_refuted.
(* write_meta is not atomic: interrupted, it leaves a tree that cannot be opened, although it had been saved before *)
Theorem C65_interrupted_save_refuted : zprun zp0 [pins 0; PSave; pins 1; PSaveKilled; PReopen []] = Throw.
Proof. vm_compute. reflexivity. Qed.
Print Assumptions C65_interrupted_save_refuted.
