(* C39: vectors in memory mapped files. *)
From Verif Require Import Base FlatModel FlatSpec FileModel SumModel SumSpec MvecModel MvecSpec MvecProofs.

(* Any history of push_back, emplace_back, insert (all three forms), resize, reserve, set, reads, writes, and closing and opening again
   (writable, read only or truncating), on a file that contains the elements l, gives the answers of a
   sequence of elements; opening again gives the elements that were there; at every moment the file begins with the elements, should the
   process be killed. An element is sz bytes, zero is the value of T{}. Partial: the calls excluded
   by mv_spec are those of the theorems below. *)
Theorem C39_history_partial : forall sz zero, 0 < sz -> length zero = sz ->
  forall l p ops t xs, Forall (fun x => length x = sz) l -> sruns _ _ _ (mv_spec sz zero) (vopened l p) ops = Some (t, xs) ->
  exists v, runs _ _ _ (mv_step sz zero) (mv_open sz (concat l) p) ops = Ok (v, xs) /\
    firstn (length (cells t) * sz) (mfile (vm v)) = concat (cells t).
Proof. exact mv_history. Qed.
Print Assumptions C39_history_partial.

Local Open Scope N_scope.
Definition el (a : N) : bytes := [a; a + 1; 0].
Definition mv_ops : list vop :=
  [VAll; VPush (el 5); VSize; VReopen MODIFY; VAll; VInsert 1 (el 9); VGet 1; VInsertIn 0 [el 20; el 30]; VInsertFwd 2 [el 40; el 50; el 60]; VAll; VReopen READ; VGet 4;
   VResize 3; VReopen MODIFY; VResize 4; VReserve 9; VPushOwn 1; VPut 0 (el 70); VAll; VResize 6; VEmplace (el 80); VReopen MODIFY; VAll; VSet [el 1]; VReopen MODIFY; VAll; VReopen WRITE; VInsertFwd 0 [el 2; el 3]; VAll]%nat.
Example C39_case : Forall (fun x => length x = 3%nat) [el 1; el 2] /\ exists t,
  sruns _ _ _ (mv_spec 3 [0; 0; 0]) (vopened [el 1; el 2] MODIFY) mv_ops = Some (t,
    [VVals [el 1; el 2]; VNone; VNum 3; VNone; VVals [el 1; el 2; el 5]; VNum 2; VVal (el 9); VNum 2; VNum 2;
     VVals [el 20; el 30; el 40; el 50; el 60; el 1; el 9; el 2; el 5]; VNone; VVal (el 60); VThrow; VNone; VNone; VNone; VNone; VNone;
     VVals [el 70; el 30; el 40; el 50; el 30]; VNone; VNone; VNone; VVals [el 70; el 30; el 40; el 50; el 30; ([0; 0; 0]%N : bytes); el 80]; VNone; VNone;
     VVals [el 1]; VNone; VNum 0; VVals [el 2; el 3]])%nat.
Proof. split; [repeat constructor|]. eexists. vm_compute. reflexivity. Qed.

Definition b1 (a : N) : bytes := [a].
Notation mrun ops := (runs _ _ _ (mv_step 1 (b1 0)) (mv_open 1 [] WRITE) ops).
(* reserve changes the file: opened again, the vector has as many elements as were reserved, more or fewer than it had *)
Theorem C39_reserve_refuted :
  match mrun [VPush (b1 7); VReserve 3; VSize; VReopen MODIFY; VAll; VReserve 1; VSize; VReopen MODIFY; VAll]%nat with
  | Ok (_, xs) => xs = [VNone; VNone; VNum 1; VNone; VVals [(b1 7); (b1 0); (b1 0)]; VNone; VNum 3; VNone; VVals [(b1 7)]]%nat | _ => False end.
Proof. vm_compute. reflexivity. Qed.
Print Assumptions C39_reserve_refuted.

(* push_back of an own element reads it through a reference into the memory that was just unmapped *)
Theorem C39_alias_refuted : mrun [VPush (b1 7); VPushOwn 0]%nat = UB.
Proof. vm_compute. reflexivity. Qed.
Print Assumptions C39_alias_refuted.

(* After every history, push_back, emplace_back and insert of an own element do what they do with a copy if the mapping has space for one
   element more (or the vector is read only, when they throw); otherwise they read through the dangling reference, always. *)
Theorem C39_own_partial : forall sz zero, (0 < sz)%nat -> length zero = sz ->
  forall l p ops t xs v, Forall (fun x => length x = sz) l -> sruns _ _ _ (mv_spec sz zero) (vopened l p) ops = Some (t, xs) ->
  runs _ _ _ (mv_step sz zero) (mv_open sz (concat l) p) ops = Ok (v, xs) ->
  forall i x, nth_error (cells t) i = Some x ->
  let safe := ro t || ((length (cells t) + 1) * sz <=? msize (vm v))%nat in
  push_own sz v i = (if safe then push sz v x else UB) /\ emplace_own sz v i = (if safe then emplace sz v x else UB) /\
  forall j, insert_own sz v j i = (if safe then insert1 sz v j x else UB).
Proof. intros sz zero H1 H2 l p ops t xs v. apply own_history; auto. Qed.
Print Assumptions C39_own_partial.
Example C39_own_case :
  match mrun [VPush (b1 7); VPush (b1 8); VPush (b1 9)]%nat with
  | Ok (v, _) => msize (vm v) = 4%nat /\
      match insert_own 1 v 0 2 with
      | Ok (u, a) => a = VNum 1 /\ all 1 (vm u) 0 4 = Ok [b1 9; b1 7; b1 8; b1 9] /\ emplace_own 1 u 0 = UB
      | _ => False end
  | _ => False end.
Proof. vm_compute. auto. Qed.

(* push_back on a vector opened read only throws, but the size has already been increased *)
Theorem C39_readonly_push_refuted :
  match mrun [VPush (b1 7); VReopen READ; VPush (b1 8); VSize]%nat with Ok (_, xs) => xs = [VNone; VNone; VThrow; VNum 2]%nat | _ => False end /\
  mrun [VPush (b1 7); VReopen READ; VPush (b1 8); VAll]%nat = UB.
Proof. vm_compute. split; reflexivity. Qed.
Print Assumptions C39_readonly_push_refuted.

(* insert of one element, and of a range of input iterators, returns the position after what was inserted; of a range of forward iterators
   the position of what was inserted *)
Theorem C39_position_refuted :
  match mrun [VPush (b1 7); VInsert 0 (b1 8); VInsertIn 0 [(b1 1); (b1 2)]; VInsertFwd 0 [(b1 3); (b1 4)]; VAll]%nat with
  | Ok (_, xs) => xs = [VNone; VNum 1; VNum 2; VNum 0; VVals [(b1 3); (b1 4); (b1 1); (b1 2); (b1 8); (b1 7)]]%nat | _ => False end.
Proof. vm_compute. reflexivity. Qed.
Print Assumptions C39_position_refuted.

(* If the process is killed before the vector is closed, the file is padded to a power of two: opened again, it has additional elements. *)
Theorem C39_killed_refuted :
  match mrun [VPush (b1 7); VPush (b1 8); VPush (b1 9)]%nat with
  | Ok (v, _) => match mv_step 1 (b1 0) (mv_open 1 (mfile (vm v)) MODIFY) VAll with Ok (_, a) => a = VVals [(b1 7); (b1 8); (b1 9); (b1 0)] | _ => False end | _ => False end.
Proof. vm_compute. reflexivity. Qed.
Print Assumptions C39_killed_refuted.

(* After every history: the file left by a killed process opens as the elements followed by others, as many in all as fit into the file;
   no element is lost, and at least as many appear as the vector ever had or was reserved for. *)
Theorem C39_killed_when : forall sz zero, (0 < sz)%nat -> length zero = sz ->
  forall l p ops t xs v, Forall (fun x => length x = sz) l -> sruns _ _ _ (mv_spec sz zero) (vopened l p) ops = Some (t, xs) ->
  runs _ _ _ (mv_step sz zero) (mv_open sz (concat l) p) ops = Ok (v, xs) ->
  exists ext u, mv_step sz zero (mv_open sz (mfile (vm v)) MODIFY) VAll = Ok (u, VVals (cells t ++ ext)) /\
    length (cells t ++ ext) = (length (mfile (vm v)) / sz)%nat /\ (most t <= length (cells t ++ ext))%nat.
Proof. intros sz zero H1 H2 l p ops t xs v. apply killed_history; auto. Qed.
Print Assumptions C39_killed_when.
Example C39_killed_case : exists t xs,
  sruns _ _ _ (mv_spec 1 (b1 0)) (vopened [] MODIFY) [VPush (b1 7); VPush (b1 8); VPush (b1 9); VResize 1; VPush (b1 5)]%nat = Some (t, xs) /\ cells t = [b1 7; b1 5] /\ most t = 3%nat.
Proof. eexists. eexists. split; [vm_compute; reflexivity|]. vm_compute. auto. Qed.
(* After every history on a vector opened read only, push_back throws and nevertheless increases the size. *)
Theorem C39_readonly_push_when : forall sz zero, (0 < sz)%nat -> length zero = sz ->
  forall l p ops t xs v x, Forall (fun x => length x = sz) l -> sruns _ _ _ (mv_spec sz zero) (vopened l p) ops = Some (t, xs) ->
  runs _ _ _ (mv_step sz zero) (mv_open sz (concat l) p) ops = Ok (v, xs) -> ro t = true ->
  exists u, mv_step sz zero v (VPush x) = Ok (u, VThrow) /\ mv_step sz zero u VSize = Ok (u, VNum (length (cells t) + 1)).
Proof. intros sz zero H1 H2 l p ops t xs v x. apply readonly_push; auto. Qed.
Print Assumptions C39_readonly_push_when.
Example C39_readonly_push_case : exists t xs,
  sruns _ _ _ (mv_spec 1 (b1 0)) (vopened [b1 7; b1 8] READ) [VSize; VGet 1]%nat = Some (t, xs) /\ ro t = true /\ length (cells t) = 2%nat.
Proof. eexists. eexists. split; [vm_compute; reflexivity|]. vm_compute. auto. Qed.
