(* C49: a handle to a deserialized object (cista::wrapped) owns its memory. *)
From Verif Require Import Base HoldModel HoldSpec HoldProofs.

(* Any history of making, moving, dropping, querying, accessing and (within its precondition) resetting
   handles is defined, accesses reach the object the handle was made for, and at every moment the
   memory of an object is released exactly if no handle keeps it: no leak, no double release, no early
   release. Missing: resetting an empty handle, a heap object or a handle twice (see below). *)
Theorem C49_ownership_partial : forall ops n hs xs,
  srun 0 [] ops = Some (n, hs, xs) ->
  exists w, run (World [] []) ops = Ok (w, xs) /\ length (cells w) = n /\ exact w hs.
Proof.
  intros ops n hs xs E. destruct (run_ok ops (World [] []) 0 [] n hs xs) as (w & R & V); auto.
  - split; cbn; auto; try (intros [|]; discriminate).
  - exists w. split; auto. split; [apply (i_n _ _ _ V)|]. eapply inv_exact; eauto.
Qed.

(* Every access to an object, in any such history, goes to the object last moved into the handle:
   reading the specification off once for a move followed by an access. *)
Theorem C49_moved_access : forall ops n hs xs i j c k,
  srun 0 [] ops = Some (n, hs, xs) -> nth_error hs j = Some (Has c k) -> i < length hs -> i <> j ->
  exists w, run (World [] []) (ops ++ [Move i j; Use i; IsNull j]) = Ok (w, xs ++ [ANone; AObj k; ABool true]).
Proof.
  intros ops n hs xs i j c k E Ej Li Q.
  assert (Lj : j < length hs) by (apply nth_error_Some; congruence).
  destruct (lt_some hs i Li) as (a & Ei).
  assert (T : srun n hs [Move i j; Use i; IsNull j] = Some (n, upd j Nothing (upd i (Has c k) hs), [ANone; AObj k; ABool true])).
  { cbn [srun sstep]. rewrite Ei, Ej. destruct (Nat.eqb_spec i j); [contradiction|].
    rewrite nth_error_upd_neq, nth_error_upd_eq by auto. cbn [srun sstep].
    rewrite nth_error_upd_eq by (rewrite upd_length; auto). reflexivity. }
  assert (A : forall o n hs n1 h1 x1 o2 n2 h2 x2, srun n hs o = Some (n1, h1, x1) -> srun n1 h1 o2 = Some (n2, h2, x2) ->
     srun n hs (o ++ o2) = Some (n2, h2, x1 ++ x2)).
  { clear. induction o as [|p o IH]; intros n hs n1 h1 x1 o2 n2 h2 x2 E1 E2; cbn [srun app] in *.
    - injection E1 as <- <- <-. auto.
    - destruct (sstep n hs p) as [[[n' h'] a]|]; [|discriminate]. destruct (srun n' h' o) as [[[n3 h3] l]|] eqn:E3; [|discriminate].
      injection E1 as <- <- <-. rewrite (IH _ _ _ _ _ _ _ _ _ E3 E2). reflexivity. }
  destruct (C49_ownership_partial _ _ _ _ (A _ _ _ _ _ _ _ _ _ _ E T)) as (w & R & _). eauto.
Qed.

(* A history through every kind of memory; in the end only the last buffer is alive. *)
Example C49_example :
  let ops := [Make Buffer; Make Mmap; Make Heap; New; Move 3 0; Use 3; IsNull 0; Reset 3; IsNull 3; Move 0 2; Use 0;
              Destroy 1; MoveNew 0; IsNull 0; Use 4; Destroy 4; Destroy 3; Make Bytes; Use 5] in
  srun 0 [] ops = Some (4, [Nothing; Nothing; Nothing; Nothing; Nothing; Has Bytes 3],
    [ANone; ANone; ANone; ANone; ANone; AObj 0; ABool true; ANone; ABool false; ANone; AObj 2; ANone; ANone; ABool true;
     AObj 2; ANone; ANone; ANone; AObj 3]) /\
  match run (World [] []) ops with
  | Ok (w, _) => map mem (cells w) = [false; false; false; true]
  | _ => False
  end.
Proof. split; vm_compute; reflexivity. Qed.

(* Resetting is not safe in general: an empty handle, a heap object before its handle is dropped, a
   handle twice. *)
Theorem C49_reset_refuted :
  run (World [] []) [New; Reset 0] = UB /\
  (exists w xs, run (World [] []) [Make Heap; Reset 0] = Ok (w, xs)) /\
  run (World [] []) [Make Heap; Reset 0; Destroy 0] = UB /\
  (forall c, run (World [] []) [Make c; Reset 0; Reset 0] = UB).
Proof.
  split; [vm_compute; reflexivity|]. split; [do 2 eexists; vm_compute; reflexivity|].
  split; [vm_compute; reflexivity|]. intros []; vm_compute; reflexivity.
Qed.

(* A reset handle says it is not null, but accessing it is undefined. *)
Theorem C49_reset_null_refuted : forall c,
  (exists w, run (World [] []) [Make c; Reset 0; IsNull 0] = Ok (w, [ANone; ANone; ABool false])) /\
  run (World [] []) [Make c; Reset 0; Use 0] = UB.
Proof. intros []; (split; [eexists|]; vm_compute; reflexivity). Qed.

(* The destructor of an object in held memory is never run unless the handle is reset first: what the
   object has allocated since leaks. Only a heap object is destroyed with its handle. *)
Theorem C49_destructor_refuted : forall c,
  match run (World [] []) [Make c; Destroy 0] with
  | Ok (w, _) => cells w = [Cell false (match c with Heap => false | _ => true end)]
  | _ => False
  end.
Proof. intros []; vm_compute; reflexivity. Qed.

Print Assumptions C49_ownership_partial.
Print Assumptions C49_moved_access.
Print Assumptions C49_reset_refuted.
Print Assumptions C49_reset_null_refuted.
Print Assumptions C49_destructor_refuted.
