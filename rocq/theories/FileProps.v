(* C34 and C38: serialization targets and memory mapped files. *)
From Verif Require Import Base FlatModel FlatSpec TupleModel FnvModel FileModel FileSpec SumModel SumSpec FileProofs.

(* Any sequence of writes, patches and checksums has the same answers (offsets, hashes) and leaves the same bytes in a
   buffer, in a file and in a memory mapped file (after it is closed): each write is appended at the next multiple of its
   alignment, the gaps are zero, and the checksum computed block by block is the hash of the bytes. cs is the block size;
   f0 is what the mapped file contained before. Partial: the memory of the targets has to be aligned, and
   nothing is not written with an alignment, see below; the hash is the default one (FNV). *)
Theorem C34_targets_partial : forall cs ops b xs f0, 0 < cs -> aligned ops -> sruns _ _ _ target_spec [] ops = Some (b, xs) ->
  runs _ _ _ buf_step [] ops = Ok (b, xs) /\
  (exists f, runs _ _ _ (file_step cs) (F [] 0) ops = Ok (f, xs) /\ fbytes f = b) /\
  (exists m, runs _ _ _ mbuf_step (mm_open f0 WRITE) ops = Ok (m, xs) /\ mfile (mm_close m) = b).
Proof. exact targets. Qed.
Print Assumptions C34_targets_partial.

Definition target_ops : list (top * nat) :=
  [(TWrite [1; 2; 3]%N 0, 64); (TWrite [4; 5]%N 8, 128); (TWrite [] 1, 64); (TWrite [6]%N 4, 4); (TPatch 1 [9; 9]%N, 0); (TSum 2, 0); (TWrite [7; 7]%N 1, 64); (TSum 0, 64)].
Example C34_targets_case : 0 < 3 /\ aligned target_ops /\ exists x y,
  sruns _ _ _ target_spec [] target_ops =
    Some ([1; 9; 9; 0; 0; 0; 0; 0; 4; 5; 0; 0; 6; 7; 7]%N, [TOff 0; TOff 8; TOff 10; TOff 12; TNone; THash x; TOff 13; THash y]) /\
  x = hash [9; 0; 0; 0; 0; 0; 4; 5; 0; 0; 6]%N BASE_HASH /\ x <> y.
Proof.
  split; [auto|]. split.
  { intros bs a base H A. cbn in H. repeat (destruct H as [H|H]; [injection H; intros; subst; try reflexivity; try discriminate; try (exfalso; lia)|]); try discriminate. destruct H. }
  eexists. eexists. split; [vm_compute; reflexivity|]. split; [vm_compute; reflexivity|]. vm_compute. discriminate.
Qed.

(* A buffer aligns the address, a file the offset: with memory that is not aligned they write to different places. *)
Theorem C34_unaligned_base_refuted : exists ops, 
  match runs _ _ _ buf_step [] ops, runs _ _ _ (file_step 512) (F [] 0) ops with
  | Ok (b, xs), Ok (f, ys) => b <> fbytes f /\ xs = [TOff 0; TOff 4] /\ ys = [TOff 0; TOff 8]
  | _, _ => False
  end.
Proof. exists [(TWrite [1]%N 0, 100); (TWrite [2]%N 8, 100)]. vm_compute. repeat split. discriminate. Qed.
Print Assumptions C34_unaligned_base_refuted.

(* Writing nothing with an alignment moves the end of a buffer; a file counts the gap but does not have it. The next write then reports
   another place than it writes to, and the checksum reads less than it expects. *)
Theorem C34_nothing_refuted : exists ops,
  match runs _ _ _ buf_step [] ops, runs _ _ _ (file_step 512) (F [] 0) ops with
  | Ok (b, xs), Ok (f, ys) => xs = ys /\ xs = [TOff 0; TOff 8; TOff 8] /\ nth_error b 8 = Some 2%N /\ fbytes f = [1; 2]%N /\ file_checksum 512 f 0 = Throw
  | _, _ => False
  end.
Proof. exists [(TWrite [1]%N 0, 0); (TWrite [] 8, 0); (TWrite [2]%N 1, 0)]. vm_compute. repeat split. Qed.
Print Assumptions C34_nothing_refuted.

(* A patch beyond the end is refused by a buffer and extends a file. *)
Theorem C34_patch_refuted : exists ops,
  runs _ _ _ buf_step [] ops = Throw /\
  match runs _ _ _ (file_step 512) (F [] 0) ops with Ok (f, _) => length (fbytes f) = 5 | _ => False end.
Proof. exists [(TWrite [1]%N 0, 0); (TPatch 4 [7]%N, 0)]. vm_compute. auto. Qed.
Print Assumptions C34_patch_refuted.

(* Any history of a memory mapped file: the answers are those of a sequence of bytes; at every moment the file has at
   least size() bytes and they are those written, so that they are there if the process is killed; after closing the file has exactly
   size() bytes, those written or zero; after closing this is so even if the power fails. Partial: bytes given up by shrinking and then
   regained, and failing resizes, see below. *)
Theorem C38_history_partial : forall f p ops t xs, sruns _ _ _ mm_spec (sopen f p) ops = Some (t, xs) ->
  exists m, runs _ _ _ mm_step (mm_open f p) ops = Ok (m, xs) /\
    (mused m = length (svals t) /\ length (svals t) <= length (mfile m) /\ agrees (svals t) (mfile m)) /\
    (length (mfile (mm_close m)) = length (svals t) /\ agrees (svals t) (mfile (mm_close m))) /\
    (p <> READ -> forall d, power_loss (mhist (mm_close m)) d -> agrees (svals t) d).
Proof. exact mmap_history. Qed.
Print Assumptions C38_history_partial.

(* sync: the bytes that were there survive any later power failure, until they are written again. *)
Theorem C38_sync : forall f p ops1 ops2 t1 xs1 t xs,
  sruns _ _ _ mm_spec (sopen f p) ops1 = Some (t1, xs1) -> sruns _ _ _ mm_spec t1 (MSync :: ops2) = Some (t, xs) ->
  exists m ys, runs _ _ _ mm_step (mm_open f p) (ops1 ++ MSync :: ops2) = Ok (m, ys) /\
    forall d, power_loss (mhist m) d -> forall i b, nth_error (svals t1) i = Some (Some b) ->
      forallb (fun o => negb (touches i o)) ops2 = true -> nth_error d i = Some b.
Proof. exact mmap_power. Qed.
Print Assumptions C38_sync.

Definition mm_ops1 : list mop := [MSize; MResize 3 false; MWrite 0 [1; 2]%N; MRead 0 3; MReserve 9 false; MResize 6 false; MWrite 4 [5; 6]%N].
Definition mm_ops2 : list mop := [MRead 1 5; MResize 20 false; MWrite 1 [8]%N; MResize 5 false; MSize; MRead 0 5].
Example C38_case : exists t1 xs1 t xs,
  sruns _ _ _ mm_spec (sopen [7; 7; 7]%N WRITE) mm_ops1 = Some (t1, xs1) /\ sruns _ _ _ mm_spec t1 (MSync :: mm_ops2) = Some (t, xs) /\
  svals t1 = map Some [1; 2; 0; 0; 5; 6]%N /\ svals t = map Some [1; 8; 0; 0; 5]%N /\
  xs1 = [MNum 0; MNone; MNone; MBytes [1; 2; 0]%N; MNone; MNone; MNone] /\ xs = [MNone; MBytes [2; 0; 0; 5; 6]%N; MNone; MNone; MNone; MNum 5; MBytes [1; 8; 0; 0; 5]%N] /\
  match runs _ _ _ mm_step (mm_open [7; 7; 7]%N WRITE) (mm_ops1 ++ MSync :: mm_ops2) with
  | Ok (m, _) => length (mfile m) = 32 /\ mfile (mm_close m) = [1; 8; 0; 0; 5]%N | _ => False end.
Proof. do 4 eexists. split; [vm_compute; reflexivity|]. split; [vm_compute; reflexivity|]. vm_compute. repeat split. Qed.
(* without a sync a power failure may lose what was written *)
Example C38_unsynced_case : exists m xs, runs _ _ _ mm_step (mm_open [] WRITE) [MResize 1 false; MWrite 0 [5]%N] = Ok (m, xs) /\
  power_loss (mhist m) [0%N] /\ power_loss (mhist m) [].
Proof.
  do 2 eexists. split; [vm_compute; reflexivity|]. cbn [mhist]. split.
  - split; [exists [5%N]; cbn; auto|]. intros i b H. destruct i as [|i]; [injection H as <-; exists [0%N]; cbn; auto|]. destruct i; discriminate.
  - split; [exists []; cbn; auto|]. intros i b H. destruct i; discriminate.
Qed.

(* Shrinking and growing again shows the old bytes, not zeros. *)
Theorem C38_shrink_refuted :
  match runs _ _ _ mm_step (mm_open [] WRITE) [MResize 2 false; MWrite 0 [5; 6]%N; MResize 0 false; MResize 2 false; MRead 0 2] with
  | Ok (m, xs) => xs = [MNone; MNone; MNone; MNone; MBytes [5; 6]%N] /\ mfile (mm_close m) = [5; 6]%N | _ => False end.
Proof. vm_compute. split; reflexivity. Qed.
Print Assumptions C38_shrink_refuted.

(* A resize that fails and throws leaves the map without memory but with the new size: the data cannot be read, a smaller
   resize succeeds without mapping anything, and closing leaves the file at its padded size. *)
Theorem C38_failed_resize_refuted :
  match runs _ _ _ mm_step (mm_open [] WRITE) [MResize 3 false; MWrite 0 [1; 2; 3]%N; MResize 100 true; MResize 3 false] with
  | Ok (m, xs) => xs = [MNone; MNone; MThrow; MNone] /\ mm_step m (MRead 0 3) = UB /\ mm_step m (MWrite 0 [1]%N) = UB /\ mfile (mm_close m) = [1; 2; 3; 0]%N
  | _ => False
  end.
Proof. vm_compute. repeat split. Qed.
Print Assumptions C38_failed_resize_refuted.

(* Assigning another map does not close the first: its file keeps the padding. *)
Theorem C38_move_assign_refuted :
  match runs _ _ _ mm_step (mm_open [] WRITE) [MResize 5 false; MWrite 0 [1; 2; 3; 4; 5]%N] with
  | Ok (m, _) => mused m = 5 /\ snd (mm_move_assign m (mm_open [] WRITE)) = [1; 2; 3; 4; 5; 0; 0; 0]%N
  | _ => False
  end.
Proof. vm_compute. repeat split. Qed.
Print Assumptions C38_move_assign_refuted.
