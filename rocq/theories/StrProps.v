(* C21 and C22: string and cstring hold the character sequences that were assigned to them. *)
From Verif Require Import Base FlatModel FlatSpec StrModel StrSpec CstrProofs.

(* Any history of constructions, owning and non-owning assignments, copies, moves, erase, element writes and
   destructions that respects the preconditions gives the answers (view, size, ==, <, starts_with, ends_with)
   of plain character sequences, and never frees twice or reads freed memory (both are UB); and when finally
   every object is destroyed, every block that was allocated has been freed. lim is the inline capacity (15
   for char). Partial: short sequences with an embedded NUL (C21_embedded_nul_refuted), sizes of 2^32 and more
   (C21_long_refuted), assigning a piece of a string that owns its characters to the string itself (C21_own_piece_refuted, C21_own_piece_when), views of long
   owning strings (C21_view_of_owner_refuted) and assigning a
   view to itself (C21_view_self_refuted) are left out. *)
Theorem C21_string_partial : forall (lim : nat) (raw : bool) (nullchar : N) ops t xs,
  srun sop (str_spec lim) ([], []) ops = Some (t, xs) ->
  exists w, run _ sop (str_step lim raw nullchar) (World [] [] []) ops = Ok (w, xs) /\
    exists w' ys, run _ sop (str_step lim raw nullchar) (World [] [] []) (ops ++ map SDestroy (seq 0 (length (snd t)))) = Ok (w', ys) /\
      forall b, In b (w_own w') -> b = Freed.
Proof. exact str_history. Qed.
Print Assumptions C21_string_partial.

Definition abc : str := [97;98;99]%N.
Definition long : str := [97;98;99;100;101;102;103;104;105;106;107;108;109;110;111;112;113;114]%N.
Definition str_ops : list sop :=
  [SBuf (long ++ [0%N] ++ long); SNew; SNew; SNew; SOwn 0 (SLit long); SNon 1 0 3 20; SCopy 2 1; SView 2; SMove 1 0; SView 1;
   SOwn 0 (SLit abc); SEq 0 1; SLt 0 1; SStarts 1 (SStr 0 0 3); SEnds 1 (SExt 0 31 6); SErase 2 1 15; SView 2; SWrite 0 1 122; SView 0;
   SAssign 2 1; SErase 1 0 18; SSize 1; SNon 0 0 0 18; SAssignView 0 0; SView 2; SCopy 1 2; SMove 2 2; SLt 1 2; SEq 1 2].
Example C21_string_case : exists t,
  srun sop (str_spec 15) ([], []) str_ops = Some (t,
    [YNone; YNone; YNone; YNone; YNone; YNone; YNone; YStr (skipn 3 long ++ [0%N] ++ firstn 4 long); YNone; YStr long;
     YNone; YBool false; YBool true; YBool true; YBool true; YNone; YStr [100;97;98;99;100]%N; YNone; YStr [97;122;99]%N;
     YNone; YNone; YNum 0; YNone; YNone; YStr long; YNone; YNone; YBool false; YBool true]) /\
  match run _ sop (str_step 15 false 0) (World [] [] []) str_ops with
  | Ok (w, _) => length (w_own w) = 4 /\ nth_error (w_own w) 3 = Some (Live long) | _ => False end.
Proof. eexists. split; [vm_compute; reflexivity|]. vm_compute. split; reflexivity. Qed.

(* a short sequence with a NUL inside is cut at the NUL *)
Theorem C21_embedded_nul_refuted : exists w,
  run _ sop (str_step 15 false 0) (World [] [] []) [SNew; SOwn 0 (SLit [97;0;98]%N); SView 0; SSize 0] =
    Ok (w, [YNone; YNone; YStr [97]%N; YNum 1]).
Proof. eexists. vm_compute. reflexivity. Qed.
Print Assumptions C21_embedded_nul_refuted.

(* s.set_owning(s.view().substr(...)): the old block is freed before it is read; a short string reads zeros *)
Theorem C21_own_piece_refuted :
  run _ sop (str_step 15 false 0) (World [] [] []) [SNew; SOwn 0 (SLit long); SOwn 0 (SStr 0 1 16)] = UB /\
  exists w, run _ sop (str_step 15 false 0) (World [] [] []) [SNew; SOwn 0 (SLit abc); SOwn 0 (SStr 0 1 2); SView 0] =
    Ok (w, [YNone; YNone; YNone; YStr []]).
Proof. split; [vm_compute; reflexivity|]. eexists. vm_compute. reflexivity. Qed.
Print Assumptions C21_own_piece_refuted.

(* It goes wrong for every string that owns its characters, after every history and for every piece that is not empty: a string in a block of
   its own reads the freed block, a short one becomes empty. The last inline character may be part of a null pointer that is not all zero
   (nullchar); then a piece that starts there is left out. A string that views foreign characters is in C21_string_partial: its own piece
   can be assigned to it. *)
Theorem C21_own_piece_when : forall (lim : nat) (raw : bool) (nullchar : N) ops t xs w i s off len q,
  srun sop (str_spec lim) ([], []) ops = Some (t, xs) -> run _ sop (str_step lim raw nullchar) (World [] [] []) ops = Ok (w, xs) ->
  held t i = Some (s, false) -> piece s off len = Some q -> q <> [] -> off + 1 < lim \/ nullchar = 0%N ->
  (exists p n, nth_error (w_obj w) i = Some (Heap p n true)) /\ str_step lim raw nullchar w (SOwn i (SStr i off len)) = UB \/
  (exists buf, nth_error (w_obj w) i = Some (Short buf)) /\
  exists w', str_step lim raw nullchar w (SOwn i (SStr i off len)) = Ok (w', YNone) /\ view lim nullchar w' i = Ok [].
Proof. exact str_own_piece. Qed.
Print Assumptions C21_own_piece_when.
Example C21_own_piece_case :
  (exists t xs w, srun sop (str_spec 15) ([], []) [SNew; SOwn 0 (SLit long); SErase 0 0 9] = Some (t, xs) /\
    run _ sop (str_step 15 false 128) (World [] [] []) [SNew; SOwn 0 (SLit long); SErase 0 0 9] = Ok (w, xs) /\
    held t 0 = Some (skipn 9 long, false) /\ piece (skipn 9 long) 1 2 = Some [107;108]%N /\
    str_step 15 false 128 w (SOwn 0 (SStr 0 1 2)) = UB) /\
  exists t, srun sop (str_spec 15) ([], []) [SBuf long; SNew; SNon 0 0 1 17; SOwn 0 (SStr 0 1 16); SView 0; SWrite 0 0 122; SOwn 0 (SExt 0 0 2); SView 0] =
    Some (t, [YNone; YNone; YNone; YNone; YStr (skipn 2 long); YNone; YNone; YStr [97;98]%N]).
Proof.
  split.
  - eexists _, _, _. split; [vm_compute; reflexivity|]. split; [vm_compute; reflexivity|]. split; [reflexivity|]. split; vm_compute; reflexivity.
  - eexists. vm_compute. reflexivity.
Qed.

(* basic_string_view::operator= has no check for self-assignment: a short view becomes empty *)
Theorem C21_view_self_refuted : exists w,
  run _ sop (str_step 15 false 0) (World [] [] []) [SBuf abc; SNew; SNon 0 0 0 3; SView 0; SAssignView 0 0; SView 0] =
    Ok (w, [YNone; YNone; YNone; YStr abc; YNone; YStr []]).
Proof. eexists. vm_compute. reflexivity. Qed.
Print Assumptions C21_view_self_refuted.

(* A view of a long owning string shares its block: destroying or changing the view leaves the owner as it is, but once the owner changes the view
   reads freed memory. (A view of a short string has its own copy, which C21_string_partial covers.) *)
Theorem C21_view_of_owner_refuted :
  (exists w, run _ sop (str_step 15 false 0) (World [] [] [])
    [SNew; SNew; SOwn 0 (SLit long); SAssignView 1 0; SView 1; SOwn 1 (SLit abc); SView 0; SAssignView 1 0; SDestroy 1; SView 0; SDestroy 0] =
    Ok (w, [YNone; YNone; YNone; YNone; YStr long; YNone; YStr long; YNone; YNone; YStr long; YNone]) /\ forall b, In b (w_own w) -> b = Freed) /\
  run _ sop (str_step 15 false 0) (World [] [] []) [SNew; SNew; SOwn 0 (SLit long); SAssignView 1 0; SOwn 0 (SLit abc); SView 1] = UB.
Proof.
  split; [|vm_compute; reflexivity]. eexists. split; [vm_compute; reflexivity|]. cbn. intros b [<-|[]]. reflexivity.
Qed.
Print Assumptions C21_view_of_owner_refuted.

(* assigning a sequence of 2^32 characters gives the empty string *)
Theorem C21_long_refuted : forall lim raw nullchar s, N.of_nat (length s) = W32 ->
  run _ sop (str_step lim raw nullchar) (World [] [] []) [SNew; SOwn 0 (SLit s); SSize 0] = Ok (World [] [] [gs0], [YNone; YNone; YNum 0]).
Proof. exact str_too_long. Qed.
Print Assumptions C21_long_refuted.
Example C21_long_case : exists s : str, N.of_nat (length s) = W32.
Proof. exists (repeat 97%N (N.to_nat W32)). rewrite repeat_length. apply N2Nat.id. Qed.

(* The same for cstring, for all characters including NUL; CStr reads data()[0] .. data()[size()] and gives the
   sequence followed by NUL. Partial: the preconditions of cstr_spec leave out sequences of 2^31 characters and
   more (C22_long_refuted), assigning an object to itself or a piece of what it owns (C22_self_assign_refuted,
   C22_own_piece_when), moving onto
   itself (C22_self_move_refuted) and moving into an object that owns a block (C22_move_leaks_refuted). *)
Theorem C22_cstring_partial : forall (raw : bool) ops t xs,
  srun cop cstr_spec ([], []) ops = Some (t, xs) ->
  exists w, run _ cop (cstr_step raw) (World [] [] []) ops = Ok (w, xs) /\
    exists w' ys, run _ cop (cstr_step raw) (World [] [] []) (ops ++ map CDestroy (seq 0 (length (snd t)))) = Ok (w', ys) /\
      forall b, In b (w_own w') -> b = Freed.
Proof. exact cstr_history. Qed.
Print Assumptions C22_cstring_partial.
Definition cstr_ops : list cop :=
  [CBuf (long ++ [0%N]); CNew; CNew; CNew; COwn 0 (SLit [97;0;98]%N); CStr 0; COwn 1 (SLit long); CStr 1; CNon 2 0 3 4; CView 2; CCopy 0 1; CAssign 1 2;
   CView 1; CStr 1; CMove 1 0; CWrite 1 2 0; CStr 1; CEq 1 2; CLt 1 2; COwn 0 (SExt 0 0 15); CStr 0; CSize 0; CAssignView 2 2; CView 2].
Example C22_cstring_case : exists t,
  srun cop cstr_spec ([], []) cstr_ops = Some (t,
    [YNone; YNone; YNone; YNone; YNone; YStr [97;0;98;0]%N; YNone; YStr (long ++ [0%N]); YNone; YStr [100;101;102;103]%N; YNone; YNone;
     YStr [100;101;102;103]%N; YStr [100;101;102;103;0]%N; YNone; YNone; YStr (upd 2 0%N long ++ [0%N]); YBool false; YBool true;
     YNone; YStr (firstn 15 long ++ [0%N]); YNum 15; YNone; YStr [100;101;102;103]%N]) /\
  match run _ cop (cstr_step false) (World [] [] []) cstr_ops with
  | Ok (w, _) => length (w_own w) = 2 /\ nth_error (w_own w) 0 = Some Freed | _ => False end.
Proof. eexists. split; [vm_compute; reflexivity|]. vm_compute. split; reflexivity. Qed.

(* move assignment does not free the block of its target: after all objects are destroyed a block is still live *)
Theorem C22_move_leaks_refuted : exists w,
  run _ cop (cstr_step false) (World [] [] []) [CNew; CNew; COwn 0 (SLit long); CMove 0 1; CDestroy 0; CDestroy 1] =
    Ok (w, [YNone; YNone; YNone; YNone; YNone; YNone]) /\ w_own w = [Live (long ++ [0%N])].
Proof. eexists. split; vm_compute; reflexivity. Qed.
Print Assumptions C22_move_leaks_refuted.

(* x = std::move(x) loses the contents and the block *)
Theorem C22_self_move_refuted : exists w,
  run _ cop (cstr_step false) (World [] [] []) [CNew; COwn 0 (SLit long); CMove 0 0; CView 0; CDestroy 0] =
    Ok (w, [YNone; YNone; YNone; YStr []; YNone]) /\ w_own w = [Live (long ++ [0%N])].
Proof. eexists. split; vm_compute; reflexivity. Qed.
Print Assumptions C22_self_move_refuted.

(* x = x: a long cstring reads the block it has just freed, a short one becomes a run of NULs or empty *)
Theorem C22_self_assign_refuted :
  run _ cop (cstr_step false) (World [] [] []) [CNew; COwn 0 (SLit long); CAssign 0 0] = UB /\
  (exists w, run _ cop (cstr_step false) (World [] [] []) [CNew; COwn 0 (SLit abc); CAssign 0 0; CView 0] = Ok (w, [YNone; YNone; YNone; YStr [0;0;0]%N])) /\
  (exists w, run _ cop (cstr_step false) (World [] [] []) [CNew; COwn 0 (SLit abc); CCopy 0 0; CView 0] = Ok (w, [YNone; YNone; YNone; YStr []])).
Proof. split; [vm_compute; reflexivity|]. split; eexists; vm_compute; reflexivity. Qed.
Print Assumptions C22_self_assign_refuted.

(* Likewise for every cstring that owns its characters: a long one reads the freed block, a short one becomes a run of NULs. *)
Theorem C22_own_piece_when : forall (raw : bool) ops t xs w i s off len q,
  srun cop cstr_spec ([], []) ops = Some (t, xs) -> run _ cop (cstr_step raw) (World [] [] []) ops = Ok (w, xs) ->
  held t i = Some (s, false) -> piece s off len = Some q -> q <> [] ->
  (exists p n, nth_error (w_obj w) i = Some (CHeap p n true)) /\ cstr_step raw w (COwn i (SStr i off len)) = UB \/
  (exists buf r, nth_error (w_obj w) i = Some (CShort buf r)) /\
  exists w', cstr_step raw w (COwn i (SStr i off len)) = Ok (w', YNone) /\ cview w' i = Ok (repeat 0%N len).
Proof. exact cstr_own_piece. Qed.
Print Assumptions C22_own_piece_when.
Example C22_own_piece_case :
  (exists t xs w, srun cop cstr_spec ([], []) [CNew; COwn 0 (SLit abc)] = Some (t, xs) /\
    run _ cop (cstr_step false) (World [] [] []) [CNew; COwn 0 (SLit abc)] = Ok (w, xs) /\
    held t 0 = Some (abc, false) /\ piece abc 1 2 = Some [98;99]%N) /\
  exists t, srun cop cstr_spec ([], []) [CBuf abc; CNew; CNon 0 0 0 3; COwn 0 (SStr 0 1 2); CStr 0] =
    Some (t, [YNone; YNone; YNone; YNone; YStr [98;99;0]%N]).
Proof.
  split.
  - eexists _, _, _. split; [vm_compute; reflexivity|]. split; [vm_compute; reflexivity|]. split; reflexivity.
  - eexists. vm_compute. reflexivity.
Qed.

(* with raw pointers, a moved-from cstring holds 15 NULs *)
Theorem C22_raw_moved_refuted : exists w,
  run _ cop (cstr_step true) (World [] [] []) [CNew; CNew; COwn 0 (SLit abc); CMove 1 0; CSize 0; CView 1] =
    Ok (w, [YNone; YNone; YNone; YNone; YNum 15; YStr abc]).
Proof. eexists. vm_compute. reflexivity. Qed.
Print Assumptions C22_raw_moved_refuted.

(* 2^31 + 144 characters: the length difference wraps to a non-negative number of remaining inline characters,
   and the characters are copied into the 15-byte inline buffer *)
Theorem C22_long_refuted : forall raw s, N.of_nat (length s) = 2147483792%N ->
  run _ cop (cstr_step raw) (World [] [] []) [CNew; COwn 0 (SLit s)] = UB.
Proof. exact cstr_too_long. Qed.
Print Assumptions C22_long_refuted.
Example C22_long_case : exists s : str, N.of_nat (length s) = 2147483792%N.
Proof. exists (repeat 97%N (N.to_nat 2147483792)). rewrite repeat_length. apply N2Nat.id. Qed.
