(* C67: iterators over the keys of fws_multimap and mutable_fws_multimap. *)
From Coq Require Import ZArith.
From Verif Require Import Base FlatModel FlatSpec MmModel MmSpec KiterModel KiterSpec KiterProofs.

(* Every program with iterators over a finished fws_multimap that stays between begin() and end() gets the answers
   that positions in the list of keys give: ++, --, +=, -=, +, differences in both directions, comparisons and reads,
   for keys of 32 and 64 bits. Partial: without it - n (C67_fws_minus_refuted), for fewer than 2^31 keys, and the map
   must be finished (C67_fws_unfinished_refuted). *)
Theorem C67_fws_partial A w ops ks outs m prog xs : w = 32%N \/ w = 64%N ->
  shist A (fw_spec A) ([], [], false) ops = Some ((ks, [], true), outs) -> hist A (fw_step A) fw_new ops = Ok (m, outs) ->
  (Z.of_nat (length ks) < 2 ^ 31)%Z ->
  Forall (fun o => sound Fws o = true) prog -> k_means _ ks [] prog = Some xs -> fw_prog w m prog = Ok xs.
Proof. intros Hw E1 E2 HL S E. exact (fw_iter A w ops ks outs prog xs m Hw E1 E2 HL S E). Qed.
Print Assumptions C67_fws_partial.
Definition C67_fws_ops : list (fw_op nat) := [FPush 1; FPush 2; FFinishKey; FFinishKey; FPush 3; FFinishKey; FFinishMap].
Definition C67_fws_prog : list kop :=
  [KBegin; KEnd; KDiff 1 0; KDiff 0 1; KRead 0; KInc 0; KRead 0; KPlus 0 1; KRead 2; KDec 1; KCmp Eq 1 2; KCmp Ne 0 1; KCmp Lt 0 1;
   KAdd 0 2; KCmp Le 0 1; KCmp Gt 0 1; KSub 0 3; KCmp Ge 0 1; KRead 0; KPlus 2 (-1); KRead 3].
Definition C67_fws_map : fw nat := match hist nat (fw_step nat) fw_new C67_fws_ops with Ok (m, _) => m | _ => fw_new end.
Example C67_fws_case :
  shist nat (fw_spec nat) ([], [], false) C67_fws_ops = Some (([[1; 2]; []; [3]], [], true), repeat XNone 7) /\
  hist nat (fw_step nat) fw_new C67_fws_ops = Ok (C67_fws_map, repeat XNone 7) /\
  Forall (fun o => sound Fws o = true) C67_fws_prog /\
  k_means _ [[1; 2]; []; [3]] [] C67_fws_prog =
  Some [KNone _; KNone _; KNum _ 3%Z; KNum _ (-3)%Z; KVal _ [1; 2]; KNone _; KVal _ []; KNone _; KVal _ [3]; KNone _; KBool _ true;
        KBool _ true; KBool _ true; KNone _; KBool _ false; KBool _ true; KNone _; KBool _ false; KVal _ [1; 2]; KNone _;
        KVal _ []].
Proof.
  split; [vm_compute; reflexivity|]. split; [vm_compute; reflexivity|]. split; [|vm_compute; reflexivity]. repeat constructor.
Qed.

(* it - n of fws_multimap goes forward: end() - 1 is beyond the end *)
Theorem C67_fws_minus_refuted :
  k_means _ [[1; 2]; []; [3]] [] [KEnd; KMinus 0 2; KRead 1] = Some [KNone _; KNone _; KVal _ []] /\
  fw_prog 32 C67_fws_map [KEnd; KMinus 0 2; KRead 1] = UB /\
  fw_prog 32 C67_fws_map [KBegin; KInc 0; KMinus 0 1; KRead 1] = Ok [KNone _; KNone _; KNone _; KVal _ [3]].
Proof. vm_compute. repeat split. Qed.
Print Assumptions C67_fws_minus_refuted.

(* Before finish_map() is called begin() and end() are no range: for a map without a key end() is 2^32 - 1, and *begin()
   is undefined although begin() != end(); with keys the last one is missing. *)
Theorem C67_fws_unfinished_refuted :
  fw_prog 32 (fw_new (A := nat)) [KBegin; KEnd; KCmp Ne 0 1] = Ok [KNone _; KNone _; KBool _ true] /\
  fw_prog 32 (fw_new (A := nat)) [KBegin; KRead 0] = UB /\
  (exists m, hist nat (fw_step nat) fw_new [FPush 1; FFinishKey; FPush 2; FFinishKey] = Ok (m, repeat XNone 4) /\
     fw_prog 32 m [KBegin; KEnd; KDiff 1 0] = Ok [KNone _; KNone _; KNum _ 1%Z]).
Proof. split; [vm_compute; reflexivity|]. split; [vm_compute; reflexivity|]. eexists. split; [vm_compute; reflexivity|]. vm_compute. reflexivity. Qed.
Print Assumptions C67_fws_unfinished_refuted.

(* The same for mutable_fws_multimap after any history, which also has it++, it - n and it[n]. Partial: without --it
   and it-- (C67_multimap_decrement_refuted), for fewer than 2^31 keys. *)
Theorem C67_multimap_partial A (dflt : A) lmax ops l e outs m prog xs : lmax < 32 ->
  shist A (mm_spec A lmax) ([], 0) ops = Some ((l, e), outs) -> hist A (mm_step A dflt lmax) (mm_new lmax) ops = Ok (m, outs) ->
  (Z.of_nat (length l) < 2 ^ 31)%Z ->
  Forall (fun o => sound Mut o = true) prog -> k_means _ l [] prog = Some xs -> mm_prog m prog = Ok xs.
Proof. intros HM E1 E2 HL S E. exact (mm_iter A dflt lmax ops l e outs prog xs m HM E1 E2 HL S E). Qed.
Print Assumptions C67_multimap_partial.
Definition C67_mm_ops : list (mm_op nat) := [BTouch 2; BPush 0 1; BPush 0 2; BPush 2 3; BPush 2 4; BPush 2 5; BErase 2 1].
Definition C67_mm_map : mm nat := match hist nat (mm_step nat 0 3) (mm_new 3) C67_mm_ops with Ok (m, _) => m | _ => mm_new 3 end.
Definition C67_mm_prog : list kop :=
  [KBegin; KEnd; KDiff 1 0; KDiff 0 1; KPostInc 0; KRead 2; KRead 0; KAt 0 1; KAt 1 (-3); KMinus 1 1; KRead 3; KCmp Lt 0 3; KCmp Le 3 0;
   KCmp Gt 3 0; KCmp Ge 0 3; KSub 1 2; KCmp Eq 0 1; KCmp Ne 0 1; KAdd 0 1; KRead 0; KInc 2; KPlus 2 1; KDiff 4 2].
Example C67_multimap_case :
  (exists e, shist nat (mm_spec nat 3) ([], 0) C67_mm_ops = Some (([[1; 2]; []; [3; 5]], e), repeat XNone 6 ++ [XNum 2])) /\
  hist nat (mm_step nat 0 3) (mm_new 3) C67_mm_ops = Ok (C67_mm_map, repeat XNone 6 ++ [XNum 2]) /\
  Forall (fun o => sound Mut o = true) C67_mm_prog /\
  k_means _ [[1; 2]; []; [3; 5]] [] C67_mm_prog =
  Some [KNone _; KNone _; KNum _ 3%Z; KNum _ (-3)%Z; KNone _; KVal _ [1; 2]; KVal _ []; KVal _ [3; 5]; KVal _ [1; 2]; KNone _; KVal _ [3; 5];
        KBool _ true; KBool _ false; KBool _ true; KBool _ false; KNone _; KBool _ true; KBool _ false; KNone _; KVal _ [3; 5];
        KNone _; KNone _; KNum _ 1%Z].
Proof.
  split; [eexists; vm_compute; reflexivity|]. split; [vm_compute; reflexivity|]. split; [|vm_compute; reflexivity]. repeat constructor.
Qed.

(* --it of mutable_fws_multimap goes forward: reading the last key from end() throws, and a loop backwards from any key goes
   to the end *)
Theorem C67_multimap_decrement_refuted :
  k_means _ [[1; 2]; []; [3; 5]] [] [KEnd; KDec 0; KRead 0] = Some [KNone _; KNone _; KVal _ [3; 5]] /\
  mm_prog C67_mm_map [KEnd; KDec 0; KRead 0] = Throw /\
  mm_prog C67_mm_map [KBegin; KInc 0; KPostDec 0; KRead 0] = Ok [KNone _; KNone _; KNone _; KVal _ [3; 5]].
Proof. vm_compute. repeat split. Qed.
Print Assumptions C67_multimap_decrement_refuted.

(* Every program, with the wrong calls as well: it answers as the program in which it - n of fws_multimap is replaced by it + n,
   --it of mutable_fws_multimap by ++it and it-- by it++. So a program with one of them is right only if that makes no difference. *)
Theorem C67_fws_all_when A w ops ks outs m prog xs : w = 32%N \/ w = 64%N ->
  shist A (fw_spec A) ([], [], false) ops = Some ((ks, [], true), outs) -> hist A (fw_step A) fw_new ops = Ok (m, outs) ->
  (Z.of_nat (length ks) < 2 ^ 31)%Z ->
  Forall (fun o => exists_op Fws o = true) prog -> k_means _ ks [] (map (forwards Fws) prog) = Some xs -> fw_prog w m prog = Ok xs.
Proof.
  intros Hw E1 E2 HL S E. unfold fw_prog. rewrite k_run_forwards.
  exact (fw_iter A w ops ks outs _ xs m Hw E1 E2 HL (forwards_sound Fws prog S) E).
Qed.
Print Assumptions C67_fws_all_when.
Example C67_fws_all_case : let prog := [KBegin; KInc 0; KMinus 0 1; KRead 1; KDec 0; KMinus 0 (-1); KRead 0] in
  Forall (fun o => exists_op Fws o = true) prog /\
  k_means _ [[1; 2]; []; [3]] [] (map (forwards Fws) prog) = None /\
  k_means _ [[1; 2]; []; [3]] [] (map (forwards Fws) (firstn 5 prog)) = Some [KNone _; KNone _; KNone _; KVal _ [3]; KNone _].
Proof. split; [repeat constructor|]. split; vm_compute; reflexivity. Qed.
Theorem C67_multimap_all_when A (dflt : A) lmax ops l e outs m prog xs : lmax < 32 ->
  shist A (mm_spec A lmax) ([], 0) ops = Some ((l, e), outs) -> hist A (mm_step A dflt lmax) (mm_new lmax) ops = Ok (m, outs) ->
  (Z.of_nat (length l) < 2 ^ 31)%Z ->
  Forall (fun o => exists_op Mut o = true) prog -> k_means _ l [] (map (forwards Mut) prog) = Some xs -> mm_prog m prog = Ok xs.
Proof.
  intros HM E1 E2 HL S E. unfold mm_prog. rewrite k_run_forwards.
  exact (mm_iter A dflt lmax ops l e outs _ xs m HM E1 E2 HL (forwards_sound Mut prog S) E).
Qed.
Print Assumptions C67_multimap_all_when.
Example C67_multimap_all_case : let prog := [KBegin; KDec 0; KRead 0; KPostDec 0; KRead 0; KRead 1; KDiff 0 1] in
  Forall (fun o => exists_op Mut o = true) prog /\
  k_means _ [[1; 2]; []; [3; 5]] [] (map (forwards Mut) prog) = Some [KNone _; KNone _; KVal _ []; KNone _; KVal _ [3; 5]; KVal _ []; KNum _ 1%Z] /\
  mm_prog C67_mm_map prog = Ok [KNone _; KNone _; KVal _ []; KNone _; KVal _ [3; 5]; KVal _ []; KNum _ 1%Z].
Proof. split; [repeat constructor|]. split; vm_compute; reflexivity. Qed.
