(* C24: mutable_fws_multimap is a map from keys to lists. *)
From Verif Require Import Base FlatModel FlatSpec MmModel MmSpec MmProofs.

(* Every history of calls inside the preconditions of mm_spec answers as a list of lists does, for every
   bucket size limit 2^lmax. Not as the full property wants it: element_count after erase(key), and the
   iterators returned by erase; mm_spec states what happens there, refuted below. *)
Theorem C24_multimap_partial A (dflt : A) lmax ops s outs : lmax < 32 ->
  shist A (mm_spec A lmax) ([], 0) ops = Some (s, outs) ->
  exists m, hist A (mm_step A dflt lmax) (mm_new lmax) ops = Ok (m, outs) /\ mm_all A m = Ok (fst s).
Proof. intros H. exact (mm_history A dflt lmax H ops s outs). Qed.
Print Assumptions C24_multimap_partial.
Definition C24_ops : list (mm_op nat) :=
  [BTouch 2; BPush 0 1; BPush 0 2; BPush 1 3; BPush 0 4; BInsert 0 1 9; BPush 1 5; BPush 2 6; BErase 0 0; BAt 0; BAt 1; BAt 7;
   BResize 1 5 8; BPush 2 7; BPop 0; BReserve 2 9; BSet 1 0 0; BAll; BCount; BEraseRange 1 1 4; BClear 0; BPush 0 5; BAll; BCount;
   BEraseKey 1; BPush 2 3; BTouch 3; BPush 3 4; BPush 3 4; BPush 3 4; BAll; BSize].
Example C24_case : shist nat (mm_spec nat 3) ([], 0) C24_ops =
  Some (([[5]; []; [6; 7; 3]; [4; 4; 4]], 2),
    [XNone; XNone; XNone; XNone; XNone; XNone; XNone; XNone; XNum 3; XList [9; 2; 4]; XList [3; 5]; XThrow;
     XNone; XNone; XNone; XThrow; XNone; XAll [[9; 2]; [0; 5; 8; 8; 8]; [6; 7]]; XNum 9; XNum 2; XNone; XNone;
     XAll [[5]; [0; 8]; [6; 7]]; XNum 5; XNone; XNone; XNone; XNone; XNone; XNone; XAll [[5]; []; [6; 7; 3]; [4; 4; 4]]; XNum 4]).
Proof. vm_compute. reflexivity. Qed.
Example C24_case_run : exists m, hist nat (mm_step nat 0 3) (mm_new 3) C24_ops = Ok (m,
    [XNone; XNone; XNone; XNone; XNone; XNone; XNone; XNone; XNum 3; XList [9; 2; 4]; XList [3; 5]; XThrow;
     XNone; XNone; XNone; XThrow; XNone; XAll [[9; 2]; [0; 5; 8; 8; 8]; [6; 7]]; XNum 9; XNum 2; XNone; XNone;
     XAll [[5]; [0; 8]; [6; 7]]; XNum 5; XNone; XNone; XNone; XNone; XNone; XNone; XAll [[5]; []; [6; 7; 3]; [4; 4; 4]]; XNum 4]).
Proof. eexists. vm_compute. reflexivity. Qed.

(* After any such history, the storage of different keys does not overlap and lies inside the data vector. *)
Theorem C24_disjoint A (dflt : A) lmax ops s outs m : lmax < 32 ->
  shist A (mm_spec A lmax) ([], 0) ops = Some (s, outs) ->
  hist A (mm_step A dflt lmax) (mm_new lmax) ops = Ok (m, outs) ->
  forall i j x y, i <> j -> nth_error (mm_index m) i = Some x -> nth_error (mm_index m) j = Some y ->
    isz x <= ic x /\ ib x + ic x <= length (mm_data m) /\
    (ib x + isz x <= ib y \/ ib y + isz y <= ib x \/ isz x = 0 \/ isz y = 0).
Proof. intros H. exact (mm_disjoint A dflt lmax H ops s outs m). Qed.
Print Assumptions C24_disjoint.
Example C24_disjoint_case : exists m outs, hist nat (mm_step nat 0 3) (mm_new 3) C24_ops = Ok (m, outs) /\
  nth_error (mm_index m) 2 = Some (Ix 15 3 4) /\ nth_error (mm_index m) 3 = Some (Ix 19 3 4).
Proof. eexists. eexists. split; [vm_compute; reflexivity|]. split; vm_compute; reflexivity. Qed.

(* element_count() is the number of elements: false after erase(key) *)
Theorem C24_count_refuted :
  exists m, hist nat (mm_step nat 0 20) (mm_new 20) [BTouch 0; BPush 0 1; BPush 0 2; BEraseKey 0; BAll; BCount]
    = Ok (m, [XNone; XNone; XNone; XNone; XAll [[]]; XNum 2]).
Proof. eexists. vm_compute. reflexivity. Qed.
Print Assumptions C24_count_refuted.
(* erase(pos) returns end() instead of the element behind the erased one *)
Theorem C24_erase_result_refuted :
  exists m, hist nat (mm_step nat 0 20) (mm_new 20) [BTouch 0; BPush 0 1; BPush 0 2; BPush 0 3; BErase 0 0; BAt 0]
    = Ok (m, [XNone; XNone; XNone; XNone; XNum 2; XList [2; 3]]).
Proof. eexists. vm_compute. reflexivity. Qed.
Print Assumptions C24_erase_result_refuted.
(* --it moves a bucket iterator forwards *)
Theorem C24_iterator_decrement_refuted : forall i, mm_it_dec (mm_it_inc i) <> i.
Proof. unfold mm_it_dec, mm_it_inc. lia. Qed.
Print Assumptions C24_iterator_decrement_refuted.
